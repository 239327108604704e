{
 "claims": [
  {
   "property": "C01",
   "status": "proved",
   "theorems": [
    "C01_coordinates_index_bijection"
   ],
   "note": "Grids with at least one knot per axis."
  },
  {
   "property": "C02",
   "status": "proved",
   "theorems": [
    "C02_checked_access"
   ],
   "note": "Any chain of successful fixAxis calls; coordinate tuples of the right arity."
  },
  {
   "property": "C03",
   "status": "proved",
   "theorems": [
    "C03_iteration_visits_exactly_the_matching_cells",
    "C03_empty_axis_refuted"
   ],
   "note": "Every axis non-empty; the refuted theorem shows that this is needed (undefined behaviour otherwise)."
  },
  {
   "property": "C04",
   "status": "proved",
   "theorems": [
    "C04_increment_moves_to_the_next_matching_cell"
   ],
   "note": ""
  },
  {
   "property": "C05",
   "status": "proved",
   "theorems": [
    "C05_write_through_slice",
    "C05_write_seen_through_other_slices"
   ],
   "note": ""
  },
  {
   "property": "C06",
   "status": "proved",
   "theorems": [
    "C06_fix_by_index_validates",
    "C06_fix_by_value",
    "C06_single_slice_metadata",
    "C06_slice_of_slice_metadata_refuted"
   ],
   "note": "The metadata statement holds for one fixed axis; the refuted theorem shows that it fails for a slice of a slice."
  },
  {
   "property": "C07",
   "status": "proved",
   "theorems": [
    "C07_axis_infimum",
    "C07_grid_infimum_axiswise"
   ],
   "note": ""
  },
  {
   "property": "C08",
   "status": "proved",
   "theorems": [
    "C08_grid_to_table",
    "C08_slice_of_slice_refuted"
   ],
   "note": "Unsliced grids and slices of one axis; a slice of a slice throws."
  },
  {
   "property": "C09",
   "status": "proved",
   "theorems": [
    "C09_serialization_round_trip",
    "C09_serialization_of_a_slice",
    "C09_truncated_archive",
    "C09_slice_of_slice_refuted"
   ],
   "note": "Archive as a token stream. A saved slice of a slice cannot be loaded."
  },
  {
   "property": "C10",
   "status": "proved",
   "theorems": [
    "C10_fix_axis_of_a_moving_iterator",
    "C10_moving_iterator_past_end_refuted"
   ],
   "note": ""
  },
  {
   "property": "C100",
   "status": "proved",
   "theorems": [
    "C100_read",
    "C100_end",
    "C100_rows_left",
    "C100_chunks",
    "C100_skip_beyond_refuted",
    "C100_read_nothing_refuted"
   ],
   "note": "all histories of read, skip, hasMoreRows and rowsLeft; wrap-around of rowsLeft after skipping beyond the end and read(0) as refuted companions"
  },
  {
   "property": "C101",
   "status": "proved",
   "theorems": [
    "C101_parameter",
    "C101_values",
    "C101_missing_file",
    "C101_all_values_refuted"
   ],
   "note": "Exact value for every file; C101_all_values_refuted shows that empty leading values are lost."
  },
  {
   "property": "C102",
   "status": "proved",
   "theorems": [
    "C102_parameter",
    "C102_first_line",
    "C102_file_name",
    "C102_path",
    "C102_nonempty_refuted"
   ],
   "note": "The three cases and the name of a path; C102_nonempty_refuted: the name can be empty."
  },
  {
   "property": "C103",
   "status": "proved",
   "theorems": [
    "C103_is_dataset",
    "C103_readable_files_refuted",
    "C103_recognised_files_refuted"
   ],
   "note": "Exact characterisation; two refuted companions compare it with what getDataset can read."
  },
  {
   "property": "C104",
   "status": "proved",
   "theorems": [
    "C104_dataset",
    "C104_malformed",
    "C104_missing_file",
    "C104_any_comment_refuted"
   ],
   "note": "Exact for files without quotes with harmless leading comments; C104_any_comment_refuted shows why the leading comments matter."
  },
  {
   "property": "C105",
   "status": "proved",
   "theorems": [
    "C105_dataset",
    "C105_name",
    "C105_no_extension",
    "C105_recognised",
    "C105_image_refuted",
    "C105_floats_refuted"
   ],
   "note": "Stated on files written by the model of FitsWriter; C105_image_refuted and C105_floats_refuted record two findings."
  },
  {
   "property": "C106",
   "status": "proved",
   "theorems": [
    "C106_rate",
    "C106_today",
    "C106_value",
    "C106_defined",
    "C106_defined_flat",
    "C106_scaling",
    "C106_de_sitter"
   ],
   "note": ""
  },
  {
   "property": "C107",
   "status": "proved",
   "theorems": [
    "C107_transverse",
    "C107_luminous",
    "C107_modulus",
    "C107_modulus_defined",
    "C107_growing_refuted",
    "C107_volume"
   ],
   "note": "includes the refuted monotonicity of the luminous distance"
  },
  {
   "property": "C108",
   "status": "proved",
   "theorems": [
    "C108_draw",
    "C108_near",
    "C108_joint",
    "C108_output_size",
    "C108_rejected",
    "C108_one_axis_refuted",
    "C108_conditional_refuted"
   ],
   "note": "includes two refuted statements: the shape check of a single axis and the conditional density next to the first knot"
  },
  {
   "property": "C109",
   "status": "proved",
   "theorems": [
    "C109_grid",
    "C109_cells",
    "C109_counts"
   ],
   "note": ""
  },
  {
   "property": "C11",
   "status": "proved",
   "theorems": [
    "C11_element_addressing",
    "C11_row_major_complete",
    "C11_attribute_addressing",
    "C11_slice_attribute_names_refuted"
   ],
   "note": "at() of arrays made by the shape constructors, for every shape and coordinate vector; the attribute accessor; refutation for attribute names after slice()."
  },
  {
   "property": "C110",
   "status": "proved",
   "theorems": [
    "C110_detect",
    "C110_short_refuted",
    "C110_overrun_refuted"
   ],
   "note": "The reading of the buffer past its end and the uninitialised bytes are outcomes of the model; refuted for short files and for files without a zero byte in the first 80."
  },
  {
   "property": "C111",
   "status": "proved",
   "theorems": [
    "C111_pre_initialize",
    "C111_initialize",
    "C111_missing_id_refuted"
   ],
   "note": "Exact conditions of the options and of the initialization; the missing default identifier column is refuted as an initialization check."
  },
  {
   "property": "C112",
   "status": "proved",
   "theorems": [
    "C112_life",
    "C112_handlers",
    "C112_too_early",
    "C112_id_column_refuted"
   ],
   "note": "Normal form of all histories; the unguarded getter is refuted."
  },
  {
   "property": "C113",
   "status": "proved",
   "theorems": [
    "C113_failures_are_exceptions",
    "C113_no_catalog_file",
    "C113_starts",
    "C113_catalog"
   ],
   "note": "CCfits, strtod/stof and the conversion of magnitudes are arguments of the model."
  },
  {
   "property": "C114",
   "status": "proved",
   "theorems": [
    "C114_options",
    "C114_redshift"
   ],
   "note": "Exact conditions and values."
  },
  {
   "property": "C115",
   "status": "proved",
   "theorems": [
    "C115_photometry"
   ],
   "note": "Exact conditions and values; the entry of a filter is specified as in C61."
  },
  {
   "property": "C116",
   "status": "proved",
   "theorems": [
    "C116_pdfs",
    "C116_sizes",
    "C116_too_late"
   ],
   "note": "Values at every position, repeated names, sizes, and calls that come too late."
  },
  {
   "property": "C117",
   "status": "proved",
   "theorems": [
    "C117_names",
    "C117_instances",
    "C117_separator_refuted"
   ],
   "note": "Exact set and order; the unchecked separator is refuted as a documented format."
  },
  {
   "property": "C118",
   "status": "proved",
   "theorems": [
    "C118_consecutive",
    "C118_increasing",
    "C118_set_back_refuted",
    "C118_frozen_refuted"
   ],
   "note": "For every clock; repetition with a clock set back and divergence with a frozen clock are stated."
  },
  {
   "property": "C119",
   "status": "proved",
   "theorems": [
    "C119_round_trip",
    "C119_slice_of_slice_refuted",
    "C119_same_names_refuted",
    "C119_long_name_refuted"
   ],
   "note": "For grids and slices of one axis; the refuted cases are theorems of their own. CCfits is modelled as a list of extensions with columns and pixels; texts and names as the FITS standard keeps them."
  },
  {
   "property": "C12",
   "status": "proved",
   "theorems": [
    "C12_iteration_is_row_major",
    "C12_size_of_views",
    "C12_post_increment_refuted",
    "C12_equality"
   ],
   "note": "Every array and every chain of slice/rslice views, element count below 2^31; operator==; refutation for the post-increment operator."
  },
  {
   "property": "C120",
   "status": "proved",
   "theorems": [
    "C120_file",
    "C120_few_pixels_refuted",
    "C120_not_a_grid",
    "C120_name_of_an_image_refuted"
   ],
   "note": "The layout on the same conditions as C119."
  },
  {
   "property": "C121",
   "status": "proved",
   "theorems": [
    "C121_empty_axis"
   ],
   "note": "What was already written to the file before the exception (the image) is not described."
  },
  {
   "property": "C122",
   "status": "proved",
   "theorems": [
    "C122_value",
    "C122_every_call",
    "C122_nodes",
    "C122_outside",
    "C122_accepted",
    "C122_first_axis_unchecked_refuted"
   ],
   "note": "Over the reals."
  },
  {
   "property": "C123",
   "status": "proved",
   "theorems": [
    "C123_value",
    "C123_metric",
    "C123_coordinates"
   ],
   "note": "over real numbers; doubles are rounded"
  },
  {
   "property": "C124",
   "status": "proved",
   "theorems": [
    "C124_value",
    "C124_metric",
    "C124_one",
    "C124_factor",
    "C124_monotone",
    "C124_zero",
    "C124_unsupported"
   ],
   "note": "over real numbers; infinity and NaN only as results of dividing by zero"
  },
  {
   "property": "C125",
   "status": "proved",
   "theorems": [
    "C125_from_pdf",
    "C125_sizes",
    "C125_error",
    "C125_normalize",
    "C125_overflow_refuted"
   ],
   "note": "IEEE 754 binary64 of Flocq, round to nearest even"
  },
  {
   "property": "C126",
   "status": "proved",
   "theorems": [
    "C126_find_value",
    "C126_monotone",
    "C126_centered",
    "C126_range",
    "C126_nan_ratio_refuted",
    "C126_nan_value_refuted",
    "C126_middle_overflow_refuted",
    "C126_normalize_refuted"
   ],
   "note": "IEEE 754 binary64 of Flocq, round to nearest even"
  },
  {
   "property": "C127",
   "status": "proved",
   "theorems": [
    "C127_min_interval",
    "C127_holds_error",
    "C127_underflow_refuted",
    "C127_exact_refuted"
   ],
   "note": "IEEE 754 binary64 of Flocq, round to nearest even"
  },
  {
   "property": "C128",
   "status": "proved",
   "theorems": [
    "C128_sample",
    "C128_range",
    "C128_table",
    "C128_nan_refuted",
    "C128_overflow_refuted"
   ],
   "note": "IEEE 754 binary64 of Flocq, round to nearest even"
  },
  {
   "property": "C129",
   "status": "proved",
   "theorems": [
    "C129_defined",
    "C129_counts",
    "C129_exact",
    "C129_error",
    "C129_plain",
    "C129_number_refuted"
   ],
   "note": "Counts as floats: rounded sums, exact up to 2^24, error bound, saturation."
  },
  {
   "property": "C13",
   "status": "proved",
   "theorems": [
    "C13_views_alias_the_parent",
    "C13_view_reads_the_parent",
    "C13_slice_outcomes"
   ],
   "note": "Reads and writes through two arbitrary view chains of one array; outcomes of slice and rslice."
  },
  {
   "property": "C130",
   "status": "proved",
   "theorems": [
    "C130_bins",
    "C130_index",
    "C130_counted",
    "C130_order",
    "C130_edges",
    "C130_flat",
    "C130_lost_refuted",
    "C130_below_edge_refuted",
    "C130_on_edge_refuted",
    "C130_last_edge_refuted",
    "C130_tiny_refuted",
    "C130_wide_refuted",
    "C130_lookup"
   ],
   "note": "Flocq binary64; bounds for indices and edges; counterexamples for values next to edges."
  },
  {
   "property": "C131",
   "status": "proved",
   "theorems": [
    "C131_index",
    "C131_bins",
    "C131_flat",
    "C131_one_bin_refuted",
    "C131_no_bin_refuted"
   ],
   "note": "Flocq binary64; the standard deviation and the width are arguments."
  },
  {
   "property": "C132",
   "status": "proved",
   "theorems": [
    "C132_search",
    "C132_large_coordinates_refuted"
   ],
   "note": "Flocq binary64; finite coordinates whose differences do not overflow; refuted for large coordinates"
  },
  {
   "property": "C133",
   "status": "proved",
   "theorems": [
    "C133_tolerance",
    "C133_small_radius_refuted",
    "C133_large_radius_refuted"
   ],
   "note": "explicit relative and absolute tolerance; refuted for tiny and huge radii"
  },
  {
   "property": "C134",
   "status": "proved",
   "theorems": [
    "C134_every_task_is_run",
    "C134_every_task_finishes",
    "C134_after_failure_refuted"
   ],
   "note": "unless a task throws; refuted after a failure"
  },
  {
   "property": "C135",
   "status": "proved",
   "theorems": [
    "C135_destructor_ends"
   ],
   "note": ""
  },
  {
   "property": "C136",
   "status": "proved",
   "theorems": [
    "C136_block_throws",
    "C136_block_ends",
    "C136_alternating_is_observant",
    "C136_fairness_alone_refuted"
   ],
   "note": "with a scheduler that lets the caller observe sleeping workers; refuted under fairness alone"
  },
  {
   "property": "C137",
   "status": "proved",
   "theorems": [
    "C137_accessors_own_their_files",
    "C137_writer_is_alone"
   ],
   "note": ""
  },
  {
   "property": "C138",
   "status": "proved",
   "theorems": [
    "C138_open_files_bound",
    "C138_within_limit_refuted",
    "C138_no_file_is_lost"
   ],
   "note": "the bare limit is refuted"
  },
  {
   "property": "C139",
   "status": "proved",
   "theorems": [
    "C139_only_waits_for_accessors",
    "C139_only_waits_for_accessors_with_room",
    "C139_no_deadlock_without_accessors",
    "C139_deadlock_needs_eviction",
    "C139_no_deadlock_refuted",
    "C139_one_thread_refuted"
   ],
   "note": "deadlock at the limit is shown by two refuted theorems"
  },
  {
   "property": "C14",
   "status": "proved",
   "theorems": [
    "C14_reshape_keeps_the_sequence",
    "C14_reshape_outcomes",
    "C14_reshape_of_rslice_refuted",
    "C14_reshape_wraps_refuted"
   ],
   "note": "Contiguous arrays and slice views; exact refusal condition modulo 2^32; refutations for rslice views and for the 32-bit wrap."
  },
  {
   "property": "C140",
   "status": "proved",
   "theorems": [
    "C140_undefined_where",
    "C140_defined",
    "C140_defined_with_room",
    "C140_one_thread",
    "C140_eviction_refuted",
    "C140_close_all_refuted"
   ],
   "note": "the two sources of undefined behaviour are shown by refuted theorems"
  },
  {
   "property": "C141",
   "status": "proved",
   "theorems": [
    "C141_interrupted_write",
    "C141_first_bytes_refuted"
   ],
   "note": "refused before the end of the shape, zeros for missing bytes afterwards; UB of the first 12 bytes as a _refuted theorem"
  },
  {
   "property": "C142",
   "status": "proved",
   "theorems": [
    "C142_interrupted_creation",
    "C142_after_header"
   ],
   "note": "every crash point of the copy of the header"
  },
  {
   "property": "C143",
   "status": "proved",
   "theorems": [
    "C143_interrupted_resize",
    "C143_growth",
    "C143_after_header",
    "C143_shrink_refuted",
    "C143_torn_header_refuted"
   ],
   "note": "killed before the copy of the header; shrinking and torn headers as _refuted theorems"
  },
  {
   "property": "C144",
   "status": "proved",
   "theorems": [
    "C144_interrupted_write",
    "C144_every_interruption",
    "C144_last_row_refuted",
    "C144_columns_refuted",
    "C144_long_indicator_refuted"
   ],
   "note": "all hypotheses are those of the round trip C48; the interruption keeps a prefix of the characters (process killed, not power failure)"
  },
  {
   "property": "C145",
   "status": "proved",
   "theorems": [
    "C145_names_line",
    "C145_descriptions_only",
    "C145_no_names",
    "C145_columns_of_the_table",
    "C145_no_data",
    "C145_described_twice",
    "C145_three_columns_refuted"
   ],
   "note": "For headers made of plain comments, descriptions with name and type, and a line of names. Units and descriptions in words are covered by C48 for files this library writes."
  },
  {
   "property": "C146",
   "status": "proved",
   "theorems": [
    "C146_names_accepted",
    "C146_types_accepted",
    "C146_fixed_columns_obeyed",
    "C146_wrong_number",
    "C146_calls",
    "C146_refused_names_poison",
    "C146_refused_types_poison",
    "C146_too_late",
    "C146_comment_indicator",
    "C146_skip_fails_with_the_columns"
   ],
   "note": ""
  },
  {
   "property": "C147",
   "status": "proved",
   "theorems": [
    "C147_type_spellings",
    "C147_booleans",
    "C147_integers",
    "C147_vectors",
    "C147_arrays",
    "C147_strings_and_others",
    "C147_negative_lengths_refuted"
   ],
   "note": "Floating point numbers are read by parameters pf and pd."
  },
  {
   "property": "C148",
   "status": "proved",
   "theorems": [
    "C148_random_access",
    "C148_arithmetic",
    "C148_order_of_places_refuted"
   ],
   "note": ""
  },
  {
   "property": "C149",
   "status": "proved",
   "theorems": [
    "C149_round_trip_with_types",
    "C149_columns_without_types",
    "C149_settings_are_frozen",
    "C149_types_are_lost_refuted"
   ],
   "note": ""
  },
  {
   "property": "C15",
   "status": "proved",
   "theorems": [
    "C15_concatenate_appends",
    "C15_incompatible_shapes_throw",
    "C15_iteration_after_concatenate_refuted",
    "C15_concatenate_onto_slice_refuted"
   ],
   "note": "Receiver built by a constructor, argument any view (possibly sharing the container); stale size() is part of the theorem; refutations for iteration afterwards and for concatenating onto a slice."
  },
  {
   "property": "C150",
   "status": "proved",
   "theorems": [
    "C150_mode",
    "C150_new_handler",
    "C150_mode_of_accessors",
    "C150_failed_request_refuted",
    "C150_threads_write_mode",
    "C150_threads_mode_of_accessors"
   ],
   "note": "sequential model of the pool (calls of all threads, each taken as a whole)"
  },
  {
   "property": "C151",
   "status": "proved",
   "theorems": [
    "C151_value",
    "C151_error",
    "C151_flat",
    "C151_integers",
    "C151_monotone",
    "C151_same_functions",
    "C151_through_points_refuted",
    "C151_above_the_points_refuted",
    "C151_rising_refuted",
    "C151_far_points_refuted",
    "C151_finite_refuted",
    "C151_nan_argument",
    "C151_infinite_argument",
    "C151_step_at_the_front_refuted"
   ],
   "note": "The program is taken to be compiled without fused multiply-add; splines, integrals and products of functions are modelled with real numbers only (InterpProps and FunProps)."
  },
  {
   "property": "C152",
   "status": "proved",
   "theorems": [
    "C152_distance",
    "C152_error",
    "C152_uncertainties",
    "C152_bmu",
    "C152_nearest",
    "C152_equal_cell",
    "C152_distinct_refuted",
    "C152_overflow_refuted",
    "C152_zero_uncertainty_refuted"
   ],
   "note": "The distance with uncertainties is shown to be a number, not negative and symmetric; no error bound is proved for it."
  },
  {
   "property": "C153",
   "status": "proved",
   "theorems": [
    "C153_object",
    "C153_weight",
    "C153_range",
    "C153_linear",
    "C153_exact_range_refuted",
    "C153_progress_refuted"
   ],
   "note": "The factors are arguments, in [0, 1]; std::exp, used by the other two factor functions of the library, is not modelled in doubles."
  },
  {
   "property": "C154",
   "status": "proved",
   "theorems": [
    "C154_value",
    "C154_no_cancellation",
    "C154_derivative",
    "C154_integral",
    "C154_coefficients",
    "C154_sign_refuted"
   ],
   "note": "Flocq binary64; underflow is excluded by hypotheses on the sizes of the terms, overflow by the finiteness of the result; derivative and integral are Coquelicot's"
  },
  {
   "property": "C155",
   "status": "proved",
   "theorems": [
    "C155_spline",
    "C155_total",
    "C155_points_refuted"
   ],
   "note": "Flocq binary64; the backward error of the elimination is local, so that it does not grow with the number of points; very small numbers count as 2^-300; the distances of neighbours are between 2^-200 and 2^200 where the elimination is concerned"
  },
  {
   "property": "C156",
   "status": "proved",
   "theorems": [
    "C156_inside",
    "C156_inside_long_range_refuted",
    "C156_inside_tiny_range_refuted",
    "C156_rule",
    "C156_refinement",
    "C156_outcomes",
    "C156_finite",
    "C156_not_finite",
    "C156_zero"
   ],
   "note": "Simpson rule, refinement and adaptive integration on binary64; the function is any map from doubles to doubles. Rounding contraction (fused multiply-add) and functions that throw are not modelled."
  },
  {
   "property": "C157",
   "status": "proved",
   "theorems": [
    "C157_interpolated",
    "C157_sum",
    "C157_reversed",
    "C157_outside",
    "C157_nan",
    "C157_constant",
    "C157_error",
    "C157_positive_refuted",
    "C157_additive_refuted"
   ],
   "note": ""
  },
  {
   "property": "C158",
   "status": "proved",
   "theorems": [
    "C158_highest_number",
    "C158_biggest",
    "C158_modes",
    "C158_heights",
    "C158_area",
    "C158_mean",
    "C158_zeros",
    "C158_biggest_refuted",
    "C158_mean_inside_refuted",
    "C158_interpolated_refuted",
    "C158_zero_refuted"
   ],
   "note": "Contraction of a product and a sum into one operation is excluded. The claim that no bigger mode is missed is refuted (C158_biggest_refuted)."
  },
  {
   "property": "C159",
   "status": "proved",
   "theorems": [
    "C159_first_points",
    "C159_second_points",
    "C159_first",
    "C159_second",
    "C159_constant",
    "C159_huge",
    "C159_largest",
    "C159_line_refuted"
   ],
   "note": ""
  },
  {
   "property": "C16",
   "status": "proved",
   "theorems": [
    "C16_copy_is_equal_and_separate",
    "C16_writes_elsewhere_are_not_seen",
    "C16_copy_of_a_slice_refuted"
   ],
   "note": "Arrays made by a constructor; refutation for slices."
  },
  {
   "property": "C160",
   "status": "proved",
   "theorems": [
    "C160_defined",
    "C160_accuracy",
    "C160_checked",
    "C160_zero",
    "C160_one",
    "C160_refused",
    "C160_far_knots_refuted",
    "C160_nearly_flat_refuted",
    "C160_finite_refuted",
    "C160_inside_refuted",
    "C160_one_refuted",
    "C160_narrow_refuted",
    "C160_nan_probability_refuted",
    "C160_ordinary_refuted"
   ],
   "note": "A backward error: the area up to the returned point, not the distance to the exact quantile. Finite results only in the build without assertions (NaN refuted)."
  },
  {
   "property": "C161",
   "status": "proved",
   "theorems": [
    "C161_iteration",
    "C161_objects",
    "C161_find",
    "C161_construction",
    "C161_write",
    "C161_copy",
    "C161_rename",
    "C161_longer_names_refuted",
    "C161_shorter_names_refuted",
    "C161_equal_iterators_refuted",
    "C161_equal_iterators"
   ],
   "note": "Objects sharing name vectors as a heap with pointers; invariant over all histories. What happens when the shared vector changes its length is proved as refutations."
  },
  {
   "property": "C162",
   "status": "proved",
   "theorems": [
    "C162_defined",
    "C162_error",
    "C162_accuracy",
    "C162_flat",
    "C162_outside",
    "C162_axis_order_refuted",
    "C162_nodes_refuted",
    "C162_equal_knots_refuted",
    "C162_nan_knots_refuted"
   ],
   "note": "Flocq binary64 model of InterpN; the error is measured against the multilinear interpolation of C94 (GridInterpSpec.grid_value) for the real numbers that the doubles are. The last four claims of the statement are refutations."
  },
  {
   "property": "C163",
   "status": "proved",
   "theorems": [
    "C163_accepted",
    "C163_accuracy",
    "C163_error",
    "C163_flat",
    "C163_outside",
    "C163_nan_argument",
    "C163_nan_single_knot_refuted"
   ],
   "note": "interpn in double precision: error budget, exactness for equal values, zero outside, NaN arguments, and exactly which grids are accepted. An axis with a single knot treats NaN differently depending on its place (refuted theorem)."
  },
  {
   "property": "C164",
   "status": "proved",
   "theorems": [
    "C164_rate",
    "C164_curvature",
    "C164_flat",
    "C164_flat_decimals_refuted",
    "C164_growing",
    "C164_integrand",
    "C164_closed_refuted",
    "C164_distance",
    "C164_comoving"
   ],
   "note": "Flocq binary64; the speed of light and Elements::isEqual are parameters. Refuted companions: decimal densities adding up to one need not give zero curvature; a strongly closed space gives NaN."
  },
  {
   "property": "C165",
   "status": "proved",
   "theorems": [
    "C165_estimate",
    "C165_adaptive",
    "C165_monotone",
    "C165_smooth",
    "C165_comoving"
   ],
   "note": "Flocq binary64 against Coquelicot integrals. A finite result is assumed (an overflow gives an infinite one, C156). The bound depends on the order at which the loop stops, which is at least 4 for the comoving distance; with the relative change alone nothing better holds (C41_adaptive_error_refuted)."
  },
  {
   "property": "C166",
   "status": "proved",
   "theorems": [
    "C166_by_value",
    "C166_same_again",
    "C166_uniform_repeats",
    "C166_uniform_range",
    "C166_uniform_unit",
    "C166_uniform_values",
    "C166_half_open_refuted",
    "C166_normal",
    "C166_zero"
   ],
   "note": "The history of a program that assigns, calls and copies the function is modelled; std::minstd_rand0 and std::uniform_real_distribution as in libstdc++, the Mersenne twister as any generator."
  },
  {
   "property": "C167",
   "status": "proved",
   "theorems": [
    "C167_several_tables",
    "C167_writers",
    "C167_turns",
    "C167_read_all_refuted",
    "C167_stop_early_refuted"
   ],
   "note": "The stream can be repositioned, as the reader needs. What the format can carry is as in C48."
  },
  {
   "property": "C168",
   "status": "proved",
   "theorems": [
    "C168_solutions",
    "C168_none",
    "C168_linear",
    "C168_throws",
    "C168_linear_error",
    "C168_error",
    "C168_cancellation_refuted",
    "C168_overflow_refuted"
   ],
   "note": "The model functions are solve_square (InvCumulModel.v, exact) and dsolve_square (DInvModel.v, binary64). Finite results are assumed for the error bounds."
  },
  {
   "property": "C17",
   "status": "proved",
   "theorems": [
    "C17_construction_check",
    "C17_two_to_the_32_elements_refuted"
   ],
   "note": "All shapes and data; refutation with 2^32 elements and no data."
  },
  {
   "property": "C18",
   "status": "proved",
   "theorems": [
    "C18_sum",
    "C18_argmax",
    "C18_argmin",
    "C18_unravel_index",
    "C18_axis_argument",
    "C18_sum_along_axis",
    "C18_sum_along_the_only_axis",
    "C18_trapz"
   ],
   "note": "sum, argmax, argmin (every strict weak order), unravel_index, sum along an axis, trapz; element arithmetic is a parameter."
  },
  {
   "property": "C19",
   "status": "proved",
   "theorems": [
    "C19_round_trip",
    "C19_other_type",
    "C19_mismatching_names",
    "C19_truncated_refuted",
    "C19_only_names_refuted",
    "C19_names_refuted",
    "C19_empty_refuted"
   ],
   "note": "round trip of every view through writeNpy and readNpy with any element bytes and any following bytes; wrong type and mismatching names throw; truncated files, names with quotes, brackets or keywords, name-only and empty arrays are refuted"
  },
  {
   "property": "C20",
   "status": "proved",
   "theorems": [
    "C20_aligned",
    "C20_text",
    "C20_minimal_refuted"
   ],
   "note": "every written header is a multiple of 64 bytes with the exact recorded length; an aligned header gets 64 needless bytes (refuted minimality)"
  },
  {
   "property": "C21",
   "status": "proved",
   "theorems": [
    "C21_radius_search",
    "C21_radius_search_with_rounding",
    "C21_tree_holds_the_data",
    "C21_negative_radius_refuted"
   ],
   "note": "Rational coordinates, with and without an abstract monotone rounding of the distances. A negative radius is squared and behaves like its absolute value (refuted theorem)."
  },
  {
   "property": "C22",
   "status": "proved",
   "theorems": [
    "C22_edge_binning",
    "C22_bins_ordered",
    "C22_edges",
    "C22_nan_refuted"
   ],
   "note": "Non-decreasing edges, values of type double including the infinities. NaN is counted in the last bin (C22_nan_refuted)."
  },
  {
   "property": "C23",
   "status": "proved",
   "theorems": [
    "C23_counts",
    "C23_plain_counts",
    "C23_edge_counts",
    "C23_missing_weights_refuted"
   ],
   "note": "Exact arithmetic on the weights. Fewer weights than values is undefined behaviour (C23_missing_weights_refuted)."
  },
  {
   "property": "C24",
   "status": "proved",
   "theorems": [
    "C24_clips",
    "C24_clip_shrinks",
    "C24_throws",
    "C24_keeps_edge",
    "C24_exact",
    "C24_disjoint_refuted",
    "C24_bins_refuted"
   ],
   "note": "Also: values between the bounds stay visible. A range next to the histogram is ignored (C24_disjoint_refuted), getBins and getEdges ignore clipping (C24_bins_refuted)."
  },
  {
   "property": "C25",
   "status": "proved",
   "theorems": [
    "C25_order_and_at_most_once",
    "C25_single_thread_order",
    "C25_two_threads_start_order_refuted"
   ],
   "note": "all interleavings; the order of the calls themselves (not of taking from the queue) can be inverted with two threads (refuted companion)"
  },
  {
   "property": "C26",
   "status": "proved",
   "theorems": [
    "C26_block_waits",
    "C26_task_submitted_during_block_refuted",
    "C26_block_can_end"
   ],
   "note": "stronger than stated in the documentation: submissions meanwhile are allowed for tasks submitted before the call; companion counterexample for tasks submitted during block; deadlock freedom"
  },
  {
   "property": "C27",
   "status": "proved",
   "theorems": [
    "C27_each_worker_takes_at_most_one_more",
    "C27_block_rethrows",
    "C27_nothing_runs_after_block_throws",
    "C27_task_submitted_during_block_refuted"
   ],
   "note": "all interleavings, any number of failing tasks"
  },
  {
   "property": "C28",
   "status": "proved",
   "theorems": [
    "C28_destructor",
    "C28_at_most_one_more_task",
    "C28_destructor_can_end"
   ],
   "note": "all interleavings, and the destructor is never stuck"
  },
  {
   "property": "C29",
   "status": "proved",
   "theorems": [
    "C29_open_files_within_limit",
    "C29_used_and_available",
    "C29_only_success_opens",
    "C29_open_at_limit_closes_one",
    "C29_threads_bound",
    "C29_threads_within_limit_refuted"
   ],
   "note": "Calls are atomic; the two critical sections of open() are looked at separately (bound and refutation for n threads)."
  },
  {
   "property": "C30",
   "status": "proved",
   "theorems": [
    "C30_victim_least_recently_used",
    "C30_throws_iff_none_closable",
    "C30_never_deadlocks_refuted"
   ],
   "note": "The self-deadlock at the limit is a separate outcome, shown reachable."
  },
  {
   "property": "C31",
   "status": "proved",
   "theorems": [
    "C31_held_file_not_closed",
    "C31_returned_file_reused"
   ],
   "note": ""
  },
  {
   "property": "C32",
   "status": "proved",
   "theorems": [
    "C32_readers_or_one_writer",
    "C32_waits_iff_not_free"
   ],
   "note": ""
  },
  {
   "property": "C33",
   "status": "proved",
   "theorems": [
    "C33_try_mode",
    "C33_try_succeeds_when_free_refuted"
   ],
   "note": ""
  },
  {
   "property": "C34",
   "status": "proved",
   "theorems": [
    "C34_same_handler",
    "C34_distinct_paths",
    "C34_same_handler_refuted"
   ],
   "note": "The first part holds when the deleter runs at once; refuted for a request in between."
  },
  {
   "property": "C35",
   "status": "proved",
   "theorems": [
    "C35_constructor",
    "C35_values",
    "C35_total",
    "C35_defined",
    "C35_one_knot_refuted",
    "C35_equal_knots_refuted"
   ],
   "note": "Over real numbers. Refuted: a piecewise function of one knot is accepted and has no defined value; equal knots are accepted."
  },
  {
   "property": "C36",
   "status": "proved",
   "theorems": [
    "C36_integral",
    "C36_not_integrable"
   ],
   "note": "Over real numbers, for functions made of polynomials; other functions throw without a numerical scheme."
  },
  {
   "property": "C37",
   "status": "proved",
   "theorems": [
    "C37_value",
    "C37_derivative",
    "C37_integral"
   ],
   "note": "Over real numbers."
  },
  {
   "property": "C38",
   "status": "proved",
   "theorems": [
    "C38_simple",
    "C38_piecewise_by_other",
    "C38_piecewises",
    "C38_first_knot_refuted",
    "C38_disjoint_refuted",
    "C38_touching_refuted",
    "C38_empty_refuted"
   ],
   "note": "Over real numbers; pieces that are not piecewise functions themselves. Refuted: the first knot of the product, disjoint and touching ranges, two empty polynomials."
  },
  {
   "property": "C39",
   "status": "proved",
   "theorems": [
    "C39_linear",
    "C39_extrapolated",
    "C39_steps",
    "C39_repeated_points",
    "C39_throws",
    "C39_steps_refuted",
    "C39_no_points_refuted",
    "C39_one_point_refuted",
    "C39_one_point_twice_refuted"
   ],
   "note": "Over real numbers. Refuted: the documented exception for steps, no points, one point without extrapolation, one point given twice with extrapolation."
  },
  {
   "property": "C40",
   "status": "proved",
   "theorems": [
    "C40_spline",
    "C40_smooth",
    "C40_extrapolated"
   ],
   "note": "Over real numbers, strictly increasing abscissae: the natural cubic spline."
  },
  {
   "property": "C41",
   "status": "proved",
   "theorems": [
    "C41_monotone_error",
    "C41_defined",
    "C41_refinement",
    "C41_refinement_defined",
    "C41_cubic",
    "C41_quartic_refuted",
    "C41_bounds",
    "C41_turned",
    "C41_adaptive",
    "C41_adaptive_first",
    "C41_adaptive_cubic",
    "C41_adaptive_error_refuted",
    "C41_adaptive_ends_refuted",
    "C41_scheme",
    "C41_scheme_for_pieces_refuted",
    "C41_smooth_error"
   ],
   "note": "Simpson's rule: defined orders, refinement from the previous order equals the direct value, exact for cubics (not quartics), bounds, orientation; the adaptive loop stops at the first order within the relative precision, which does not bound the error (refuted); the scheme is not passed on to pieces (refuted). Reals."
  },
  {
   "property": "C42",
   "status": "proved",
   "theorems": [
    "C42_min_interval",
    "C42_rate_range",
    "C42_zero_total_refuted"
   ],
   "note": "Exact arithmetic over the rationals."
  },
  {
   "property": "C43",
   "status": "proved",
   "theorems": [
    "C43_find_value",
    "C43_ratio_range",
    "C43_monotone",
    "C43_negative_refuted"
   ],
   "note": "Exact arithmetic over the rationals."
  },
  {
   "property": "C44",
   "status": "proved",
   "theorems": [
    "C44_highest_number",
    "C44_biggest_ends",
    "C44_biggest",
    "C44_more_refuted",
    "C44_zero_refuted",
    "C44_short_refuted"
   ],
   "note": "Exact arithmetic over the rationals; at least three samples (fewer: undefined behaviour, shown)."
  },
  {
   "property": "C45",
   "status": "proved",
   "theorems": [
    "C45_sample",
    "C45_range",
    "C45_zero_refuted",
    "C45_mismatch_refuted"
   ],
   "note": "Discrete sampler; exact arithmetic over the rationals."
  },
  {
   "property": "C46",
   "status": "proved",
   "theorems": [
    "C46_column_names",
    "C46_column_lists",
    "C46_find_column",
    "C46_description_by_name",
    "C46_column_equality",
    "C46_rows",
    "C46_refused_throws",
    "C46_cell_access",
    "C46_tables",
    "C46_row_access",
    "C46_appending_tables"
   ],
   "note": "Columns, rows and tables: construction succeeds iff the listed conditions hold, access returns the stored cell or throws, appended tables accumulate."
  },
  {
   "property": "C47",
   "status": "proved",
   "theorems": [
    "C47_quoted_text",
    "C47_quoted_sequence",
    "C47_when_quoted",
    "C47_empty_text_refuted"
   ],
   "note": "Quoted text, single and in sequence; the empty text is the exception (refuted companion)."
  },
  {
   "property": "C48",
   "status": "proved",
   "theorems": [
    "C48_round_trip",
    "C48_cells",
    "C48_first_cell_with_blank_refuted",
    "C48_first_cell_with_quote_refuted",
    "C48_comment_in_cell_refuted",
    "C48_empty_vector_refuted",
    "C48_column_named_column_refuted"
   ],
   "note": "Round trip for all fifteen cell types over the stated domain (floating point cells whose printed text reads back); companions show each condition is needed."
  },
  {
   "property": "C49",
   "status": "proved",
   "theorems": [
    "C49_read",
    "C49_malformed_line",
    "C49_skip",
    "C49_rows_left",
    "C49_chunks"
   ],
   "note": "ASCII reader: read, skip, rowsLeft, hasMoreRows, malformed lines and sequences of chunks."
  },
  {
   "property": "C50",
   "status": "proved",
   "theorems": [
    "C50_keywords",
    "C50_keywords_distinct",
    "C50_fits_type",
    "C50_fits_one_element",
    "C50_fits_unreadable",
    "C50_fits_uneven",
    "C50_fits_ascii",
    "C50_fits_ascii_width"
   ],
   "note": "keywords of the ASCII format; formats and TDIM of binary FITS columns for all sizes, the exceptions of the English statement as theorems; formats of ASCII FITS tables"
  },
  {
   "property": "C51",
   "status": "proved",
   "theorems": [
    "C51_construction",
    "C51_parsing",
    "C51_round_trip",
    "C51_printing_is_injective",
    "C51_order",
    "C51_hash"
   ],
   "note": "For every hash function, collisions included."
  },
  {
   "property": "C52",
   "status": "proved",
   "theorems": [
    "C52_belongs_in_group",
    "C52_belongs_in_group_text"
   ],
   "note": ""
  },
  {
   "property": "C53",
   "status": "proved",
   "theorems": [
    "C53_datasets_are_cached",
    "C53_listings_are_cached",
    "C53_answers_come_from_the_provider"
   ],
   "note": "The wrapped provider may fail and may answer differently at each call."
  },
  {
   "property": "C54",
   "status": "proved",
   "theorems": [
    "C54_list_contents",
    "C54_every_group_has_a_core",
    "C54_agrees_with_belongs_in_group"
   ],
   "note": ""
  },
  {
   "property": "C55",
   "status": "proved",
   "theorems": [
    "C55_directory_order",
    "C55_listing",
    "C55_repeated_line_refuted",
    "C55_dot_line_diverges_refuted"
   ],
   "note": "For trees whose order.txt files name direct entries at most once; refuted theorems show what happens otherwise."
  },
  {
   "property": "C56",
   "status": "proved",
   "theorems": [
    "C56_initialization_order",
    "C56_without_closing_refuted"
   ],
   "note": "order and exactly-once of preInitialize/initialize/postInitialize for every history with a successful closeRegistration, and the prefix executed when a hook throws; without closeRegistration initialize throws (refuted companion)"
  },
  {
   "property": "C57",
   "status": "proved",
   "theorems": [
    "C57_circular_dependencies",
    "C57_undetected_cycle_diverges",
    "C57_declared_cycle_diverges",
    "C57_registration_terminates"
   ],
   "note": "closeRegistration returns iff acyclic (for enough fuel), throws only if cyclic, never UB; cycles not through the first class make it recurse for ever (finding); declared cycles make registration diverge"
  },
  {
   "property": "C58",
   "status": "proved",
   "theorems": [
    "C58_registration_closed",
    "C58_get_configuration",
    "C58_register_again"
   ],
   "note": "life cycle over all histories"
  },
  {
   "property": "C59",
   "status": "proved",
   "theorems": [
    "C59_file_read",
    "C59_blank_line_throws",
    "C59_unknown_excluded_throws",
    "C59_exclusion_aligned",
    "C59_read_aligned",
    "C59_defined",
    "C59_aligned_refuted"
   ],
   "note": "Distinct names: aligned after exclusion; unknown names throw; repeated names refuted (C59_aligned_refuted)."
  },
  {
   "property": "C60",
   "status": "proved",
   "theorems": [
    "C60_built_iff_distinct",
    "C60_find",
    "C60_find_defined",
    "C60_iteration",
    "C60_attribute"
   ],
   "note": "Identifiers are the int64/text variant; find, iteration and getAttribute."
  },
  {
   "property": "C61",
   "status": "proved",
   "theorems": [
    "C61_columns_required",
    "C61_photometry_of_row",
    "C61_defined",
    "C61_entry_contract",
    "C61_default_no_conversion",
    "C61_find_filter",
    "C61_new_photometry",
    "C61_positive_error_refuted",
    "C61_defined_refuted"
   ],
   "note": "Strict positivity of the error needs a finite threshold (C61_positive_error_refuted); short threshold lists are undefined behaviour (C61_defined_refuted)."
  },
  {
   "property": "C62",
   "status": "proved",
   "theorems": [
    "C62_best_matching_unit",
    "C62_no_finite_distance",
    "C62_reported_distance_refuted",
    "C62_layout"
   ],
   "note": "First minimal cell; the all-NaN/infinite case is stated separately, with a refutation of the naive claim about the reported distance."
  },
  {
   "property": "C63",
   "status": "proved",
   "theorems": [
    "C63_training_keeps_range",
    "C63_library_factors",
    "C63_large_factors_refuted"
   ],
   "note": "Exact arithmetic. Needs factors in [0,1], shown for all library factors."
  },
  {
   "property": "C64",
   "status": "proved",
   "theorems": [
    "C64_disc",
    "C64_symmetric_refuted"
   ],
   "note": "The disc is one-sided because of unsigned subtraction; symmetry is refuted."
  },
  {
   "property": "C65",
   "status": "proved",
   "theorems": [
    "C65_jackknife",
    "C65_jackknife_any_selection",
    "C65_jackknife_empty_undefined",
    "C65_full_set",
    "C65_bootstrap"
   ],
   "note": "Includes completeness of the draws, FullSet and Bootstrap."
  },
  {
   "property": "C66",
   "status": "proved",
   "theorems": [
    "C66_projection",
    "C66_one_cell"
   ],
   "note": ""
  },
  {
   "property": "C67",
   "status": "proved",
   "theorems": [
    "C67_umatrix",
    "C67_single_cell"
   ],
   "note": ""
  },
  {
   "property": "C68",
   "status": "proved",
   "theorems": [
    "C68_fix_all_axes",
    "C68_value_on_no_knot"
   ],
   "note": ""
  },
  {
   "property": "C69",
   "status": "proved",
   "theorems": [
    "C69_registration",
    "C69_lookup",
    "C69_construction"
   ],
   "note": "The parser is an arbitrary pair of functions."
  },
  {
   "property": "C70",
   "status": "proved",
   "theorems": [
    "C70_end_slashes",
    "C70_begin_slashes",
    "C70_begin_slashes_refuted",
    "C70_no_begin_slashes",
    "C70_no_begin_slashes_refuted",
    "C70_remove_extension",
    "C70_remove_before_last_slash"
   ],
   "note": "Texts made of slashes only are refuted separately."
  },
  {
   "property": "C71",
   "status": "proved",
   "theorems": [
    "C71_program_options"
   ],
   "note": "one group per name, contents concatenated in type order"
  },
  {
   "property": "C72",
   "status": "proved",
   "theorems": [
    "C72_counters",
    "C72_no_active_threads"
   ],
   "note": "invariants of the counters"
  },
  {
   "property": "C73",
   "status": "proved",
   "theorems": [
    "C73_accessor_descriptor",
    "C73_no_sharing",
    "C73_defined"
   ],
   "note": ""
  },
  {
   "property": "C74",
   "status": "proved",
   "theorems": [
    "C74_no_lost_file",
    "C74_close_all",
    "C74_close_all_refuted"
   ],
   "note": "Refuted without the assumption on types."
  },
  {
   "property": "C75",
   "status": "proved",
   "theorems": [
    "C75_training_step",
    "C75_no_learning"
   ],
   "note": "Exact arithmetic."
  },
  {
   "property": "C76",
   "status": "proved",
   "theorems": [
    "C76_archive_round_trip",
    "C76_truncated_archive",
    "C76_archive_other_distance",
    "C76_fits_round_trip",
    "C76_fits_other_type"
   ],
   "note": "Archive and FITS file modelled as the sequence of values they hold."
  },
  {
   "property": "C77",
   "status": "proved",
   "theorems": [
    "C77_history_independent",
    "C77_cutoff",
    "C77_decreasing",
    "C77_radius"
   ],
   "note": "exp and log are any functions with the stated properties of exp."
  },
  {
   "property": "C78",
   "status": "proved",
   "theorems": [
    "C78_new_map",
    "C78_new_map_well_formed"
   ],
   "note": ""
  },
  {
   "property": "C79",
   "status": "proved",
   "theorems": [
    "C79_casts_stay_in_range",
    "C79_wider_casts_agree",
    "C79_exact_and_narrowing_casts",
    "C79_refused_kinds",
    "C79_text_to_double",
    "C79_text_to_integer",
    "C79_vector_casts",
    "C79_bool_casts",
    "C79_cast_outcomes",
    "C79_long_casts_check_the_text_refuted"
   ],
   "note": "Casts of cells; strtod is a parameter. Companion: casting a text to int64 accepts trailing characters and saturates."
  },
  {
   "property": "C80",
   "status": "proved",
   "theorems": [
    "C80_comments",
    "C80_comment_before_reading_refuted",
    "C80_comments_come_first"
   ],
   "note": "getComment and addComment."
  },
  {
   "property": "C81",
   "status": "proved",
   "theorems": [
    "C81_dataset_from_vectors"
   ],
   "note": "XYDataset::factory from two vectors."
  },
  {
   "property": "C82",
   "status": "proved",
   "theorems": [
    "C82_entry_equality",
    "C82_entry_equality_transitive",
    "C82_transitive_refuted"
   ],
   "note": "Symmetric; transitivity only within equal missing flags (C82_transitive_refuted)."
  },
  {
   "property": "C83",
   "status": "proved",
   "theorems": [
    "C83_catalog_from_table",
    "C83_id_column"
   ],
   "note": ""
  },
  {
   "property": "C84",
   "status": "proved",
   "theorems": [
    "C84_redshift_of_row",
    "C84_columns_required"
   ],
   "note": ""
  },
  {
   "property": "C85",
   "status": "proved",
   "theorems": [
    "C85_sqrt",
    "C85_scott",
    "C85_empty_refuted",
    "C85_below_refuted"
   ],
   "note": "Exact arithmetic. The estimates of sigma and of the width in Scott are arguments. Values just below the data get the first bin (C85_below_refuted)."
  },
  {
   "property": "C86",
   "status": "proved",
   "theorems": [
    "C86_mean_sigma",
    "C86_mean_between",
    "C86_no_counts"
   ],
   "note": "Exact arithmetic; std::sqrt is an argument."
  },
  {
   "property": "C87",
   "status": "proved",
   "theorems": [
    "C87_median",
    "C87_hidden_refuted"
   ],
   "note": "Exact arithmetic. The count of a hidden bin can change the median (C87_hidden_refuted)."
  },
  {
   "property": "C88",
   "status": "proved",
   "theorems": [
    "C88_from_pdf",
    "C88_from_vectors",
    "C88_from_points",
    "C88_is_cumulative",
    "C88_normalize"
   ],
   "note": "Exact arithmetic over the rationals."
  },
  {
   "property": "C89",
   "status": "proved",
   "theorems": [
    "C89_centered",
    "C89_reversed_refuted"
   ],
   "note": "Exact arithmetic over the rationals."
  },
  {
   "property": "C90",
   "status": "proved",
   "theorems": [
    "C90_modes",
    "C90_mean",
    "C90_heights",
    "C90_areas",
    "C90_border_refuted"
   ],
   "note": "Exact arithmetic over the rationals."
  },
  {
   "property": "C91",
   "status": "proved",
   "theorems": [
    "C91_interpolated",
    "C91_border_refuted"
   ],
   "note": "Exact arithmetic over the rationals."
  },
  {
   "property": "C92",
   "status": "proved",
   "theorems": [
    "C92_same_as_interpolate",
    "C92_degenerate",
    "C92_repeated_end_refuted"
   ],
   "note": "Over real numbers. Refuted for a repeated last abscissa."
  },
  {
   "property": "C93",
   "status": "proved",
   "theorems": [
    "C93_derivative",
    "C93_affine",
    "C93_second_cubic",
    "C93_second"
   ],
   "note": "Mean value theorems for the first and second difference, exactness for affine functions and cubics. The choice of the step (guess_h) is a parameter."
  },
  {
   "property": "C94",
   "status": "proved",
   "theorems": [
    "C94_value",
    "C94_every_call",
    "C94_nodes",
    "C94_bounds",
    "C94_outside",
    "C94_axis_order_refuted",
    "C94_absent_value_refuted"
   ],
   "note": "Multilinear interpolation as a relation in GridInterpSpec.v; nodes, bounds, outside; the documented axis order and the documented zero for an absent discrete value are refuted. Reals."
  },
  {
   "property": "C95",
   "status": "proved",
   "theorems": [
    "C95_accepted",
    "C95_last_axis_unchecked_refuted"
   ],
   "note": "Exact acceptance condition; the order of the last axis is not checked (refuted)."
  },
  {
   "property": "C96",
   "status": "proved",
   "theorems": [
    "C96_quantile",
    "C96_range",
    "C96_integral",
    "C96_single",
    "C96_rejected",
    "C96_below_first_refuted",
    "C96_sizes_refuted"
   ],
   "note": "Quantile up to 2e-8, range, relation to the Riemann integral, degenerate and rejected inputs; results below the first knot and unchecked sizes are refuted statements. Reals."
  },
  {
   "property": "C97",
   "status": "proved",
   "theorems": [
    "C97_numpy_files",
    "C97_refused",
    "C97_bytes_refuted",
    "C97_scalar_refuted",
    "C97_negative_length_refuted",
    "C97_not_npy"
   ],
   "note": "files of numpy.save (version 1.0) of all non 8-bit types; the 8-bit types and 0-d arrays are refuted"
  },
  {
   "property": "C98",
   "status": "proved",
   "theorems": [
    "C98_file_follows",
    "C98_create",
    "C98_assign",
    "C98_resize",
    "C98_failed_resize",
    "C98_append",
    "C98_open",
    "C98_reopen",
    "C98_size_after_failure_refuted",
    "C98_longer_header_refuted"
   ],
   "note": "invariant over all histories of create, open, assign and resize; append; reopen; size() after a failing resize refuted"
  },
  {
   "property": "C99",
   "status": "proved",
   "theorems": [
    "C99_round_trip",
    "C99_other_columns",
    "C99_wider_text_refuted",
    "C99_trailing_blank_refuted",
    "C99_one_character_refuted",
    "C99_one_element_refuted",
    "C99_bool_vector_refuted",
    "C99_tdim_keywords",
    "C99_column_names"
   ],
   "note": "CCfits modelled as a store of columns (see FitsModel.v); the refuted companions show which conditions are needed"
  }
 ]
}