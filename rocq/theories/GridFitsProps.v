(** Properties of the FITS files of grids: C119 to C121. *)
From Coq Require Import ZArith List Arith Ascii String Bool Lia.
From Verif Require Import Common TextModel DblModel GridModel GridSpec GridProofs TableModel TableSpec TableProofs AsciiModel FitsModel XYModel XYSpec
  GridFitsModel GridFitsSpec GridFitsProofs.
Import ListNotations.
Local Open Scope nat_scope.
Local Notation length := List.length.

(** * C119: what is exported is what is imported
    [v] is a grid or a slice of it (get_axis v i is [nth_error (v_axes_fixed v) i]). *)
Theorem C119_round_trip C (zero : C) exts hdu_name types axes fixes v cells :
  fix_chain (new_view axes) fixes = Ok v -> length fixes <= 1 -> length cells = cell_count (axes_sizes axes) ->
  Forall2 axis_ok types (v_axes_fixed v) -> good_name exts hdu_name (v_axes_fixed v) ->
  exists added, grid_export zero exts hdu_name types v cells = Ok (exts ++ added)
    /\ forall later, exists v' cells',
         grid_import zero (exts ++ added ++ later) types (Z.of_nat (length exts) + 1) = Ok (v', cells')
         /\ Forall2 same_axis (v_axes_fixed v) (v_axes_fixed v')
         /\ forall coords, length coords = length axes -> at_read v' cells' coords = at_read v cells coords.
Proof.
  intros E L1 L F G. destruct (export_ok C zero axes fixes v cells types exts hdu_name E L1 L F G) as [pixels [tables [X [LP [S1 T]]]]].
  eexists. split; [exact X|]. intros later. destruct (import_ok C zero types _ hdu_name exts pixels tables later F T LP) as [axes' [I A]].
  exists (new_view axes'), pixels. split; [exact I|]. split; [exact A|]. intros coords Lc.
  pose proof (same_sizes _ _ A) as SS. apply (shows_same C (axes_sizes (v_axes_fixed v)) pixels).
  - rewrite <- SS. apply shows_self. rewrite SS. exact LP.
  - exact S1.
  - rewrite (fixed_length axes fixes v E L1). exact Lc.
Qed.
Print Assumptions C119_round_trip.

(** A grid with an axis of ints and one of names. *)
Definition a_int : axis knot := mkAxis "X" [KInt 3; KInt (-1)].
Definition a_text : axis knot := mkAxis "Band" [KText (txt "g"); KText (txt "r x"); KText (txt "g")].
Definition cells_ex : list nat := [10; 11; 12; 13; 14; 15].
Lemma no_blank (s : text) c r : s = r ++ [c] -> c <> " "%char -> forall x, s <> x ++ [" "%char].
Proof. intros -> N x E. apply app_inj_tail in E. destruct E as [_ E]. exact (N E). Qed.
Example C119_case : exists v, fix_chain (new_view [a_int; a_text]) [(0, 1)] = Ok v
  /\ length cells_ex = cell_count (axes_sizes [a_int; a_text])
  /\ Forall2 axis_ok [KTInt; KTText] (v_axes_fixed v)
  /\ good_name [Image (C := nat) (txt "old") [2] [1; 2]] (txt "grid") (v_axes_fixed v)
  /\ exists added, grid_export 0 [Image (txt "old") [2] [1; 2]] (txt "grid") [KTInt; KTText] v cells_ex = Ok (Image (txt "old") [2] [1; 2] :: added)
     /\ nth_error added 0 = Some (Image (txt "grid") [1; 3] [11; 13; 15])
     /\ option_map ext_name (nth_error added 2) = Some (txt "Band_grid").
Proof.
  eexists. split; [reflexivity|]. split; [reflexivity|]. split; [|split].
  - constructor; [split; [discriminate|constructor; [split; exact I|constructor]]|]. constructor; [|constructor]. split; [discriminate|].
    assert (K : forall s c r, s <> [] -> s = r ++ [c] -> c <> " "%char -> has_vertical s = false -> length s <= 10 ->
       of_type KTText (KText s) /\ storable (KText s)).
    { intros s c r N E B O L. split; [exact I|]. split; [exact N|]. split; [|split; [exact (no_blank s c r E B)|unfold int32_max; lia]].
      apply has_vertical_false. exact O. }
    constructor; [|constructor; [|constructor; [|constructor]]].
    + apply (K (txt "g") "g"%char []); try discriminate; try reflexivity. cbn; lia.
    + apply (K (txt "r x") "x"%char (txt "r ")); try discriminate; try reflexivity. cbn; lia.
    + apply (K (txt "g") "g"%char []); try discriminate; try reflexivity. cbn; lia.
  - split; [discriminate|]. split; [apply (no_blank _ "d"%char (txt "gri")); [reflexivity|discriminate]|]. split; [cbn; lia|].
    split; [constructor; [cbn; lia|constructor; [cbn; lia|constructor]]|]. split.
    + constructor; [intros [H|[]]; discriminate H|constructor; [intros []|constructor]].
    + intros e [<-|[]]. split; [discriminate|]. intros a [<-|[<-|[]]]; discriminate.
  - eexists. split; [vm_compute; reflexivity|]. split; vm_compute; reflexivity.
Qed.

(** A slice of a slice does not come back: it has one cell, the image has two pixels, and
    the grid read from it shows both. *)
Theorem C119_slice_of_slice_refuted : exists (axes : list (axis knot)) fixes v cells (zero : nat) types exts v' cells' coords,
  fix_chain (new_view axes) fixes = Ok v /\ length cells = cell_count (axes_sizes axes)
  /\ grid_export zero [] (txt "grid") types v cells = Ok exts /\ grid_import zero exts types 1 = Ok (v', cells')
  /\ at_read v cells coords = Throw /\ at_read v' cells' coords = Ok zero /\ ~ In zero cells.
Proof.
  exists [a_int; mkAxis "Y" [KInt 5; KInt 6]], [(0, 1); (1, 1)]. eexists. exists [10; 11; 12; 13], 0, [KTInt; KTInt]. eexists. eexists. eexists. exists [1; 0].
  split; [reflexivity|]. split; [reflexivity|]. split; [vm_compute; reflexivity|]. split; [vm_compute; reflexivity|].
  split; [reflexivity|]. split; [reflexivity|]. intros H. cbn in H. lia.
Qed.
Print Assumptions C119_slice_of_slice_refuted.

(** Two axes of the same name: both are written to one table, and the file cannot be
    read back. *)
Theorem C119_same_names_refuted : exists (axes : list (axis knot)) cells types exts,
  Forall (fun a => ax_values a <> []) axes /\ length cells = cell_count (axes_sizes axes)
  /\ grid_export 0 [] (txt "grid") types (new_view axes) cells = Ok exts /\ grid_import 0 exts types 1 = Throw.
Proof.
  exists [mkAxis "X" [KInt 1; KInt 2]; mkAxis "X" [KInt 5]], [10; 11], [KTInt; KTInt]. eexists.
  split; [constructor; [discriminate|constructor; [discriminate|constructor]]|]. split; [reflexivity|].
  split; [vm_compute; reflexivity|]. vm_compute. reflexivity.
Qed.
Print Assumptions C119_same_names_refuted.

(** A long name of an axis comes back shorter. *)
Definition long_name : string := "a name that is a bit longer than the sixty eight characters of a keyword".
Theorem C119_long_name_refuted : exists (a : axis knot) cells types exts v' cells' b,
  length cells = cell_count (axes_sizes [a]) /\ grid_export 0 [] (txt "grid") types (new_view [a]) cells = Ok exts
  /\ grid_import 0 exts types 1 = Ok (v', cells') /\ get_axis v' 0 = Some b /\ ax_values b = ax_values a /\ ax_name b <> ax_name a.
Proof.
  exists (mkAxis long_name [KInt 1]), [10], [KTInt]. eexists. eexists. eexists. eexists.
  split; [reflexivity|]. split; [vm_compute; reflexivity|]. split; [vm_compute; reflexivity|]. split; [reflexivity|]. split; [reflexivity|]. discriminate.
Qed.
Print Assumptions C119_long_name_refuted.

(** * C120: what is in the file
    The image has one axis per axis of the grid and at each pixel the cell of the grid
    at those coordinates; then come the tables of the axes, in order. *)
Theorem C120_file C (zero : C) exts hdu_name types axes fixes v cells :
  fix_chain (new_view axes) fixes = Ok v -> length fixes <= 1 -> length cells = cell_count (axes_sizes axes) ->
  Forall2 axis_ok types (v_axes_fixed v) -> good_name exts hdu_name (v_axes_fixed v) ->
  exists pixels tables,
    grid_export zero exts hdu_name types v cells
      = Ok (exts ++ Image hdu_name (map (fun a => length (ax_values a)) (v_axes_fixed v)) pixels :: tables)
    /\ length pixels = cell_count (map (fun a => length (ax_values a)) (v_axes_fixed v))
    /\ (forall coords, in_range (map (fun a => length (ax_values a)) (v_axes_fixed v)) coords ->
          exists c, at_read v cells coords = Ok c
            /\ nth_error pixels (pixel_number (map (fun a => length (ax_values a)) (v_axes_fixed v)) coords) = Some c)
    /\ Forall2 (is_axis_table hdu_name) (v_axes_fixed v) tables.
Proof.
  intros E L1 L F G. destruct (export_ok C zero axes fixes v cells types exts hdu_name E L1 L F G) as [pixels [tables [X [LP [S1 T]]]]].
  change (map (fun a => length (ax_values a)) (v_axes_fixed v)) with (axes_sizes (v_axes_fixed v)).
  exists pixels, tables. split; [exact X|]. split; [exact LP|]. split; [|exact T]. intros coords R.
  destruct (S1 coords (F2_length _ _ _ R)) as [H _]. destruct (H R) as [c [H1 H2]]. exists c. split; [exact H2|].
  rewrite pixel_horner. exact H1.
Qed.
Print Assumptions C120_file.

(** A file of a grid that another program wrote, with fewer pixels than the axes need,
    is read out of bounds. *)
Theorem C120_few_pixels_refuted : exists (exts : list (ext nat)) types,
  (exists a n p r, exts = Image a n p :: r) /\ grid_import 0 exts types 1 = UB.
Proof.
  assert (E : exists exts, grid_export 0 [] (txt "grid") [KTInt] (new_view [a_int]) [10; 11] = Ok exts) by (eexists; vm_compute; reflexivity).
  destruct E as [exts E]. destruct exts as [|e tables]; [vm_compute in E; discriminate E|].
  exists (Image (txt "grid") [1] [10] :: tables), [KTInt]. split; [do 4 eexists; reflexivity|].
  vm_compute in E. injection E as <- <-. vm_compute. reflexivity.
Qed.
Print Assumptions C120_few_pixels_refuted.

(** Reading refuses what is not a grid: a number without an extension, a table in place of
    the image, and an image in place of the table of an axis. *)
Theorem C120_not_a_grid C (zero : C) exts types index :
  ((index < 1 \/ Z.of_nat (length exts) < index)%Z -> grid_import zero exts types index = Throw) /\
  (forall name h, (1 <= index)%Z -> nth_error exts (Z.to_nat (index - 1)) = Some (BinTable name h) ->
     forall r, grid_import zero exts types index <> Ok r) /\
  (forall k name shape pixels, (1 <= index)%Z -> 1 <= k <= length types ->
     nth_error exts (Z.to_nat (index - 1) + k) = Some (Image name shape pixels) ->
     forall r, grid_import zero exts types index <> Ok r).
Proof.
  split; [|split].
  - intros H. unfold grid_import, get_ext. destruct (Z.ltb_spec index 1) as [|L]; [reflexivity|]. destruct H as [H|H]; [lia|].
    replace (nth_error exts (Z.to_nat (index - 1))) with (@None (ext C)); [reflexivity|]. symmetry. apply nth_error_None. lia.
  - intros name h L E r. unfold grid_import, get_ext. rewrite (proj2 (Z.ltb_ge index 1) L), E. cbn [bind].
    destruct (read_axes _ _ _ _) as [axes| | |]; discriminate.
  - intros k name shape pixels L K E r H. unfold grid_import in H.
    destruct (get_ext exts index) as [e| | |]; try discriminate. cbn [bind] in H.
    destruct (read_axes exts (ext_name e) (index + Z.of_nat (length types)) (rev types)) as [axes| | |] eqn:R; try discriminate. clear H.
    assert (G : forall l i k, (1 <= i - Z.of_nat k)%Z -> k < length l ->
      nth_error exts (Z.to_nat (i - Z.of_nat k - 1)) = Some (Image name shape pixels) ->
      forall axes, read_axes exts (ext_name e) i l <> Ok axes).
    { clear. induction l as [|kt l IH]; intros i k L K E axes; cbn [length] in K; [lia|]. cbn [read_axes].
      destruct k as [|k].
      - unfold get_ext. rewrite (proj2 (Z.ltb_ge i 1)) by lia. replace (i - Z.of_nat 0 - 1)%Z with (i - 1)%Z in E by lia. rewrite E. discriminate.
      - destruct (get_ext exts i) as [f| | |]; try discriminate. cbn [bind]. destruct (read_axis kt _ f) as [a| | |]; try discriminate. cbn [bind].
        destruct (read_axes exts (ext_name e) (i - 1) l) as [p| | |] eqn:R; try discriminate. exfalso.
        apply (IH (i - 1)%Z k ltac:(lia) ltac:(lia)) with (axes := p); [|exact R].
        replace (i - 1 - Z.of_nat k - 1)%Z with (i - Z.of_nat (S k) - 1)%Z by lia. exact E. }
    apply (G (rev types) (index + Z.of_nat (length types))%Z (length types - k) ltac:(lia)) with (axes := axes); [rewrite rev_length; lia | | exact R].
    rewrite <- E. f_equal. lia.
Qed.
Print Assumptions C120_not_a_grid.

(** The table of an axis whose name is already that of an image dereferences a null pointer. *)
Theorem C120_name_of_an_image_refuted : exists (exts : list (ext nat)) axes types,
  length exts = 1 /\ length types = length axes /\ Forall (fun a => ax_values a <> []) axes /\
  grid_export 0 exts (txt "grid") types (new_view axes) [10; 11] = UB.
Proof.
  exists [Image (txt "X_grid") [1] [7]], [mkAxis "X" [KInt 1; KInt 2]], [KTInt].
  split; [reflexivity|]. split; [reflexivity|]. split; [repeat constructor; discriminate|]. vm_compute. reflexivity.
Qed.
Print Assumptions C120_name_of_an_image_refuted.

(** * C121: a grid with an axis without knots is refused *)
Theorem C121_empty_axis C (zero : C) exts hdu_name types axes (cells : list C) :
  length cells = cell_count (axes_sizes axes) ->
  Forall2 (fun kt a => Forall (fun k => of_type kt k /\ storable k) (ax_values a)) types axes -> good_name exts hdu_name axes ->
  (exists a, In a axes /\ ax_values a = []) -> grid_export zero exts hdu_name types (new_view axes) cells = Throw.
Proof. apply export_empty. Qed.
Print Assumptions C121_empty_axis.
Example C121_case : length ([] : list nat) = cell_count (axes_sizes [a_int; mkAxis "Y" []])
  /\ Forall2 (fun kt a => Forall (fun k => of_type kt k /\ storable k) (ax_values a)) [KTInt; KTText] [a_int; mkAxis "Y" []]
  /\ good_name ([] : list (ext nat)) (txt "grid") [a_int; mkAxis "Y" []].
Proof.
  split; [reflexivity|]. split.
  - constructor; [constructor; [split; exact I|constructor; [split; exact I|constructor]]|constructor; [constructor|constructor]].
  - split; [discriminate|]. split; [apply (no_blank _ "d"%char (txt "gri")); [reflexivity|discriminate]|]. split; [cbn; lia|].
    split; [constructor; [cbn; lia|constructor; [cbn; lia|constructor]]|]. split.
    + constructor; [intros [H|[]]; discriminate H|constructor; [intros []|constructor]].
    + intros e [].
Qed.
