(** Property C113, continued: a program that does not start fails with an exception. *)
From Coq Require Import QArith ZArith List Arith Ascii String Bool Lia.
From Verif Require Import Common TextModel TextProofs DblModel GridModel TableModel AsciiModel FitsModel CatalogModel ConfigModel
  TableSpec CatalogSpec CatConfModel CatConfSpec CatalogProofs CatConfProofs CatConfOut CatConfProps.
Import ListNotations.
Local Notation length := List.length.

(** Whatever the options, the files that exist and the configurations: the program starts
    or ends with an exception, provided the columns of every file can be read or are
    refused with an exception, and, when the format is to be detected, a zero byte ends
    the characters compared. *)
Theorem C113_failures_are_exceptions : forall K stof strtod open_fits same mag_flux mag_error fs junk base_dir args (l : list (extra K)),
  parsed args ->
  (forall file bytes fits, fs file = Regular bytes ->
     (exists info, file_columns open_fits fits bytes = Ok info) \/ file_columns open_fits fits bytes = Throw) ->
  (In (txt "input-catalog-format", UText (txt "AUTO")) args ->
     forall file bytes, fs file = Regular bytes -> In (ascii_of_nat 0) (firstn 80 bytes ++ junk)) ->
  (exists c, run_program K stof strtod open_fits same mag_flux mag_error fs junk base_dir args l = Ok c) \/
  run_program K stof strtod open_fits same mag_flux mag_error fs junk base_dir args l = Throw.
Proof. intros K stof strtod open_fits same mag_flux mag_error fs junk base_dir args l P F N. apply run_definite; assumption. Qed.
Print Assumptions C113_failures_are_exceptions.

(** In particular: a catalog that is not there, or is a folder, is an exception. *)
Theorem C113_no_catalog_file : forall K stof strtod open_fits same mag_flux mag_error fs junk base_dir args (l : list (extra K)) given file,
  parsed args -> In (txt "input-catalog-file", UText given) args -> resolved base_dir given file ->
  fs file = Nothing \/ fs file = Folder ->
  run_program K stof strtod open_fits same mag_flux mag_error fs junk base_dir args l = Throw.
Proof.
  intros K stof strtod open_fits same mag_flux mag_error fs junk base_dir args l given file P I R F.
  unfold run_program. cbn [set_base_dir new_catconf cc_state at_least_initialized bind cc_file cc_fits cc_id cc_handlers cc_info].
  assert (D1 : definite (cat_pre_initialize args)).
  { destruct (cat_pre_initialize_spec args P) as [S1 S2]. destruct (cat_pre_initialize args) as [[]| | |] eqn:E; [left; eauto | right; reflexivity | |]; exfalso;
      unfold cat_pre_initialize in E; (destruct (has args ID_NAME && has args ID_INDEX); [discriminate|]);
      destruct (check_definite args P "source-id-column-index" declared_id_index) as [[u X]|X];
      change (txt "source-id-column-index") with ID_INDEX in X; rewrite X in E; cbn [bind] in E; try discriminate;
      (destruct (has args CATALOG_FORMAT); [|discriminate]);
      destruct (at_text_outcomes args CATALOG_FORMAT) as [[f Y]|Y]; rewrite Y in E; cbn [bind] in E; try discriminate;
      destruct (negb (text_eqb f (txt "AUTO")) && negb (text_eqb f (txt "FITS")) && negb (text_eqb f (txt "ASCII"))); discriminate. }
  destruct D1 as [[[] ->]| ->]; [|reflexivity]. cbn [bind].
  destruct (pre_definite K args P l) as [[[] ->]| ->]; [|reflexivity]. cbn [bind].
  unfold cat_initialize, file_from_options. cbn [with_state cc_base].
  rewrite (proj2 (at_text_ok args CATALOG_FILE given (proj1 P)) I). cbn [bind]. apply resolved_iff in R. rewrite R.
  destruct F as [-> | ->]; reflexivity.
Qed.
Print Assumptions C113_no_catalog_file.

Example C113_failures_case : parsed ex_args /\
  (exists given, In (txt "input-catalog-file", UText given) ex_args) /\
  run_program nat ex_num ex_num (fun _ => Throw) deq (fun d => d) (fun a b => b) (fun _ => Nothing) [nul] (txt "/data") ex_args ex_program = Throw.
Proof. split; [exact ex_parsed|]. split; [eexists; vm_compute; left; reflexivity | vm_compute; reflexivity]. Qed.
