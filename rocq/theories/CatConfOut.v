(** Proofs about the failures of a program: they are exceptions. *)
From Coq Require Import QArith ZArith List Arith Ascii String Bool Lia.
From Verif Require Import Common TextModel TextProofs DblModel GridModel TableModel AsciiModel FitsModel CatalogModel ConfigModel
  TableSpec CatalogSpec CatConfModel CatConfSpec CatalogProofs CatConfProofs CatConfProofs2 CatConfProofs3.
Import ListNotations.
Local Notation length := List.length.
Local Open Scope nat_scope.

Definition definite {A} (o : outcome A) : Prop := (exists x, o = Ok x) \/ o = Throw.
Lemma definite_ok {A} (x : A) : definite (Ok x). Proof. left. eauto. Qed.
Lemma definite_throw {A} : definite (Throw : outcome A). Proof. right. reflexivity. Qed.
Lemma definite_bind {A B} (o : outcome A) (f : A -> outcome B) :
  definite o -> (forall x, o = Ok x -> definite (f x)) -> definite (bind o f).
Proof. intros [[x ->]| ->] H; [apply H; reflexivity | apply definite_throw]. Qed.
Lemma definite_if {A} (b : bool) (x y : outcome A) : definite x -> definite y -> definite (if b then x else y).
Proof. destruct b; auto. Qed.

Lemma until_nul_found s : In nul s -> definite (until_nul s).
Proof.
  induction s as [|c r IH]; intros I; [contradiction|]. cbn [until_nul]. destruct (Ascii.eqb_spec c nul) as [E|E]; [apply definite_ok|].
  destruct I as [I|I]; [congruence|]. apply definite_bind; [auto|]. intros t _. apply definite_ok.
Qed.

Section Program.
Variable K : Type.
Variables stof strtod : text -> option dbl.
Variable open_fits : text -> outcome hdu.
Variable same : dbl -> dbl -> bool.
Variable mag_flux : dbl -> dbl.
Variable mag_error : dbl -> dbl -> dbl.
Variable fs : text -> entry.
Variables junk base_dir : text.
Variable args : user_values.
Hypothesis P : parsed args.
Hypothesis FILES : forall file b fits, fs file = Regular b -> definite (file_columns open_fits fits b).
Hypothesis NUL : In (txt "input-catalog-format", UText (txt "AUTO")) args ->
  forall file b, fs file = Regular b -> In nul (firstn 80 b ++ junk).

Lemma file_definite key : definite (file_from_options fs key args base_dir).
Proof. destruct (file_from_options_outcomes fs key args base_dir) as [[f E]|E]; rewrite E; [apply definite_ok | apply definite_throw]. Qed.
Lemma bytes_definite file : definite (bytes_of fs file).
Proof. unfold bytes_of. destruct (fs file); first [apply definite_ok | apply definite_throw]. Qed.
Lemma format_definite file : definite (format_from_options fs junk args file).
Proof.
  unfold format_from_options. destruct (at_text_outcomes args CATALOG_FORMAT) as [[f E]|E]; rewrite E; [|apply definite_throw].
  cbn [bind]. destruct (text_eqb f (txt "AUTO")) eqn:A; [|apply definite_ok].
  apply text_eqb_iff in A. subst f. apply (at_text_ok _ _ _ (proj1 P)) in E. apply definite_bind; [apply bytes_definite|].
  intros b B. unfold bytes_of in B. destruct (fs file) eqn:F; try discriminate. injection B as <-.
  unfold detect_fits. apply definite_bind; [apply until_nul_found, (NUL E file bytes F)|]. intros h _. apply definite_ok.
Qed.
Lemma info_definite fits file : definite (reader_info open_fits fs fits file).
Proof.
  destruct (fs file) as [| |b] eqn:F; try (unfold reader_info, bytes_of; rewrite F; apply definite_throw).
  rewrite (reader_info_file _ _ _ _ _ F). apply (FILES file). exact F.
Qed.
Lemma name_definite key info : definite (column_of_name args key info).
Proof.
  unfold column_of_name. destruct (at_text_outcomes args key) as [[f E]|E]; rewrite E; [|apply definite_throw]. cbn [bind].
  destruct (find_col info f); first [apply definite_ok | apply definite_throw].
Qed.
Lemma index_definite key info : In (txt key, KInt) declared ->
  (forall z, In (txt key, UInt z) args -> (1 <= z)%Z) -> definite (column_of_index args (txt key) info).
Proof.
  intros D H. unfold column_of_index. destruct (at_int_outcomes args (txt key)) as [[z E]|E]; rewrite E; [|apply definite_throw]. cbn [bind].
  apply (at_int_ok _ _ _ (proj1 P)) in E. specialize (H z E). destruct (typed_int args key _ P D E) as [z' [X R]]. injection X as <-.
  unfold is_int32, int32_min, int32_max in R. unfold size_of_int. rewrite Z.mod_small by lia.
  destruct (Z.ltb_spec (Z.of_nat (length info)) z); [apply definite_throw|].
  destruct (Z.eqb_spec z 0); [lia|]. apply definite_bind; [|intros d _; apply definite_ok].
  unfold get_desc. destruct (Nat.leb_spec (length info) (Z.to_nat (z - 1))); [apply definite_throw|].
  destruct (nth_error info (Z.to_nat (z - 1))) eqn:X; [apply definite_ok|]. apply nth_error_None in X. lia.
Qed.
Lemma check_definite key : In (txt key, KInt) declared -> definite (check_index args (txt key)).
Proof. intros D. destruct (check_index_outcomes args key P D) as [E|E]; rewrite E; [apply definite_ok | apply definite_throw]. Qed.

Lemma id_definite info : ~ bad_catalog_options args -> definite (id_column_from_options args info).
Proof.
  intros NB. unfold id_column_from_options. apply definite_bind.
  - apply definite_if; [apply name_definite | apply definite_ok].
  - intros n _. apply definite_if; [|apply definite_ok]. apply index_definite; [apply declared_id_index|].
    intros z I. destruct (Z.lt_ge_cases z 1); [|lia]. exfalso. apply NB. eapply bad_index; eauto.
Qed.
Lemma init_definite {A} (c : catconf A) : cc_base c = base_dir -> ~ bad_catalog_options args -> definite (cat_initialize open_fits fs junk args c).
Proof.
  intros B NB. unfold cat_initialize. rewrite B. apply definite_bind; [apply file_definite|]. intros file _.
  apply definite_bind; [apply format_definite|]. intros fits _. apply definite_bind; [apply info_definite|]. intros info _.
  apply definite_bind; [apply id_definite; exact NB|]. intros id _. apply definite_ok.
Qed.
Lemma pre_definite : forall l : list (extra K), definite (pre_initialize_all K args l).
Proof.
  induction l as [|e l IH]; [apply definite_ok|]. cbn [pre_initialize_all]. apply definite_bind; [|intros _ _; exact IH].
  destruct e; cbn [extra_pre_initialize]; try apply definite_ok.
  destruct (specz_pre_initialize args) as [[]| | |] eqn:E; [apply definite_ok | apply definite_throw | |]; exfalso;
    unfold specz_pre_initialize in E;
    (destruct (has args SPECZ_NAME && has args SPECZ_INDEX); [discriminate|]);
    (destruct (negb (has args SPECZ_NAME) && negb (has args SPECZ_INDEX)); [discriminate|]);
    destruct (check_definite "spec-z-column-index" declared_z_index) as [[u X]|X];
    change (txt "spec-z-column-index") with SPECZ_INDEX in X; rewrite X in E; cbn [bind] in E; try discriminate;
    (destruct (has args SPECZ_ERR_NAME && has args SPECZ_ERR_INDEX); [discriminate|]);
    destruct (check_definite "spec-z-err-column-index" declared_e_index) as [[v Y]|Y];
    change (txt "spec-z-err-column-index") with SPECZ_ERR_INDEX in Y; rewrite Y in E; discriminate.
Qed.
Lemma option_column name index info : In (txt index, KInt) declared ->
  (forall z, In (txt index, UInt z) args -> (1 <= z)%Z) -> definite (column_from_options (txt name) (txt index) args info).
Proof. intros D H. unfold column_from_options. apply definite_if; [apply name_definite | apply index_definite; assumption]. Qed.
Lemma new_zfr_definite info v e : definite (new_zfr info v e).
Proof. unfold new_zfr. destruct (find_col info v); [|apply definite_throw]. destruct e as [e|]; [|apply definite_ok]. destruct (find_col info e); first [apply definite_ok | apply definite_throw]. Qed.
Lemma bands_definite : definite (bands_from_options stof fs base_dir args).
Proof.
  unfold bands_from_options. apply definite_bind; [apply file_definite|]. intros file _. apply definite_bind; [apply bytes_definite|]. intros b _.
  apply definite_bind; [destruct (at_texts_outcomes args EXCLUDE_FILTER) as [[l E]|E]; rewrite E; [apply definite_ok | apply definite_throw]|]. intros ex _.
  unfold init_bands. apply definite_bind.
  - unfold parse_file. apply parse_outcomes.
  - intros [[m t] c] _. destruct (keep_mapping ex m) as [m' [|u us]]; [apply definite_ok | apply definite_throw].
Qed.
Lemma settings_definite : definite (phot_settings args).
Proof.
  unfold phot_settings. apply definite_bind.
  - apply definite_if; [|apply definite_ok].
    destruct (at_text_outcomes args ENABLE_UPPER_LIMIT) as [[l E]|E]; rewrite E; [apply definite_ok | apply definite_throw].
  - intros u _. apply definite_bind.
    + apply definite_if; [|apply definite_ok].
      destruct (at_double_outcomes args THRESHOLD_FLAG) as [[l E]|E]; rewrite E; [apply definite_ok | apply definite_throw].
    + intros f _. apply definite_if; [|apply definite_ok].
      destruct (at_double_outcomes args MISSING_FLAG) as [[l E]|E]; rewrite E; [apply definite_ok | apply definite_throw].
Qed.
Lemma find_columns_definite info : forall m, definite (find_columns info m).
Proof.
  induction m as [|[n [a b]] m IH]; [apply definite_ok|]. cbn [find_columns].
  destruct (find_col info a); [|apply definite_throw]. destruct (find_col info b); [|apply definite_throw].
  apply definite_bind; [exact IH|]. intros x _. apply definite_ok.
Qed.
Lemma handler_definite (c : catconf (attribute K)) info e : get_column_info c = Ok (Some info) ->
  (e = WithRedshift -> ~ bad_redshift_options args) ->
  definite (extra_handler K stof strtod same mag_flux mag_error fs base_dir args c e).
Proof.
  intros GI NB. destruct e as [| |calls|]; cbn [extra_handler].
  - apply definite_bind; [apply bands_definite|]. intros bands _. rewrite GI. cbn [bind of_option].
    apply definite_bind; [|intros p _; apply definite_ok]. unfold phot_handler. apply definite_bind; [apply settings_definite|].
    intros s _. destruct bands as [[m t] cv]. unfold new_pfr. apply definite_bind; [apply find_columns_definite|]. intros x _. apply definite_ok.
  - rewrite GI. cbn [bind of_option]. specialize (NB eq_refl). apply definite_bind; [|intros p _; apply definite_ok]. unfold specz_handler.
    apply definite_bind.
    + apply (option_column "spec-z-column-name" "spec-z-column-index"); [apply declared_z_index|].
      intros z I. destruct (Z.lt_ge_cases z 1); [|lia]. exfalso. apply NB. eapply bad_z_index; eauto.
    + intros v _. apply definite_if; [apply new_zfr_definite|]. apply definite_bind.
      * apply (option_column "spec-z-err-column-name" "spec-z-err-column-index"); [apply declared_e_index|].
        intros z I. destruct (Z.lt_ge_cases z 1); [|lia]. exfalso. apply NB. eapply bad_e_index; eauto.
      * intros err _. apply new_zfr_definite.
  - apply definite_bind; [|intros p _; apply definite_ok]. generalize (mkPdfFr (K := K) [] []). clear.
    induction calls as [|[[n cn] k] calls IH]; intros f; [apply definite_ok|]. cbn [add_pdf_columns].
    apply definite_bind; [apply definite_ok|]. intros f' _. apply IH.
  - apply definite_ok.
Qed.
Lemma handlers_definite info : forall (l : list (extra K)) (c : catconf (attribute K)),
  cc_state c = Initialized -> cc_info c = Some info -> (In WithRedshift l -> ~ bad_redshift_options args) ->
  definite (add_handlers K stof strtod same mag_flux mag_error fs base_dir args c l).
Proof.
  induction l as [|e l IH]; intros c S1 I NB; [apply definite_ok|]. cbn [add_handlers]. apply definite_bind.
  - apply (handler_definite c info e).
    + unfold get_column_info. rewrite S1. cbn [at_least_initialized]. rewrite I. reflexivity.
    + intros ->. apply NB. left. reflexivity.
  - intros h _. unfold add_handler. rewrite S1. cbn [is_final bind]. apply IH; [reflexivity | exact I |].
    intros J. apply NB. right. exact J.
Qed.
Lemma run_definite l : definite (run_program K stof strtod open_fits same mag_flux mag_error fs junk base_dir args l).
Proof.
  unfold run_program. cbn [set_base_dir new_catconf cc_state at_least_initialized bind cc_file cc_fits cc_id cc_handlers cc_info].
  destruct (cat_pre_initialize_spec args P) as [S1 S2]. apply definite_bind.
  - destruct (cat_pre_initialize args) as [[]| | |] eqn:E; [apply definite_ok | apply definite_throw | |]; exfalso;
      unfold cat_pre_initialize in E; (destruct (has args ID_NAME && has args ID_INDEX); [discriminate|]);
      destruct (check_definite "source-id-column-index" declared_id_index) as [[u X]|X];
      change (txt "source-id-column-index") with ID_INDEX in X; rewrite X in E; cbn [bind] in E; try discriminate;
      (destruct (has args CATALOG_FORMAT); [|discriminate]);
      destruct (at_text_outcomes args CATALOG_FORMAT) as [[f Y]|Y]; rewrite Y in E; cbn [bind] in E; try discriminate;
      destruct (negb (text_eqb f (txt "AUTO")) && negb (text_eqb f (txt "FITS")) && negb (text_eqb f (txt "ASCII"))); discriminate.
  - intros [] E. apply S2 in E. apply definite_bind; [apply pre_definite|]. intros [] E2.
    pose proof (proj1 (pre_initialize_all_ok K stof stof stof stof open_fits fs base_dir args P l) E2) as E3.
    apply definite_bind; [apply init_definite; [reflexivity | exact E]|]. intros c1 C1.
    assert (I : exists info, cc_info c1 = Some info).
    { unfold cat_initialize in C1. apply bind_ok in C1. destruct C1 as [f [_ C1]]. apply bind_ok in C1. destruct C1 as [b [_ C1]].
      apply bind_ok in C1. destruct C1 as [i [_ C1]]. apply bind_ok in C1. destruct C1 as [x [_ C1]]. injection C1 as <-. eexists. reflexivity. }
    destruct I as [info I]. apply definite_bind; [|intros c2 _; apply definite_ok].
    apply (handlers_definite info); [reflexivity | exact I | exact E3].
Qed.
End Program.
