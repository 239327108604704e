(** Proofs for the configurations of the input catalog. *)
From Coq Require Import QArith ZArith List Arith Ascii String Bool Lia.
From Verif Require Import Common TextModel TextProofs DblModel GridModel GridSpec GridProofs GridProofs2 TableModel TableSpec TableProofs AsciiModel
  AsciiProofs3 FitsModel CatalogModel CatalogSpec CatalogProofs ConfigModel CatConfModel CatConfSpec.
Import ListNotations.
Local Open Scope nat_scope.
Local Notation length := List.length.

(** ** User values *)

Lemma option_value_in args key v : NoDup (map fst args) -> (option_value args key = Some v <-> In (key, v) args).
Proof.
  intros N. unfold option_value. induction args as [|[k w] r IH]; [cbn; split; [discriminate|intros []]|].
  cbn [map fst] in N. inversion_clear N as [|? ? N1 N2]. cbn [find fst]. destruct (text_eqb k key) eqn:E.
  - apply text_eqb_iff in E. subst k. cbn [option_map snd]. split.
    + intros H. injection H as <-. left. reflexivity.
    + intros [H|H]; [injection H as ->; reflexivity|]. exfalso. apply N1. change key with (fst (key, v)). apply in_map. exact H.
  - rewrite (IH N2). split; [intros H; right; exact H|]. intros [H|H]; [|exact H].
    injection H as -> ->. rewrite text_eqb_refl in E. discriminate.
Qed.
Lemma option_value_none args key : option_value args key = None <-> forall v, ~ In (key, v) args.
Proof.
  unfold option_value. induction args as [|[k w] r IH]; [cbn; split; [intros _ v []|reflexivity]|].
  cbn [find fst]. destruct (text_eqb k key) eqn:E.
  - apply text_eqb_iff in E. subst k. split; [discriminate|]. intros H. exfalso. apply (H w). left. reflexivity.
  - rewrite IH. split; intros H v; [intros [G|G]; [|exact (H v G)]|intros G; apply (H v); right; exact G].
    injection G as -> _. rewrite text_eqb_refl in E. discriminate.
Qed.
Lemma has_iff args key : has args key = true <-> exists v, In (key, v) args.
Proof.
  unfold has. destruct (option_value args key) eqn:E.
  - split; [intros _|reflexivity]. unfold option_value in E. destruct (find _ args) as [[k w]|] eqn:F; [|discriminate].
    apply find_some in F. cbn [fst] in F. destruct F as [I F]. apply text_eqb_iff in F. subst k. eauto.
  - split; [discriminate|]. intros [v I]. rewrite option_value_none in E. exfalso. exact (E v I).
Qed.
Lemma has_given args s : has args (txt s) = true <-> is_given args s.
Proof. apply has_iff. Qed.
Lemma has_not args s : has args (txt s) = false <-> ~ is_given args s.
Proof. rewrite <- has_given. destruct (has args (txt s)); split; congruence. Qed.
Lemma given_dec args s : {is_given args s} + {~ is_given args s}.
Proof. destruct (has args (txt s)) eqn:E; [left; apply has_given|right; apply has_not]; exact E. Qed.

Lemma at_text_ok args key s : NoDup (map fst args) -> (at_text args key = Ok s <-> In (key, UText s) args).
Proof.
  intros N. rewrite <- (option_value_in args key (UText s) N). unfold at_text.
  destruct (option_value args key) as [[]|]; split; try discriminate; intros H; injection H as <-; reflexivity.
Qed.
Lemma at_int_ok args key z : NoDup (map fst args) -> (at_int args key = Ok z <-> In (key, UInt z) args).
Proof.
  intros N. rewrite <- (option_value_in args key (UInt z) N). unfold at_int.
  destruct (option_value args key) as [[]|]; split; try discriminate; intros H; injection H as <-; reflexivity.
Qed.
Lemma at_double_ok args key d : NoDup (map fst args) -> (at_double args key = Ok d <-> In (key, UDouble d) args).
Proof.
  intros N. rewrite <- (option_value_in args key (UDouble d) N). unfold at_double.
  destruct (option_value args key) as [[]|]; split; try discriminate; intros H; injection H as <-; reflexivity.
Qed.
Lemma at_texts_ok args key l : NoDup (map fst args) -> (at_texts args key = Ok l <-> In (key, UTexts l) args).
Proof.
  intros N. rewrite <- (option_value_in args key (UTexts l) N). unfold at_texts.
  destruct (option_value args key) as [[]|]; split; try discriminate; intros H; injection H as <-; reflexivity.
Qed.
Lemma at_text_outcomes args key : (exists s, at_text args key = Ok s) \/ at_text args key = Throw.
Proof. unfold at_text. destruct (option_value args key) as [[]|]; eauto. Qed.
Lemma at_texts_outcomes args key : (exists s, at_texts args key = Ok s) \/ at_texts args key = Throw.
Proof. unfold at_texts. destruct (option_value args key) as [[]|]; eauto. Qed.
Lemma at_int_outcomes args key : (exists s, at_int args key = Ok s) \/ at_int args key = Throw.
Proof. unfold at_int. destruct (option_value args key) as [[]|]; eauto. Qed.
Lemma at_double_outcomes args key : (exists s, at_double args key = Ok s) \/ at_double args key = Throw.
Proof. unfold at_double. destruct (option_value args key) as [[]|]; eauto. Qed.

Lemma value_unique (args : user_values) key v w : NoDup (map fst args) -> In (key, v) args -> In (key, w) args -> v = w.
Proof.
  intros N A B. apply (option_value_in args key v N) in A. apply (option_value_in args key w N) in B. congruence.
Qed.

Ltac in_declared := unfold declared; repeat (left; reflexivity || right); fail.
Lemma typed_text args s v : parsed args -> In (txt s, KText) declared -> In (txt s, v) args -> exists x, v = UText x.
Proof. intros [_ P] D I. specialize (P _ _ _ I D). destruct v; cbn in P; try contradiction. eauto. Qed.
Lemma typed_int args s v : parsed args -> In (txt s, KInt) declared -> In (txt s, v) args -> exists x, v = UInt x /\ is_int32 x.
Proof. intros [_ P] D I. specialize (P _ _ _ I D). destruct v; cbn in P; try contradiction. eauto. Qed.
Lemma typed_double args s v : parsed args -> In (txt s, KDouble) declared -> In (txt s, v) args -> exists x, v = UDouble x.
Proof. intros [_ P] D I. specialize (P _ _ _ I D). destruct v; cbn in P; try contradiction. eauto. Qed.

Lemma check_index_spec args s : parsed args -> In (txt s, KInt) declared ->
  (check_index args (txt s) = Throw <-> exists z, In (txt s, UInt z) args /\ (z < 1)%Z)
  /\ (check_index args (txt s) = Ok tt <-> forall z, In (txt s, UInt z) args -> (1 <= z)%Z).
Proof.
  intros P D. unfold check_index. destruct (has args (txt s)) eqn:H.
  - apply has_iff in H. destruct H as [v I]. destruct (typed_int args s v P D I) as [z [-> R]].
    destruct P as [N P]. rewrite (proj2 (at_int_ok args (txt s) z N) I). cbn [bind].
    destruct (Z.ltb_spec z 1) as [L|L].
    + split; [split; [eauto|reflexivity]|]. split; [discriminate|]. intros G. specialize (G z I). lia.
    + split; split.
      * discriminate.
      * intros [z' [I' L']]. assert (X := value_unique _ _ _ _ N I I'). injection X as ->. lia.
      * intros _ z' I'. assert (X := value_unique _ _ _ _ N I I'). injection X as ->. exact L.
      * reflexivity.
  - assert (NH : forall v, ~ In (txt s, v) args).
    { intros v I. assert (X : has args (txt s) = true) by (apply has_iff; eauto). congruence. }
    split; split.
    + discriminate.
    + intros [z [I _]]. exfalso. exact (NH _ I).
    + intros _ z I. exfalso. exact (NH _ I).
    + reflexivity.
Qed.
Lemma check_index_outcomes args s : parsed args -> In (txt s, KInt) declared ->
  check_index args (txt s) = Ok tt \/ check_index args (txt s) = Throw.
Proof.
  intros P D. destruct (check_index args (txt s)) as [[]| | |] eqn:E; auto; exfalso; unfold check_index in E;
    destruct (has _ _); try discriminate; destruct (at_int_outcomes args (txt s)) as [[z X]|X]; rewrite X in E; cbn [bind] in E;
    try discriminate; destruct (Z.ltb z 1); discriminate.
Qed.

Lemma declared_id_name : In (txt "source-id-column-name", KText) declared. Proof. cbv [declared]. cbn [In]. tauto. Qed.
Lemma declared_id_index : In (txt "source-id-column-index", KInt) declared. Proof. cbv [declared]. cbn [In]. tauto. Qed.
Lemma declared_format : In (txt "input-catalog-format", KText) declared. Proof. cbv [declared]. cbn [In]. tauto. Qed.
Lemma declared_z_name : In (txt "spec-z-column-name", KText) declared. Proof. cbv [declared]. cbn [In]. tauto. Qed.
Lemma declared_z_index : In (txt "spec-z-column-index", KInt) declared. Proof. cbv [declared]. cbn [In]. tauto. Qed.
Lemma declared_e_name : In (txt "spec-z-err-column-name", KText) declared. Proof. cbv [declared]. cbn [In]. tauto. Qed.
Lemma declared_e_index : In (txt "spec-z-err-column-index", KInt) declared. Proof. cbv [declared]. cbn [In]. tauto. Qed.
Lemma declared_missing : In (txt "missing-photometry-flag", KDouble) declared. Proof. cbv [declared]. cbn [In]. tauto. Qed.
Lemma declared_upper : In (txt "enable-upper-limit", KText) declared. Proof. cbv [declared]. cbn [In]. tauto. Qed.
Lemma declared_threshold : In (txt "upper-limit-use-threshod-flag", KDouble) declared. Proof. cbv [declared]. cbn [In]. tauto. Qed.

Lemma cat_pre_initialize_spec args : parsed args ->
  (cat_pre_initialize args = Throw <-> bad_catalog_options args)
  /\ (cat_pre_initialize args = Ok tt <-> ~ bad_catalog_options args).
Proof.
  intros P.
  assert (X : cat_pre_initialize args = Throw /\ bad_catalog_options args \/ cat_pre_initialize args = Ok tt /\ ~ bad_catalog_options args).
  { unfold cat_pre_initialize. destruct (has args ID_NAME && has args ID_INDEX) eqn:B.
    - left. split; [reflexivity|]. apply andb_true_iff in B. destruct B as [B1 B2]. apply bad_both; apply has_given; assumption.
    - destruct (check_index_spec args "source-id-column-index" P declared_id_index) as [C1 C2].
      change (txt "source-id-column-index") with ID_INDEX in C1, C2.
      assert (NB : ~ (is_given args "source-id-column-name" /\ is_given args "source-id-column-index")).
      { intros [G1 G2]. apply has_given in G1. apply has_given in G2. unfold ID_NAME, ID_INDEX in B. rewrite G1, G2 in B. discriminate. }
      destruct (check_index_outcomes args "source-id-column-index" P declared_id_index) as [E|E];
        change (txt "source-id-column-index") with ID_INDEX in E; rewrite E; cbn [bind].
      2:{ left. split; [reflexivity|]. apply C1 in E. destruct E as [z [I L]]. exact (bad_index args z I L). }
      assert (NI := proj1 C2 E).
      destruct (has args CATALOG_FORMAT) eqn:F.
      + apply has_iff in F. destruct F as [v I]. destruct (typed_text args _ v P declared_format I) as [f ->].
        assert (N := proj1 P). rewrite (proj2 (at_text_ok args CATALOG_FORMAT f N) I). cbn [bind].
        destruct (negb (text_eqb f (txt "AUTO")) && negb (text_eqb f (txt "FITS")) && negb (text_eqb f (txt "ASCII"))) eqn:Q.
        * left. split; [reflexivity|]. apply (bad_format args f I). apply andb_true_iff in Q. destruct Q as [Q Q3].
          apply andb_true_iff in Q. destruct Q as [Q1 Q2]. intros [H|[H|[H|[]]]]; subst f.
          -- rewrite text_eqb_refl in Q1. discriminate.
          -- rewrite text_eqb_refl in Q2. discriminate.
          -- rewrite text_eqb_refl in Q3. discriminate.
        * right. split; [reflexivity|]. intros [G1 G2|z J L|f' J M].
          -- apply NB. auto.
          -- specialize (NI z J). lia.
          -- assert (Y := value_unique _ _ _ _ N I J). injection Y as <-. apply M.
             destruct (text_eqb f (txt "AUTO")) eqn:Q1; [apply text_eqb_iff in Q1; left; auto|].
             destruct (text_eqb f (txt "FITS")) eqn:Q2; [apply text_eqb_iff in Q2; right; left; auto|].
             destruct (text_eqb f (txt "ASCII")) eqn:Q3; [apply text_eqb_iff in Q3; right; right; left; auto|]. discriminate Q.
      + right. split; [reflexivity|]. intros [G1 G2|z J L|f' J M].
        * apply NB. auto.
        * specialize (NI z J). lia.
        * assert (Y : has args CATALOG_FORMAT = true) by (apply has_iff; eauto). congruence. }
  destruct X as [[E X]|[E X]]; rewrite E; split; split; intros; try discriminate; try tauto.
Qed.

Lemma specz_pre_initialize_spec args : parsed args ->
  (specz_pre_initialize args = Throw <-> bad_redshift_options args)
  /\ (specz_pre_initialize args = Ok tt <-> ~ bad_redshift_options args).
Proof.
  intros P.
  assert (X : specz_pre_initialize args = Throw /\ bad_redshift_options args \/ specz_pre_initialize args = Ok tt /\ ~ bad_redshift_options args).
  { unfold specz_pre_initialize. destruct (has args SPECZ_NAME && has args SPECZ_INDEX) eqn:B.
    { left. split; [reflexivity|]. apply andb_true_iff in B. destruct B as [B1 B2]. apply bad_z_both; apply has_given; assumption. }
    destruct (negb (has args SPECZ_NAME) && negb (has args SPECZ_INDEX)) eqn:B'.
    { left. split; [reflexivity|]. apply andb_true_iff in B'. destruct B' as [B1 B2]. apply negb_true_iff in B1. apply negb_true_iff in B2.
      apply bad_z_none; apply has_not; assumption. }
    destruct (check_index_spec args "spec-z-column-index" P declared_z_index) as [C1 C2].
    change (txt "spec-z-column-index") with SPECZ_INDEX in C1, C2.
    destruct (check_index_outcomes args "spec-z-column-index" P declared_z_index) as [E|E];
      change (txt "spec-z-column-index") with SPECZ_INDEX in E; rewrite E; cbn [bind].
    2:{ left. split; [reflexivity|]. apply C1 in E. destruct E as [z [I L]]. exact (bad_z_index args z I L). }
    destruct (has args SPECZ_ERR_NAME && has args SPECZ_ERR_INDEX) eqn:D.
    { left. split; [reflexivity|]. apply andb_true_iff in D. destruct D as [B1 B2]. apply bad_e_both; apply has_given; assumption. }
    destruct (check_index_spec args "spec-z-err-column-index" P declared_e_index) as [D1 D2].
    change (txt "spec-z-err-column-index") with SPECZ_ERR_INDEX in D1, D2.
    destruct (check_index_outcomes args "spec-z-err-column-index" P declared_e_index) as [F|F];
      change (txt "spec-z-err-column-index") with SPECZ_ERR_INDEX in F; rewrite F.
    2:{ left. split; [reflexivity|]. apply D1 in F. destruct F as [z [I L]]. exact (bad_e_index args z I L). }
    right. split; [reflexivity|]. assert (CE := proj1 C2 E). assert (DF := proj1 D2 F).
    intros [G1 G2|G1 G2|z I L|G1 G2|z I L].
    - apply has_given in G1. apply has_given in G2. unfold SPECZ_NAME, SPECZ_INDEX in B. rewrite G1, G2 in B. discriminate.
    - apply has_not in G1. apply has_not in G2. unfold SPECZ_NAME, SPECZ_INDEX in B'. rewrite G1, G2 in B'. discriminate.
    - specialize (CE z I). lia.
    - apply has_given in G1. apply has_given in G2. unfold SPECZ_ERR_NAME, SPECZ_ERR_INDEX in D. rewrite G1, G2 in D. discriminate.
    - specialize (DF z I). lia. }
  destruct X as [[E X]|[E X]]; rewrite E; split; split; intros; try discriminate; try tauto.
Qed.

(** ** Files *)

Lemma is_relative_iff p : is_relative p = false <-> absolute p.
Proof.
  unfold absolute. destruct p as [|c r]; cbn [is_relative].
  - split; [discriminate|]. intros [r H]. discriminate.
  - destruct (Ascii.eqb c "/") eqn:E; cbn [negb].
    + apply ascii_eqb_spec in E. subst c. split; [eauto|reflexivity].
    + split; [discriminate|]. intros [r' H]. injection H as -> _. rewrite Ascii.eqb_refl in E. discriminate.
Qed.
Lemma resolved_iff base given file :
  (if is_relative given then join_path base given else given) = file <-> resolved base given file.
Proof.
  destruct (is_relative given) eqn:R.
  - assert (NA : ~ absolute given) by (rewrite <- is_relative_iff; congruence).
    unfold join_path. destruct given as [|g gs] eqn:G.
    + split; [intros <-; apply res_empty; reflexivity|].
      intros [A|_ E|b _ E|b c _ N _ _|_]; try reflexivity.
      * contradiction.
      * symmetry. exact E || (rewrite E; reflexivity).
      * rewrite app_nil_r. reflexivity.
      * congruence.
    + rewrite <- G in *. assert (NN : given <> []) by (rewrite G; discriminate). clear G.
      destruct base as [|b0 bs] eqn:B.
      * split; [intros <-; apply res_no_base; auto|]. intros [A|_ E|b _ E|b c _ N E _|E]; try reflexivity; try contradiction.
        destruct b; discriminate E.
      * rewrite <- B in *. assert (NB : base <> []) by (rewrite B; discriminate). clear B.
        destruct (exists_last NB) as [b [c E]]. rewrite E at 1. rewrite last_last. destruct (Ascii.eqb c "/") eqn:Q.
        -- apply ascii_eqb_spec in Q. subst c. split.
           ++ intros <-. apply (res_after_slash base given b NA). exact E.
           ++ intros [A|_ E'|b' _ E'|b' c _ N E' Nc|E']; try reflexivity; try contradiction.
              rewrite E in E'. apply app_inj_tail in E'. destruct E' as [_ <-]. contradiction.
        -- split.
           ++ intros <-. change (base ++ "/"%char :: given) with (base ++ txt "/" ++ given). apply (res_in_base base given b c); auto.
              intros ->. rewrite Ascii.eqb_refl in Q. discriminate.
           ++ intros [A|_ E'|b' _ E'|b' c' _ N E' Nc|E']; try reflexivity; try contradiction.
              rewrite E in E'. change (txt "/") with ["/"%char] in E'. apply app_inj_tail in E'. destruct E' as [_ ->].
              rewrite Ascii.eqb_refl in Q. discriminate.
  - apply is_relative_iff in R. split; [intros <-; apply res_absolute; exact R|].
    intros [A|A|b A|b c A|E]; try reflexivity; try contradiction. subst given. destruct R as [r R]. discriminate R.
Qed.
Lemma resolved_unique base given f g : resolved base given f -> resolved base given g -> f = g.
Proof. intros A B. apply resolved_iff in A. apply resolved_iff in B. congruence. Qed.

Lemma file_from_options_ok fs key args base file : NoDup (map fst args) ->
  (file_from_options fs key args base = Ok file <->
   exists given bytes, In (key, UText given) args /\ resolved base given file /\ fs file = Regular bytes).
Proof.
  intros N. unfold file_from_options. split.
  - destruct (at_text args key) as [g| | |] eqn:A; cbn [bind]; try discriminate. apply at_text_ok in A; [|exact N].
    set (f := if is_relative g then join_path base g else g). destruct (fs f) as [| |b] eqn:F; try discriminate.
    intros H. injection H as <-. exists g, b. split; [exact A|]. split; [apply resolved_iff; reflexivity|exact F].
  - intros [g [b [I [R F]]]]. apply (at_text_ok args key g N) in I. rewrite I. cbn [bind]. apply resolved_iff in R. rewrite R, F. reflexivity.
Qed.
Lemma file_from_options_outcomes fs key args base :
  (exists f, file_from_options fs key args base = Ok f) \/ file_from_options fs key args base = Throw.
Proof.
  unfold file_from_options. destruct (at_text_outcomes args key) as [[g ->]| ->]; cbn [bind]; [|auto]. destruct (fs _); eauto.
Qed.

(** The first bytes. *)
Lemma until_nul_ok s h : until_nul s = Ok h <-> exists r, s = h ++ nul :: r /\ ~ In nul h.
Proof.
  revert h. induction s as [|c s IH]; intros h; cbn [until_nul].
  - split; [discriminate|]. intros [r [H _]]. destruct h; discriminate.
  - destruct (Ascii.eqb c nul) eqn:E.
    + apply ascii_eqb_spec in E. subst c. split.
      * intros H. injection H as <-. exists s. split; [reflexivity|intros []].
      * intros [r [H N]]. destruct h as [|x h]; [reflexivity|]. injection H as <- _. exfalso. apply N. left. reflexivity.
    + destruct (until_nul s) as [t| | |] eqn:U; cbn [bind].
      1:{ destruct (proj1 (IH t) eq_refl) as [r [Es Nt]]. split.
        - intros H. injection H as <-. exists r. split; [rewrite Es; reflexivity|]. intros [X|X]; [|exact (Nt X)].
          subst c. rewrite Ascii.eqb_refl in E. discriminate.
        - intros [r' [H N]]. destruct h as [|x h].
          + injection H as -> _. rewrite Ascii.eqb_refl in E. discriminate.
          + injection H as <- H. assert (Y : Ok t = Ok h); [|injection Y as ->; reflexivity].
            apply IH. exists r'. split; [exact H|]. intros X. apply N. right. exact X. }
      all: split; [discriminate|]; intros [r' [H N]]; destruct h as [|x h];
        [injection H as -> _; rewrite Ascii.eqb_refl in E; discriminate|]; injection H as <- H; exfalso;
        assert (Y := proj2 (IH h)); discriminate Y; exists r'; (split; [exact H|]); intros X; apply N; right; exact X.
Qed.
Lemma until_nul_in s : In nul s -> exists h, until_nul s = Ok h.
Proof.
  induction s as [|c s IH]; [intros []|]. intros I. cbn [until_nul]. destruct (Ascii.eqb c nul) eqn:E; [eauto|].
  destruct I as [->|I]; [rewrite Ascii.eqb_refl in E; discriminate|]. destruct (IH I) as [h ->]. cbn [bind]. eauto.
Qed.
Lemma until_nul_none s : ~ In nul s -> until_nul s = UB.
Proof.
  induction s as [|c s IH]; [reflexivity|]. intros N. cbn [until_nul]. destruct (Ascii.eqb c nul) eqn:E.
  - apply ascii_eqb_spec in E. subst c. exfalso. apply N. left. reflexivity.
  - rewrite IH; [reflexivity|]. intros X. apply N. right. exact X.
Qed.

Lemma firstn_prefix {A} (p s : list A) : (exists r, s = p ++ r) <-> firstn (length p) s = p.
Proof.
  split.
  - intros [r ->]. rewrite firstn_app, Nat.sub_diag, firstn_all, app_nil_r. reflexivity.
  - intros E. exists (skipn (length p) s). rewrite <- E at 1. symmetry. apply firstn_skipn.
Qed.

Lemma detect_spec junk bytes : 9 <= length bytes -> In nul (firstn 80 bytes ++ junk) ->
  exists b, detect_fits junk bytes = Ok b /\ (b = true <-> exists r, bytes = txt "SIMPLE  =" ++ r).
Proof.
  intros L I. unfold detect_fits, first_header. destruct (until_nul_in _ I) as [h U]. rewrite U. cbn [bind]. eexists. split; [reflexivity|].
  assert (W : text_eqb (firstn 9 h) (txt "SIMPLE  =") = true <-> exists t, h = txt "SIMPLE  =" ++ t).
  { rewrite text_eqb_iff. symmetry. exact (firstn_prefix (txt "SIMPLE  =") h). }
  rewrite W. clear W.
  apply until_nul_ok in U. destruct U as [r [E N]]. split.
  - intros [t Eh]. rewrite Eh in E. apply firstn_prefix.
    assert (F : firstn 9 (firstn 80 bytes ++ junk) = firstn 9 bytes).
    { rewrite firstn_app, firstn_firstn, firstn_length. replace (9 - Nat.min 80 (length bytes)) with 0 by lia.
      rewrite firstn_O, app_nil_r. reflexivity. }
    change (length (txt "SIMPLE  =")) with 9. rewrite <- F, E. reflexivity.
  - intros [t Eb]. exists (skipn 9 h).
    assert (F : firstn 9 (firstn 80 bytes ++ junk) = txt "SIMPLE  =") by (rewrite Eb; reflexivity).
    rewrite E in F. destruct (Nat.le_gt_cases 9 (length h)) as [G|G].
    + rewrite firstn_app in F. replace (9 - length h) with 0 in F by lia. rewrite firstn_O, app_nil_r in F.
      rewrite <- F. symmetry. apply firstn_skipn.
    + exfalso. assert (X : In nul (firstn 9 (h ++ nul :: r))).
      { rewrite firstn_app. apply in_or_app. right. destruct (9 - length h) as [|k] eqn:K; [lia|]. left. reflexivity. }
      rewrite F in X. vm_compute in X. repeat (destruct X as [X|X]; [discriminate X|]). exact X.
Qed.
