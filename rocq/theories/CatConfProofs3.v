(** Proofs for the configurations of the input catalog: attributes and programs. *)
From Coq Require Import QArith ZArith List Arith Ascii String Bool Lia.
From Verif Require Import Common TextModel TextProofs DblModel GridModel GridSpec TableModel TableSpec TableProofs AsciiModel
  AsciiProofs3 FitsModel CatalogModel CatalogSpec CatalogProofs ConfigModel CatConfModel CatConfSpec CatConfProofs CatConfProofs2.
Import ListNotations.
Local Open Scope nat_scope.
Local Notation length := List.length.

(** ** Densities *)

Lemma map_at_cons {V} k (v : V) m n : map_at ((k, v) :: m) n = if text_eqb k n then Ok v else map_at m n.
Proof. unfold map_at. cbn [find fst]. destruct (text_eqb k n); reflexivity. Qed.
Lemma map_at_app {V} (a b : list (text * V)) n : map_at (a ++ b) n = match map_at a n with Ok x => Ok x | _ => map_at b n end.
Proof.
  induction a as [|[k v] a IH]; [reflexivity|]. cbn [app]. rewrite !map_at_cons. destruct (text_eqb k n); [reflexivity|exact IH].
Qed.
Lemma map_at_outcomes {V} (m : list (text * V)) n : (exists v, map_at m n = Ok v) \/ map_at m n = Throw.
Proof. unfold map_at. destruct (find _ m); eauto. Qed.
Lemma map_at_throw {V} (m : list (text * V)) n : map_at m n = Throw <-> ~ In n (map fst m).
Proof.
  induction m as [|[k v] m IH]; [cbn; tauto|]. rewrite map_at_cons. cbn [map fst In]. destruct (text_eqb k n) eqn:E.
  - apply text_eqb_iff in E. split; [discriminate|tauto].
  - rewrite IH. split; [|tauto]. intros H [X|X]; [|exact (H X)]. subst k. rewrite text_eqb_refl in E. discriminate.
Qed.
Lemma map_at_in {V} (m : list (text * V)) n v : NoDup (map fst m) -> (map_at m n = Ok v <-> In (n, v) m).
Proof.
  induction m as [|[k w] m IH]; [cbn; split; [discriminate|intros []]|]. rewrite map_at_cons. cbn [map fst]. intros N.
  inversion_clear N as [|? ? N1 N2]. cbn [In]. destruct (text_eqb k n) eqn:E.
  - apply text_eqb_iff in E. subst k. split; [intros H; injection H as ->; auto|].
    intros [H|H]; [injection H as ->; reflexivity|]. exfalso. apply N1. change n with (fst (n, v)). apply in_map. exact H.
  - rewrite (IH N2). split; [auto|]. intros [H|H]; [|exact H]. injection H as -> ->. rewrite text_eqb_refl in E. discriminate.
Qed.
Lemma existsb_key {V} (m : list (text * V)) k : existsb (fun p => text_eqb (fst p) k) m = true <-> In k (map fst m).
Proof.
  rewrite existsb_exists. split.
  - intros [[k' v] [I E]]. cbn [fst] in E. apply text_eqb_iff in E. subst k'. change k with (fst (k, v)). apply in_map. exact I.
  - intros I. apply in_map_iff in I. destruct I as [[k' v] [E I]]. cbn [fst] in E. subst k'. exists (k, v). split; [exact I|apply text_eqb_refl].
Qed.
Lemma emplace_at {V} (m : list (text * V)) k v n :
  map_at (emplace m k v) n = match map_at m n with Ok x => Ok x | _ => if text_eqb k n then Ok v else Throw end.
Proof.
  unfold emplace. destruct (existsb _ m) eqn:E.
  - apply existsb_key in E. destruct (map_at_outcomes m n) as [[x X]|X]; rewrite X; [reflexivity|].
    destruct (text_eqb k n) eqn:K; [|reflexivity]. apply text_eqb_iff in K. subst n. apply map_at_throw in X. contradiction.
  - rewrite map_at_app, map_at_cons. reflexivity.
Qed.
Lemma emplace_nodup {V} (m : list (text * V)) k v : NoDup (map fst m) -> NoDup (map fst (emplace m k v)).
Proof.
  intros N. unfold emplace. destruct (existsb _ m) eqn:E; [exact N|]. rewrite map_app. cbn [map fst].
  assert (NI : ~ In k (map fst m)) by (rewrite <- existsb_key; congruence).
  apply NoDup_Add with (a := k) (l := map fst m); [|split; assumption].
  rewrite <- (app_nil_r (map fst m)) at 1. apply Add_app.
Qed.

Section Pdfs.
Variable K : Type.
Variable strtod : text -> option dbl.
Implicit Types calls : list (text * text * list K).

Definition first_call calls name := find (fun c => text_eqb (fst (fst c)) name) calls.
Lemma registered_iff calls name column knots : registered calls name column knots <-> first_call calls name = Some (name, column, knots).
Proof.
  unfold registered, first_call. induction calls as [|[[n c] k] calls IH].
  - cbn. split; [|discriminate]. intros [b [a [H _]]]. destruct b; discriminate.
  - cbn [find fst]. destruct (text_eqb n name) eqn:E.
    + apply text_eqb_iff in E. subst n. split.
      * intros [b [a [H NI]]]. destruct b as [|x b]; [injection H as -> -> _; reflexivity|]. injection H as <- _.
        exfalso. apply NI. left. reflexivity.
      * intros H. injection H as -> ->. exists [], calls. split; [reflexivity|intros []].
    + rewrite <- IH. split.
      * intros [b [a [H NI]]]. destruct b as [|x b]; [injection H as -> _ _ _; rewrite text_eqb_refl in E; discriminate|].
        injection H as <- H. exists b, a. split; [exact H|]. intros X. apply NI. right. exact X.
      * intros [b [a [H NI]]]. exists ((n, c, k) :: b), a. split; [rewrite H; reflexivity|]. cbn [map fst]. intros [X|X]; [|exact (NI X)].
        subst n. rewrite text_eqb_refl in E. discriminate.
Qed.
Lemma first_call_none calls name : first_call calls name = None <-> ~ In name (map (fun c => fst (fst c)) calls).
Proof.
  unfold first_call. induction calls as [|[[n c] k] calls IH]; [cbn; tauto|]. cbn [find fst map In]. destruct (text_eqb n name) eqn:E.
  - apply text_eqb_iff in E. split; [discriminate|tauto].
  - rewrite IH. split; [|tauto]. intros H [X|X]; [|exact (H X)]. subst n. rewrite text_eqb_refl in E. discriminate.
Qed.
Lemma first_call_name calls name x : first_call calls name = Some x -> fst (fst x) = name.
Proof. unfold first_call. intros H. apply find_some in H. destruct H as [_ H]. apply text_eqb_iff. exact H. Qed.

Lemma add_pdf_columns_ok s calls : at_least_initialized s = false -> forall f, exists f',
  add_pdf_columns s f calls = Ok f'
  /\ (NoDup (map fst (pf_keys f)) -> NoDup (map fst (pf_keys f')))
  /\ (forall n, map_at (pf_keys f') n = match map_at (pf_keys f) n with Ok x => Ok x | _ =>
        match first_call calls n with Some c => Ok (snd c) | None => Throw end end)
  /\ (forall n, map_at (pf_columns f') n = match map_at (pf_columns f) n with Ok x => Ok x | _ =>
        match first_call calls n with Some c => Ok (snd (fst c)) | None => Throw end end).
Proof.
  intros E. induction calls as [|[[n c] k] calls IH]; intros f.
  - cbn [add_pdf_columns]. exists f. split; [reflexivity|]. split; [auto|]. split; intros n; cbn [first_call find].
    + destruct (map_at_outcomes (pf_keys f) n) as [[x X]|X]; rewrite X; reflexivity.
    + destruct (map_at_outcomes (pf_columns f) n) as [[x X]|X]; rewrite X; reflexivity.
  - cbn [add_pdf_columns]. unfold add_pdf_column at 1. rewrite E. cbn [bind].
    destruct (IH (mkPdfFr (emplace (pf_keys f) n k) (emplace (pf_columns f) n c))) as [f' [H1 [H2 [H3 H4]]]].
    exists f'. split; [exact H1|]. cbn [pf_keys pf_columns] in *. split; [intros N; apply H2; apply emplace_nodup; exact N|].
    unfold first_call in *. split; intros m; [rewrite H3|rewrite H4]; rewrite emplace_at; cbn [find fst].
    + destruct (map_at_outcomes (pf_keys f) m) as [[x X]|X]; rewrite X; [reflexivity|]. destruct (text_eqb n m); reflexivity.
    + destruct (map_at_outcomes (pf_columns f) m) as [[x X]|X]; rewrite X; [reflexivity|]. destruct (text_eqb n m); reflexivity.
Qed.

Lemma pdf_view_read name (knots : list K) data : length data = length knots ->
  pdf_of (mkPdf (new_view [mkAxis name knots]) data) knots data.
Proof.
  intros L. unfold pdf_of. cbn [pdf_view pdf_cells]. split; [exists name; reflexivity|]. split; [exact L|]. intros i.
  unfold at_read, at_pos. cbn. unfold ax_size. cbn. rewrite andb_false_r. cbn [negb].
  destruct (Nat.leb (length knots) i) eqn:E; cbn [negb bind].
  - apply Nat.leb_le in E. rewrite (proj2 (nth_error_None data i)) by lia. reflexivity.
  - apply Nat.leb_gt in E. replace (i * 1 + 0) with i by lia. destruct (nth_error data i) eqn:X; [reflexivity|].
    apply nth_error_None in X. lia.
Qed.
Lemma one_pdf_ok f r name (knots : list K) p : one_pdf strtod f r name knots = Ok p <->
  exists column c data, map_at (pf_columns f) name = Ok column /\ row_named r column = Ok c /\ cast_vdouble strtod c = Ok data
    /\ length data = length knots /\ p = mkPdf (new_view [mkAxis (string_of_list_ascii name) knots]) data.
Proof.
  unfold one_pdf. assert (SZ : view_size (new_view [mkAxis (string_of_list_ascii name) knots]) = length knots).
  { unfold view_size. cbn. unfold ax_size. cbn. lia. }
  rewrite SZ. rewrite bind_ok. split.
  - intros [column [A H]]. apply bind_ok in H. destruct H as [c [B H]]. apply bind_ok in H. destruct H as [data [C H]].
    destruct (Nat.eqb_spec (length data) (length knots)) as [L|L]; cbn [negb] in H; [|discriminate]. injection H as <-. exists column, c, data. auto.
  - intros [column [c [data [A [B [C [L ->]]]]]]]. exists column. split; [exact A|]. rewrite B. cbn [bind]. rewrite C. cbn [bind].
    rewrite (proj2 (Nat.eqb_eq _ _) L). reflexivity.
Qed.
Lemma map_pdfs_at (g : text -> list K -> outcome (pdf K)) keys : forall pdfs,
  map_o (fun pair => do p <- g (fst pair) (snd pair); Ok (fst pair, p)) keys = Ok pdfs ->
  forall n, map_at pdfs n = match map_at keys n with Ok k => g n k | _ => Throw end.
Proof.
  induction keys as [|[k ks] keys IH]; intros pdfs H n; cbn [map_o] in H.
  - injection H as <-. reflexivity.
  - apply bind_ok in H. destruct H as [q [H1 H]]. apply bind_ok in H. destruct H as [rest [H2 H]]. injection H as <-.
    cbn [fst snd] in H1. apply bind_ok in H1. destruct H1 as [p [H1 H3]]. injection H3 as <-. rewrite !map_at_cons.
    destruct (text_eqb k n) eqn:E; [|apply IH; exact H2]. apply text_eqb_iff in E. subst k. symmetry. exact H1.
Qed.
Lemma create_pdfs_spec calls f r : add_pdf_columns Constructed (mkPdfFr [] []) calls = Ok f ->
  (forall pdfs, create_pdfs strtod f r = Ok pdfs -> pdfs_of strtod calls r pdfs)
  /\ ((exists pdfs, pdfs_of strtod calls r pdfs) -> exists pdfs, create_pdfs strtod f r = Ok pdfs).
Proof.
  intros E. destruct (add_pdf_columns_ok Constructed calls eq_refl (mkPdfFr [] [])) as [f' [E' [N [HK HC]]]].
  rewrite E in E'. injection E' as <-. cbn [pf_keys pf_columns map] in *. specialize (N (NoDup_nil _)).
  assert (HK' : forall n, map_at (pf_keys f) n = match first_call calls n with Some c => Ok (snd c) | None => Throw end) by exact HK.
  assert (HC' : forall n, map_at (pf_columns f) n = match first_call calls n with Some c => Ok (snd (fst c)) | None => Throw end) by exact HC.
  clear HK HC. split.
  - intros pdfs H. unfold create_pdfs in H. assert (M := map_pdfs_at (one_pdf strtod f r) (pf_keys f) pdfs H). split.
    + intros name column knots R. apply registered_iff in R. specialize (M name). rewrite HK', R in M. cbn [snd] in M.
      assert (X : exists p, one_pdf strtod f r name knots = Ok p).
      { assert (I : In (name, knots) (pf_keys f)) by (apply map_at_in; [exact N|]; rewrite HK', R; reflexivity).
        apply map_o_ok in H. apply In_nth_error in I. destruct I as [k Ek].
        clear - H Ek. revert k Ek. induction H as [|a b la lb H F IH]; intros k Ek; [destruct k; discriminate|].
        destruct k as [|k]; [injection Ek as ->|eapply IH; exact Ek]. cbn [fst snd] in H. apply bind_ok in H. destruct H as [p [H _]]. eauto. }
      destruct X as [p X]. rewrite X in M. apply one_pdf_ok in X. destruct X as [column' [c [data [A [B [C [L ->]]]]]]].
      rewrite HC', R in A. cbn [snd fst] in A. injection A as <-. exists c, data. eexists. split; [exact B|]. split; [exact C|]. split; [exact M|].
      apply pdf_view_read. exact L.
    + intros name NI. apply first_call_none in NI. unfold get_pdf. rewrite M, HK', NI. reflexivity.
  - intros [pdfs [P _]]. unfold create_pdfs.
    assert (A : forall name knots, In (name, knots) (pf_keys f) -> exists p, one_pdf strtod f r name knots = Ok p).
    { intros name knots I. apply (map_at_in _ _ _ N) in I. rewrite HK' in I. destruct (first_call calls name) as [[[n c] k]|] eqn:F; [|discriminate].
      cbn [snd] in I. injection I as ->. assert (Fn := first_call_name _ _ _ F). cbn [fst] in Fn. subst n.
      destruct (P name c knots) as [cell [data [p [P1 [P2 [_ [_ [L _]]]]]]]]; [apply registered_iff; exact F|].
      eexists. apply one_pdf_ok. exists c, cell, data. split; [rewrite HC', F; reflexivity|]. auto. }
    clear - A. induction (pf_keys f) as [|[name knots] keys IH]; [exists []; reflexivity|].
    destruct (A name knots) as [p E]; [left; reflexivity|]. destruct IH as [rest R]; [intros n k I; apply A; right; exact I|].
    cbn [map_o fst snd]. rewrite E. cbn [bind]. rewrite R. cbn [bind]. eauto.
Qed.
End Pdfs.

(** ** Settings of the photometry *)

Lemma phot_settings_ok args : parsed args -> exists s, phot_settings args = Ok s
  /\ (pc_missing_on s = true <-> is_given args "missing-photometry-flag")
  /\ (pc_upper_on s = true <-> In (txt "enable-upper-limit", UText (txt "YES")) args)
  /\ number_or args "missing-photometry-flag" (Fin (-99)%Q) (pc_missing_flag s)
  /\ number_or args "upper-limit-use-threshod-flag" (Fin (-99)%Q) (pc_upper_flag s).
Proof.
  intros P. assert (N := proj1 P). unfold phot_settings, number_or.
  change ENABLE_UPPER_LIMIT with (txt "enable-upper-limit"). change THRESHOLD_FLAG with (txt "upper-limit-use-threshod-flag").
  change MISSING_FLAG with (txt "missing-photometry-flag").
  assert (U : exists u, (if has args (txt "enable-upper-limit") then do s <- at_text args (txt "enable-upper-limit"); Ok (text_eqb s (txt "YES")) else Ok false) = Ok u
    /\ (u = true <-> In (txt "enable-upper-limit", UText (txt "YES")) args)).
  { destruct (has args (txt "enable-upper-limit")) eqn:H.
    - apply has_iff in H. destruct H as [v I]. destruct (typed_text args _ v P declared_upper I) as [x ->].
      rewrite (proj2 (at_text_ok args _ x N) I). cbn [bind]. eexists. split; [reflexivity|]. rewrite text_eqb_iff. split; [intros ->; exact I|].
      intros J. assert (Y := value_unique _ _ _ _ N I J). congruence.
    - exists false. split; [reflexivity|]. split; [discriminate|]. intros I. exfalso. apply has_not in H. apply H. eexists. exact I. }
  destruct U as [u [-> U]]. cbn [bind].
  assert (T : exists d, (if has args (txt "upper-limit-use-threshod-flag") then at_double args (txt "upper-limit-use-threshod-flag") else Ok minus_99) = Ok d
    /\ (In (txt "upper-limit-use-threshod-flag", UDouble d) args \/ ~ is_given args "upper-limit-use-threshod-flag" /\ d = Fin (-99)%Q)).
  { destruct (has args (txt "upper-limit-use-threshod-flag")) eqn:H.
    - apply has_iff in H. destruct H as [v I]. destruct (typed_double args _ v P declared_threshold I) as [x ->].
      exists x. split; [apply at_double_ok; assumption|left; exact I].
    - exists minus_99. split; [reflexivity|]. right. split; [apply has_not; exact H|reflexivity]. }
  destruct T as [d [-> T]]. cbn [bind].
  destruct (has args (txt "missing-photometry-flag")) eqn:H.
  - assert (G := H). apply has_given in G. apply has_iff in H. destruct H as [v I]. destruct (typed_double args _ v P declared_missing I) as [x ->].
    rewrite (proj2 (at_double_ok args _ x N) I). cbn [bind]. eexists. split; [reflexivity|]. cbn [pc_missing_on pc_upper_on pc_missing_flag pc_upper_flag].
    split; [tauto|]. split; [exact U|]. split; [left; exact I|exact T].
  - apply has_not in H. eexists. split; [reflexivity|]. cbn [pc_missing_on pc_upper_on pc_missing_flag pc_upper_flag].
    split; [split; [discriminate|contradiction]|]. split; [exact U|]. split; [right; split; [exact H|reflexivity]|exact T].
Qed.
Lemma number_or_unique args s d x y : NoDup (map fst args) -> number_or args s d x -> number_or args s d y -> x = y.
Proof.
  intros N [A|[A ->]] [B|[B ->]]; try reflexivity.
  - assert (Y := value_unique _ _ _ _ N A B). congruence.
  - exfalso. apply B. eexists. exact A.
  - exfalso. apply A. eexists. exact B.
Qed.

Lemma init_aligned stof content exclude m t c : init_bands stof content exclude = Ok (m, t, c) -> length c = length t.
Proof.
  unfold init_bands. rewrite bind_ok. intros [[[m0 t0] c0] [P H]]. unfold parse_file in P. apply parse_names in P. destruct P as [P1 P2].
  destruct (keep_mapping exclude m0) as [m' unk]. destruct unk; [|discriminate]. injection H as <- <- <-.
  assert (E : names c0 = names t0) by congruence. assert (W := without_names exclude c0 t0 E). rewrite !without_filter in W.
  apply (f_equal (@List.length text)) in W. unfold names in W. rewrite !map_length in W. exact W.
Qed.
Lemma bands_ok stof fs base args b : NoDup (map fst args) ->
  (bands_from_options stof fs base args = Ok b <->
   exists given file bytes exclude, In (txt "filter-mapping-file", UText given) args /\ resolved base given file /\ fs file = Regular bytes
     /\ In (txt "exclude-filter", UTexts exclude) args /\ init_bands stof bytes exclude = Ok b).
Proof.
  intros N. unfold bands_from_options. rewrite bind_ok. split.
  - intros [file [F H]]. apply (file_from_options_ok _ _ _ _ _ N) in F. destruct F as [given [bytes [A [R E]]]].
    unfold bytes_of in H. rewrite E in H. cbn [bind] in H. apply bind_ok in H. destruct H as [ex [X H]]. apply at_texts_ok in X; [|exact N].
    exists given, file, bytes, ex. auto.
  - intros [given [file [bytes [ex [A [R [E [X H]]]]]]]]. exists file. split; [apply (file_from_options_ok _ _ _ _ _ N); eauto|].
    unfold bytes_of. rewrite E. cbn [bind]. apply (at_texts_ok _ _ _ N) in X. unfold EXCLUDE_FILTER. rewrite X. exact H.
Qed.
Lemma mapping_unique args base given given' file file' : NoDup (map fst args) ->
  In (txt "filter-mapping-file", UText given) args -> In (txt "filter-mapping-file", UText given') args ->
  resolved base given file -> resolved base given' file' -> file = file'.
Proof.
  intros N A B R R'. assert (Y := value_unique _ _ _ _ N A B). injection Y as <-. eapply resolved_unique; eassumption.
Qed.

Section Extras.
Variable K : Type.
Variables pf pd stof strtod : text -> option dbl.
Variable open_fits : text -> outcome hdu.
Variable same : dbl -> dbl -> bool.
Variable mag_flux : dbl -> dbl.
Variable mag_error : dbl -> dbl -> dbl.
Variables (fs : text -> entry) (base_dir : text) (args : user_values).
Hypothesis P : parsed args.

Notation handler := (extra_handler K stof strtod same mag_flux mag_error fs base_dir args).
Notation attr := (attribute_of K stof strtod same mag_flux mag_error fs base_dir args).

Lemma good_redshift : ~ bad_redshift_options args ->
  (forall z, In (txt "spec-z-column-index", UInt z) args -> (1 <= z)%Z)
  /\ (forall z, In (txt "spec-z-err-column-index", UInt z) args -> (1 <= z)%Z)
  /\ ~ (is_given args "spec-z-column-name" /\ is_given args "spec-z-column-index")
  /\ ~ (is_given args "spec-z-err-column-name" /\ is_given args "spec-z-err-column-index").
Proof.
  intros NB. repeat split.
  - intros z I. destruct (Z.le_gt_cases 1 z) as [L|L]; [exact L|]. exfalso. apply NB. exact (bad_z_index args z I L).
  - intros z I. destruct (Z.le_gt_cases 1 z) as [L|L]; [exact L|]. exfalso. apply NB. exact (bad_e_index args z I L).
  - intros [A B]. apply NB. apply bad_z_both; assumption.
  - intros [A B]. apply NB. apply bad_e_both; assumption.
Qed.
Lemma chosen_in n i info c : chosen args n i info c -> In c (names_of info).
Proof.
  intros [A B|z d A L E <-]; [exact B|]. unfold names_of. apply in_map. eapply nth_error_In. exact E.
Qed.
Lemma specz_handler_ok info z : ~ bad_redshift_options args -> NoDup (names_of info) ->
  (specz_handler args info = Ok z <->
   exists value error, chosen args "spec-z-column-name" "spec-z-column-index" info value
     /\ (~ is_given args "spec-z-err-column-name" /\ ~ is_given args "spec-z-err-column-index" /\ error = None
         \/ exists e, chosen args "spec-z-err-column-name" "spec-z-err-column-index" info e /\ error = Some e)
     /\ new_zfr info value error = Ok z).
Proof.
  intros NB ND. destruct (good_redshift NB) as [G1 [G2 [G3 G4]]].
  assert (C1 := fun c => chosen_name_index args "spec-z-column-name" "spec-z-column-index" info c P declared_z_index G1 G3).
  assert (C2 := fun c => chosen_name_index args "spec-z-err-column-name" "spec-z-err-column-index" info c P declared_e_index G2 G4).
  unfold specz_handler. rewrite bind_ok.
  change SPECZ_NAME with (txt "spec-z-column-name"). change SPECZ_INDEX with (txt "spec-z-column-index").
  change SPECZ_ERR_NAME with (txt "spec-z-err-column-name"). change SPECZ_ERR_INDEX with (txt "spec-z-err-column-index").
  destruct (negb (has args (txt "spec-z-err-column-name")) && negb (has args (txt "spec-z-err-column-index"))) eqn:B.
  - apply andb_true_iff in B. destruct B as [B1 B2]. apply negb_true_iff in B1. apply negb_true_iff in B2. apply has_not in B1. apply has_not in B2.
    split.
    + intros [v [A H]]. apply C1 in A. exists v, None. split; [exact A|]. split; [left; auto|exact H].
    + intros [v [e [A [[[_ [_ ->]]|[e' [D ->]]] H]]]].
      * exists v. split; [apply C1; exact A|exact H].
      * exfalso. destruct D as [D _|z' d D]; [apply B1|apply B2]; eexists; exact D.
  - split.
    + intros [v [A H]]. apply C1 in A. apply bind_ok in H. destruct H as [e [D H]]. apply C2 in D. exists v, (Some e). split; [exact A|]. split; [right; eauto|exact H].
    + intros [v [e [A [[[D1 [D2 ->]]|[e' [D ->]]] H]]]].
      * exfalso. apply has_not in D1. apply has_not in D2. rewrite D1, D2 in B. discriminate.
      * exists v. split; [apply C1; exact A|]. apply C2 in D. rewrite D. exact H.
Qed.
Lemma chosen_unique n i info c c' : ~ (is_given args n /\ is_given args i) -> chosen args n i info c -> chosen args n i info c' -> c = c'.
Proof.
  assert (N := proj1 P). intros NB [A B|z d A L E Ec] [A' B'|z' d' A' L' E' Ec'].
  - assert (Y := value_unique _ _ _ _ N A A'). congruence.
  - exfalso. apply NB. split; eexists; eassumption.
  - exfalso. apply NB. split; eexists; eassumption.
  - assert (Y := value_unique _ _ _ _ N A A'). injection Y as <-. congruence.
Qed.

Lemma redshift_handler_iff info f r z : ~ bad_redshift_options args -> NoDup (names_of info) -> specz_handler args info = Ok f ->
  (create_redshift strtod f r = Ok z <-> redshift_of strtod args info r z).
Proof.
  intros NB ND H. destruct (good_redshift NB) as [G1 [G2 [G3 G4]]]. apply (specz_handler_ok _ _ NB ND) in H. destruct H as [v [er [C1 [C2 Z]]]].
  destruct z as [zv ze]. rewrite (redshift_ok strtod info v er f r zv ze ND Z). unfold redshift_of. cbn [fst snd]. split.
  - intros [k [cell [A1 [A2 [A3 A4]]]]]. exists v, k, cell.
    repeat (split; [assumption|]). destruct C2 as [[D1 [D2 ->]]|[e [D ->]]]; [left; auto|].
    right. destruct A4 as [j [ce [X1 [X2 X3]]]]. exists e, j, ce. auto.
  - intros [v' [k [cell [B1 [B2 [B3 [B4 B5]]]]]]]. rewrite <- (chosen_unique _ _ _ _ _ G3 C1 B1) in B2.
    exists k, cell. repeat (split; [assumption|]). destruct C2 as [[D1 [D2 ->]]|[e [D ->]]].
    + destruct B5 as [[_ [_ B5]]|[e [j [ce [D _]]]]]; [exact B5|]. exfalso. destruct D as [D _|z' d D]; [apply D1|apply D2]; eexists; exact D.
    + destruct B5 as [[D1 [D2 _]]|[e' [j [ce [D' [X1 [X2 X3]]]]]]].
      * exfalso. destruct D as [D _|z' d D]; [apply D1|apply D2]; eexists; exact D.
      * rewrite <- (chosen_unique _ _ _ _ _ G4 D D') in X1. exists j, ce. auto.
Qed.
Lemma photometry_handler_iff info bands p r ph : NoDup (names_of info) -> bands_from_options stof fs base_dir args = Ok bands ->
  phot_handler args info bands = Ok p ->
  (create_photometry strtod same mag_flux mag_error p r = Ok ph <->
   photometry_of stof strtod same mag_flux mag_error fs base_dir args info r ph).
Proof.
  intros ND B H. unfold phot_handler in H. apply bind_ok in H. destruct H as [s [Es H]].
  destruct bands as [[m t] cv]. apply (bands_ok _ _ _ _ _ (proj1 P)) in B. destruct B as [given [file [bytes [ex [A1 [A2 [A3 [A4 A5]]]]]]]].
  destruct (phot_settings_ok args P) as [s' [Es' [S1 [S2 [S3 S4]]]]]. rewrite Es in Es'. injection Es' as <-.
  assert (LC := init_aligned _ _ _ _ _ _ A5).
  rewrite (photometry_iff strtod same mag_flux mag_error info m _ _ _ t _ cv p r ph ND H LC). split.
  - intros [H1 [H2 H3]]. exists given, file, bytes, ex, m, t, cv, (pc_missing_on s), (pc_upper_on s), (pc_missing_flag s), (pc_upper_flag s).
    repeat (split; [assumption|]). exact H3.
  - intros [given' [file' [bytes' [ex' [m' [t' [cv' [mo [uo [mf [uf [B1 [B2 [B3 [B4 [B5 [T1 [T2 [T3 [T4 [H1 [H2 H3]]]]]]]]]]]]]]]]]]]]]].
    assert (N := proj1 P). assert (E := mapping_unique _ _ _ _ _ _ N A1 B1 A2 B2). subst file'. rewrite A3 in B3. injection B3 as <-.
    assert (E := value_unique _ _ _ _ N A4 B4). injection E as <-. rewrite A5 in B5. injection B5 as <- <- <-.
    assert (E1 : mo = pc_missing_on s) by (destruct mo, (pc_missing_on s); intuition congruence). subst mo.
    assert (E2 : uo = pc_upper_on s) by (destruct uo, (pc_upper_on s); intuition congruence). subst uo.
    rewrite (number_or_unique _ _ _ _ _ N T3 S3) in H3. rewrite (number_or_unique _ _ _ _ _ N T4 S4) in H3. auto.
Qed.

Lemma handler_starts (c : catconf (attribute K)) info e : NoDup (names_of info) -> get_column_info c = Ok (Some info) ->
  (e = WithRedshift -> ~ bad_redshift_options args) ->
  ((exists h, handler c e = Ok h) <-> can_start stof fs base_dir args info e).
Proof.
  intros ND GI NB. destruct e as [| |calls|]; cbn [extra_handler can_start].
  - split.
    + intros [h H]. apply bind_ok in H. destruct H as [b [B H]]. rewrite GI in H. cbn [bind of_option] in H.
      apply bind_ok in H. destruct H as [p [H _]]. unfold phot_handler in H. apply bind_ok in H. destruct H as [s [_ H]].
      destruct b as [[m t] cv]. apply (bands_ok _ _ _ _ _ (proj1 P)) in B. destruct B as [given [file [bytes [ex [A1 [A2 [A3 [A4 A5]]]]]]]].
      exists given, file, bytes, ex, m, t, cv. repeat (split; [assumption|]). eapply new_pfr_iff; [exact ND|eexists; exact H].
    + intros [given [file [bytes [ex [m [t [cv [A1 [A2 [A3 [A4 [A5 A6]]]]]]]]]]]].
      assert (B : bands_from_options stof fs base_dir args = Ok (m, t, cv)) by (apply (bands_ok _ _ _ _ _ (proj1 P)); eauto 10).
      rewrite B. cbn [bind]. rewrite GI. cbn [bind of_option]. unfold phot_handler. destruct (phot_settings_ok args P) as [s [-> _]]. cbn [bind].
      destruct (proj2 (new_pfr_iff info m (pc_missing_on s) (pc_missing_flag s) (pc_upper_on s) t (pc_upper_flag s) cv ND) A6) as [p ->].
      cbn [bind]. eauto.
  - specialize (NB eq_refl). destruct (good_redshift NB) as [G1 [G2 [G3 G4]]]. rewrite GI. cbn [bind of_option]. split.
    + intros [h H]. apply bind_ok in H. destruct H as [z [H _]]. apply (specz_handler_ok _ _ NB ND) in H.
      destruct H as [v [e [A [B _]]]]. split; [eauto|]. destruct B as [[B1 [B2 _]]|[e' [B _]]]; eauto.
    + intros [[v A] B].
      assert (X : exists z, specz_handler args info = Ok z).
      { destruct B as [[B1 B2]|[e B]].
        - destruct (new_zfr info v None) as [z| | |] eqn:Z.
          1: exists z; apply (specz_handler_ok _ _ NB ND); exists v, None; split; [exact A|]; split; [left; auto|exact Z].
          all: exfalso; unfold new_zfr in Z; destruct (find_col info v) eqn:F; try discriminate; apply find_col_none in F; apply F; eapply chosen_in; exact A.
        - destruct (new_zfr info v (Some e)) as [z| | |] eqn:Z.
          1: exists z; apply (specz_handler_ok _ _ NB ND); exists v, (Some e); split; [exact A|]; split; [right; eauto|exact Z].
          all: exfalso; unfold new_zfr in Z; destruct (find_col info v) eqn:F;
            [|apply find_col_none in F; apply F; eapply chosen_in; exact A];
            destruct (find_col info e) eqn:F2; try discriminate; apply find_col_none in F2; apply F2; eapply chosen_in; exact B. }
      destruct X as [z ->]. cbn [bind]. eauto.
  - destruct (add_pdf_columns_ok K Constructed calls eq_refl (mkPdfFr [] [])) as [f [-> _]]. cbn [bind]. split; eauto.
  - split; eauto.
Qed.

Lemma handler_values (c : catconf (attribute K)) info e h r : NoDup (names_of info) -> get_column_info c = Ok (Some info) ->
  (e = WithRedshift -> ~ bad_redshift_options args) -> handler c e = Ok h ->
  (forall a, h r = Ok a -> attr info r e a) /\ ((exists a, attr info r e a) -> exists a, h r = Ok a).
Proof.
  intros ND GI NB. destruct e as [| |calls|]; cbn [extra_handler]; intros H.
  - apply bind_ok in H. destruct H as [b [B H]]. rewrite GI in H. cbn [bind of_option] in H.
    apply bind_ok in H. destruct H as [p [H Eh]]. injection Eh as <-. assert (PI := fun ph => photometry_handler_iff info b p r ph ND B H). split.
    + intros a Ha. apply bind_ok in Ha. destruct Ha as [ph [Hp E]]. injection E as <-. cbn [attribute_of]. apply PI. exact Hp.
    + intros [a Ha]. destruct a as [ph| | |]; cbn [attribute_of] in Ha; try contradiction.
      exists (APhotometry ph). rewrite (proj2 (PI ph)) by exact Ha. reflexivity.
  - rewrite GI in H. cbn [bind of_option] in H. apply bind_ok in H. destruct H as [z [H Eh]]. injection Eh as <-.
    assert (PI := fun x => redshift_handler_iff info z r x (NB eq_refl) ND H). split.
    + intros a Ha. apply bind_ok in Ha. destruct Ha as [x [Hp E]]. injection E as <-. cbn [attribute_of]. apply PI. exact Hp.
    + intros [a Ha]. destruct a as [|x| |]; cbn [attribute_of] in Ha; try contradiction.
      exists (ARedshift x). rewrite (proj2 (PI x)) by exact Ha. reflexivity.
  - apply bind_ok in H. destruct H as [f [F H]]. injection H as <-. destruct (create_pdfs_spec K strtod calls f r F) as [S1 S2]. split.
    + intros a Ha. apply bind_ok in Ha. destruct Ha as [pdfs [Hp E]]. injection E as <-. cbn [attribute_of]. apply S1. exact Hp.
    + intros [a Ha]. destruct a as [| |pdfs|]; cbn [attribute_of] in Ha; try contradiction.
      destruct (S2 (ex_intro _ _ Ha)) as [pdfs' E]. rewrite E. cbn [bind]. eauto.
  - injection H as <-. split; [|eauto]. intros a E. injection E as <-. reflexivity.
Qed.

(** ** Programs *)

Lemma pre_initialize_all_ok l : pre_initialize_all K args l = Ok tt <-> (In WithRedshift l -> ~ bad_redshift_options args).
Proof.
  destruct (specz_pre_initialize_spec args P) as [S1 S2].
  induction l as [|e l IH]; [cbn; tauto|]. cbn [pre_initialize_all]. destruct e; cbn [extra_pre_initialize bind].
  - rewrite IH. cbn [In]. intuition congruence.
  - destruct (specz_pre_initialize args) as [[]| | |] eqn:E; cbn [bind].
    + assert (NB := proj1 S2 eq_refl). rewrite IH. cbn [In]. tauto.
    + split; [discriminate|]. intros H. exfalso. apply (H (or_introl eq_refl)). apply S1. reflexivity.
    + split; [discriminate|]. intros H. assert (X := proj2 S2 (H (or_introl eq_refl))). discriminate.
    + split; [discriminate|]. intros H. assert (X := proj2 S2 (H (or_introl eq_refl))). discriminate.
  - rewrite IH. cbn [In]. intuition congruence.
  - rewrite IH. cbn [In]. intuition congruence.
Qed.
Lemma handler_same (c c' : catconf (attribute K)) e : get_column_info c = get_column_info c' -> handler c e = handler c' e.
Proof. intros E. destruct e; cbn [extra_handler]; rewrite ?E; reflexivity. Qed.
Lemma add_handlers_ok l : forall c c', cc_state c = Initialized ->
  (add_handlers K stof strtod same mag_flux mag_error fs base_dir args c l = Ok c' <->
   exists hs, Forall2 (fun e h => handler c e = Ok h) l hs
     /\ c' = mkCat Initialized (cc_base c) (cc_file c) (cc_fits c) (cc_id c) (cc_handlers c ++ hs) (cc_info c)).
Proof.
  induction l as [|e l IH]; intros c c' E; cbn [add_handlers].
  - split.
    + intros H. injection H as <-. exists []. split; [constructor|]. rewrite app_nil_r, <- E. destruct c; reflexivity.
    + intros [hs [F ->]]. inversion_clear F. rewrite app_nil_r, <- E. destruct c; reflexivity.
  - rewrite bind_ok. unfold add_handler. rewrite E. cbn [is_final]. split.
    + intros [h [H G]]. cbn [bind] in G. apply IH in G; [|reflexivity]. cbn [cc_base cc_file cc_fits cc_id cc_handlers cc_info] in G.
      destruct G as [hs [F ->]]. exists (h :: hs). split; [|rewrite <- app_assoc; reflexivity]. constructor; [exact H|].
      revert F. clear - E. induction 1 as [|x y lx ly X F IHF]; constructor; [|exact IHF]. rewrite <- X. apply handler_same.
      unfold get_column_info. cbn [cc_state cc_info]. rewrite E. reflexivity.
    + intros [hs [F ->]]. inversion F as [|? h ? hs' H F' X Y]; subst. exists h. split; [exact H|]. cbn [bind]. apply IH; [reflexivity|].
      cbn [cc_base cc_file cc_fits cc_id cc_handlers cc_info]. exists hs'. split; [|rewrite <- app_assoc; reflexivity].
      revert F'. clear - E. induction 1 as [|x y lx ly X F IHF]; constructor; [|exact IHF]. rewrite <- X. apply handler_same.
      unfold get_column_info. cbn [cc_state cc_info]. rewrite E. reflexivity.
Qed.

Notation catalog_ready := (catalog_ready open_fits fs base_dir args).
Lemma cat_initialize_ok {A} junk (c c' : catconf A) : ~ bad_catalog_options args -> cc_base c = base_dir ->
  (cat_initialize open_fits fs junk args c = Ok c' <->
   exists file bytes fits info column, catalog_ready junk file bytes fits info column
     /\ c' = mkCat (cc_state c) base_dir file fits column (cc_handlers c) (Some info)).
Proof.
  intros NB EB. unfold cat_initialize. rewrite EB, bind_ok. unfold CatConfSpec.catalog_ready. split.
  - intros [file [F H]]. apply (file_from_options_ok _ _ _ _ _ (proj1 P)) in F. destruct F as [given [bytes [A1 [A2 A3]]]].
    apply bind_ok in H. destruct H as [fits [F H]]. apply (format_ok _ _ _ _ _ _ P NB A3) in F.
    apply bind_ok in H. destruct H as [info [I H]]. rewrite (reader_info_file _ _ _ _ _ A3) in I.
    apply bind_ok in H. destruct H as [column [C H]]. apply (id_column_ok _ _ _ P NB) in C. injection H as <-.
    exists file, bytes, fits, info, column. split; [|reflexivity]. split; [exists given; auto|]. auto.
  - intros [file [bytes [fits [info [column [[[given [A1 A2]] [A3 [F [I C]]]] ->]]]]]]. exists file.
    split; [apply (file_from_options_ok _ _ _ _ _ (proj1 P)); eauto|]. rewrite (proj2 (format_ok _ _ _ _ _ _ P NB A3) F). cbn [bind].
    rewrite (reader_info_file _ _ _ _ _ A3), I. cbn [bind]. rewrite (proj2 (id_column_ok _ _ _ P NB) C). reflexivity.
Qed.
Notation run := (run_program K stof strtod open_fits same mag_flux mag_error fs).
Lemma run_ok junk l c : run junk base_dir args l = Ok c <->
  ~ bad_catalog_options args /\ (In WithRedshift l -> ~ bad_redshift_options args)
  /\ exists file bytes fits info column hs, catalog_ready junk file bytes fits info column
       /\ Forall2 (fun e h => handler (mkCat Initialized base_dir file fits column [] (Some info)) e = Ok h) l hs
       /\ c = mkCat Final base_dir file fits column hs (Some info).
Proof.
  unfold run_program. cbn [set_base_dir new_catconf cc_state at_least_initialized bind cc_file cc_fits cc_id cc_handlers cc_info].
  destruct (cat_pre_initialize_spec args P) as [S1 S2]. rewrite bind_ok. split.
  - intros [[] [H1 H]]. apply S2 in H1. split; [exact H1|]. apply bind_ok in H. destruct H as [[] [H2 H]].
    rewrite pre_initialize_all_ok in H2. split; [exact H2|].
    apply bind_ok in H. destruct H as [c1 [H3 H]]. apply cat_initialize_ok in H3; [|exact H1|reflexivity].
    destruct H3 as [file [bytes [fits [info [column [R ->]]]]]]. apply bind_ok in H. destruct H as [c2 [H4 H]]. injection H as <-.
    apply add_handlers_ok in H4; [|reflexivity]. cbn [with_state cc_base cc_file cc_fits cc_id cc_handlers cc_info app] in H4.
    destruct H4 as [hs [F ->]]. exists file, bytes, fits, info, column, hs. split; [exact R|]. split; [exact F|reflexivity].
  - intros [H1 [H2 [file [bytes [fits [info [column [hs [R [F ->]]]]]]]]]]. exists tt. split; [apply S2; exact H1|].
    rewrite (proj2 (pre_initialize_all_ok l) H2). cbn [bind].
    rewrite (proj2 (cat_initialize_ok junk (with_state (mkCat Constructed base_dir [] true [] [] None) PreInitialized) _ H1 eq_refl)
      (ex_intro _ file (ex_intro _ bytes (ex_intro _ fits (ex_intro _ info (ex_intro _ column (conj R eq_refl))))))). cbn [bind].
    assert (X := proj2 (add_handlers_ok l (with_state (mkCat PreInitialized base_dir file fits column [] (Some info)) Initialized) _ eq_refl)
      (ex_intro _ hs (conj F eq_refl))). cbn [with_state cc_state cc_base cc_file cc_fits cc_id cc_handlers cc_info] in *.
    rewrite X. reflexivity.
Qed.

Lemma Forall2_starts (c : catconf (attribute K)) info l : NoDup (names_of info) -> get_column_info c = Ok (Some info) ->
  (In WithRedshift l -> ~ bad_redshift_options args) ->
  ((exists hs, Forall2 (fun e h => handler c e = Ok h) l hs) <-> Forall (can_start stof fs base_dir args info) l).
Proof.
  intros ND GI. induction l as [|e l IH]; intros NB.
  - split; [constructor|]. intros _. exists []. constructor.
  - assert (HS := handler_starts c info e ND GI (fun E => NB (or_introl E))).
    assert (IH' := IH (fun I => NB (or_intror I))). split.
    + intros [hs F]. inversion F as [|? h ? hs' H F' X Y]; subst. constructor; [apply HS; eauto|apply IH'; eauto].
    + intros F. inversion_clear F as [|? ? F1 F2]. apply HS in F1. apply IH' in F2. destruct F1 as [h F1], F2 as [hs F2]. exists (h :: hs). constructor; assumption.
Qed.
Lemma run_starts junk l : (exists c, run junk base_dir args l = Ok c) <->
  ~ bad_catalog_options args /\ (In WithRedshift l -> ~ bad_redshift_options args)
  /\ exists file bytes fits info column, catalog_ready junk file bytes fits info column /\ Forall (can_start stof fs base_dir args info) l.
Proof.
  split.
  - intros [c H]. apply run_ok in H. destruct H as [H1 [H2 [file [bytes [fits [info [column [hs [R [F _]]]]]]]]]].
    split; [exact H1|]. split; [exact H2|]. exists file, bytes, fits, info, column. split; [exact R|].
    eapply Forall2_starts; [| |exact H2|eexists; exact F]; [|reflexivity].
    destruct R as [_ [_ [_ [I _]]]]. apply columns_distinct in I. tauto.
  - intros [H1 [H2 [file [bytes [fits [info [column [R F]]]]]]]].
    assert (ND : NoDup (names_of info)) by (destruct R as [_ [_ [_ [I _]]]]; apply columns_distinct in I; tauto).
    destruct (proj2 (Forall2_starts (mkCat Initialized base_dir file fits column [] (Some info)) info l ND eq_refl H2) F) as [hs G].
    eexists. apply run_ok. split; [exact H1|]. split; [exact H2|]. exists file, bytes, fits, info, column, hs. auto.
Qed.

Lemma ready_unique junk f b x i k f' b' x' i' k' : ~ bad_catalog_options args ->
  catalog_ready junk f b x i k -> catalog_ready junk f' b' x' i' k' -> f = f' /\ b = b' /\ x = x' /\ i = i' /\ k = k'.
Proof.
  intros NB R R'. assert (X := proj2 (cat_initialize_ok junk (mkCat Constructed base_dir [] true [] (@nil (row -> outcome nat)) None) _ NB eq_refl)
    (ex_intro _ f (ex_intro _ b (ex_intro _ x (ex_intro _ i (ex_intro _ k (conj R eq_refl))))))).
  assert (Y := proj2 (cat_initialize_ok junk (mkCat Constructed base_dir [] true [] (@nil (row -> outcome nat)) None) _ NB eq_refl)
    (ex_intro _ f' (ex_intro _ b' (ex_intro _ x' (ex_intro _ i' (ex_intro _ k' (conj R' eq_refl))))))).
  rewrite X in Y. injection Y as <- <- <- <-. repeat split; auto. destruct R as [_ [R _]], R' as [_ [R' _]]. congruence.
Qed.

Lemma id_cells info column k r i : NoDup (names_of info) -> column_named info column k ->
  (id_of_row info column r i <-> exists cell, nth_error (r_values r) k = Some cell /\
     ((exists x, cell = CString x /\ i = IdText x) \/ (exists z, (cell = CInt z \/ cell = CLong z) /\ i = IdInt z))).
Proof.
  intros ND C. unfold id_of_row, id_of_cell. split.
  - intros [k' [c [C' [E H]]]]. apply (find_col_named _ _ _ ND) in C. apply (find_col_named _ _ _ ND) in C'. assert (k' = k) by congruence.
    subst k'. eauto.
  - intros [c [E H]]. exists k, c. auto.
Qed.

Lemma attrs_values (c : catconf (attribute K)) info l hs r : NoDup (names_of info) -> get_column_info c = Ok (Some info) ->
  (In WithRedshift l -> ~ bad_redshift_options args) -> Forall2 (fun e h => handler c e = Ok h) l hs ->
  (forall attrs, Forall2 (fun make a => make r = Ok a) hs attrs -> Forall2 (attr info r) l attrs)
  /\ ((exists attrs, Forall2 (attr info r) l attrs) -> exists attrs, Forall2 (fun make a => make r = Ok a) hs attrs).
Proof.
  intros ND GI NB F. induction F as [|e h l hs H F IH].
  - split; [intros attrs X; inversion_clear X; constructor|]. intros _. exists []. constructor.
  - destruct (handler_values c info e h r ND GI (fun E => NB (or_introl E)) H) as [V1 V2]. destruct (IH (fun I => NB (or_intror I))) as [I1 I2]. split.
    + intros attrs X. inversion_clear X. constructor; auto.
    + intros [attrs X]. inversion X as [|? a ? attrs' X1 X2]; subst. destruct (V2 (ex_intro _ a X1)) as [a' E].
      destruct (I2 (ex_intro _ attrs' X2)) as [as' E']. exists (a' :: as'). constructor; assumption.
Qed.
Lemma source_values (k : nat) (makers : list (row -> outcome (attribute K))) r s :
  source_of_row k makers r = Ok s <->
  (exists cell, nth_error (r_values r) k = Some cell /\ id_of_cell cell (s_id s)) /\ Forall2 (fun make a => make r = Ok a) makers (s_attrs s).
Proof.
  rewrite source_of_row_ok. split; intros [[c [E F]] G]; (split; [|exact G]); exists c; (split; [exact E|]); apply cast_id_ok; exact F.
Qed.
Lemma read_catalog_spec junk l c : run junk base_dir args l = Ok c ->
  (forall cat, read_as_catalog pf pd open_fits fs c = Ok cat ->
     catalog_of pf pd stof strtod open_fits same mag_flux mag_error fs junk base_dir args l (catalog_sources cat))
  /\ ((exists sources, catalog_of pf pd stof strtod open_fits same mag_flux mag_error fs junk base_dir args l sources) ->
      exists cat, read_as_catalog pf pd open_fits fs c = Ok cat).
Proof.
  intros H. apply run_ok in H. destruct H as [NB [NZ [file [bytes [fits [info [column [hs [R [F ->]]]]]]]]]].
  assert (RF := proj1 (proj2 R)). assert (RI := proj1 (proj2 (proj2 (proj2 R)))). assert (ND := proj2 (columns_distinct _ _ _ _ RI)).
  unfold read_as_catalog, read_as_table, get_converter. cbn [cc_state is_final cc_fits cc_file cc_info cc_id cc_handlers of_option bind].
  rewrite (reader_table_file pf pd open_fits fs fits file bytes RF). split.
  - intros cat H. apply bind_ok in H. destruct H as [t [T H]]. destruct (table_columns _ _ _ _ _ _ T) as [TI TR].
    rewrite RI in TI. injection TI as TI. apply bind_ok in H. destruct H as [conv [C H]]. apply bind_ok in C. destruct C as [k [C E]]. injection E as <-.
    unfold new_from_table in C. destruct (find_col info column) as [k'|] eqn:FC; [|discriminate]. injection C as ->.
    apply (find_col_named _ _ _ ND) in FC. apply create_catalog_ok in H. destruct H as [srcs [S H]].
    destruct (new_catalog_sources _ _ H) as [-> _]. apply new_catalog_ok in H. destruct H as [_ H].
    exists file, bytes, fits, t, column. rewrite <- TI. split; [exact R|]. split; [exact T|]. split; [exact H|].
    clear - S F ND FC NZ P pf pd open_fits. induction S as [|r s rs ss E S IH]; constructor; [|exact IH]. apply source_values in E. destruct E as [E1 E2]. split.
    + apply (id_cells info column k r (s_id s) ND FC). exact E1.
    + exact (proj1 (attrs_values (mkCat Initialized base_dir file fits column [] (Some info)) info l hs r ND eq_refl NZ F) _ E2).
  - intros [sources [file' [bytes' [fits' [t [column' [R' [T [N S]]]]]]]]].
    destruct (ready_unique _ _ _ _ _ _ _ _ _ _ _ NB R R') as [<- [<- [<- [TI <-]]]]. rewrite T. cbn [bind].
    assert (NE : t_rows t <> []).
    { revert T. unfold file_table. destruct fits.
      - intros T. apply bind_ok in T. destruct T as [h [_ T]]. apply bind_ok in T. destruct T as [[t' r'] [T E]]. cbn [fst] in E. injection E as ->.
        unfold fr_read in T. apply bind_ok in T. destruct T as [[i r1] [_ T]]. cbv zeta in T.
        destruct (Z.ltb _ (fr_current r1)); [discriminate|].
        match type of T with (if ?b then _ else _) = _ => destruct b; [discriminate|] end.
        apply bind_ok in T. destruct T as [d [_ T]]. apply bind_ok in T. destruct T as [q [_ T]]. apply bind_ok in T. destruct T as [t'' [T X]].
        injection X as <- _. apply new_table_ok in T. destruct T as [r0 [rest [-> [-> _]]]]. discriminate.
      - unfold ar_read. destruct (read_info (new_areader bytes)) as [[i| | |] a1]; cbn [fst]; try discriminate.
        destruct (read_loop pf pd (ar_ind a1) i (-1) (ar_lines a1)) as [[rows| | |] rest]; cbn [bind fst]; try discriminate.
        intros T. destruct rows; [discriminate|]. apply new_table_ok in T. destruct T as [r0 [rest' [E [-> _]]]]. discriminate. }
    rewrite <- TI in S.
    assert (FC : exists k, column_named info column k).
    { destruct S as [|r s rs ss [[k [cell [C _]]] _] S]; [congruence|]. eauto. }
    destruct FC as [k FC]. assert (FC' := FC). apply (find_col_named _ _ _ ND) in FC'. unfold new_from_table. rewrite FC'. cbn [bind].
    assert (X : exists srcs, Forall2 (fun r s => source_of_row k hs r = Ok s) (t_rows t) srcs /\ ids srcs = ids sources).
    { clear - S F ND FC NZ P pf pd open_fits. induction S as [|r s rs ss [E1 E2] S IH]; [exists []; split; [constructor|reflexivity]|].
      destruct IH as [srcs [I1 I2]].
      destruct (proj2 (attrs_values (mkCat Initialized base_dir file fits column [] (Some info)) info l hs r ND eq_refl NZ F) (ex_intro _ _ E2)) as [attrs A].
      exists (mkSource (s_id s) attrs :: srcs). split.
      - constructor; [|exact I1]. apply source_values. cbn [s_id s_attrs]. split; [|exact A]. apply (id_cells info column k r (s_id s) ND FC). exact E1.
      - cbn [ids map s_id]. unfold ids in I2. rewrite I2. reflexivity. }
    destruct X as [srcs [X1 X2]]. rewrite <- X2 in N.
    destruct (new_catalog srcs) as [cat| | |] eqn:NC.
    + exists cat. apply create_catalog_ok. eauto.
    + apply new_catalog_throw in NC. contradiction.
    + exfalso. unfold new_catalog in NC. destruct (index_sources_outcomes srcs [] 0) as [[m E]|E]; rewrite E in NC; discriminate.
    + exfalso. unfold new_catalog in NC. destruct (index_sources_outcomes srcs [] 0) as [[m E]|E]; rewrite E in NC; discriminate.
Qed.
End Extras.
