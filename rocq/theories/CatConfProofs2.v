(** Proofs for the configurations of the input catalog: columns, life cycle, names. *)
From Coq Require Import QArith ZArith List Arith Ascii String Bool Lia.
From Verif Require Import Common TextModel TextProofs DblModel GridModel GridSpec GridProofs GridProofs2 TableModel TableSpec TableProofs AsciiModel
  AsciiProofs3 FitsModel CatalogModel CatalogSpec CatalogProofs ConfigModel CatConfModel CatConfSpec CatConfProofs.
Import ListNotations.
Local Open Scope nat_scope.
Local Notation length := List.length.

Lemma bind_ok {A B} (o : outcome A) (f : A -> outcome B) y : bind o f = Ok y <-> exists x, o = Ok x /\ f x = Ok y.
Proof.
  destruct o as [x| | |]; cbn [bind]; split; try discriminate; eauto.
  - intros [x' [H G]]. injection H as <-. exact G.
  - intros [x' [H G]]. discriminate.
  - intros [x' [H G]]. discriminate.
  - intros [x' [H G]]. discriminate.
Qed.

Section Readers.
Variables pf pd : text -> option dbl.
Variable open_fits : text -> outcome hdu.

Lemma reader_info_file fs fits file bytes : fs file = Regular bytes ->
  reader_info open_fits fs fits file = file_columns open_fits fits bytes.
Proof.
  intros F. unfold reader_info, bytes_of, file_columns. rewrite F. cbn [bind]. destruct fits; [|reflexivity].
  destruct (open_fits bytes) as [h| | |]; cbn [bind]; try reflexivity.
  unfold fr_read_info, new_freader. cbn [fr_info fr_hdu]. destruct (fits_info h); reflexivity.
Qed.
Lemma reader_table_file fs fits file bytes : fs file = Regular bytes ->
  reader_table pf pd open_fits fs fits file = file_table pf pd open_fits fits bytes.
Proof. intros F. unfold reader_table, bytes_of, file_table. rewrite F. cbn [bind]. destruct fits; reflexivity. Qed.

Lemma columns_distinct fits bytes info : file_columns open_fits fits bytes = Ok info -> info <> [] /\ NoDup (names_of info).
Proof.
  unfold file_columns. destruct fits.
  - intros H. apply bind_ok in H. destruct H as [h [_ H]]. unfold fits_info in H. apply bind_ok in H. destruct H as [l [_ H]].
    apply new_info_ok in H. destruct H as [-> H]. exact H.
  - unfold read_info, new_areader. cbn [ar_info ar_ind ar_names ar_types ar_lines].
    destruct (detect_info _ _ _ _) as [i| | |] eqn:D; cbn [fst]; try discriminate. intros H. injection H as <-.
    unfold detect_info in D. apply bind_ok in D. destruct D as [n [_ D]].
    destruct (negb (Nat.eqb (length (@nil text)) 0) && _); [discriminate|].
    destruct (negb (Nat.eqb (length (@nil ctype)) 0) && _); [discriminate|].
    apply bind_ok in D. destruct D as [au [_ D]]. apply bind_ok in D. destruct D as [ds [_ D]]. apply bind_ok in D.
    destruct D as [cs [_ D]]. apply new_info_ok in D. destruct D as [-> D]. exact D.
Qed.
Lemma new_table_info rows t i : new_table rows = Ok t -> Forall (fun r => r_info r = i) rows -> t_info t = i /\ t_rows t = rows.
Proof.
  intros H F. apply new_table_ok in H. destruct H as [r0 [rest [E [-> _]]]]. subst rows. inversion_clear F. cbn. auto.
Qed.
Lemma read_loop_info ind i : forall lines n rows rest, read_loop pf pd ind i n lines = (Ok rows, rest) -> Forall (fun r => r_info r = i) rows.
Proof.
  induction lines as [|l lines IH]; intros n rows rest H; cbn [read_loop] in H.
  - injection H as <- _. constructor.
  - destruct (Z.eqb n 0); [injection H as <- _; constructor|]. destruct (clean ind l) as [|c q]; [eapply IH; exact H|].
    destruct (read_line_outcomes pf pd i (c :: q)) as [[v E]|E]; rewrite E in H; [|discriminate].
    destruct (read_loop pf pd ind i (n - 1) lines) as [[rs| | |] rest'] eqn:R; cbn [bind] in H; try discriminate.
    injection H as <- <-. constructor; [reflexivity|]. eapply IH. exact R.
Qed.
Lemma table_columns fits bytes t : file_table pf pd open_fits fits bytes = Ok t ->
  file_columns open_fits fits bytes = Ok (t_info t) /\ Forall (fun r => r_info r = t_info t) (t_rows t).
Proof.
  unfold file_table, file_columns. destruct fits.
  - intros H. apply bind_ok in H. destruct H as [h [-> H]]. cbn [bind]. apply bind_ok in H. destruct H as [[t' r'] [H E]].
    cbn [fst] in E. injection E as ->. unfold fr_read in H. apply bind_ok in H. destruct H as [[i r1] [H1 H]].
    unfold fr_read_info, new_freader in H1. cbn [fr_info fr_hdu] in H1. apply bind_ok in H1. destruct H1 as [i' [H1 E]].
    injection E as <- <-. cbv zeta in H. unfold fr_total in H. cbn [fr_hdu fr_current] in H.
    destruct (Z.ltb _ 1); [discriminate|].
    match type of H with (if ?b then _ else _) = _ => destruct b; [discriminate|] end.
    apply bind_ok in H. destruct H as [data [_ H]]. apply bind_ok in H. destruct H as [l [M H]]. apply bind_ok in H.
    destruct H as [t'' [T H]]. injection H as <- _. apply map_o_ok in M.
    assert (F : Forall (fun r => r_info r = i') l).
    { clear - M. induction M as [|k r ks rs H M IH]; constructor; auto. unfold make_row in H. apply bind_ok in H.
      destruct H as [cells [_ H]]. apply new_row_ok in H. destruct H as [-> _]. reflexivity. }
    destruct (new_table_info _ _ _ T F) as [-> ->]. auto.
  - unfold ar_read. destruct (read_info (new_areader bytes)) as [[i| | |] a1] eqn:RI; cbn [fst]; try discriminate.
    destruct (read_loop pf pd (ar_ind a1) i (-1) (ar_lines a1)) as [[rows| | |] rest] eqn:RL; cbn [bind fst]; try discriminate.
    intros T. assert (F := read_loop_info _ _ _ _ _ _ RL). destruct rows as [|r0 rs]; [discriminate|].
    destruct (new_table_info _ _ _ T F) as [-> ->]. auto.
Qed.
End Readers.

Lemma format_ok fs junk args file bytes fits : parsed args -> ~ bad_catalog_options args -> fs file = Regular bytes ->
  (format_from_options fs junk args file = Ok fits <-> format_of junk args bytes fits).
Proof.
  intros [N P] NB F. unfold format_from_options, bytes_of. rewrite F. split.
  - intros H. apply bind_ok in H. destruct H as [f [A H]]. apply at_text_ok in A; [|exact N].
    destruct (text_eqb f (txt "AUTO")) eqn:E.
    + apply text_eqb_iff in E. subst f. cbn [bind] in H. apply fmt_auto; assumption.
    + injection H as <-. destruct (text_eqb f (txt "FITS")) eqn:E2.
      * apply text_eqb_iff in E2. subst f. apply fmt_fits. exact A.
      * assert (Y : f = txt "ASCII"); [|subst f; apply fmt_ascii; exact A].
        destruct (text_eqb f (txt "ASCII")) eqn:E3; [apply text_eqb_iff; exact E3|]. exfalso. apply NB. apply (bad_format args f A).
        intros [H|[H|[H|[]]]]; subst f; rewrite text_eqb_refl in *; discriminate.
  - intros [I|I|b I D]; apply (at_text_ok _ _ _ N) in I; unfold CATALOG_FORMAT; rewrite I; cbn [bind]; try reflexivity. exact D.
Qed.

Lemma column_name_ok args s info c : NoDup (map fst args) ->
  (column_of_name args (txt s) info = Ok c <-> In (txt s, UText c) args /\ In c (names_of info)).
Proof.
  intros N. unfold column_of_name. rewrite bind_ok. split.
  - intros [x [A H]]. apply at_text_ok in A; [|exact N]. destruct (find_col info x) eqn:F; [|discriminate]. injection H as <-.
    split; [exact A|]. destruct (in_dec text_dec x (names_of info)) as [I|I]; [exact I|]. apply find_col_none in I. congruence.
  - intros [A I]. exists c. split; [apply at_text_ok; assumption|]. destruct (find_col info c) eqn:F; [reflexivity|].
    apply find_col_none in F. contradiction.
Qed.
Lemma int32_size z : is_int32 z -> (1 <= z)%Z -> size_of_int z = z.
Proof. unfold is_int32, size_of_int, int32_max. intros [A B] L. apply Z.mod_small. split; [lia|]. eapply Z.le_lt_trans; [exact B|]. vm_compute. reflexivity. Qed.
Lemma column_index_ok args s info c : parsed args -> In (txt s, KInt) declared ->
  (forall z, In (txt s, UInt z) args -> (1 <= z)%Z) ->
  (column_of_index args (txt s) info = Ok c <->
   exists z d, In (txt s, UInt z) args /\ (1 <= z)%Z /\ nth_error info (Z.to_nat z - 1) = Some d /\ cd_name d = c).
Proof.
  intros P D G. assert (N := proj1 P). unfold column_of_index. rewrite bind_ok. split.
  - intros [z [A H]]. apply at_int_ok in A; [|exact N]. assert (L := G z A).
    destruct (typed_int args s _ P D A) as [z' [E R]]. injection E as <-. rewrite (int32_size z R L) in H.
    destruct (Z.ltb_spec (Z.of_nat (length info)) z) as [B|B]; [discriminate|].
    destruct (Z.eqb_spec z 0) as [Z0|Z0]; [lia|]. rewrite get_desc_in in H by lia. apply bind_ok in H. destruct H as [d [H E]].
    injection E as <-. exists z, d. split; [exact A|]. split; [exact L|]. split; [|reflexivity].
    replace (Z.to_nat z - 1) with (Z.to_nat (z - 1)) by lia. destruct (nth_error info (Z.to_nat (z - 1))); [|discriminate].
    cbn in H. congruence.
  - intros [z [d [A [L [E Ec]]]]]. exists z. split; [apply at_int_ok; assumption|].
    destruct (typed_int args s _ P D A) as [z' [X R]]. injection X as <-. rewrite (int32_size z R L).
    assert (B : Z.to_nat z - 1 < length info) by (apply nth_error_Some; congruence).
    destruct (Z.ltb_spec (Z.of_nat (length info)) z) as [B'|B']; [lia|].
    destruct (Z.eqb_spec z 0) as [Z0|Z0]; [lia|]. rewrite get_desc_in by lia.
    replace (Z.to_nat (z - 1)) with (Z.to_nat z - 1) by lia. rewrite E. cbn. rewrite Ec. reflexivity.
Qed.
Lemma chosen_name_index args n i info c : parsed args -> In (txt i, KInt) declared ->
  (forall z, In (txt i, UInt z) args -> (1 <= z)%Z) -> ~ (is_given args n /\ is_given args i) ->
  (column_from_options (txt n) (txt i) args info = Ok c <-> chosen args n i info c).
Proof.
  intros P D G NB. unfold column_from_options. destruct (has args (txt n)) eqn:H.
  - rewrite (column_name_ok args n info c (proj1 P)). apply has_given in H. split.
    + intros [A B]. apply by_name; assumption.
    + intros [A B|z d A]; [auto|]. exfalso. apply NB. split; [exact H|]. exists (UInt z). exact A.
  - rewrite (column_index_ok args i info c P D G). apply has_not in H. split.
    + intros [z [d [A [L [E Ec]]]]]. exact (by_index args n i info c z d A L E Ec).
    + intros [A B|z d A L E Ec]; [exfalso; apply H; eexists; exact A|]. eauto 8.
Qed.
Lemma id_column_ok args info c : parsed args -> ~ bad_catalog_options args ->
  (id_column_from_options args info = Ok c <-> chosen_id args info c).
Proof.
  intros P NB.
  assert (G : forall z, In (txt "source-id-column-index", UInt z) args -> (1 <= z)%Z).
  { intros z I. destruct (Z.le_gt_cases 1 z) as [L|L]; [exact L|]. exfalso. apply NB. exact (bad_index args z I L). }
  assert (N2 : ~ (is_given args "source-id-column-name" /\ is_given args "source-id-column-index")).
  { intros [A B]. apply NB. apply bad_both; assumption. }
  assert (C := chosen_name_index args "source-id-column-name" "source-id-column-index" info c P declared_id_index G N2).
  unfold id_column_from_options, chosen_id. rewrite <- C. unfold column_from_options.
  change ID_NAME with (txt "source-id-column-name"). change ID_INDEX with (txt "source-id-column-index").
  destruct (has args (txt "source-id-column-name")) eqn:H1; [apply has_given in H1|apply has_not in H1];
    (destruct (has args (txt "source-id-column-index")) eqn:H2; [apply has_given in H2|apply has_not in H2]).
  - exfalso. apply N2. auto.
  - split.
    + intros H. apply bind_ok in H. destruct H as [x [H E]]. injection E as <-. left. exact H.
    + intros [H|[H _]]; [rewrite H; reflexivity|contradiction].
  - cbn [bind]. split; [intros H; left; exact H|]. intros [H|[_ [H _]]]; [exact H|contradiction].
  - cbn [bind]. split.
    + intros E. injection E as <-. right. auto.
    + intros [H|[_ [_ ->]]]; [|reflexivity]. exfalso. apply H2.
      apply bind_ok in H. destruct H as [z [H _]]. apply at_int_ok in H; [|exact (proj1 P)]. eexists. exact H.
Qed.

(** ** Life cycle *)
Lemma last_cons {B} (l : list B) : forall x d, last (x :: l) d = last l x.
Proof. induction l as [|y l IH]; intros x d; [reflexivity|]. change (last (x :: y :: l) d) with (last (y :: l) d). rewrite !IH. reflexivity. Qed.
Lemma last_app {B} (a b : list B) d : last (a ++ b) d = last b (last a d).
Proof. revert d. induction a as [|x a IH]; intros d; [reflexivity|]. cbn [app]. rewrite !last_cons. apply IH. Qed.
Section Life.
Variable open_fits : text -> outcome hdu.
Variable A : Type.
Implicit Types (c : catconf A) (u : list (call A)).

Definition early (s : cstate) : bool := negb (at_least_initialized s).

Definition last_dir (u : list (call A)) (d : text) : text :=
  last (flat_map (fun k => match k with SetBaseDir d => [d] | _ => [] end) u) d.
Lemma user_calls_early args u : forall c, user_calls u -> early (cc_state c) = true ->
  cat_calls open_fits args c u =
  Ok (mkCat (cc_state c) (last_dir u (cc_base c)) (cc_file c) (cc_fits c) (cc_id c) (cc_handlers c ++ handlers_in u) (cc_info c)).
Proof.
  induction u as [|k u IH]; intros c U E.
  - cbn [cat_calls]. unfold handlers_in, last_dir. cbn [flat_map last]. rewrite app_nil_r. destruct c; reflexivity.
  - inversion_clear U as [|? ? U1 U2]. cbn [cat_calls]. destruct k as [d|h| | |]; try discriminate U1.
    + cbn [cat_call]. unfold set_base_dir. unfold early in E. apply negb_true_iff in E. rewrite E. rewrite IH; [|exact U2|].
      * cbn [cc_state cc_base cc_file cc_fits cc_id cc_handlers cc_info]. f_equal. f_equal.
        -- unfold last_dir. cbn [flat_map app]. symmetry. apply last_cons.
      * cbn [cc_state]. unfold early. rewrite E. reflexivity.
    + cbn [cat_call]. unfold add_handler. assert (F : is_final (cc_state c) = false) by (destruct (cc_state c); auto; discriminate E).
      rewrite F. rewrite IH; [|exact U2|exact E]. cbn [cc_state cc_base cc_file cc_fits cc_id cc_handlers cc_info].
      unfold handlers_in, last_dir. cbn [flat_map app]. rewrite <- app_assoc. reflexivity.
Qed.
Lemma user_calls_initialized args u : forall c, user_calls u -> cc_state c = Initialized ->
  cat_calls open_fits args c u =
  Ok (mkCat (cc_state c) (cc_base c) (cc_file c) (cc_fits c) (cc_id c) (cc_handlers c ++ handlers_in u) (cc_info c)).
Proof.
  induction u as [|k u IH]; intros c U E.
  - cbn [cat_calls]. unfold handlers_in. cbn [flat_map]. rewrite app_nil_r. destruct c; reflexivity.
  - inversion_clear U as [|? ? U1 U2]. cbn [cat_calls]. destruct k as [d|h| | |]; try discriminate U1.
    + cbn [cat_call by_user]. unfold set_base_dir. rewrite E. cbn [at_least_initialized]. rewrite IH; [|exact U2|exact E]. rewrite E. reflexivity.
    + cbn [cat_call]. unfold add_handler. rewrite E. cbn [is_final]. rewrite IH; [|exact U2|reflexivity].
      cbn [cc_state cc_base cc_file cc_fits cc_id cc_handlers cc_info].
      unfold handlers_in. cbn [flat_map app]. rewrite <- app_assoc. reflexivity.
Qed.
Lemma user_calls_final args u : forall c, user_calls u -> cc_state c = Final -> cat_calls open_fits args c u = Ok c.
Proof.
  induction u as [|k u IH]; intros c U E; [reflexivity|].
  inversion_clear U as [|? ? U1 U2]. cbn [cat_calls]. destruct k as [d|h| | |]; try discriminate U1;
    cbn [cat_call by_user]; unfold set_base_dir, add_handler; rewrite E; cbn [at_least_initialized is_final]; apply IH; auto.
Qed.
Lemma cat_calls_app args u v c : user_calls u ->
  cat_calls open_fits args c (u ++ v) = (do c' <- cat_calls open_fits args c u; cat_calls open_fits args c' v).
Proof.
  revert c. induction u as [|k u IH]; intros c U; [reflexivity|]. inversion_clear U as [|? ? U1 U2].
  cbn [app cat_calls]. destruct (cat_call open_fits args c k); rewrite ?U1; apply IH; exact U2.
Qed.
Lemma last_dir_app u v d : last_dir (u ++ v) d = last_dir v (last_dir u d).
Proof. unfold last_dir. rewrite flat_map_app. apply last_app. Qed.
Lemma user_calls_app u v : user_calls (u ++ v) <-> user_calls u /\ user_calls v.
Proof. apply Forall_app. Qed.

(** The whole life of the object. *)
Lemma stages_value args u1 u2 fs junk u3 u4 : user_calls u1 -> user_calls u2 -> user_calls u3 -> user_calls u4 ->
  cat_calls open_fits args new_catconf (stages u1 u2 fs junk u3 u4) =
  (do _ <- cat_pre_initialize args;
   do c <- cat_initialize open_fits fs junk args (mkCat PreInitialized (base_dir_of (u1 ++ u2)) [] true [] [] None);
   Ok (mkCat Final (base_dir_of (u1 ++ u2)) (cc_file c) (cc_fits c) (cc_id c) (handlers_in (u1 ++ u2 ++ u3)) (cc_info c))).
Proof.
  intros U1 U2 U3 U4. unfold stages. rewrite cat_calls_app by exact U1. rewrite user_calls_early; [|exact U1|reflexivity]. cbn [bind].
  cbn [cat_calls cat_call by_user]. destruct (cat_pre_initialize args) as [[]| | |]; cbn [bind]; try reflexivity.
  rewrite cat_calls_app by exact U2. rewrite user_calls_early; [|exact U2|reflexivity]. cbn [bind].
  cbn [cat_calls cat_call by_user].
  cbn [with_state cc_state cc_base cc_file cc_fits cc_id cc_handlers cc_info new_catconf app].
  change (base_dir_of (u1 ++ u2)) with (last_dir (u1 ++ u2) []). rewrite last_dir_app.
  unfold cat_initialize. cbn [cc_base cc_state cc_handlers].
  destruct (file_from_options _ _ _ _) as [file| | |]; cbn [bind]; try reflexivity.
  destruct (format_from_options _ _ _ _) as [fits| | |]; cbn [bind]; try reflexivity.
  destruct (reader_info _ _ _ _) as [info| | |]; cbn [bind]; try reflexivity.
  destruct (id_column_from_options _ _) as [id| | |]; cbn [bind]; try reflexivity.
  rewrite cat_calls_app by exact U3. rewrite user_calls_initialized; [|exact U3|reflexivity]. cbn [bind].
  cbn [cat_calls cat_call by_user]. rewrite user_calls_final; [|exact U4|reflexivity].
  cbn [with_state cc_state cc_base cc_file cc_fits cc_id cc_handlers cc_info].
  f_equal. f_equal. unfold handlers_in. rewrite !flat_map_app, <- !app_assoc. reflexivity.
Qed.
End Life.

(** ** Wildcards *)
Lemma sorted_insert x l : sorted_texts l -> sorted_texts (set_insert x l) /\ forall y, In y (set_insert x l) <-> y = x \/ In y l.
Proof.
  assert (K : forall l y, sorted_texts (y :: l) <-> (forall z, In z l -> text_ltb y z = true) /\ sorted_texts l).
  { clear. intros l y. split.
    - intros H. split.
      + intros z I. apply In_nth_error in I. destruct I as [k E]. apply (H 0 (S k) y z); [lia|reflexivity|exact E].
      + intros i j a b L E F. apply (H (S i) (S j) a b); [lia|exact E|exact F].
    - intros [H1 H2] i j a b L E F. destruct i, j; try lia; cbn [nth_error] in *.
      + injection E as <-. apply H1. eapply nth_error_In. exact F.
      + apply (H2 i j a b); [lia|exact E|exact F]. }
  induction l as [|y r IH]; intros H.
  - cbn [set_insert]. split; [|intros y; cbn; intuition congruence]. apply K. split; [intros z []|exact H].
  - cbn [set_insert]. apply K in H. destruct H as [H1 H2]. destruct (text_ltb x y) eqn:E1.
    + split; [|intros z; cbn; intuition congruence]. apply K. split; [|apply K; auto]. intros z [<-|I]; [exact E1|].
      eapply text_ltb_trans; [exact E1|auto].
    + destruct (text_ltb y x) eqn:E2.
      * destruct (IH H2) as [I1 I2]. split.
        -- apply K. split; [|exact I1]. intros z I. apply I2 in I. destruct I as [->|I]; auto.
        -- intros z. cbn [In]. rewrite I2. intuition congruence.
      * destruct (text_ltb_total x y) as [T|[T|T]]; try congruence. subst y. split; [apply K; auto|].
        intros z. cbn [In]. intuition congruence.
Qed.
Lemma sorted_nil : sorted_texts [].
Proof. intros i j a b _ E. destruct i; discriminate. Qed.
Lemma find_inner o opts : forall acc, sorted_texts acc ->
  let r := fold_left (fun result pair => match wildcard_of o (fst pair) with Some name => set_insert name result | None => result end) opts acc in
  sorted_texts r /\ forall y, In y r <-> In y acc \/ exists key v, In (key, v : uval) opts /\ wildcard_of o key = Some y.
Proof.
  induction opts as [|[k v] opts IH]; intros acc H; cbn [fold_left].
  - split; [exact H|]. intros y. split; [auto|]. intros [I|[key [v [[] _]]]]. exact I.
  - cbn [fst]. destruct (wildcard_of o k) as [name|] eqn:W.
    + destruct (sorted_insert name acc H) as [S1 S2]. destruct (IH _ S1) as [I1 I2]. split; [exact I1|]. intros y. rewrite I2, S2. split.
      * intros [[->|I]|[key [w [I E]]]]; [right; exists k, v; split; [left; reflexivity|exact W]|auto|right; exists key, w; split; [right; exact I|exact E]].
      * intros [I|[key [w [[J|J] E]]]]; [auto| |right; eauto]. injection J as -> ->. left. left. congruence.
    + destruct (IH _ H) as [I1 I2]. split; [exact I1|]. intros y. rewrite I2. split.
      * intros [I|[key [w [I E]]]]; [auto|right; exists key, w; split; [right; exact I|exact E]].
      * intros [I|[key [w [[J|J] E]]]]; [auto| |right; eauto]. injection J as -> ->. congruence.
Qed.
Lemma find_outer names opts : forall acc, sorted_texts acc ->
  let r := fold_left (fun result o =>
    fold_left (fun result pair => match wildcard_of o (fst pair) with Some name => set_insert name result | None => result end) opts result) names acc in
  sorted_texts r /\ forall y, In y r <-> In y acc \/ exists o key v, In o names /\ In (key, v : uval) opts /\ wildcard_of o key = Some y.
Proof.
  induction names as [|o names IH]; intros acc H; cbn [fold_left].
  - split; [exact H|]. intros y. split; [auto|]. intros [I|[o [key [v [[] _]]]]]. exact I.
  - destruct (find_inner o opts acc H) as [S1 S2]. destruct (IH _ S1) as [I1 I2]. split; [exact I1|]. intros y. rewrite I2, S2. split.
    + intros [[I|[key [v [I E]]]]|[o' [key [v [J [I E]]]]]]; [auto|right; exists o, key, v; split; [left; reflexivity|auto]|].
      right. exists o', key, v. split; [right; exact J|auto].
    + intros [I|[o' [key [v [[J|J] [I E]]]]]]; [auto| |right; eauto 8]. subst o'. left. right. eauto.
Qed.
Lemma wildcard_of_iff o key y : wildcard_of o key = Some y <-> (key = o /\ y = []) \/ exists c, key = o ++ c :: y.
Proof.
  unfold wildcard_of. destruct (starts_with key o) eqn:E.
  - apply starts_with_iff in E. destruct E as [r ->]. rewrite skipn_app, skipn_all, Nat.sub_diag. cbn [app skipn]. destruct r as [|c r]; cbn [tl].
    + rewrite app_nil_r. split.
      * intros H. injection H as <-. auto.
      * intros [[_ ->]|[c H]]; [reflexivity|]. exfalso. assert (L := f_equal (@List.length ascii) H). rewrite app_length in L. cbn in L. lia.
    + split.
      * intros H. injection H as <-. right. eauto.
      * intros [[H _]|[c' H]].
        -- exfalso. assert (L := f_equal (@List.length ascii) H). rewrite app_length in L. cbn in L. lia.
        -- apply app_inv_head in H. injection H as _ ->. reflexivity.
  - split; [discriminate|]. intros [[-> _]|[c ->]]; exfalso.
    + assert (X : starts_with o o = true) by (apply starts_with_iff; exists []; rewrite app_nil_r; reflexivity). congruence.
    + assert (X : starts_with (o ++ c :: y) o = true) by (apply starts_with_iff; eauto). congruence.
Qed.

(** ** Identifiers *)
Lemma unique_id_ok last clock t r : unique_id last clock = Ok (t, r) <->
  exists k, clock = repeat last k ++ t :: r /\ t <> last.
Proof.
  revert t r. induction clock as [|x clock IH]; intros t r; cbn [unique_id].
  - split; [discriminate|]. intros [k [H _]]. destruct k; discriminate.
  - destruct (Z.eqb_spec x last) as [->|N].
    + rewrite IH. split.
      * intros [k [-> H]]. exists (S k). auto.
      * intros [k [H G]]. destruct k as [|k]; [injection H as <- _; congruence|]. injection H as ->. exists k. auto.
    + split.
      * intros H. injection H as <- <-. exists 0. auto.
      * intros [k [H G]]. destruct k as [|k]; [injection H as <- <-; reflexivity|]. injection H as -> _. congruence.
Qed.
Lemma unique_id_outcomes last clock : (exists p, unique_id last clock = Ok p) \/ unique_id last clock = Diverge.
Proof. induction clock as [|x clock IH]; cbn [unique_id]; [auto|]. destruct (Z.eqb x last); eauto. Qed.
Lemma unique_ids_consecutive n : forall last clock ids, unique_ids_from last n clock = Ok ids ->
  length ids = n /\ (forall x r, ids = x :: r -> x <> last)
  /\ forall i a b, nth_error ids i = Some a -> nth_error ids (S i) = Some b -> a <> b.
Proof.
  induction n as [|n IH]; intros last clock ids H; cbn [unique_ids_from] in H.
  - injection H as <-. split; [reflexivity|]. split; [discriminate|]. intros i a b E. destruct i; discriminate.
  - apply bind_ok in H. destruct H as [[t r] [U H]]. apply bind_ok in H. destruct H as [l [R H]]. injection H as <-. cbn [fst snd] in *.
    destruct (IH _ _ _ R) as [L [F C]]. apply unique_id_ok in U. destruct U as [k [_ N]]. split; [cbn; congruence|]. split.
    + intros x q E. injection E as <- _. exact N.
    + intros [|i] a b E E2; cbn [nth_error] in *.
      * injection E as <-. destruct l as [|y l]; [discriminate|]. injection E2 as <-. intros X. symmetry in X. exact (F y l eq_refl X).
      * exact (C i a b E E2).
Qed.
(** The clock is read in order. *)
Lemma unique_ids_increasing n : forall last clock ids,
  (forall i j a b, i < j -> nth_error (last :: clock) i = Some a -> nth_error (last :: clock) j = Some b -> (a <= b)%Z) ->
  unique_ids_from last n clock = Ok ids ->
  (forall x, In x ids -> (last < x)%Z) /\ (forall x, In x ids -> In x clock)
  /\ forall i j a b, i < j -> nth_error ids i = Some a -> nth_error ids j = Some b -> (a < b)%Z.
Proof.
  induction n as [|n IH]; intros last clock ids M H; cbn [unique_ids_from] in H.
  - injection H as <-. split; [intros x []|]. split; [intros x []|]. intros i j a b _ E. destruct i; discriminate.
  - apply bind_ok in H. destruct H as [[t r] [U H]]. apply bind_ok in H. destruct H as [l [R H]]. injection H as <-. cbn [fst snd] in *.
    apply unique_id_ok in U. destruct U as [k [Ec N]].
    assert (Mt : (last < t)%Z).
    { assert (X : (last <= t)%Z); [|lia]. apply (M 0 (S k) last t); [lia|reflexivity|]. cbn [nth_error]. rewrite Ec.
      rewrite nth_error_app2; rewrite repeat_length; [|lia]. rewrite Nat.sub_diag. reflexivity. }
    destruct (IH t r l) as [I1 [I2 I3]]; [|exact R|].
    { intros i j a b L E F. apply (M (S k + i) (S k + j) a b); [lia| |]; cbn [plus nth_error]; rewrite Ec;
        (rewrite nth_error_app2; rewrite repeat_length; [|lia]);
        [replace (k + i - k) with i by lia; exact E | replace (k + j - k) with j by lia; exact F]. }
    split; [|split].
    + intros x [<-|I]; [exact Mt|]. specialize (I1 x I). lia.
    + intros x [<-|I]; rewrite Ec; apply in_or_app; right; [left; reflexivity|right; apply I2; exact I].
    + intros [|i] [|j] a b L E F; try lia; cbn [nth_error] in *.
      * injection E as <-. apply I1. eapply nth_error_In. exact F.
      * apply (I3 i j a b); [lia|exact E|exact F].
Qed.
