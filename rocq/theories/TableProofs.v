(** Proofs about tables. *)
From Coq Require Import List Arith ZArith Ascii String Bool Lia.
From Verif Require Import Common TextModel TextProofs DblModel TableModel TableSpec.
Import ListNotations.
Local Notation length := List.length.

Lemma ctype_eqb_iff a b : ctype_eqb a b = true <-> a = b.
Proof. split; [destruct a, b; simpl; congruence | intros ->; destruct b; reflexivity]. Qed.

Lemma is_vertical_iff c : is_vertical c = true <-> In c line_breaks.
Proof.
  unfold is_vertical, line_breaks. rewrite andb_true_iff, !Nat.leb_le. split.
  - intros [A B].
    assert (E : byte c = 10 \/ byte c = 11 \/ byte c = 12 \/ byte c = 13) by lia.
    assert (K : forall n, byte c = n -> ascii_of_nat n = c)
      by (intros n <-; apply ascii_nat_embedding).
    simpl. destruct E as [E|[E|[E|E]]]; apply K in E; rewrite <- E; tauto.
  - simpl. intros [<-|[<-|[<-|[<-|[]]]]]; vm_compute; split; repeat constructor.
Qed.

Lemma has_vertical_false s : has_vertical s = false <-> one_line s.
Proof.
  unfold has_vertical, one_line. split.
  - intros H c B I. assert (E : existsb is_vertical s = true)
      by (apply existsb_exists; exists c; split; [exact I | apply is_vertical_iff; exact B]).
    congruence.
  - intros H. destruct (existsb is_vertical s) eqn:E; [|reflexivity].
    apply existsb_exists in E. destruct E as [c [I V]]. apply is_vertical_iff in V.
    exfalso. apply (H c V I).
Qed.

Lemma new_desc_ok n ty u d r :
  new_desc n ty u d = Ok r <-> n <> [] /\ one_line n /\ r = mkDesc n ty u d.
Proof.
  unfold new_desc. destruct n as [|c n].
  - split; [discriminate | intros [H _]; congruence].
  - rewrite <- has_vertical_false. destruct (has_vertical (c :: n)).
    + split; [discriminate | intros [_ [H _]]; discriminate].
    + split; [intros H; injection H as <-; repeat split; congruence | intros [_ [_ ->]]; reflexivity].
Qed.
Lemma new_desc_outcomes n ty u d : (exists r, new_desc n ty u d = Ok r) \/ new_desc n ty u d = Throw.
Proof. unfold new_desc. destruct n; auto. destruct (has_vertical _); eauto. Qed.

Lemma existsb_text_eqb n l : existsb (text_eqb n) l = true <-> In n l.
Proof.
  rewrite existsb_exists. split.
  - intros [x [I E]]. apply text_eqb_iff in E. subst. exact I.
  - intros I. exists n. split; [exact I | apply text_eqb_refl].
Qed.
Lemma existsb_text_eqb_false n l : existsb (text_eqb n) l = false <-> ~ In n l.
Proof. rewrite <- existsb_text_eqb. destruct (existsb (text_eqb n) l); split; congruence. Qed.

Lemma insert_names_ok l : forall seen,
  (insert_names seen l = Ok tt <-> NoDup (names_of l) /\ (forall n, In n (names_of l) -> ~ In n seen)) /\
  (insert_names seen l = Ok tt \/ insert_names seen l = Throw).
Proof.
  induction l as [|d r IH]; intros seen; cbn [insert_names].
  - split; [|left; reflexivity]. split; [|reflexivity].
    intros _. split; [constructor | intros n []].
  - destruct (existsb (text_eqb (cd_name d)) seen) eqn:E.
    + apply existsb_text_eqb in E. split; [|right; reflexivity]. split; [discriminate|].
      intros [_ H]. exfalso. apply (H (cd_name d)); [left; reflexivity | exact E].
    + apply existsb_text_eqb_false in E. destruct (IH (cd_name d :: seen)) as [A B].
      split; [|exact B]. rewrite A. cbn [names_of map]. split.
      * intros [N H]. split.
        -- constructor; [|exact N]. intros I. apply (H _ I). left. reflexivity.
        -- intros n [<-|I]; [exact E|]. intros K. apply (H n I). right. exact K.
      * intros [N H]. inversion N as [|? ? N1 N2]; subst. split; [exact N2|].
        intros n I [<-|K]; [contradiction|]. apply (H n); [right; exact I | exact K].
Qed.

Lemma new_info_ok l i : new_info l = Ok i <-> i = l /\ l <> [] /\ NoDup (names_of l).
Proof.
  unfold new_info. destruct l as [|d r].
  - split; [discriminate | intros [_ [H _]]; congruence].
  - destruct (insert_names_ok (d :: r) []) as [A [B|B]]; rewrite B; cbn [bind].
    + apply A in B. split.
      * intros H. injection H as <-. repeat split; [congruence | apply B].
      * intros [-> _]. reflexivity.
    + split; [discriminate|]. intros [_ [_ N]].
      assert (insert_names [] (d :: r) = Ok tt) by (apply A; split; [exact N | intros n _ []]).
      congruence.
Qed.
Lemma new_info_outcomes l : (exists i, new_info l = Ok i) \/ new_info l = Throw.
Proof.
  unfold new_info. destruct l as [|d r]; auto.
  destruct (insert_names_ok (d :: r) []) as [_ [B|B]]; rewrite B; cbn [bind]; eauto.
Qed.

Lemma find_col_some i : forall n k,
  find_col i n = Some k ->
  nth_error (names_of i) k = Some n /\ forall j, j < k -> nth_error (names_of i) j <> Some n.
Proof.
  induction i as [|d r IH]; intros n k H; cbn [find_col] in H; [discriminate|].
  destruct (text_eqb (cd_name d) n) eqn:E.
  - injection H as <-. apply text_eqb_iff in E. subst n. split; [reflexivity | intros j L; lia].
  - destruct (find_col r n) as [k0|] eqn:F; [|discriminate].
    injection H as <-. destruct (IH _ _ F) as [A B]. split; [exact A|].
    intros [|j] L.
    + cbn. intros K. injection K as K. rewrite K, text_eqb_refl in E. discriminate.
    + apply B. lia.
Qed.
Lemma find_col_none i : forall n, find_col i n = None <-> ~ In n (names_of i).
Proof.
  induction i as [|d r IH]; intros n; cbn [find_col names_of map In].
  - split; auto.
  - destruct (text_eqb (cd_name d) n) eqn:E.
    + apply text_eqb_iff in E. split; [discriminate | intros H; exfalso; apply H; left; exact E].
    + destruct (find_col r n) eqn:F; cbn.
      * split; [discriminate|]. intros H. exfalso.
        assert (~ In n (names_of r)) by (intros I; apply H; right; exact I).
        apply IH in H0. congruence.
      * apply IH in F. split; [|reflexivity]. intros _ [K|I]; [|contradiction].
        rewrite K, text_eqb_refl in E. discriminate.
Qed.
Lemma find_col_iff i n k : NoDup (names_of i) ->
  (find_col i n = Some k <-> nth_error (names_of i) k = Some n).
Proof.
  intros N. split; [intros H; apply (find_col_some _ _ _ H)|].
  intros H. destruct (find_col i n) as [j|] eqn:F.
  - apply find_col_some in F. destruct F as [F _]. f_equal.
    apply (proj1 (NoDup_nth_error (names_of i)) N).
    + apply nth_error_Some. congruence.
    + congruence.
  - apply find_col_none in F. exfalso. apply F. apply nth_error_In with k. exact H.
Qed.

Lemma get_desc_in i k : k < length i -> get_desc i k = of_option (nth_error i k).
Proof. intros H. unfold get_desc. replace (Nat.leb (length i) k) with false; auto. symmetry. apply Nat.leb_gt. lia. Qed.

Lemma check_types_gen pre : forall i l,
  (check_types (pre ++ i) (length pre) l = Ok tt <->
   length l <= length i /\ map type_of l = map cd_type (firstn (length l) i)) /\
  (check_types (pre ++ i) (length pre) l = Ok tt \/ check_types (pre ++ i) (length pre) l = Throw).
Proof.
  intros i l. revert pre i. induction l as [|c r IH]; intros pre i; cbn [check_types].
  - split; [|left; reflexivity]. split; [intros _; split; [simpl; lia | reflexivity] | reflexivity].
  - destruct i as [|d i].
    + unfold get_desc. rewrite app_nil_r, Nat.leb_refl. cbn [bind]. split; [|right; reflexivity].
      split; [discriminate | intros [H _]; simpl in H; lia].
    + rewrite get_desc_in by (rewrite app_length; simpl; lia).
      rewrite nth_error_app2, Nat.sub_diag by lia. cbn [nth_error of_option bind].
      destruct (ctype_eqb (type_of c) (cd_type d)) eqn:E.
      * apply ctype_eqb_iff in E.
        specialize (IH (pre ++ [d]) i). rewrite <- app_assoc in IH. simpl in IH.
        rewrite app_length in IH. simpl in IH. rewrite Nat.add_1_r in IH.
        destruct IH as [A B]. split; [|exact B]. rewrite A. cbn [length firstn map]. rewrite E.
        split; [intros [L M]; split; [lia | congruence] | intros [L M]; split; [lia | congruence]].
      * split; [|right; reflexivity]. split; [discriminate|].
        intros [_ M]. cbn [length firstn map] in M. injection M as M _.
        assert (ctype_eqb (type_of c) (cd_type d) = true) by (apply ctype_eqb_iff; exact M). congruence.
Qed.

Lemma check_texts_ok l :
  (check_texts l = Ok tt <-> forall s, In (CString s) l -> s <> [] /\ one_line s) /\
  (check_texts l = Ok tt \/ check_texts l = Throw).
Proof.
  induction l as [|c r IH].
  - split; [|left; reflexivity]. split; [intros _ s [] | reflexivity].
  - assert (K : forall c0, (forall s, c0 <> CString s) ->
        ((check_texts r = Ok tt <-> forall s, In (CString s) (c0 :: r) -> s <> [] /\ one_line s) /\
        (check_texts r = Ok tt \/ check_texts r = Throw))).
    { intros c0 N. destruct IH as [A B]. split; [|exact B]. rewrite A. split.
      - intros H s [E|I]; [exfalso; apply (N s E) | apply H; exact I].
      - intros H s I. apply H. right. exact I. }
    destruct c; try (apply K; congruence).
    cbn [check_texts]. destruct s as [|x s].
    + split; [|right; reflexivity]. split; [discriminate|]. intros H.
      destruct (H [] (or_introl eq_refl)) as [E _]. congruence.
    + destruct (has_vertical (x :: s)) eqn:V.
      * split; [|right; reflexivity]. split; [discriminate|]. intros H.
        destruct (H (x :: s) (or_introl eq_refl)) as [_ E]. apply has_vertical_false in E. congruence.
      * destruct IH as [A B]. split; [|exact B]. rewrite A. split.
        -- intros H s0 [E|I]; [|apply H; exact I]. injection E as <-. split; [congruence|].
           apply has_vertical_false. exact V.
        -- intros H s0 I. apply H. right. exact I.
Qed.

Lemma new_row_ok values i r :
  new_row values (Some i) = Ok r <-> r = mkRow values i /\ fits values i.
Proof.
  unfold new_row, fits.
  destruct (Nat.eqb (length values) (length i)) eqn:L; cbn [negb].
  - apply Nat.eqb_eq in L.
    destruct (check_types_gen [] i values) as [A B]. simpl in A, B.
    assert (F : firstn (length values) i = i) by (rewrite L; apply firstn_all). rewrite F in A.
    destruct (check_texts_ok values) as [C D].
    destruct B as [B|B]; rewrite B; cbn [bind].
    + destruct D as [D|D]; rewrite D; cbn [bind].
      * split.
        -- intros H. injection H as <-. repeat split; [apply A; exact B | apply (proj1 C D s H) | apply (proj1 C D s H)].
        -- intros [-> _]. reflexivity.
      * split; [discriminate|]. intros [_ [_ H]]. apply C in H. congruence.
    + split; [discriminate|]. intros [_ [H _]].
      assert (check_types i 0 values = Ok tt) by (apply A; split; [lia | exact H]). congruence.
  - apply Nat.eqb_neq in L. split; [discriminate|]. intros [_ [H _]].
    apply (f_equal (@length _)) in H. rewrite !map_length in H. contradiction.
Qed.
Lemma new_row_outcomes values i : (exists r, new_row values i = Ok r) \/ new_row values i = Throw.
Proof.
  unfold new_row. destruct i as [i|]; auto.
  destruct (negb _); auto.
  destruct (check_types_gen [] i values) as [_ B]. simpl in B.
  destruct (check_texts_ok values) as [_ D].
  destruct B as [B|B]; rewrite B; cbn [bind]; auto.
  destruct D as [D|D]; rewrite D; cbn [bind]; eauto.
Qed.

Lemma desc_eqb_iff a b : desc_eqb a b = true <->
  (cd_name a, cd_type a, cd_unit a) = (cd_name b, cd_type b, cd_unit b).
Proof.
  unfold desc_eqb. rewrite !andb_true_iff, !text_eqb_iff, ctype_eqb_iff.
  split; [intros [[-> ->] ->]; reflexivity | intros H; injection H; auto].
Qed.
Lemma info_eqb_iff a b : info_eqb a b = true <-> columns_of a = columns_of b.
Proof.
  unfold info_eqb. destruct (Nat.eqb (length a) (length b)) eqn:L; cbn [negb].
  - apply Nat.eqb_eq in L. clear -L. revert b L. induction a as [|x a IH]; intros [|y b] L; simpl in L; try lia.
    + split; reflexivity.
    + cbn [all_eqb columns_of map]. rewrite andb_true_iff, desc_eqb_iff, IH by lia.
      split.
      * intros [A B]. rewrite A. f_equal. exact B.
      * intros H. injection H as H1 H2 H3 H4. split; [rewrite H1, H2, H3; reflexivity | exact H4].
  - apply Nat.eqb_neq in L. split; [discriminate|]. intros H.
    apply (f_equal (@length _)) in H. unfold columns_of in H. rewrite !map_length in H. contradiction.
Qed.

Lemma new_table_ok rows t :
  new_table rows = Ok t <->
  exists r0 rest, rows = r0 :: rest /\ t = mkTable rows (r_info r0) /\
    forall r, In r rows -> columns_of (r_info r) = columns_of (r_info r0).
Proof.
  unfold new_table. destruct rows as [|r0 rest].
  - split; [discriminate | intros [? [? [H _]]]; discriminate].
  - destruct (forallb _ (r0 :: rest)) eqn:F.
    + rewrite forallb_forall in F. split.
      * intros H. injection H as <-. exists r0, rest. repeat split. intros r I. apply info_eqb_iff. apply F. exact I.
      * intros [a [b [E [-> _]]]]. injection E as <- <-. reflexivity.
    + split; [discriminate|]. intros [a [b [E [_ H]]]]. injection E as <- <-.
      assert (forallb (fun r => info_eqb (r_info r) (r_info r0)) (r0 :: rest) = true)
        by (apply forallb_forall; intros r I; apply info_eqb_iff, H, I).
      congruence.
Qed.
Lemma new_table_outcomes rows : (exists t, new_table rows = Ok t) \/ new_table rows = Throw.
Proof. unfold new_table. destruct rows; auto. destruct (forallb _ _); eauto. Qed.

Lemma row_at_ok r k c : row_at r k = Ok c <-> nth_error (r_values r) k = Some c.
Proof.
  unfold row_at. destruct (Nat.leb (length (r_values r)) k) eqn:L.
  - apply Nat.leb_le in L. apply nth_error_None in L. rewrite L. split; discriminate.
  - destruct (nth_error (r_values r) k); simpl; split; intros H; inversion H; reflexivity.
Qed.
Lemma row_at_throw r k : row_at r k = Throw <-> length (r_values r) <= k.
Proof.
  unfold row_at. destruct (Nat.leb (length (r_values r)) k) eqn:L.
  - apply Nat.leb_le in L. tauto.
  - apply Nat.leb_gt in L. destruct (nth_error (r_values r) k) eqn:E; simpl; split; try discriminate; try lia.
Qed.
Lemma row_named_ok values i r name c : new_row values (Some i) = Ok r -> NoDup (names_of i) ->
  (row_named r name = Ok c <->
   exists k, nth_error (names_of i) k = Some name /\ nth_error values k = Some c).
Proof.
  intros H N. apply new_row_ok in H. destruct H as [-> [F _]]. unfold row_named. cbn [r_info r_values].
  assert (L : length values = length i)
    by (apply (f_equal (@length _)) in F; rewrite !map_length in F; exact F).
  destruct (find_col i name) as [k|] eqn:E.
  - apply (find_col_iff _ _ _ N) in E. split.
    + intros H. exists k. split; [exact E|]. destruct (nth_error values k); simpl in H; congruence.
    + intros [j [A B]]. assert (j = k).
      { apply (proj1 (NoDup_nth_error (names_of i)) N); [apply nth_error_Some; congruence | congruence]. }
      subst j. rewrite B. reflexivity.
  - apply find_col_none in E. split; [discriminate|].
    intros [k [A _]]. exfalso. apply E. apply nth_error_In with k. exact A.
Qed.
Lemma row_named_throw values i r name : new_row values (Some i) = Ok r ->
  (row_named r name = Throw <-> ~ In name (names_of i)) /\ row_named r name <> UB.
Proof.
  intros H. apply new_row_ok in H. destruct H as [-> [F _]]. unfold row_named. cbn [r_info r_values].
  assert (L : length values = length i)
    by (apply (f_equal (@length _)) in F; rewrite !map_length in F; exact F).
  destruct (find_col i name) as [k|] eqn:E.
  - pose proof (find_col_some _ _ _ E) as [A _].
    assert (k < length (names_of i)) by (apply nth_error_Some; congruence).
    unfold names_of in H. rewrite map_length in H.
    destruct (nth_error values k) eqn:V.
    + simpl. split; [|discriminate]. split; [discriminate|]. intros K. exfalso. apply K.
      apply nth_error_In with k. exact A.
    + apply nth_error_None in V. lia.
  - split; [|discriminate]. apply find_col_none in E. tauto.
Qed.

Lemma table_at_ok t k r : table_at t k = Ok r <-> nth_error (t_rows t) k = Some r.
Proof.
  unfold table_at. destruct (Nat.leb (length (t_rows t)) k) eqn:L.
  - apply Nat.leb_le in L. apply nth_error_None in L. rewrite L. split; discriminate.
  - destruct (nth_error (t_rows t) k); simpl; split; intros H; inversion H; reflexivity.
Qed.

(** ** Appending *)
Lemma add_all_some ts : forall i rows w,
  add_all (mkWriter (Some i) rows) ts = Ok w <->
  w = mkWriter (Some i) (rows ++ flat_map t_rows ts) /\
  forall t, In t ts -> columns_of (t_info t) = columns_of i.
Proof.
  induction ts as [|t r IH]; intros i rows w; cbn [add_all flat_map].
  - rewrite app_nil_r. split.
    + intros H. injection H as <-. split; [reflexivity | intros t []].
    + intros [-> _]. reflexivity.
  - unfold add_data. cbn [w_info w_rows]. destruct (info_eqb i (t_info t)) eqn:E; cbn [negb bind].
    + apply info_eqb_iff in E. rewrite IH. rewrite <- app_assoc. split.
      * intros [-> H]. split; [reflexivity|]. intros t0 [<-|I]; [symmetry; exact E | apply H; exact I].
      * intros [-> H]. split; [reflexivity|]. intros t0 I. apply H. right. exact I.
    + split; [discriminate|]. intros [_ H]. specialize (H t (or_introl eq_refl)).
      symmetry in H. apply info_eqb_iff in H. congruence.
Qed.
Lemma add_all_ok ts w :
  add_all empty_writer ts = Ok w <->
  (ts = [] /\ w = empty_writer) \/
  exists t0 r, ts = t0 :: r /\
    w = mkWriter (Some (t_info t0)) (flat_map t_rows ts) /\
    forall t, In t ts -> columns_of (t_info t) = columns_of (t_info t0).
Proof.
  destruct ts as [|t r].
  - cbn. split.
    + intros H. injection H as <-. auto.
    + intros [[_ ->]|[? [? [H _]]]]; [reflexivity | discriminate].
  - cbn [add_all]. unfold add_data. cbn [w_info w_rows empty_writer bind]. rewrite add_all_some. split.
    + intros [-> H]. right. exists t, r. repeat split. intros t0 [<-|I]; [reflexivity | apply H; exact I].
    + intros [[H _]|[t0 [r0 [E [-> H]]]]]; [discriminate|]. injection E as <- <-. split; [reflexivity|].
      intros t0 I. apply H. right. exact I.
Qed.

(** ** Casts *)
Lemma clamp64_range z : is_int64 (clamp64 z).
Proof. unfold is_int64, clamp64, int64_min, int64_max. lia. Qed.
Lemma clamp64_id z : is_int64 z -> clamp64 z = z.
Proof. unfold is_int64, clamp64, int64_min, int64_max. lia. Qed.
Lemma strtoll_range s z : strtoll s = Some z -> is_int64 z.
Proof.
  unfold strtoll. set (s1 := drop_while is_space s). clearbody s1. intros H.
  assert (K : forall b y, (if b : bool then Some (clamp64 y) else None) = Some z -> is_int64 z).
  { intros [] y E; [|discriminate]. injection E as <-. apply clamp64_range. }
  destruct s1 as [|c r]; [discriminate|].
  destruct c as [[] [] [] [] [] [] [] []]; apply K in H; exact H.
Qed.
Lemma int32_int64 z : is_int32 z -> is_int64 z.
Proof. unfold is_int32, is_int64. lia. Qed.

Lemma cast_int_range c z : cell_ok c -> cast_int c = Ok z -> is_int32 z.
Proof.
  intros K H. destruct c; cbn [cell_ok cast_int cast_long] in K, H; try discriminate.
  - injection H as <-. destruct b; vm_compute; split; intros; discriminate.
  - injection H as <-. exact K.
  - destruct (strtoll s) as [y|]; [|discriminate].
    destruct (Z.ltb int32_max y || Z.ltb y int32_min)%bool eqn:E; [discriminate|].
    injection H as <-. apply orb_false_iff in E. destruct E as [A B].
    apply Z.ltb_ge in A. apply Z.ltb_ge in B. split; assumption.
Qed.
Lemma cast_long_range c z : cell_ok c -> cast_long c = Ok z -> is_int64 z.
Proof.
  intros K H. destruct c; cbn [cell_ok cast_int cast_long] in K, H; try discriminate.
  - injection H as <-. destruct b; vm_compute; split; intros; discriminate.
  - injection H as <-. apply int32_int64. exact K.
  - injection H as <-. exact K.
  - destruct (strtoll s) as [y|] eqn:E; [|discriminate]. injection H as <-. apply (strtoll_range s). exact E.
Qed.
Lemma cast_int_long c z : cast_int c = Ok z -> cast_long c = Ok z.
Proof.
  destruct c; cbn [cast_int cast_long]; try discriminate; auto.
  destruct (strtoll s); [|discriminate]. destruct (_ || _)%bool; [discriminate | auto].
Qed.

(** Texts as integers. *)
Lemma digit_val_some c d : digit_val c = Some d -> exists n, d = Z.of_nat n /\ nth_error ten_digits n = Some c.
Proof.
  destruct c as [[] [] [] [] [] [] [] []]; vm_compute; intros H; try discriminate; injection H as <-;
    match goal with |- exists n, ?d = _ /\ _ => exists (Z.to_nat d) end; split; reflexivity.
Qed.
Lemma digit_val_nth n c : nth_error ten_digits n = Some c -> digit_val c = Some (Z.of_nat n).
Proof. intros H. do 10 (destruct n as [|n]; [injection H as <-; reflexivity|]). destruct n; discriminate. Qed.
Lemma digit_val_none c : digit_val c = None <-> ~ In c ten_digits.
Proof.
  split.
  - intros H I. apply In_nth_error in I. destruct I as [n I]. apply digit_val_nth in I. congruence.
  - intros H. destruct (digit_val c) as [d|] eqn:E; [|reflexivity]. apply digit_val_some in E. destruct E as (n & _ & E).
    exfalso. apply H. eapply nth_error_In. exact E.
Qed.
Lemma leading_app ds rest v : decimal ds v -> forall acc,
  leading_digits acc (ds ++ rest) = leading_digits (acc * 10 ^ Z.of_nat (length ds) + v) rest.
Proof.
  intros H. revert rest. induction H as [|ds v c d H IH N]; intros rest acc.
  - cbn. f_equal. lia.
  - rewrite <- app_assoc, IH. cbn [app leading_digits]. rewrite (digit_val_nth d c N). f_equal.
    rewrite app_length. cbn [length]. rewrite Nat2Z.inj_add, Z.pow_add_r by lia. change (10 ^ Z.of_nat 1)%Z with 10%Z. lia.
Qed.
Lemma leading_stop acc rest : (forall c r, rest = c :: r -> ~ In c ten_digits) -> leading_digits acc rest = acc.
Proof. destruct rest as [|c r]; intros H; [reflexivity|]. cbn. rewrite (proj2 (digit_val_none c) (H c r eq_refl)). reflexivity. Qed.
Lemma digits_span s : exists ds rest v, s = ds ++ rest /\ decimal ds v /\ (forall c r, rest = c :: r -> ~ In c ten_digits) /\
  (starts_with_digit s = true -> ds <> []).
Proof.
  assert (G : forall s pre v, decimal pre v -> exists ds rest w, pre ++ s = ds ++ rest /\ decimal ds w /\
    (forall c r, rest = c :: r -> ~ In c ten_digits) /\ (pre <> [] -> ds <> []) /\ (starts_with_digit s = true -> ds <> [])).
  { clear s. induction s as [|c s IH]; intros pre v D.
    - exists pre, [], v. repeat split; auto; [discriminate | cbn; discriminate].
    - destruct (digit_val c) as [d|] eqn:E.
      + destruct (digit_val_some c d E) as (n & -> & N). destruct (IH (pre ++ [c]) _ (decimal_snoc pre v c n D N)) as (ds & rest & w & E1 & D1 & R & A & B).
        rewrite <- app_assoc in E1. cbn [app] in E1. exists ds, rest, w.
        assert (ds <> []) by (apply A; destruct pre; discriminate). repeat split; auto.
      + exists pre, (c :: s), v. repeat split; auto.
        * intros x r Q. injection Q as <- <-. apply digit_val_none. exact E.
        * cbn. rewrite E. discriminate. }
  destruct (G s [] 0%Z decimal_nil) as (ds & rest & w & E1 & D1 & R & _ & B). exists ds, rest, w. auto.
Qed.
Lemma white_is_space c : In c white_space <-> is_space c = true.
Proof.
  split.
  - intros H. vm_compute in H. repeat (destruct H as [<-|H]; [reflexivity|]). contradiction.
  - destruct c as [[] [] [] [] [] [] [] []]; vm_compute; intros H; try discriminate; tauto.
Qed.
Lemma drop_blanks b s : Forall (fun c => In c white_space) b -> (forall c r, s = c :: r -> is_space c = false) -> drop_while is_space (b ++ s) = s.
Proof.
  intros F N. induction F as [|c b H F IH].
  - destruct s as [|c r]; [reflexivity|]. cbn. rewrite (N c r eq_refl). reflexivity.
  - cbn [app drop_while]. rewrite (proj1 (white_is_space c) H). exact IH.
Qed.
Lemma drop_split s : exists b, s = b ++ drop_while is_space s /\ Forall (fun c => In c white_space) b.
Proof.
  induction s as [|c s (b & E & F)]; [exists []; split; [reflexivity | constructor]|]. cbn [drop_while].
  destruct (is_space c) eqn:S0.
  - exists (c :: b). split; [cbn; congruence|]. constructor; [apply white_is_space; exact S0 | exact F].
  - exists []. split; [reflexivity | constructor].
Qed.
Lemma decimal_head ds v c r : decimal ds v -> ds = c :: r -> exists d, digit_val c = Some d.
Proof.
  intros D. revert c r. induction D as [|ds v x d D IH N]; intros c r E; [discriminate|].
  destruct ds as [|y ds]; injection E as <- <-; [eexists; apply (digit_val_nth d); exact N | eapply IH; reflexivity].
Qed.
Definition strtoll_at (s1 : text) : option Z :=
  match s1 with
  | "-"%char :: r => if starts_with_digit r then Some (clamp64 (- leading_digits 0 r)) else None
  | "+"%char :: r => if starts_with_digit r then Some (clamp64 (leading_digits 0 r)) else None
  | _ => if starts_with_digit s1 then Some (clamp64 (leading_digits 0 s1)) else None
  end.
Lemma strtoll_at_digit c r d : digit_val c = Some d -> strtoll_at (c :: r) = Some (clamp64 (leading_digits 0 (c :: r))).
Proof.
  intros H. assert (N1 : c <> "-"%char) by (intros ->; discriminate). assert (N2 : c <> "+"%char) by (intros ->; discriminate).
  assert (S0 : starts_with_digit (c :: r) = true) by (cbn; rewrite H; reflexivity).
  unfold strtoll_at. destruct c as [[] [] [] [] [] [] [] []]; try congruence; rewrite S0; reflexivity.
Qed.
Lemma strtoll_at_none s : (forall x, strtoll_at s <> Some x) -> strtoll_at s = None.
Proof. intros H. destruct (strtoll_at s) as [x|]; [|reflexivity]. exfalso. apply (H x). reflexivity. Qed.
Lemma strtoll_at_some s x : strtoll_at s = Some x ->
  (exists r, s = txt "-" ++ r /\ starts_with_digit r = true /\ x = clamp64 (- leading_digits 0 r)) \/
  (exists r, s = txt "+" ++ r /\ starts_with_digit r = true /\ x = clamp64 (leading_digits 0 r)) \/
  (starts_with_digit s = true /\ x = clamp64 (leading_digits 0 s)).
Proof.
  assert (G : forall r y, (if starts_with_digit r then Some y else None) = Some x -> starts_with_digit r = true /\ x = y).
  { intros r y H. destruct (starts_with_digit r); [|discriminate]. injection H as ->. split; reflexivity. }
  destruct s as [|c r]; [discriminate|].
  destruct (ascii_dec c "-"%char) as [-> |N1]; [intros H; left; exists r; split; [reflexivity | apply G; exact H]|].
  destruct (ascii_dec c "+"%char) as [-> |N2]; [intros H; right; left; exists r; split; [reflexivity | apply G; exact H]|].
  intros H. right. right. unfold strtoll_at in H.
  destruct c as [[] [] [] [] [] [] [] []]; try congruence; apply G; exact H.
Qed.
Lemma strtoll_starts s v : starts_with_integer s v -> strtoll s = Some (clamp64 v).
Proof.
  intros (b & sign & ds & rest & w & -> & F & N & D & R & H).
  destruct ds as [|c ds]; [congruence|]. destruct (decimal_head _ _ _ _ D eq_refl) as (d & E).
  assert (Sp : is_space c = false).
  { destruct (is_space c) eqn:Q; [|reflexivity]. apply white_is_space in Q. vm_compute in Q. repeat (destruct Q as [<-|Q]; [discriminate|]). contradiction. }
  change (strtoll ?x) with (strtoll_at (drop_while is_space x)).
  assert (L : leading_digits 0 ((c :: ds) ++ rest) = w).
  { rewrite (leading_app _ _ _ D), leading_stop by exact R. lia. }
  assert (S1 : starts_with_digit ((c :: ds) ++ rest) = true) by (cbn; rewrite E; reflexivity).
  destruct H as [[[-> | ->] ->] | [-> ->]].
  - cbn [app] in *. rewrite drop_blanks; [|exact F | intros x r Q; injection Q as <- <-; exact Sp].
    rewrite (strtoll_at_digit c _ d E). rewrite L. reflexivity.
  - rewrite drop_blanks; [|exact F | intros x r Q; injection Q as <- <-; reflexivity].
    change (strtoll_at (txt "+" ++ ?r)) with (if starts_with_digit r then Some (clamp64 (leading_digits 0 r)) else None). rewrite S1, L. reflexivity.
  - rewrite drop_blanks; [|exact F | intros x r Q; injection Q as <- <-; reflexivity].
    change (strtoll_at (txt "-" ++ ?r)) with (if starts_with_digit r then Some (clamp64 (- leading_digits 0 r)) else None). rewrite S1, L. reflexivity.
Qed.
Lemma strtoll_none s : (forall v, ~ starts_with_integer s v) -> strtoll s = None.
Proof.
  intros H. change (strtoll s) with (strtoll_at (drop_while is_space s)). apply strtoll_at_none. intros x E.
  destruct (drop_split s) as (b & Es & F). apply strtoll_at_some in E.
  assert (G : forall sign r, drop_while is_space s = sign ++ r -> starts_with_digit r = true ->
    exists ds rest w, s = b ++ sign ++ ds ++ rest /\ ds <> [] /\ decimal ds w /\ (forall c r', rest = c :: r' -> ~ In c ten_digits)).
  { intros sign r Er Sr. destruct (digits_span r) as (ds & rest & w & Er2 & D & R & N). exists ds, rest, w.
    split; [rewrite Es, Er, Er2; reflexivity|]. split; [apply N; exact Sr|]. split; [exact D | exact R]. }
  destruct E as [(r & Er & Sr & _)|[(r & Er & Sr & _)|(Sr & _)]].
  - destruct (G _ _ Er Sr) as (ds & rest & w & E1 & N & D & R). apply (H (- w)%Z). exists b, (txt "-"), ds, rest, w. auto 10.
  - destruct (G _ _ Er Sr) as (ds & rest & w & E1 & N & D & R). apply (H w). exists b, (txt "+"), ds, rest, w. auto 10.
  - destruct (G [] _ eq_refl Sr) as (ds & rest & w & E1 & N & D & R). apply (H w). exists b, [], ds, rest, w. auto 10.
Qed.

Section WithStrtod.
Variable strtod : text -> option dbl.
Lemma cast_long_double c z : (forall s, c <> CString s) -> cast_long c = Ok z ->
  cast_double strtod c = Ok (dbl_of_Z z).
Proof.
  intros N. destruct c; cbn; intros H; try discriminate; try (injection H as <-; reflexivity).
  exfalso. apply (N s). reflexivity.
Qed.
Lemma cast_float_double c d : (forall s, c <> CString s) -> cast_float strtod c = Ok d -> cast_double strtod c = Ok d.
Proof.
  intros N. destruct c; cbn; intros H; try discriminate; auto.
Qed.

Lemma map_o_ok {A B} (f : A -> outcome B) l ys :
  map_o f l = Ok ys <-> Forall2 (fun x y => f x = Ok y) l ys.
Proof.
  revert ys. induction l as [|x r IH]; intros ys; cbn [map_o].
  - split; [intros H; injection H as <-; constructor | intros H; inversion H; reflexivity].
  - destruct (f x) eqn:F; cbn [bind].
    + destruct (map_o f r) as [zs| | |] eqn:M; cbn [bind].
      * split.
        -- intros H. injection H as <-. constructor; [exact F | apply IH; reflexivity].
        -- intros H. inversion H as [|? y ? zs' E1 E2]; subst. apply IH in E2. congruence.
      * split; [discriminate|]. intros H. inversion H as [|? y ? zs' E1 E2]; subst. apply IH in E2. congruence.
      * split; [discriminate|]. intros H. inversion H as [|? y ? zs' E1 E2]; subst. apply IH in E2. congruence.
      * split; [discriminate|]. intros H. inversion H as [|? y ? zs' E1 E2]; subst. apply IH in E2. congruence.
    + split; [discriminate|]. intros H. inversion H; congruence.
    + split; [discriminate|]. intros H. inversion H; congruence.
    + split; [discriminate|]. intros H. inversion H; congruence.
Qed.
Lemma map_o_outcomes {A B} (f : A -> outcome B) l :
  (forall x, (exists y, f x = Ok y) \/ f x = Throw) ->
  (exists ys, map_o f l = Ok ys) \/ map_o f l = Throw.
Proof.
  intros K. induction l as [|x r IH]; cbn [map_o]; eauto.
  destruct (K x) as [[y ->]| ->]; cbn [bind]; auto.
  destruct IH as [[ys ->]| ->]; cbn [bind]; eauto.
Qed.
Lemma dbl_of_text_outcomes s : (exists d, dbl_of_text strtod s = Ok d) \/ dbl_of_text strtod s = Throw.
Proof. unfold dbl_of_text. destruct (strtod s) as [d|]; auto. destruct (is_infinite d); eauto. Qed.
Lemma cast_double_outcomes c : (exists d, cast_double strtod c = Ok d) \/ cast_double strtod c = Throw.
Proof. destruct c; cbn; eauto. apply dbl_of_text_outcomes. Qed.
Lemma cast_vdouble_outcomes c : (exists d, cast_vdouble strtod c = Ok d) \/ cast_vdouble strtod c = Throw.
Proof.
  destruct c; cbn; eauto; apply map_o_outcomes; intros; eauto. apply dbl_of_text_outcomes.
Qed.
End WithStrtod.
