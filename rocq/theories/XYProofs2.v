From Coq Require Import List Arith Ascii String Bool Lia Permutation Sorted.
From Verif Require Import Common TextModel TextProofs XYModel XYSpec XYProofs.
Import ListNotations.
Local Notation length := List.length.

(** ** Memoisation *)
Section Memo.
  Context {K V X : Type}.
  Variable ltb : K -> K -> bool.
  Variable P : K -> Prop.
  Variable key : K -> X.
  Variable prov : nat -> K -> outcome V.
  Hypothesis key_spec : forall a b, P a -> P b -> (same_key ltb a b = true <-> key a = key b).

  Record memo_inv (C : nat -> K -> Prop) (m : list (K * V)) (t : nat) : Prop := {
    mi_keys : forall k v, In (k, v) m -> P k;
    mi_calls : forall n k, C n k -> P k /\ n < t;
    mi_found : forall n k v, C n k -> prov n k = Ok v -> map_find ltb m k = Some v;
    mi_from : forall k v, P k -> map_find ltb m k = Some v -> exists n k', C n k' /\ key k' = key k /\ prov n k' = Ok v;
    mi_once : forall n1 k1 n2 k2 v, C n1 k1 -> C n2 k2 -> n1 < n2 -> key k1 = key k2 -> prov n1 k1 <> Ok v
  }.

  Lemma map_find_key (m : list (K * V)) k k' : (forall x v, In (x, v) m -> P x) -> P k -> P k' -> key k = key k' ->
    map_find ltb m k = map_find ltb m k'.
  Proof.
    intros Hm Hk Hk' E. induction m as [|(x, v) m IH]; [reflexivity|]. cbn [map_find].
    assert (Px : P x) by (apply (Hm x v); left; reflexivity).
    assert (Es : same_key ltb x k = same_key ltb x k').
    { destruct (same_key ltb x k) eqn:A, (same_key ltb x k') eqn:B; try reflexivity; exfalso.
      - apply key_spec in A; [|assumption..]. assert (same_key ltb x k' = true) by (apply key_spec; congruence). congruence.
      - apply key_spec in B; [|assumption..]. assert (same_key ltb x k = true) by (apply key_spec; congruence). congruence. }
    rewrite Es. destruct (same_key ltb x k'); [reflexivity|]. apply IH. intros; eapply Hm; right; eassumption.
  Qed.

  Lemma same_key_refl k : P k -> same_key ltb k k = true.
  Proof. intros H. apply key_spec; auto. Qed.

  Lemma memo_step C m t k o m' called : memo_inv C m t -> P k -> memo ltb (prov t) m k = (o, m', called) ->
    memo_inv (fun n k' => C n k' \/ (called = true /\ n = t /\ k' = k)) m' (if called then S t else t) /\
    (forall k' v, P k' -> map_find ltb m k' = Some v -> map_find ltb m' k' = Some v) /\
    (forall v, o = Ok v -> map_find ltb m' k = Some v) /\
    (forall v, map_find ltb m k = Some v -> o = Ok v /\ called = false).
  Proof.
    intros I Pk H. unfold memo in H. destruct (map_find ltb m k) as [v|] eqn:E.
    - injection H as <- <- <-. split; [|split; [|split]].
      + split.
        * apply (mi_keys _ _ _ I).
        * intros n k' [Hc|(Hc & _)]; [|discriminate]. apply (mi_calls _ _ _ I _ _ Hc).
        * intros n k' v' [Hc|(Hc & _)]; [|discriminate]. apply (mi_found _ _ _ I _ _ _ Hc).
        * intros k' v' Pk' Hf. destruct (mi_from _ _ _ I _ _ Pk' Hf) as (n & k2 & A). exists n, k2. tauto.
        * intros n1 k1 n2 k2 v' [H1|(H1 & _)] [H2|(H2 & _)]; try discriminate. apply (mi_once _ _ _ I); assumption.
      + auto.
      + congruence.
      + intros v' Ev. split; congruence.
    - assert (Hno : forall n k', C n k' -> key k' = key k -> forall v, prov n k' <> Ok v).
      { intros n k' Hc Ek v Hp. pose proof (mi_found _ _ _ I _ _ _ Hc Hp) as Hf.
        rewrite (map_find_key m k' k) in Hf; [congruence|apply (mi_keys _ _ _ I)|apply (mi_calls _ _ _ I _ _ Hc)|assumption|assumption]. }
      assert (Keep : forall k' v, P k' -> map_find ltb m k' = Some v -> key k' <> key k).
      { intros k' v Pk' Hf Ek. rewrite (map_find_key m k' k) in Hf; [congruence|apply (mi_keys _ _ _ I)|assumption..]. }
      assert (Other : forall o', prov t k = o' -> (forall v, o' <> Ok v) -> (o, m', called) = (o', m, true) ->
        memo_inv (fun n k' => C n k' \/ (called = true /\ n = t /\ k' = k)) m' (if called then S t else t) /\
        (forall k' v, P k' -> map_find ltb m k' = Some v -> map_find ltb m' k' = Some v) /\
        (forall v, o = Ok v -> map_find ltb m' k = Some v) /\
        (forall v, None = Some v -> o = Ok v /\ called = false)).
      { intros o' Ep Hbad Eq. injection Eq as -> -> ->. split; [|split; [|split]].
        - split.
          + apply (mi_keys _ _ _ I).
          + intros n k' [Hc|(_ & -> & ->)]; [destruct (mi_calls _ _ _ I _ _ Hc); split; [assumption|lia]|split; [assumption|lia]].
          + intros n k' v' [Hc|(_ & -> & ->)]; [apply (mi_found _ _ _ I _ _ _ Hc)|]. rewrite Ep. intros Hv. exfalso. eapply Hbad. eassumption.
          + intros k' v' Pk' Hf. destruct (mi_from _ _ _ I _ _ Pk' Hf) as (n & k2 & A). exists n, k2. tauto.
          + intros n1 k1 n2 k2 v' [H1|(_ & -> & ->)] [H2|(_ & -> & ->)] Hlt Ek.
            * apply (mi_once _ _ _ I n1 k1 n2 k2); assumption.
            * apply Hno; assumption.
            * exfalso. pose proof (proj2 (mi_calls _ _ _ I _ _ H2)). lia.
            * lia.
        - auto.
        - intros v Ev. exfalso. eapply Hbad. eassumption.
        - discriminate. }
      destruct (prov t k) as [v| | |] eqn:Ep; [|apply (Other Throw); [reflexivity|discriminate|symmetry; exact H]
        |apply (Other UB); [reflexivity|discriminate|symmetry; exact H]|apply (Other Diverge); [reflexivity|discriminate|symmetry; exact H]].
      injection H as <- <- <-. split; [|split; [|split]].
      + split.
        * intros k' v' [E'|Hin]; [injection E' as <- <-; assumption|]. eapply (mi_keys _ _ _ I); eassumption.
        * intros n k' [Hc|(_ & -> & ->)]; [destruct (mi_calls _ _ _ I _ _ Hc); split; [assumption|lia]|split; [assumption|lia]].
        * intros n k' v' [Hc|(_ & -> & ->)] Hp; cbn [map_find].
          -- destruct (same_key ltb k k') eqn:Es.
             ++ apply key_spec in Es; [|assumption|apply (mi_calls _ _ _ I _ _ Hc)]. exfalso. eapply Hno; [exact Hc|congruence|exact Hp].
             ++ apply (mi_found _ _ _ I _ _ _ Hc Hp).
          -- rewrite same_key_refl by assumption. congruence.
        * intros k' v' Pk'. cbn [map_find]. destruct (same_key ltb k k') eqn:Es.
          -- intros Hv. injection Hv as <-. apply key_spec in Es; [|assumption..]. exists t, k. split; [right; auto|]. split; assumption.
          -- intros Hf. destruct (mi_from _ _ _ I _ _ Pk' Hf) as (n & k2 & A). exists n, k2. tauto.
        * intros n1 k1 n2 k2 v' [H1|(_ & -> & ->)] [H2|(_ & -> & ->)] Hlt Ek.
          -- apply (mi_once _ _ _ I n1 k1 n2 k2); assumption.
          -- apply Hno; assumption.
          -- exfalso. pose proof (proj2 (mi_calls _ _ _ I _ _ H2)). lia.
          -- lia.
      + intros k' v' Pk' Hf. cbn [map_find]. destruct (same_key ltb k k') eqn:Es; [|assumption].
        apply key_spec in Es; [|assumption..]. exfalso. eapply Keep; [exact Pk'|exact Hf|congruence].
      + intros v' Ev. injection Ev as <-. cbn [map_find]. rewrite same_key_refl by assumption. reflexivity.
      + discriminate.
  Qed.

  Lemma memo_inv_ext C C' m t t' : (forall n k, C n k <-> C' n k) -> t <= t' -> memo_inv C m t -> memo_inv C' m t'.
  Proof.
    intros Hc Ht I. split.
    - apply (mi_keys _ _ _ I).
    - intros n k H. apply Hc in H. destruct (mi_calls _ _ _ I _ _ H). split; [assumption|lia].
    - intros n k v H. apply Hc in H. apply (mi_found _ _ _ I _ _ _ H).
    - intros k v Pk H. destruct (mi_from _ _ _ I _ _ Pk H) as (n & k' & A & B). exists n, k'. split; [apply Hc; assumption|assumption].
    - intros n1 k1 n2 k2 v H1 H2. apply Hc in H1. apply Hc in H2. apply (mi_once _ _ _ I); assumption.
  Qed.
End Memo.

Lemma nth_error_snoc {A} (l : list A) x n y :
  nth_error (l ++ [x]) n = Some y <-> nth_error l n = Some y \/ (n = length l /\ x = y).
Proof.
  destruct (Nat.lt_ge_cases n (length l)) as [H|H].
  - rewrite nth_error_app1 by assumption. split; [auto|]. intros [E|(E & _)]; [assumption|lia].
  - rewrite nth_error_app2 by assumption. destruct (n - length l) as [|k] eqn:E; simpl.
    + split; [intros Ex; injection Ex as ->; right; split; [lia|reflexivity]|].
      intros [Ex|(_ & ->)]; [|reflexivity]. exfalso. assert (nth_error l n <> None) by congruence. apply nth_error_Some in H0. lia.
    + split; [destruct k; discriminate|]. intros [Ex|(Ex & _)]; [|lia].
      exfalso. assert (nth_error l n <> None) by congruence. apply nth_error_Some in H0. lia.
Qed.

Section Cached.
  Context {D : Type}.
  Variable hashf : text -> nat.
  Variable p_list : nat -> text -> outcome (list qname).
  Variable p_data : nat -> qname -> outcome (option D).
  Variable p_param : nat -> qname -> text -> outcome text.

  Definition good (r : request) : Prop :=
    match r with GetDataset q => reachable hashf q | _ => True end.
  Definition dcalls (s : @cached D) (n : nat) (q : qname) : Prop := nth_error (cp_calls s) n = Some (GetDataset q).
  Definition lcalls (s : @cached D) (n : nat) (g : text) : Prop := nth_error (cp_calls s) n = Some (ListContents g).

  Definition inv (s : @cached D) : Prop :=
    memo_inv (qn_ltb hashf) (reachable hashf) segments_of p_data (dcalls s) (cp_data s) (length (cp_calls s)) /\
    memo_inv text_ltb (fun _ => True) (fun g => g) p_list (lcalls s) (cp_list s) (length (cp_calls s)).

  Lemma text_same_key a b : True -> True -> (same_key text_ltb a b = true <-> a = b).
  Proof.
    intros _ _. unfold same_key. rewrite andb_true_iff, !negb_true_iff. split.
    - intros (H1 & H2). destruct (text_ltb_total a b) as [T|[T|T]]; congruence.
    - intros ->. rewrite text_ltb_irrefl. split; reflexivity.
  Qed.

  Lemma inv_init : inv cached_init.
  Proof.
    split; split; simpl; try (intros; contradiction); try discriminate;
      unfold dcalls, lcalls; simpl; intros; try (destruct n; discriminate); try (destruct n1; discriminate).
  Qed.

  Definition step := cached_step hashf p_list p_data p_param.
  Definition run := cached_run hashf p_list p_data p_param.

  Lemma step_spec s r a s' : inv s -> good r -> step s r = (a, s') ->
    inv s' /\
    (forall q v, reachable hashf q -> map_find (qn_ltb hashf) (cp_data s) q = Some v -> map_find (qn_ltb hashf) (cp_data s') q = Some v) /\
    (forall g v, map_find text_ltb (cp_list s) g = Some v -> map_find text_ltb (cp_list s') g = Some v) /\
    (forall q v, r = GetDataset q -> a = AData (Ok v) -> map_find (qn_ltb hashf) (cp_data s') q = Some v) /\
    (forall g v, r = ListContents g -> a = AList (Ok v) -> map_find text_ltb (cp_list s') g = Some v) /\
    (forall q v, r = GetDataset q -> map_find (qn_ltb hashf) (cp_data s) q = Some v -> a = AData (Ok v)) /\
    (forall g v, r = ListContents g -> map_find text_ltb (cp_list s) g = Some v -> a = AList (Ok v)).
  Proof.
    intros (ID & IL) Hg H. destruct r as [g|q|q k]; unfold step, cached_step in H.
    - destruct (memo text_ltb (p_list (length (cp_calls s))) (cp_list s) g) as ((o, m), called) eqn:E.
      injection H as <- <-. cbn [cp_data cp_list cp_calls].
      destruct (memo_step text_ltb (fun _ => True) (fun g => g) p_list text_same_key _ _ _ _ _ _ _ IL I E) as (M1 & M2 & M3 & M4).
      split; [split|].
      + eapply memo_inv_ext; [| |exact ID]; [|cbn [cp_calls]; destruct called; rewrite ?app_length; simpl; lia].
        intros n q. unfold dcalls. cbn [cp_calls]. destruct called; [|reflexivity]. rewrite nth_error_snoc. split; [auto|].
        intros [A|(_ & A)]; [assumption|discriminate].
      + eapply memo_inv_ext; [| |exact M1]; [|cbn [cp_calls]; destruct called; rewrite ?app_length; simpl; lia].
        intros n g'. unfold lcalls. cbn [cp_calls]. destruct called.
        * rewrite nth_error_snoc. split; [intros [A|(_ & -> & ->)]; auto|]. intros [A|(-> & A)]; [auto|right].
          injection A as <-. auto.
        * split; [intros [A|(A & _)]; [assumption|discriminate]|auto].
      + split; [auto|]. split; [intros g' v; apply M2; exact I|]. split; [discriminate|].
        split; [intros g' v Eg Ea; injection Eg as <-; injection Ea as ->; apply M3; reflexivity|].
        split; [discriminate|]. intros g' v Eg Hf. injection Eg as <-. destruct (M4 v Hf) as (-> & _). reflexivity.
    - destruct (memo (qn_ltb hashf) (p_data (length (cp_calls s))) (cp_data s) q) as ((o, m), called) eqn:E.
      injection H as <- <-. cbn [cp_data cp_list cp_calls].
      destruct (memo_step (qn_ltb hashf) (reachable hashf) segments_of p_data (same_key_iff hashf) _ _ _ _ _ _ _ ID Hg E) as (M1 & M2 & M3 & M4).
      split; [split|].
      + eapply memo_inv_ext; [| |exact M1]; [|cbn [cp_calls]; destruct called; rewrite ?app_length; simpl; lia].
        intros n g'. unfold dcalls. cbn [cp_calls]. destruct called.
        * rewrite nth_error_snoc. split; [intros [A|(_ & -> & ->)]; auto|]. intros [A|(-> & A)]; [auto|right].
          injection A as <-. auto.
        * split; [intros [A|(A & _)]; [assumption|discriminate]|auto].
      + eapply memo_inv_ext; [| |exact IL]; [|cbn [cp_calls]; destruct called; rewrite ?app_length; simpl; lia].
        intros n g. unfold lcalls. cbn [cp_calls]. destruct called; [|reflexivity]. rewrite nth_error_snoc. split; [auto|].
        intros [A|(_ & A)]; [assumption|discriminate].
      + split; [exact M2|]. split; [auto|].
        split; [intros q' v Eq Ea; injection Eq as <-; injection Ea as ->; apply M3; reflexivity|].
        split; [discriminate|]. split; [|discriminate].
        intros q' v Eq Hf. injection Eq as <-. destruct (M4 v Hf) as (-> & _). reflexivity.
    - injection H as <- <-. cbn [cp_data cp_list cp_calls]. split; [split|].
      + eapply memo_inv_ext; [| |exact ID]; [|cbn [cp_calls]; rewrite app_length; simpl; lia].
        intros n q'. unfold dcalls. cbn [cp_calls]. rewrite nth_error_snoc. split; [auto|]. intros [A|(_ & A)]; [assumption|discriminate].
      + eapply memo_inv_ext; [| |exact IL]; [|cbn [cp_calls]; rewrite app_length; simpl; lia].
        intros n g. unfold lcalls. cbn [cp_calls]. rewrite nth_error_snoc. split; [auto|]. intros [A|(_ & A)]; [assumption|discriminate].
      + repeat (split; [auto; discriminate|]). discriminate.
  Qed.

  Lemma run_spec : forall rs s ans s', inv s -> Forall good rs -> run s rs = (ans, s') ->
    inv s' /\ length ans = length rs /\
    (forall q v, reachable hashf q -> map_find (qn_ltb hashf) (cp_data s) q = Some v ->
       map_find (qn_ltb hashf) (cp_data s') q = Some v /\
       forall i q', nth_error rs i = Some (GetDataset q') -> segments_of q' = segments_of q -> nth_error ans i = Some (AData (Ok v))) /\
    (forall g v, map_find text_ltb (cp_list s) g = Some v ->
       map_find text_ltb (cp_list s') g = Some v /\
       forall i, nth_error rs i = Some (ListContents g) -> nth_error ans i = Some (AList (Ok v))) /\
    (forall i q v, nth_error rs i = Some (GetDataset q) -> nth_error ans i = Some (AData (Ok v)) ->
       map_find (qn_ltb hashf) (cp_data s') q = Some v /\
       forall j q', i < j -> nth_error rs j = Some (GetDataset q') -> segments_of q' = segments_of q -> nth_error ans j = Some (AData (Ok v))) /\
    (forall i g v, nth_error rs i = Some (ListContents g) -> nth_error ans i = Some (AList (Ok v)) ->
       map_find text_ltb (cp_list s') g = Some v /\
       forall j, i < j -> nth_error rs j = Some (ListContents g) -> nth_error ans j = Some (AList (Ok v))).
  Proof.
    induction rs as [|r rs IH]; intros s ans s' Hi Hg H; unfold run in H; cbn [cached_run] in H.
    - injection H as <- <-. split; [assumption|]. split; [reflexivity|].
      split; [intros; split; [assumption|intros i; destruct i; discriminate]|].
      split; [intros; split; [assumption|intros i; destruct i; discriminate]|].
      split; intros i; destruct i; discriminate.
    - destruct (cached_step hashf p_list p_data p_param s r) as (a, s1) eqn:E1.
      destruct (cached_run hashf p_list p_data p_param s1 rs) as (l, s2) eqn:E2. injection H as <- <-.
      inversion Hg as [|? ? Hr Hrs]; subst.
      destruct (step_spec s r a s1 Hi Hr E1) as (S1 & S2 & S3 & S4 & S5 & S6 & S7).
      destruct (IH s1 l s2 S1 Hrs E2) as (R1 & R2 & R3 & R4 & R5 & R6).
      split; [assumption|]. split; [simpl; congruence|].
      assert (Fk : forall q q' v, reachable hashf q -> reachable hashf q' -> segments_of q' = segments_of q ->
        map_find (qn_ltb hashf) (cp_data s) q = Some v -> map_find (qn_ltb hashf) (cp_data s) q' = Some v).
      { intros q q' v Hq Hq' Eq Hf.
        rewrite (map_find_key (qn_ltb hashf) (reachable hashf) segments_of (same_key_iff hashf) (cp_data s) q' q); try assumption.
        apply (mi_keys _ _ _ _ _ _ _ (proj1 Hi)). }
      split; [|split; [|split]].
      + intros q v Hq Hf. destruct (R3 q v Hq (S2 q v Hq Hf)) as (A & B). split; [assumption|].
        intros [|i] q' Hi' Eq; simpl in *; [|apply (B i q'); assumption]. injection Hi' as ->.
        f_equal. apply (S6 q' v eq_refl). apply (Fk q q'); assumption.
      + intros g v Hf. destruct (R4 g v (S3 g v Hf)) as (A & B). split; [assumption|].
        intros [|i] Hi'; simpl in *; [|apply (B i); assumption]. injection Hi' as ->. f_equal. apply (S7 g v); [reflexivity|assumption].
      + intros [|i] q v Hr' Ha; simpl in *.
        * injection Hr' as ->. injection Ha as ->. pose proof (S4 q v eq_refl eq_refl) as Hf.
          destruct (R3 q v Hr Hf) as (A & B). split; [assumption|].
          intros [|j] q' Hj Hj' Eq; [lia|]. apply (B j q'); assumption.
        * destruct (R5 i q v Hr' Ha) as (A & B). split; [assumption|]. intros [|j] q' Hj Hj' Eq; [lia|]. simpl in *. apply (B j q'); [lia|assumption|assumption].
      + intros [|i] g v Hr' Ha; simpl in *.
        * injection Hr' as ->. injection Ha as ->. pose proof (S5 g v eq_refl eq_refl) as Hf.
          destruct (R4 g v Hf) as (A & B). split; [assumption|].
          intros [|j] Hj Hj'; [lia|]. apply (B j); assumption.
        * destruct (R6 i g v Hr' Ha) as (A & B). split; [assumption|]. intros [|j] Hj Hj'; [lia|]. simpl in *. apply (B j); [lia|assumption].
  Qed.

  Lemma cached_dataset rs ans s' :
    run cached_init rs = (ans, s') -> Forall good rs ->
    forall i q v, nth_error rs i = Some (GetDataset q) -> nth_error ans i = Some (AData (Ok v)) ->
      (exists n q0, nth_error (cp_calls s') n = Some (GetDataset q0) /\ segments_of q0 = segments_of q /\ p_data n q0 = Ok v /\
         forall m q1, nth_error (cp_calls s') m = Some (GetDataset q1) -> segments_of q1 = segments_of q ->
           m <= n /\ (m < n -> forall v', p_data m q1 <> Ok v')) /\
      (forall j q', i < j -> nth_error rs j = Some (GetDataset q') -> segments_of q' = segments_of q ->
         nth_error ans j = Some (AData (Ok v))).
  Proof.
    intros H Hg i q v Hi Ha. destruct (run_spec rs cached_init ans s' inv_init Hg H) as ((ID & _) & _ & _ & _ & R & _).
    destruct (R i q v Hi Ha) as (Hf & Hs). split; [|exact Hs].
    assert (Hq : reachable hashf q).
    { apply nth_error_In in Hi. rewrite Forall_forall in Hg. exact (Hg _ Hi). }
    destruct (mi_from _ _ _ _ _ _ _ ID q v Hq Hf) as (n & q0 & C & Ek & Ep).
    exists n, q0. split; [exact C|]. split; [exact Ek|]. split; [exact Ep|].
    intros m q1 Cm Em. split.
    - destruct (Nat.le_gt_cases m n) as [L|L]; [assumption|]. exfalso.
      apply (mi_once _ _ _ _ _ _ _ ID n q0 m q1 v C Cm L); [congruence|assumption].
    - intros L v'. apply (mi_once _ _ _ _ _ _ _ ID m q1 n q0 v' Cm C L). congruence.
  Qed.

  Lemma cached_list rs ans s' :
    run cached_init rs = (ans, s') -> Forall good rs ->
    forall i g v, nth_error rs i = Some (ListContents g) -> nth_error ans i = Some (AList (Ok v)) ->
      (exists n, nth_error (cp_calls s') n = Some (ListContents g) /\ p_list n g = Ok v /\
         forall m, nth_error (cp_calls s') m = Some (ListContents g) ->
           m <= n /\ (m < n -> forall v', p_list m g <> Ok v')) /\
      (forall j, i < j -> nth_error rs j = Some (ListContents g) -> nth_error ans j = Some (AList (Ok v))).
  Proof.
    intros H Hg i g v Hi Ha. destruct (run_spec rs cached_init ans s' inv_init Hg H) as ((_ & IL) & _ & _ & _ & _ & R).
    destruct (R i g v Hi Ha) as (Hf & Hs). split; [|exact Hs].
    destruct (mi_from _ _ _ _ _ _ _ IL g v I Hf) as (n & q0 & C & Ek & Ep). subst q0.
    exists n. split; [exact C|]. split; [exact Ep|].
    intros m Cm. split.
    - destruct (Nat.le_gt_cases m n) as [L|L]; [assumption|]. exfalso.
      apply (mi_once _ _ _ _ _ _ _ IL n g m g v C Cm L); [reflexivity|assumption].
    - intros L v'. apply (mi_once _ _ _ _ _ _ _ IL m g n g v' Cm C L). reflexivity.
  Qed.

  Definition from_provider (calls : list request) (r : option request) (a : answer) : Prop :=
    match r, a with
    | Some (ListContents g), AList o => exists n, nth_error calls n = Some (ListContents g) /\ p_list n g = o
    | Some (GetDataset q), AData o => exists n q0, nth_error calls n = Some (GetDataset q0) /\ segments_of q0 = segments_of q /\ p_data n q0 = o
    | Some (GetParameter q k), AParam o => exists n, nth_error calls n = Some (GetParameter q k) /\ p_param n q k = o
    | _, _ => False
    end.
  Lemma from_provider_more calls more r a : from_provider calls r a -> from_provider (calls ++ more) r a.
  Proof.
    assert (G : forall n x, nth_error calls n = Some x -> nth_error (calls ++ more) n = Some x).
    { intros n x H. rewrite nth_error_app1; [assumption|]. apply nth_error_Some. congruence. }
    unfold from_provider. destruct r as [[g|q|q k]|], a as [o|o|o]; try contradiction.
    - intros (n & H1 & H2). exists n. auto.
    - intros (n & q0 & H1 & H2). exists n, q0. auto.
    - intros (n & H1 & H2). exists n. auto.
  Qed.
  Lemma step_from s r a s' : inv s -> good r -> step s r = (a, s') ->
    from_provider (cp_calls s') (Some r) a /\ exists more, cp_calls s' = cp_calls s ++ more /\ length more <= 1.
  Proof.
    intros (ID & IL) Hg H. destruct r as [g|q|q k]; unfold step, cached_step, memo in H.
    - destruct (map_find text_ltb (cp_list s) g) as [v|] eqn:E.
      + injection H as <- <-. cbn [cp_calls]. split; [|exists []; rewrite app_nil_r; simpl; split; [reflexivity|lia]].
        destruct (mi_from _ _ _ _ _ _ _ IL g v I E) as (n & g' & C & -> & Ep). exists n. split; assumption.
      + assert (Ht : nth_error (cp_calls s ++ [ListContents g]) (length (cp_calls s)) = Some (ListContents g)) by (apply nth_error_snoc; auto).
        destruct (p_list (length (cp_calls s)) g) eqn:Ep; injection H as <- <-; cbn [cp_calls];
          (split; [exists (length (cp_calls s)); split; assumption|exists [ListContents g]; simpl; split; [reflexivity|lia]]).
    - destruct (map_find (qn_ltb hashf) (cp_data s) q) as [v|] eqn:E.
      + injection H as <- <-. cbn [cp_calls]. split; [|exists []; rewrite app_nil_r; simpl; split; [reflexivity|lia]].
        destruct (mi_from _ _ _ _ _ _ _ ID q v Hg E) as (n & q' & C & Eq & Ep). exists n, q'. split; [exact C|split; assumption].
      + assert (Ht : nth_error (cp_calls s ++ [GetDataset q]) (length (cp_calls s)) = Some (GetDataset q)) by (apply nth_error_snoc; auto).
        destruct (p_data (length (cp_calls s)) q) eqn:Ep; injection H as <- <-; cbn [cp_calls];
          (split; [exists (length (cp_calls s)), q; split; [assumption|split; [reflexivity|assumption]]|exists [GetDataset q]; simpl; split; [reflexivity|lia]]).
    - injection H as <- <-. cbn [cp_calls]. split; [exists (length (cp_calls s)); split; [apply nth_error_snoc; auto|reflexivity]|].
      exists [GetParameter q k]. simpl. split; [reflexivity|lia].
  Qed.
  Lemma run_from : forall rs s ans s', inv s -> Forall good rs -> run s rs = (ans, s') ->
    length ans = length rs /\ (exists more, cp_calls s' = cp_calls s ++ more /\ length more <= length rs) /\
    forall i a, nth_error ans i = Some a -> from_provider (cp_calls s') (nth_error rs i) a.
  Proof.
    induction rs as [|r rs IH]; intros s ans s' Hi Hg H; unfold run in H; cbn [cached_run] in H.
    - injection H as <- <-. split; [reflexivity|]. split; [exists []; rewrite app_nil_r; auto|]. intros [|i] a; discriminate.
    - destruct (cached_step hashf p_list p_data p_param s r) as (a, s1) eqn:E1.
      destruct (cached_run hashf p_list p_data p_param s1 rs) as (l, s2) eqn:E2. injection H as <- <-.
      inversion Hg as [|? ? Hr Hrs]; subst.
      destruct (step_spec s r a s1 Hi Hr E1) as (S1 & _).
      destruct (step_from s r a s1 Hi Hr E1) as (F & more1 & M1 & L1).
      destruct (IH s1 l s2 S1 Hrs E2) as (L & (more2 & M2 & L2) & R).
      split; [simpl; congruence|]. split; [exists (more1 ++ more2); split; [rewrite M2, M1, app_assoc; reflexivity|rewrite app_length; simpl; lia]|].
      intros [|i] x Hx; cbn [nth_error] in *; [|apply R; assumption]. injection Hx as <-.
      rewrite M2. apply from_provider_more. exact F.
  Qed.
  Lemma cached_from_provider rs ans s' : run cached_init rs = (ans, s') -> Forall good rs ->
    length ans = length rs /\ length (cp_calls s') <= length rs /\
    forall i a, nth_error ans i = Some a -> from_provider (cp_calls s') (nth_error rs i) a.
  Proof.
    intros H Hg. destruct (run_from rs cached_init ans s' inv_init Hg H) as (L & (more & M & Lm) & R).
    split; [exact L|]. split; [rewrite M; exact Lm|exact R].
  Qed.
End Cached.

(** ** Slashes *)
Lemma drop_while_repeat n s : drop_while is_slash (repeat slash n ++ s) = drop_while is_slash s.
Proof. induction n; [reflexivity|]. simpl. assumption. Qed.
Lemma drop_while_stop s : hd slash s <> slash -> drop_while is_slash s = s.
Proof.
  destruct s as [|c s]; [reflexivity|]. simpl. intros H. destruct (is_slash c) eqn:E; [|reflexivity].
  apply is_slash_eq in E. congruence.
Qed.
Lemma drop_while_slash_decomp s : exists n, s = repeat slash n ++ drop_while is_slash s /\
  (drop_while is_slash s = [] \/ hd slash (drop_while is_slash s) <> slash).
Proof.
  induction s as [|c s IH]; [exists 0; auto|]. simpl. destruct (is_slash c) eqn:E.
  - destruct IH as (n & I1 & I2). exists (S n). apply is_slash_eq in E. subst c. simpl. split; [f_equal; assumption|assumption].
  - exists 0. split; [reflexivity|right]. simpl. intros ->. discriminate.
Qed.

Lemma hd_rev {A} (d : A) l : hd d (rev l) = last l d.
Proof. destruct l as [|x l] using rev_ind; [reflexivity|]. rewrite rev_app_distr, last_last. reflexivity. Qed.
Lemma last_rev {A} (d : A) l : last (rev l) d = hd d l.
Proof. rewrite <- (rev_involutive l) at 2. rewrite hd_rev. reflexivity. Qed.
Lemma rev_repeat {A} (x : A) n : rev (repeat x n) = repeat x n.
Proof.
  induction n; [reflexivity|]. simpl. rewrite IHn. clear. induction n; [reflexivity|]. simpl. f_equal. assumption.
Qed.

Lemma strip_exists g : exists s, strip_slashes g s.
Proof.
  destruct (drop_while_slash_decomp g) as (a & E1 & H1). set (g1 := drop_while is_slash g) in *.
  destruct (drop_while_slash_decomp (rev g1)) as (b & E2 & H2). set (g2 := drop_while is_slash (rev g1)) in *.
  assert (E3 : g1 = rev g2 ++ repeat slash b).
  { rewrite <- (rev_involutive g1), E2, rev_app_distr, rev_repeat. reflexivity. }
  exists (rev g2), a, b. split; [rewrite E1 at 1; rewrite E3; reflexivity|].
  destruct g2 as [|c g2'] eqn:Eg; [left; reflexivity|right].
  destruct H2 as [H2|H2]; [discriminate|]. split.
  - rewrite hd_rev. destruct H1 as [H1|H1].
    + rewrite H1 in E3. destruct (rev (c :: g2')) eqn:Er; [|discriminate]. apply (f_equal (@length ascii)) in Er.
      rewrite rev_length in Er. discriminate.
    + rewrite E3 in H1. rewrite <- hd_rev. destruct (rev (c :: g2')) eqn:Er.
      * apply (f_equal (@length ascii)) in Er. rewrite rev_length in Er. discriminate.
      * exact H1.
  - rewrite last_rev. exact H2.
Qed.

Lemma find_first_repeat n s : hd slash s <> slash -> find_first_not_of slash (repeat slash n ++ s) = Some n.
Proof.
  intros H. induction n as [|n IH].
  - destruct s as [|c s]; [simpl in H; congruence|]. simpl in *. destruct (Ascii.eqb_spec c slash); [congruence|reflexivity].
  - simpl repeat. change ((slash :: repeat slash n) ++ s) with (slash :: (repeat slash n ++ s)).
    cbn [find_first_not_of]. rewrite Ascii.eqb_refl, IH. reflexivity.
Qed.
Lemma find_first_all n : find_first_not_of slash (repeat slash n) = None.
Proof. induction n as [|n IH]; [reflexivity|]. cbn [repeat find_first_not_of]. rewrite Ascii.eqb_refl, IH. reflexivity. Qed.

Lemma skipn_repeat_app {A} (x : A) n s : skipn n (repeat x n ++ s) = s.
Proof. induction n; [reflexivity|assumption]. Qed.

Lemma normalize_spec g s : strip_slashes g s ->
  normalize_group g = Ok (match s with [] => [] | _ => s ++ [slash] end).
Proof.
  intros (a & b & -> & H). unfold normalize_group. cbv zeta.
  rewrite !rev_app_distr, !rev_repeat, <- app_assoc, drop_while_repeat.
  destruct s as [|c s'].
  - simpl rev. cbn [app]. pose proof (drop_while_repeat a []) as E. rewrite app_nil_r in E. rewrite E. reflexivity.
  - destruct H as [H|(H1 & H2)]; [discriminate|]. set (s := c :: s') in *.
    assert (Hs : s <> []) by discriminate. clearbody s.
    rewrite drop_while_stop by (destruct (rev s) eqn:Er; [apply (f_equal (@rev ascii)) in Er; rewrite rev_involutive in Er; simpl in Er; congruence|];
      rewrite <- hd_rev, Er in H2; exact H2).
    rewrite rev_app_distr, rev_involutive, rev_repeat.
    match goal with |- bind ?o _ = _ => assert (G : o = Ok s) end.
    { destruct (repeat slash a ++ s) as [|x r] eqn:Er.
      - apply app_eq_nil in Er. destruct Er. congruence.
      - rewrite <- Er, find_first_repeat by assumption. destruct a as [|a]; [simpl; reflexivity|]. unfold substr_from.
        destruct (Nat.leb_spec (S a) (length (repeat slash (S a) ++ s))) as [L|L]; [|rewrite app_length, repeat_length in L; lia].
        rewrite skipn_repeat_app. reflexivity. }
    rewrite G. cbn [bind]. destruct s; [congruence|reflexivity].
Qed.

Lemma list_contents_spec hashf names g s : Forall (reachable hashf) names -> strip_slashes g s ->
  exists f, list_contents names g = Ok (filter f names) /\
    forall q, In q names -> (f q = true <-> s = [] \/ exists rest, rest <> [] /\ segments_of q = split_on is_slash s ++ rest).
Proof.
  intros Hr Hs. unfold list_contents. rewrite (normalize_spec g s Hs). cbn [bind]. eexists. split; [reflexivity|].
  intros q Hq. cbn beta. rewrite Forall_forall in Hr. specialize (Hr q Hq).
  destruct s as [|c s'].
  - rewrite starts_with_nil. split; auto.
  - set (s := c :: s') in *. assert (Hne : s <> []) by discriminate. clearbody s.
    rewrite starts_with_iff. destruct (reachable_inv _ _ Hr) as (F & E & _). rewrite E.
    pose proof (prefix_segments (split_on is_slash s) (segments_of q)) as Pr. rewrite join_split_slash in Pr.
    rewrite Pr.
    + split; [auto|]. intros [H|H]; [congruence|assumption].
    + apply split_nonnil.
    + eapply Forall_impl; [|apply (split_segments is_slash s)]. intros a Ha. apply no_slash_valid. exact Ha.
    + eapply Forall_impl; [|exact F]. intros a (_ & H). exact H.
    + destruct q as [[] ? ? ?]; discriminate.
Qed.

(** ** String helpers *)
Lemma check_end_spec a b : (a = [] \/ last a slash <> slash) -> check_end_slashes (a ++ repeat slash b) = a ++ [slash].
Proof.
  intros H. unfold check_end_slashes, find_last_not_of. rewrite rev_app_distr, rev_repeat, app_length, repeat_length.
  destruct H as [->|H].
  - simpl rev. rewrite app_nil_r, find_first_all. simpl. destruct (repeat slash b); reflexivity.
  - rewrite find_first_repeat by (rewrite hd_rev; assumption). cbn [from_end option_map].
    assert (Ha : a <> []) by (intros ->; simpl in H; congruence).
    assert (La : 1 <= length a) by (destruct a; [congruence|simpl; lia]).
    replace (S (length a + b - 1 - b)) with (length a) by lia.
    destruct (Nat.eqb_spec (length a) (length a + b)) as [E|E].
    + replace b with 0 by lia. simpl. rewrite app_nil_r. reflexivity.
    + rewrite firstn_app, Nat.sub_diag, firstn_all. simpl. rewrite app_nil_r. reflexivity.
Qed.

Lemma check_begin_spec a b : hd slash b <> slash -> check_begin_slashes (repeat slash a ++ b) = Ok (slash :: b).
Proof.
  intros H. unfold check_begin_slashes. rewrite find_first_repeat by assumption.
  destruct a as [|a]; [reflexivity|]. unfold substr_from.
  destruct (Nat.leb_spec (S a) (length (repeat slash (S a) ++ b))) as [L|L]; [|rewrite app_length, repeat_length in L; lia].
  rewrite skipn_repeat_app. reflexivity.
Qed.
Lemma check_begin_all n : check_begin_slashes (repeat slash n) = Ok (repeat slash (S n)).
Proof. unfold check_begin_slashes. rewrite find_first_all. reflexivity. Qed.

Lemma check_no_begin_spec a b : hd slash b <> slash -> check_no_begin_slashes (repeat slash a ++ b) = Ok b.
Proof.
  intros H. unfold check_no_begin_slashes.
  destruct (repeat slash a ++ b) as [|x r] eqn:Er.
  - apply app_eq_nil in Er. destruct Er as (_ & ->). reflexivity.
  - rewrite <- Er, find_first_repeat by assumption. destruct a as [|a]; [reflexivity|]. unfold substr_from.
    destruct (Nat.leb_spec (S a) (length (repeat slash (S a) ++ b))) as [L|L]; [|rewrite app_length, repeat_length in L; lia].
    rewrite skipn_repeat_app. reflexivity.
Qed.
Lemma check_no_begin_all n : check_no_begin_slashes (repeat slash (S n)) = Throw.
Proof. unfold check_no_begin_slashes. rewrite find_first_all. reflexivity. Qed.

Lemma find_char_app c a b : ~ In c a -> find_char c (a ++ c :: b) = Some (length a).
Proof.
  intros H. induction a as [|x a IH]; simpl.
  - rewrite Ascii.eqb_refl. reflexivity.
  - destruct (Ascii.eqb_spec x c) as [->|E]; [exfalso; apply H; left; reflexivity|].
    rewrite IH by (intros Hi; apply H; right; assumption). reflexivity.
Qed.
Lemma find_char_none c a : ~ In c a -> find_char c a = None.
Proof.
  intros H. destruct (find_char c a) eqn:E; [|reflexivity]. exfalso. apply H. apply contains_char_iff. unfold contains_char. rewrite E. reflexivity.
Qed.
Lemma find_last_app c a b : ~ In c b -> find_last_of c (a ++ c :: b) = Some (length a).
Proof.
  intros H. unfold find_last_of. rewrite rev_app_distr. simpl rev. rewrite <- app_assoc. simpl app.
  rewrite find_char_app by (rewrite <- in_rev; assumption). cbn [from_end option_map]. f_equal.
  rewrite app_length, rev_length. simpl. lia.
Qed.
Lemma remove_extension_spec a b : ~ In "."%char b -> remove_extension (a ++ "."%char :: b) = a.
Proof.
  intros H. unfold remove_extension. rewrite find_last_app by assumption.
  rewrite firstn_app, Nat.sub_diag, firstn_all. simpl. apply app_nil_r.
Qed.
Lemma remove_extension_none s : ~ In "."%char s -> remove_extension s = s.
Proof. intros H. unfold remove_extension, find_last_of. rewrite find_char_none by (rewrite <- in_rev; assumption). reflexivity. Qed.
Lemma remove_before_slash_spec a b : ~ In slash b -> remove_all_before_last_slash (a ++ slash :: b) = b.
Proof.
  intros H. unfold remove_all_before_last_slash. rewrite find_last_app by assumption.
  rewrite skipn_app. rewrite skipn_all2 by lia. replace (S (length a) - length a) with 1 by lia. reflexivity.
Qed.
Lemma remove_before_slash_none s : ~ In slash s -> remove_all_before_last_slash s = s.
Proof. intros H. unfold remove_all_before_last_slash, find_last_of. rewrite find_char_none by (rewrite <- in_rev; assumption). reflexivity. Qed.
