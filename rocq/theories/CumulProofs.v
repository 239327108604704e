(** Proofs about cumulatives. *)
From Coq Require Import QArith List ZArith Bool Arith Lia Lqa.
From Verif Require Import Common DblModel DblProofs CumulModel CumulSpec.
Import ListNotations.
Local Open Scope nat_scope.

Lemma count_while_spec {A} (p : A -> bool) l :
  count_while p l <= length l /\
  (forall i a, i < count_while p l -> nth_error l i = Some a -> p a = true) /\
  (forall a, nth_error l (count_while p l) = Some a -> p a = false).
Proof.
  induction l as [|x r IH]; cbn [count_while].
  - cbn. split; [lia|]. split; intros; [lia|discriminate].
  - destruct (p x) eqn:E; cbn.
    + destruct IH as (A1 & B & C). split; [lia|]. split.
      * intros [|i] a I H; cbn in H; [injection H as <-; exact E|]. apply (B i a); [lia|exact H].
      * exact C.
    + split; [lia|]. split; [intros; lia|]. intros a H. injection H as <-. exact E.
Qed.
Lemma nth_error_skipn {A} (l : list A) : forall m i, nth_error (skipn m l) i = nth_error l (m + i).
Proof. induction l as [|x l IH]; intros [|m] i; cbn; auto. destruct i; reflexivity. Qed.

Lemma back_last {A} (l : list A) t : nth_error l (length l - 1) = Some t -> back l = Ok t.
Proof.
  destruct l as [|a r]; [discriminate|]. intros H. unfold back. f_equal.
  assert (N : a :: r <> []) by discriminate. destruct (exists_last N) as [s [x E]]. rewrite E in *.
  rewrite last_last. rewrite app_length in H. cbn in H. rewrite nth_error_app2 in H by lia.
  replace (length s + 1 - 1 - length s) with 0 in H by lia. cbn in H. congruence.
Qed.
Lemma back_some {A} (l : list A) t : back l = Ok t -> nth_error l (length l - 1) = Some t.
Proof.
  destruct l as [|a r]; [discriminate|]. intros H. destruct (nth_error (a :: r) (length (a :: r) - 1)) as [u|] eqn:E.
  - rewrite (back_last _ _ E) in H. congruence.
  - apply nth_error_None in E. cbn in E. lia.
Qed.
Lemma nth_ok {A} (l : list A) i : i < length l -> exists a, nth_error l i = Some a.
Proof. intros H. destruct (nth_error l i) eqn:E; [eauto|]. apply nth_error_None in E. lia. Qed.
Lemma nth_lt {A} (l : list A) i a : nth_error l i = Some a -> i < length l.
Proof. intros H. apply nth_error_Some. congruence. Qed.

(** ** findValue *)

Lemma find_value_spec c total ratio pos : is_cumulative c total -> (0 <= ratio <= 1)%Q ->
  exists k m xk xm, first_reaching (c_y c) (total * ratio) k /\ plateau_end (c_y c) k m /\
    nth_error (c_x c) k = Some xk /\ nth_error (c_x c) m = Some xm /\
    find_value c ratio pos = Ok (match pos with TrayBegin => xk | TrayMiddle => (1 # 2) * (xk + xm) | TrayEnd => xm end)%Q.
Proof.
  intros (L & RX & RY & P & T) [R0 R1]. unfold find_value.
  destruct (Qlt_b 1 ratio) eqn:E1; [apply Qlt_b_iff in E1; lra|]. destruct (Qlt_b ratio 0) eqn:E2; [apply Qlt_b_iff in E2; lra|].
  cbn [orb]. rewrite (back_last _ _ T). cbn [bind]. set (value := (total * ratio)%Q).
  destruct (count_while_spec (fun y => Qlt_b y value) (c_y c)) as (K1 & K2 & K3). set (k := count_while _ (c_y c)) in *.
  assert (T0 : (0 <= total)%Q) by (apply P; eapply nth_error_In; exact T).
  assert (VT : (value <= total)%Q). { unfold value. setoid_replace total with (total * 1)%Q at 2 by ring. rewrite !(Qmult_comm total). apply Qmult_le_compat_r; lra. }
  pose proof (nth_lt _ _ _ T) as TL.
  assert (KL : k < length (c_y c)).
  { destruct (Nat.eq_dec k (length (c_y c))) as [E|E]; [|lia]. exfalso.
    pose proof (K2 (length (c_y c) - 1) total ltac:(lia) T) as X. apply Qlt_b_iff in X. lra. }
  destruct (nth_ok (c_x c) k ltac:(lia)) as [xk Xk]. destruct (nth_ok (c_y c) k KL) as [y Yk].
  unfold at_. rewrite Xk, Yk. cbn [of_option bind].
  destruct (count_while_spec (fun w => Qeq_bool w y) (skipn k (c_y c))) as (M1 & M2 & M3). set (q := count_while _ (skipn k (c_y c))) in *.
  rewrite skipn_length in M1.
  assert (Q1 : 1 <= q). { destruct (Nat.eq_dec q 0) as [E|E]; [exfalso|lia]. rewrite E in M3. specialize (M3 y).
    rewrite nth_error_skipn, Nat.add_0_r in M3. specialize (M3 Yk). apply not_true_iff_false in M3. apply M3. apply Qeq_bool_iff. reflexivity. }
  destruct (nth_ok (c_x c) (k + q - 1) ltac:(lia)) as [xm Xm]. rewrite Xm. cbn [of_option bind].
  exists k, (k + q - 1), xk, xm. split; [|split; [|split; [exact Xk|split; [exact Xm|reflexivity]]]].
  - split.
    + exists y. split; [exact Yk|]. specialize (K3 y Yk). apply Qlt_b_false in K3. exact K3.
    + intros i z I H. specialize (K2 i z I H). apply Qlt_b_iff in K2. exact K2.
  - destruct (nth_ok (c_y c) (k + q - 1) ltac:(lia)) as [z Z].
    exists y, z. split; [exact Yk|]. split; [exact Z|]. split; [lia|]. split.
    + specialize (M2 (q - 1) z ltac:(lia)). rewrite nth_error_skipn in M2. replace (k + (q - 1)) with (k + q - 1) in M2 by lia.
      specialize (M2 Z). apply Qeq_bool_iff in M2. lra.
    + intros i w I H. pose proof (nth_lt _ _ _ H) as IL. destruct (nth_ok (c_y c) (k + q) ltac:(lia)) as [u U].
      specialize (M3 u). rewrite nth_error_skipn in M3. specialize (M3 U).
      assert (YU : (y <= u)%Q) by (apply (RY k (k + q)); auto; lia).
      assert (NE : ~ (u == y)%Q) by (intro X; apply Qeq_bool_iff in X; congruence).
      assert (UW : (u <= w)%Q). { destruct (Nat.eq_dec (k + q) i) as [E|E]; [rewrite E in U; rewrite U in H; injection H as <-; lra|]. apply (RY (k + q) i); auto. lia. }
      apply Qle_lteq in YU. destruct YU as [YU|YU]; [lra|]. exfalso. apply NE. lra.
Qed.

Lemma first_reaching_unique ys v v' k k' : (v == v')%Q -> first_reaching ys v k -> first_reaching ys v' k' -> k = k'.
Proof.
  intros E [(y & A & B) C] [(y' & A' & B') C'].
  destruct (lt_eq_lt_dec k k') as [[H|H]|H]; [|exact H|]; exfalso.
  - specialize (C' k y H A). lra.
  - specialize (C k' y' H A'). lra.
Qed.
Lemma plateau_end_unique ys k m m' : rising ys -> plateau_end ys k m -> plateau_end ys k m' -> m = m'.
Proof.
  intros R (y & z & A & B & C & D & E) (y' & z' & A' & B' & C' & D' & E').
  rewrite A in A'. injection A' as <-. destruct (lt_eq_lt_dec m m') as [[H|H]|H]; [|exact H|]; exfalso.
  - specialize (E m' z' H B'). lra.
  - specialize (E' m z H B). lra.
Qed.

(** ** Running sums *)

Lemma running_length l : forall t, length (running t l) = length l.
Proof. induction l as [|p r IH]; intros t; cbn; auto. Qed.
Lemma running_nth l : forall t i y, nth_error (running t l) i = Some y -> (y == t + total_of (firstn (S i) l))%Q.
Proof.
  induction l as [|p r IH]; intros t [|i] y H; cbn [running nth_error] in H; try discriminate.
  - injection H as <-. unfold total_of. cbn [firstn fold_right]. ring.
  - apply IH in H. rewrite H. unfold total_of. cbn [firstn fold_right]. ring.
Qed.
Lemma total_of_app a b : (total_of (a ++ b) == total_of a + total_of b)%Q.
Proof. unfold total_of. induction a as [|x a IH]; cbn [app fold_right]; [ring|]. rewrite IH. ring. Qed.
Lemma total_of_nonneg l : (forall p, In p l -> (0 <= p)%Q) -> (0 <= total_of l)%Q.
Proof.
  unfold total_of. induction l as [|x r IH]; intros H; cbn [fold_right]; [lra|].
  assert (0 <= x)%Q by (apply H; left; reflexivity). assert (0 <= fold_right Qplus 0 r)%Q by (apply IH; intros; apply H; right; auto). lra.
Qed.
Lemma firstn_grow {A} (l : list A) : forall i j, i <= j -> exists r, firstn j l = firstn i l ++ r /\ forall a, In a r -> In a l.
Proof.
  induction l as [|x l IH]; intros i j H.
  - exists []. rewrite !firstn_nil. split; [reflexivity|intros a []].
  - destruct i as [|i]; destruct j as [|j]; try lia.
    + exists []. split; [reflexivity|intros a []].
    + exists (firstn (S j) (x :: l)). split; [reflexivity|]. intros a Ha. rewrite <- (firstn_skipn (S j) (x :: l)). apply in_or_app. auto.
    + destruct (IH i j ltac:(lia)) as (r & E & F). exists r. cbn [firstn app]. split; [rewrite E; reflexivity|]. intros a Ha. right. auto.
Qed.
Lemma running_rising l t : (forall p, In p l -> (0 <= p)%Q) -> rising (running t l).
Proof.
  intros P i j a b I A B. apply running_nth in A. apply running_nth in B. rewrite A, B.
  destruct (firstn_grow l (S i) (S j) ltac:(lia)) as (r & E & F). rewrite E, total_of_app.
  assert (0 <= total_of r)%Q by (apply total_of_nonneg; auto). lra.
Qed.
Lemma running_nonneg l y : (forall p, In p l -> (0 <= p)%Q) -> In y (running 0 l) -> (0 <= y)%Q.
Proof.
  intros P H. apply In_nth_error in H. destruct H as [i H]. apply running_nth in H. rewrite H.
  assert (0 <= total_of (firstn (S i) l))%Q.
  { apply total_of_nonneg. intros p Hp. apply P. rewrite <- (firstn_skipn (S i) l). apply in_or_app. auto. } lra.
Qed.
Lemma running_last l y : nth_error (running 0 l) (length l - 1) = Some y -> (y == total_of l)%Q.
Proof.
  intros H. pose proof (nth_lt _ _ _ H) as L. rewrite running_length in L. apply running_nth in H. rewrite H.
  rewrite firstn_all2 by lia. ring.
Qed.

(** ** findMinInterval *)

Lemma rising_le l i j a b : rising l -> i <= j -> nth_error l i = Some a -> nth_error l j = Some b -> (a <= b)%Q.
Proof.
  intros R H A B. destruct (Nat.eq_dec i j) as [->|N]; [rewrite A in B; injection B as <-; lra|]. apply (R i j); auto. lia.
Qed.

Section MinInterval.
Variables (xs ys : list Q) (rate y0 : Q).
Let n := length xs.
Hypothesis L : length xs = length ys.
Hypothesis RX : rising xs.
Hypothesis RY : rising ys.
Hypothesis PY : forall y, In y ys -> (0 <= y)%Q.
Hypothesis Y0 : nth_error ys 0 = Some y0.
Hypothesis RP : (0 < rate)%Q.

Definition corr (i : nat) : Q := if Nat.eqb i 0 then y0 else 0%Q.
Definition enough (i j : nat) : Prop := exists yi yj, nth_error ys i = Some yi /\ nth_error ys j = Some yj /\ (rate <= yj - yi + corr i)%Q.

Lemma enough_left i i' j : i <= i' -> enough i' j -> enough i j.
Proof.
  intros H (yi & yj & A & B & C). assert (I : i < length ys) by (apply nth_lt in A; lia). destruct (nth_ok ys i I) as [u U].
  exists u, yj. split; [exact U|]. split; [exact B|].
  assert (U1 : (u <= yi)%Q) by (apply (rising_le ys i i'); auto).
  assert (U2 : (0 <= yi)%Q) by (apply PY; eapply nth_error_In; exact A).
  revert C. unfold corr. destruct (Nat.eqb_spec i 0) as [E|E]; destruct (Nat.eqb_spec i' 0) as [E'|E']; intros C; try lia; try lra.
  subst i. rewrite Y0 in U. injection U as <-. lra.
Qed.
Lemma enough_gt i j : 1 <= i -> enough i j -> i < j.
Proof.
  intros I (yi & yj & A & B & C). unfold corr in C. destruct (Nat.eqb_spec i 0); [lia|].
  destruct (le_lt_dec j i) as [H|H]; [exfalso|exact H]. assert (yj <= yi)%Q by (apply (rising_le ys j i); auto). lra.
Qed.

(** [w] bounds from below the widths of the pairs starting before [i]. *)
Definition covered (i : nat) (w : Q) : Prop :=
  forall i' j' a b, i' < i -> i' < j' -> enough i' j' -> nth_error xs i' = Some a -> nth_error xs j' = Some b -> (w <= b - a)%Q.
Definition good (bi bj : nat) : Prop := bi < bj /\ bj < n /\ enough bi bj.
Definition width (bi bj : nat) (w : Q) : Prop := exists a b, nth_error xs bi = Some a /\ nth_error xs bj = Some b /\ (w == b - a)%Q.

Lemma min_loop_spec : forall todo i j bi bj w,
  todo = n - i -> i <= n -> j <= n -> (i < j \/ (i = j /\ 1 <= i)) ->
  (forall j', i < j' < j -> ~ enough i j') ->
  good bi bj -> width bi bj w -> covered i w ->
  exists ri rj v, min_loop xs ys rate todo i j (corr i) bi bj = Ok (ri, rj) /\ good ri rj /\ width ri rj v /\ covered n v.
Proof.
  induction todo as [|t IH]; intros i j bi bj w T I J IJ F G W C.
  - exists bi, bj, w. split; [reflexivity|]. split; [exact G|]. split; [exact W|]. replace n with i by lia. exact C.
  - cbn [min_loop]. destruct (nth_ok ys i) as [yi Yi]; [unfold n in *; lia|]. unfold at_. rewrite Yi. cbn [of_option bind].
    destruct (count_while_spec (fun y => Qlt_b (y - yi + corr i)%Q rate) (skipn j ys)) as (K1 & K2 & K3).
    set (q := count_while _ (skipn j ys)) in *. rewrite skipn_length in K1. set (j1 := j + q) in *.
    assert (J1 : j1 <= n) by (unfold j1, n in *; lia).
    assert (F1 : forall j', i < j' < j1 -> ~ enough i j').
    { intros j' H E. destruct (le_lt_dec j j') as [Hj|Hj]; [|apply (F j'); [lia|exact E]].
      destruct E as (a & b & A & B & D). rewrite Yi in A. injection A as <-.
      specialize (K2 (j' - j) b ltac:(unfold j1 in H; lia)). rewrite nth_error_skipn in K2. replace (j + (j' - j)) with j' in K2 by lia.
      specialize (K2 B). apply Qlt_b_iff in K2. lra. }
    destruct (Nat.eqb_spec j1 (length xs)) as [E|E].
    + exists bi, bj, w. split; [reflexivity|]. split; [exact G|]. split; [exact W|].
      intros i' j' a b H1 H2 H3 A B. destruct (le_lt_dec i i') as [Hi|Hi]; [exfalso|apply (C i' j' a b); auto].
      apply (F1 j'). { split; [lia|]. apply nth_lt in B. unfold n in *; lia. } apply (enough_left i i'); auto.
    + assert (J2 : j1 < n) by (unfold n in *; lia).
      destruct (nth_ok ys j1) as [yj Yj]; [unfold n in *; lia|].
      assert (EN : enough i j1).
      { exists yi, yj. split; [exact Yi|]. split; [exact Yj|]. specialize (K3 yj). rewrite nth_error_skipn in K3.
        specialize (K3 Yj). apply Qlt_b_false in K3. exact K3. }
      assert (IJ1 : i < j1). { destruct IJ as [IJ|[_ IJ]]; [unfold j1; lia|]. apply enough_gt; auto. }
      destruct (nth_ok xs i) as [xi Xi]; [unfold n in *; lia|]. destruct (nth_ok xs j1 J2) as [xj Xj].
      destruct W as (lo & hi & Lo & Hi & We). rewrite Xi, Xj, Lo, Hi. cbn [of_option bind].
      assert (CI : forall v, (v <= w)%Q -> (v <= xj - xi)%Q -> covered (S i) v).
      { intros v V1 V2 i' j' a b H1 H2 H3 A B. destruct (Nat.eq_dec i' i) as [->|Ni].
        - rewrite Xi in A. injection A as <-. destruct (le_lt_dec j1 j') as [Hj|Hj].
          + assert (xj <= b)%Q by (apply (rising_le xs j1 j'); auto). lra.
          + exfalso. apply (F1 j'); auto.
        - assert (w <= b - a)%Q by (apply (C i' j' a b); auto; lia). lra. }
      assert (FN : forall j', S i < j' < j1 -> ~ enough (S i) j').
      { intros j' H X. apply (F1 j' ltac:(lia)). apply (enough_left i (S i)); auto. }
      destruct (Qle_bool (xj - xi) (hi - lo)) eqn:QE.
      * apply Qle_bool_iff in QE. apply (IH (S i) j1 i j1 (xj - xi)%Q); auto; try lia.
        -- split; [exact IJ1|]. split; [exact J2|exact EN].
        -- exists xi, xj. split; [exact Xi|]. split; [exact Xj|lra].
        -- apply CI; lra.
      * assert (QN : (hi - lo < xj - xi)%Q). { apply Qnot_le_lt. intro X. apply Qle_bool_iff in X. congruence. }
        apply (IH (S i) j1 bi bj w); auto; try lia.
        -- exists lo, hi. auto.
        -- apply CI; lra.
Qed.
End MinInterval.

Lemma find_min_interval_spec c total rate : is_cumulative c total -> 2 <= length (c_x c) -> (0 < total)%Q -> (0 < rate <= 1)%Q ->
  exists i j lo hi, find_min_interval c rate = Ok (lo, hi) /\ i < j /\
    nth_error (c_x c) i = Some lo /\ nth_error (c_x c) j = Some hi /\ holds c i j (rate * total) /\
    forall i' j' a b, i' < j' -> nth_error (c_x c) i' = Some a -> nth_error (c_x c) j' = Some b -> holds c i' j' (rate * total) -> (hi - lo <= b - a)%Q.
Proof.
  intros (L & RX & RY & P & T) N TP [R0 R1]. unfold find_min_interval.
  destruct (Qlt_b 1 rate) eqn:E1; [apply Qlt_b_iff in E1; lra|].
  destruct (Qle_bool rate 0) eqn:E2; [apply Qle_bool_iff in E2; lra|]. cbn [orb].
  rewrite (back_last _ _ T). cbn [bind]. destruct (nth_ok (c_y c) 0 ltac:(lia)) as [y0 Y0].
  assert (FR : front (c_y c) = Ok y0) by (destruct (c_y c); [discriminate|cbn in *; congruence]). rewrite FR. cbn [bind].
  assert (RP : (0 < rate * total)%Q) by (apply Qmult_lt_0_compat; auto).
  assert (RT : (rate * total <= total)%Q). { setoid_replace total with (1 * total)%Q at 2 by ring. apply Qmult_le_compat_r; lra. }
  pose proof (nth_lt _ _ _ T) as TL.
  destruct (nth_ok (c_x c) 0 ltac:(lia)) as [x0 X0]. destruct (nth_ok (c_x c) (length (c_x c) - 1) ltac:(lia)) as [xn Xn].
  assert (HE : forall i j, holds c i j (rate * total) <-> enough (c_y c) (rate * total) y0 i j).
  { intros i j. unfold holds, enough, corr. split.
    - intros (yi & yj & z & A & B & C & D). rewrite Y0 in C. injection C as <-. exists yi, yj. auto.
    - intros (yi & yj & A & B & D). exists yi, yj, y0. auto. }
  destruct (min_loop_spec (c_x c) (c_y c) (rate * total) y0 L RX RY P Y0 RP (length (c_x c)) 0 1 0 (length (c_x c) - 1) (xn - x0)%Q) as (ri & rj & v & E & (G1 & G2 & G3) & W & C); auto; try lia.
  - split; [lia|]. split; [lia|]. exists y0, total. split; [exact Y0|]. split; [rewrite L; exact T|]. unfold corr. cbn [Nat.eqb]. lra.
  - exists x0, xn. split; [exact X0|]. split; [exact Xn|lra].
  - intros i' j' a b H. lia.
  - change (corr y0 0) with y0 in E. rewrite E. cbn [bind fst snd]. destruct W as (lo & hi & Lo & Hi & We).
    unfold at_. rewrite Lo, Hi. cbn [of_option bind]. exists ri, rj, lo, hi. split; [reflexivity|]. split; [exact G1|].
    split; [exact Lo|]. split; [exact Hi|]. split; [apply HE; exact G3|].
    intros i' j' a b H A B Hh. apply HE in Hh. pose proof (nth_lt _ _ _ A) as IL.
    specialize (C i' j' a b IL H Hh A B). lra.
Qed.

(** ** Normalizing *)

Lemma rising_map f l : (forall a b, (a <= b)%Q -> (f a <= f b)%Q) -> rising l -> rising (map f l).
Proof.
  intros M R i j a b H A B. rewrite nth_error_map in A, B.
  destruct (nth_error l i) as [u|] eqn:U; [|discriminate]. destruct (nth_error l j) as [v|] eqn:W; [|discriminate].
  cbn in A, B. injection A as <-. injection B as <-. apply M. apply (R i j); auto.
Qed.
Lemma normalize_spec c total : is_cumulative c total -> (0 < total)%Q ->
  exists c', normalize c = Ok (Some c') /\ c_x c' = c_x c /\ c_y c' = map (fun y => y / total)%Q (c_y c) /\
    is_cumulative c' (total / total)%Q /\ (total / total == 1)%Q.
Proof.
  intros (L & RX & RY & P & T) TP. unfold normalize. rewrite (back_last _ _ T). cbn [bind].
  destruct (Qeq_bool total 0) eqn:E; [apply Qeq_bool_iff in E; lra|]. eexists. split; [reflexivity|]. cbn [c_x c_y].
  split; [reflexivity|]. split; [reflexivity|].
  split; [|field; lra]. unfold is_cumulative. cbn [c_x c_y]. rewrite map_length. split; [exact L|]. split; [exact RX|]. split.
  { apply rising_map; [|exact RY]. intros a b H. unfold Qdiv. apply Qmult_le_compat_r; [exact H|]. apply Qlt_le_weak. apply Qinv_lt_0_compat. exact TP. }
  split.
  { intros y Hy. apply in_map_iff in Hy. destruct Hy as (u & <- & Hu). apply Qle_shift_div_l; [exact TP|]. specialize (P u Hu). lra. }
  rewrite nth_error_map, T. reflexivity.
Qed.

Lemma first_reaching_map ys total r k : (0 < total)%Q -> first_reaching ys (total * r) k ->
  first_reaching (map (fun y => y / total)%Q ys) (total / total * r) k.
Proof.
  intros TP [(y & A & B) C].
  assert (V : (total / total * r == r)%Q) by (field; lra). split.
  - exists (y / total)%Q. rewrite nth_error_map, A. split; [reflexivity|]. rewrite V. apply Qle_shift_div_l; [exact TP|]. lra.
  - intros i w I H. rewrite nth_error_map in H. destruct (nth_error ys i) as [u|] eqn:U; [|discriminate]. cbn in H. injection H as <-.
    rewrite V. apply Qlt_shift_div_r; [exact TP|]. specialize (C i u I U). lra.
Qed.
Lemma plateau_end_map ys total k m : (0 < total)%Q -> plateau_end ys k m -> plateau_end (map (fun y => y / total)%Q ys) k m.
Proof.
  intros TP (y & z & A & B & C & D & E). exists (y / total)%Q, (z / total)%Q. rewrite !nth_error_map, A, B.
  split; [reflexivity|]. split; [reflexivity|]. split; [exact C|]. split; [rewrite D; reflexivity|].
  intros i w I H. rewrite nth_error_map in H. destruct (nth_error ys i) as [u|] eqn:U; [|discriminate]. cbn in H. injection H as <-.
  specialize (E i u I U). unfold Qdiv. apply Qmult_lt_r; [apply Qinv_lt_0_compat; exact TP|exact E].
Qed.
Lemma find_value_normalized c total c' ratio pos : is_cumulative c total -> (0 < total)%Q -> (0 <= ratio <= 1)%Q ->
  normalize c = Ok (Some c') -> find_value c' ratio pos = find_value c ratio pos.
Proof.
  intros I TP R E. destruct (normalize_spec c total I TP) as (d & E' & Ex & Ey & I' & _). rewrite E in E'. injection E' as <-.
  destruct (find_value_spec c total ratio pos I R) as (k & m & xk & xm & F & Pl & A & B & V).
  destruct (find_value_spec c' _ ratio pos I' R) as (k' & m' & xk' & xm' & F' & Pl' & A' & B' & V').
  apply (first_reaching_map _ _ _ _ TP) in F. apply (plateau_end_map _ total _ _ TP) in Pl. rewrite <- Ey in F, Pl.
  assert (k' = k) by (apply (first_reaching_unique (c_y c') (total / total * ratio) (total / total * ratio)); [reflexivity|exact F'|exact F]). subst k'.
  assert (m' = m) by (apply (plateau_end_unique (c_y c') k); auto; apply I'). subst m'.
  rewrite Ex in A', B'. rewrite A in A'. injection A' as <-. rewrite B in B'. injection B' as <-. rewrite V, V'. reflexivity.
Qed.

(** ** Discrete sampling *)

Lemma inverse_cdf_spec pdf : pdf <> [] -> (forall q, In q pdf -> (0 <= q)%Q) -> (0 < total_of pdf)%Q ->
  exists cdf, inverse_cdf pdf = Some cdf /\ length cdf = length pdf /\
    forall i v, nth_error cdf i = Some v -> (v * total_of pdf == total_of (firstn (S i) pdf))%Q.
Proof.
  intros N P T. unfold inverse_cdf. destruct (running 0 pdf) as [|s r] eqn:E.
  { destruct pdf; [congruence|discriminate]. }
  rewrite <- E. assert (LE : nth_error (running 0 pdf) (length (running 0 pdf) - 1) = Some (last (running 0 pdf) s)).
  { apply back_some. unfold back. rewrite E. reflexivity. }
  assert (LT : (last (running 0 pdf) s == total_of pdf)%Q). { rewrite running_length in LE. apply running_last. exact LE. }
  destruct (Qeq_bool (last (running 0 pdf) s) 0) eqn:Q0; [apply Qeq_bool_iff in Q0; lra|].
  eexists. split; [reflexivity|]. split; [rewrite map_length; apply running_length|].
  intros i v H. rewrite nth_error_map in H. destruct (nth_error (running 0 pdf) i) as [u|] eqn:U; [|discriminate]. cbn in H. injection H as <-.
  apply running_nth in U. rewrite <- LT. setoid_replace (u / last (running 0 pdf) s * last (running 0 pdf) s)%Q with u by (field; lra). rewrite U. ring.
Qed.
Lemma total_firstn_S pdf i q : nth_error pdf i = Some q -> (total_of (firstn (S i) pdf) == total_of (firstn i pdf) + q)%Q.
Proof.
  revert i. unfold total_of. induction pdf as [|x r IH]; intros [|i] H; try discriminate; cbn [nth_error] in H.
  - injection H as <-. cbn [firstn fold_right]. ring.
  - specialize (IH i H). cbn [firstn fold_right] in IH |- *. rewrite IH. ring.
Qed.
Lemma sample_discrete_spec {K} (knots : list K) pdf p : length knots = length pdf -> pdf <> [] ->
  (forall q, In q pdf -> (0 <= q)%Q) -> (0 < total_of pdf)%Q -> (0 < p <= 1)%Q ->
  exists cdf k knot, inverse_cdf pdf = Some cdf /\ sample_discrete knots cdf p = Ok knot /\ nth_error knots k = Some knot /\
    (total_of (firstn k pdf) < p * total_of pdf)%Q /\ (p * total_of pdf <= total_of (firstn (S k) pdf))%Q.
Proof.
  intros LK N P T [P0 P1]. destruct (inverse_cdf_spec pdf N P T) as (cdf & E & LC & V). exists cdf. unfold sample_discrete.
  destruct (Qlt_b p 0) eqn:E1; [apply Qlt_b_iff in E1; lra|]. destruct (Qlt_b 1 p) eqn:E2; [apply Qlt_b_iff in E2; lra|]. cbn [orb].
  destruct (count_while_spec (fun v => Qlt_b v p) cdf) as (K1 & K2 & K3). set (k := count_while _ cdf) in *.
  assert (PL : 1 <= length pdf) by (destruct pdf; [congruence|cbn; lia]).
  assert (KL : k < length cdf).
  { destruct (Nat.eq_dec k (length cdf)) as [X|X]; [|lia]. exfalso. destruct (nth_ok cdf (length cdf - 1) ltac:(lia)) as [v Hv].
    pose proof (K2 (length cdf - 1) v ltac:(lia) Hv) as Y. apply Qlt_b_iff in Y. apply V in Hv. rewrite firstn_all2 in Hv by lia.
    assert (v * total_of pdf < 1 * total_of pdf)%Q by (apply Qmult_lt_r; [exact T|lra]). lra. }
  destruct (nth_ok knots k ltac:(lia)) as [knot Hk]. exists k, knot. split; [exact E|]. unfold at_. rewrite Hk.
  split; [reflexivity|]. split; [reflexivity|]. split.
  - destruct k as [|k'] eqn:Ek.
    + cbn [firstn]. change (total_of []) with 0%Q. apply Qmult_lt_0_compat; auto.
    + destruct (nth_ok cdf k' ltac:(lia)) as [v Hv]. pose proof (K2 k' v ltac:(lia) Hv) as Y. apply Qlt_b_iff in Y.
      rewrite <- (V k' v Hv). apply Qmult_lt_r; auto.
  - destruct (nth_ok cdf k KL) as [v Hv]. pose proof (K3 v Hv) as Y. apply Qlt_b_false in Y. rewrite <- (V k v Hv). apply Qmult_le_compat_r; lra.
Qed.
Lemma firstn_total_mono pdf i j : (forall q, In q pdf -> (0 <= q)%Q) -> i <= j -> (total_of (firstn i pdf) <= total_of (firstn j pdf))%Q.
Proof.
  intros P H. destruct (firstn_grow pdf i j H) as (r & E & F). rewrite E, total_of_app.
  assert (0 <= total_of r)%Q by (apply total_of_nonneg; auto). lra.
Qed.
