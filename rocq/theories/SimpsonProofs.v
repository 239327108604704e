From Coq Require Import Reals List Arith Bool ZArith Lia Lra.
From Coquelicot Require Import Coquelicot.
From Verif Require Import Common CumulModel FunModel FunSpec FunProofs SimpsonModel.
Import ListNotations.
Local Open Scope R_scope.

(** *** Sums *)
Fixpoint sum (g : nat -> R) (i n : nat) : R := match n with O => 0 | S n' => g i + sum g (S i) n' end.
Lemma sum_loop_sum g : forall n i s, sum_loop g i n s = s + sum g i n.
Proof. induction n as [|n IH]; intros i s; cbn [sum_loop sum]; [ring|]. rewrite IH. ring. Qed.
Lemma sum_ext g g' : forall n i, (forall j, (i <= j < i + n)%nat -> g j = g' j) -> sum g i n = sum g' i n.
Proof. induction n as [|n IH]; intros i H; cbn [sum]; [reflexivity|]. rewrite (H i) by lia. rewrite (IH (S i)); [reflexivity|]. intros j Hj. apply H. lia. Qed.
Lemma sum_last g : forall n i, sum g i (S n) = sum g i n + g (i + n)%nat.
Proof. induction n as [|n IH]; intro i; [cbn; rewrite Nat.add_0_r; ring|]. change (sum g i (S (S n))) with (g i + sum g (S i) (S n)). rewrite IH. cbn [sum]. replace (i + S n)%nat with (S i + n)%nat by lia. ring. Qed.
(** Odd and even positions. *)
Lemma sum_split g : forall k a, sum g (2 * a + 1) (2 * k + 1) = sum (fun j => g (2 * j + 1)%nat) a (S k) + sum (fun j => g (2 * j)%nat) (S a) k.
Proof.
  induction k as [|k IH]; intro a; [cbn; ring|]. replace (2 * S k + 1)%nat with (S (S (2 * k + 1))) by lia. cbn [sum]. replace (S (S (2 * a + 1))) with (2 * S a + 1)%nat by lia. rewrite IH.
  replace (S (2 * a + 1)) with (2 * S a)%nat by lia. cbn [sum]. ring.
Qed.
(** The sum of a cubic. *)
Definition cube (c0 c1 c2 c3 x : R) : R := c0 + c1 * x + c2 * (x * x) + c3 * (x * x * x).
Definition cube_sum (c0 c1 c2 c3 m : R) : R := c0 * m + c1 * (m * (m - 1) / 2) + c2 * ((m - 1) * m * (2 * m - 1) / 6) + c3 * ((m * (m - 1) / 2) * (m * (m - 1) / 2)).
Lemma sum_cube c0 c1 c2 c3 : forall n i, sum (fun j => cube c0 c1 c2 c3 (INR j)) i n = cube_sum c0 c1 c2 c3 (INR (i + n)) - cube_sum c0 c1 c2 c3 (INR i).
Proof.
  induction n as [|n IH]; intro i; cbn [sum]; [rewrite Nat.add_0_r; ring|]. rewrite IH. replace (i + S n)%nat with (S i + n)%nat by lia.
  assert (cube_sum c0 c1 c2 c3 (INR (S i)) = cube_sum c0 c1 c2 c3 (INR i) + cube c0 c1 c2 c3 (INR i)); [|lra]. rewrite S_INR. unfold cube_sum, cube. field.
Qed.

(** *** The rule in terms of the values at the points *)
Lemma points_ok order : (0 <= order <= 30)%Z -> points order = Ok (2 ^ Z.to_nat order)%nat.
Proof. intro H. unfold points. replace (30 <? order)%Z with false by (symmetry; apply Z.ltb_ge; lia). reflexivity. Qed.
Lemma pow_split order : (4 <= order)%Z -> exists M, (2 ^ Z.to_nat (order - 1) = M)%nat /\ (2 ^ Z.to_nat order = 2 * M)%nat /\ (8 <= M)%nat.
Proof.
  intro H. exists (2 ^ Z.to_nat (order - 1))%nat. split; [reflexivity|]. replace (Z.to_nat order) with (S (Z.to_nat (order - 1))) by lia. split; [reflexivity|].
  change 8%nat with (2 ^ 3)%nat. apply Nat.pow_le_mono_r; lia.
Qed.
Lemma pow_ge8 order : (3 <= order)%Z -> (8 <= 2 ^ Z.to_nat order)%nat.
Proof. intro H. change 8%nat with (2 ^ 3)%nat. apply Nat.pow_le_mono_r; lia. Qed.

Section Rule.
  Variables (f : R -> R) (min max : R).
  Definition F (N i : nat) : R := f (min + INR i * ((max - min) / INR N)).
  Definition rule (N : nat) : R :=
    (sum (F N) 3 (N - 5) + 375 / 1000 * (F N 0 + F N N) + 7 / 6 * (F N 1 + F N (N - 1)) + 23 / 24 * (F N 2 + F N (N - 2))) * ((max - min) / INR N).
  Lemma F_end N k : (0 < N)%nat -> (k <= N)%nat -> F N (N - k) = f (max - INR k * ((max - min) / INR N)).
  Proof. intros H K. unfold F. f_equal. rewrite minus_INR by exact K. field. apply not_0_INR. lia. Qed.
  Lemma simpson_rule order : (3 <= order <= 30)%Z -> simpson f min max order = Ok (rule (2 ^ Z.to_nat order)).
  Proof.
    intro H. unfold simpson. replace (order <? 3)%Z with false by (symmetry; apply Z.ltb_ge; lia). rewrite points_ok by lia. cbn [bind]. pose proof (pow_ge8 order ltac:(lia)) as N8. set (N := (2 ^ Z.to_nat order)%nat) in *. clearbody N.
    apply f_equal. rewrite sum_loop_sum. unfold rule. change (sum (fun i => f (min + INR i * ((max - min) / INR N)))) with (sum (F N)).
    replace (F N N) with (F N (N - 0)) by (f_equal; lia). rewrite !F_end by lia.
    assert (D0 : F N 0 = f min) by (unfold F; cbn [INR]; f_equal; ring). assert (D1 : F N 1 = f (min + (max - min) / INR N)) by (unfold F; cbn [INR]; f_equal; ring).
    assert (D2 : F N 2 = f (min + 2 * ((max - min) / INR N))) by (unfold F; cbn [INR]; f_equal; ring). rewrite D0, D1, D2. cbn [INR].
    replace (max - 0 * ((max - min) / INR N)) with max by ring. replace (1 + 1) with 2 by ring. rewrite !Rmult_1_l. field. apply not_0_INR. lia.
  Qed.
  Lemma next_rule order : (4 <= order <= 30)%Z -> simpson_next f min max (rule (2 ^ Z.to_nat (order - 1))) order = Ok (rule (2 ^ Z.to_nat order)).
  Proof.
    intro H. unfold simpson_next. replace (order <? 4)%Z with false by (symmetry; apply Z.ltb_ge; lia). rewrite points_ok by lia. cbn [bind].
    destruct (pow_split order ltac:(lia)) as (M & E1 & E2 & M8). rewrite E1, E2. clear E1 E2. apply f_equal. rewrite sum_loop_sum.
    replace (2 * M / 2)%nat with M by (rewrite Nat.mul_comm, Nat.div_mul; lia).
    set (N := (2 * M)%nat). assert (IN : INR N <> 0) by (apply not_0_INR; unfold N; lia). assert (IM : INR M <> 0) by (apply not_0_INR; lia).
    assert (FM : forall i, F M i = F N (2 * i)).
    { intro i. unfold F. f_equal. unfold N. rewrite !mult_INR. cbn [INR]. field. exact IM. }
    assert (E1 : f (max - (max - min) / INR N) = F N (N - 1)) by (rewrite F_end by (unfold N; lia); cbn [INR]; f_equal; ring).
    assert (E2 : f (max - 2 * ((max - min) / INR N)) = F N (N - 2)) by (rewrite F_end by (unfold N; lia); cbn [INR]; f_equal; ring).
    assert (E4 : f (max - 4 * ((max - min) / INR N)) = F N (N - 4)) by (rewrite F_end by (unfold N; lia); cbn [INR]; f_equal; ring).
    assert (D1 : f (min + (max - min) / INR N) = F N 1) by (unfold F; cbn [INR]; f_equal; ring).
    assert (D2 : f (min + 2 * ((max - min) / INR N)) = F N 2) by (unfold F; cbn [INR]; f_equal; ring).
    assert (D4 : f (min + 4 * ((max - min) / INR N)) = F N 4) by (unfold F; cbn [INR]; f_equal; ring).
    rewrite E1, E2, E4, D1, D2, D4. change (fun j => f (min + INR (2 * j + 1) * ((max - min) / INR N))) with (fun j => F N (2 * j + 1)).
    unfold rule. rewrite !FM. rewrite (sum_ext (F M) (fun j => F N (2 * j)) (M - 5) 3) by (intros j _; apply FM).
    assert (SP : sum (F N) 3 (N - 5) = sum (fun j => F N (2 * j + 1)%nat) 1 (M - 2) + sum (fun j => F N (2 * j)%nat) 2 (M - 3)).
    { replace (N - 5)%nat with (2 * (M - 3) + 1)%nat by (unfold N; lia). replace (M - 2)%nat with (S (M - 3)) by lia. exact (sum_split (F N) (M - 3) 1). }
    assert (EV : sum (fun j => F N (2 * j)%nat) 2 (M - 3) = F N 4 + sum (fun j => F N (2 * j)%nat) 3 (M - 5) + F N (N - 4)).
    { replace (M - 3)%nat with (S (S (M - 5))) by lia.
      replace (F N (N - 4)) with (F N (2 * (3 + (M - 5)))) by (f_equal; unfold N; lia).
      change (F N (2 * 2) + sum (fun j : nat => F N (2 * j)) 3 (S (M - 5)) = F N 4 + sum (fun j : nat => F N (2 * j)) 3 (M - 5) + F N (2 * (3 + (M - 5)))).
      rewrite sum_last. change (2 * 2)%nat with 4%nat. ring. }
    rewrite SP, EV. change (2 * 0)%nat with 0%nat. change (2 * 1)%nat with 2%nat. change (2 * 2)%nat with 4%nat. fold N.
    replace (2 * (M - 1))%nat with (N - 2)%nat by (unfold N; lia). replace (2 * (M - 2))%nat with (N - 4)%nat by (unfold N; lia).
    replace ((max - min) / INR M) with (2 * ((max - min) / INR N)) by (unfold N; rewrite mult_INR; cbn [INR]; field; exact IM).
    set (h := (max - min) / INR N). field.
  Qed.
End Rule.

(** *** Cubics *)
Lemma rule_cubic a0 a1 a2 a3 min max N : (8 <= N)%nat ->
  rule (poly_eval [a0; a1; a2; a3]) min max N = poly_eval (poly_integral [a0; a1; a2; a3]) max - poly_eval (poly_integral [a0; a1; a2; a3]) min.
Proof.
  intro N8. assert (IN : INR N <> 0) by (apply not_0_INR; lia). set (h := (max - min) / INR N). assert (EM : max = min + INR N * h) by (unfold h; field; exact IN).
  set (c0 := a0 + a1 * min + a2 * (min * min) + a3 * (min * min * min)). set (c1 := h * (a1 + 2 * a2 * min + 3 * a3 * (min * min))). set (c2 := h * h * (a2 + 3 * a3 * min)). set (c3 := h * h * h * a3).
  assert (FC : forall i, F (poly_eval [a0; a1; a2; a3]) min max N i = cube c0 c1 c2 c3 (INR i)).
  { intro i. unfold F. fold h. unfold poly_eval, cube, c0, c1, c2, c3. cbn [poly_loop]. ring. }
  unfold rule. fold h. rewrite (sum_ext _ (fun i => cube c0 c1 c2 c3 (INR i)) (N - 5) 3) by (intros j _; apply FC). rewrite sum_cube, !FC.
  replace (3 + (N - 5))%nat with (N - 2)%nat by lia. rewrite !minus_INR by lia. cbn [INR]. replace (1 + 1 + 1) with 3 by ring. replace (1 + 1) with 2 by ring.
  transitivity (h * (c0 * INR N + c1 * (INR N * INR N) / 2 + c2 * (INR N * INR N * INR N) / 3 + c3 * (INR N * INR N * INR N * INR N) / 4)).
  - unfold cube_sum, cube. field.
  - rewrite EM. unfold c0, c1, c2, c3, poly_eval, poly_integral. cbn [integ_from poly_loop INR Nat.add]. field.
Qed.

(** *** The adaptive loop *)
Lemma next_bad f min max v order : (order > 30)%Z -> simpson_next f min max v order = UB.
Proof. intro H. unfold simpson_next, points. replace (order <? 4)%Z with false by (symmetry; apply Z.ltb_ge; lia). replace (30 <? order)%Z with true by (symmetry; apply Z.ltb_lt; lia). reflexivity. Qed.

Section Adaptive.
  Variables (f : R -> R) (min max precision : R).
  Definition A (m : Z) : R := rule f min max (2 ^ Z.to_nat m).
  Lemma next_A m : (4 <= m <= 30)%Z -> simpson_next f min max (A (m - 1)) m = Ok (A m).
  Proof. intro H. apply next_rule. exact H. Qed.
  (** From order m on: the first order whose estimate is close to the previous one. *)
  Lemma refine_spec : forall k fuel m, (k < fuel)%nat -> (Z.of_nat k = 31 - m)%Z -> (3 <= m <= 31)%Z ->
    (exists e, (m < e <= 30)%Z /\ refine fuel f min max precision m (A m) = Ok (A e) /\ goes_on precision (A (e - 1)) (A e) = false /\ forall j, (m < j < e)%Z -> goes_on precision (A (j - 1)) (A j) = true) \/
    (refine fuel f min max precision m (A m) = UB /\ forall j, (m < j <= 30)%Z -> goes_on precision (A (j - 1)) (A j) = true).
  Proof.
    induction k as [|k IH]; intros fuel m HF HK Hm; (destruct fuel as [|fuel]; [lia|]); cbn [refine].
    - right. rewrite next_bad by lia. split; [reflexivity|]. intros j Hj. lia.
    - destruct (Z_le_gt_dec (m + 1) 30) as [LE|GT].
      + pose proof (next_A (m + 1) ltac:(lia)) as E. replace (m + 1 - 1)%Z with m in E by lia. rewrite E. cbn [bind]. destruct (goes_on precision (A m) (A (m + 1))) eqn:G.
        * destruct (IH fuel (m + 1)%Z ltac:(lia) ltac:(lia) ltac:(lia)) as [(e & He & ER & EG & EJ)|[ER EJ]].
          -- left. exists e. split; [lia|]. split; [exact ER|]. split; [exact EG|]. intros j Hj. destruct (Z.eq_dec j (m + 1)) as [->|N]; [replace (m + 1 - 1)%Z with m by lia; exact G|apply EJ; lia].
          -- right. split; [exact ER|]. intros j Hj. destruct (Z.eq_dec j (m + 1)) as [->|N]; [replace (m + 1 - 1)%Z with m by lia; exact G|apply EJ; lia].
        * left. exists (m + 1)%Z. split; [lia|]. split; [reflexivity|]. split; [replace (m + 1 - 1)%Z with m by lia; exact G|]. intros j Hj. lia.
      + right. rewrite next_bad by lia. split; [reflexivity|]. intros j Hj. lia.
  Qed.
End Adaptive.

Lemma goes_on_false p v w : goes_on p v w = false <-> (v = 0 /\ w = 0) \/ (v <> 0 /\ Rabs (w - v) <= p * Rabs v).
Proof.
  unfold goes_on. destruct (req v 0) eqn:E; rtest E.
  - subst v. rewrite negb_false_iff, req_iff. split; [intro H; left; split; [reflexivity|lra]|intros [[_ H]|[H _]]; [lra|contradiction]].
  - rewrite rlt_not. assert (P : 0 < Rabs v) by (apply Rabs_pos_lt; exact E). unfold Rdiv. rewrite Rabs_mult, Rabs_Rinv by exact E. split.
    + intro H. right. split; [exact E|]. apply (Rmult_le_compat_r (Rabs v)) in H; [|lra]. rewrite Rmult_assoc, Rinv_l in H by lra. lra.
    + intros [[H _]|[_ H]]; [contradiction|]. apply (Rmult_le_reg_r (Rabs v)); [exact P|]. rewrite Rmult_assoc, Rinv_l by lra. lra.
Qed.
