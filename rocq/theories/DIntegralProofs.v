(** The estimates of an integral in double precision and in real numbers. *)
From Coq Require Import ZArith Reals List Arith Bool Lia Lra Psatz.
From Flocq Require Import Core IEEE754.BinarySingleNaN.
From Verif Require Import Common FloatModel FloatProofs DoubleProofs DoubleProofs2 DInterpProofs2 DSplineProofs DQuadModel DQuadSpec DQuadProofs DQuadProofs2 DQuadProofs3 DQuadProps SimpsonModel SimpsonProofs DIntegralSpec.
Import ListNotations.
Local Open Scope R_scope.

Lemma sum_rsum g : forall n i, SimpsonProofs.sum g i n = rsum g i n.
Proof. induction n as [|n IH]; intros i; [reflexivity|]. rewrite rsum_S, <- IH. reflexivity. Qed.
Lemma rsum_close g g' d : forall n i, (forall k, (i <= k < i + n)%nat -> Rabs (g k - g' k) <= d) -> Rabs (rsum g i n - rsum g' i n) <= INR n * d.
Proof.
  induction n as [|n IH]; intros i H; [unfold rsum; cbn; rewrite Rminus_0_r, Rabs_R0; lra|]. rewrite !rsum_S, S_INR.
  assert (H1 : Rabs (g i - g' i) <= d) by (apply H; lia). assert (H2 : Rabs (rsum g (S i) n - rsum g' (S i) n) <= INR n * d) by (apply IH; intros k K; apply H; lia).
  replace (g i + rsum g (S i) n - (g' i + rsum g' (S i) n)) with ((g i - g' i) + (rsum g (S i) n - rsum g' (S i) n)) by ring. eapply Rle_trans; [apply Rabs_triang|]. lra.
Qed.
Lemma rsum_size g d : forall n i, (forall k, (i <= k < i + n)%nat -> g k <= d) -> rsum g i n <= INR n * d.
Proof.
  induction n as [|n IH]; intros i H; [unfold rsum; cbn; lra|]. rewrite rsum_S, S_INR.
  assert (H1 : g i <= d) by (apply H; lia). assert (H2 : rsum g (S i) n <= INR n * d) by (apply IH; intros k K; apply H; lia). lra.
Qed.
Lemma gam_sixteenth n : (Z.of_nat n <= 2 ^ 31)%Z -> gam n <= / 16.
Proof.
  intros H. unfold gam. assert (G : forall k, INR k * uro <= / 4 -> (1 + uro) ^ k <= 1 + 2 * (INR k * uro)).
  { induction k as [|k IH]; intros K; [cbn [pow INR]; lra|]. rewrite S_INR in K. pose proof uro_pos. pose proof (pos_INR k). cbn [pow]. specialize (IH ltac:(lra)).
    rewrite S_INR. apply Rle_trans with ((1 + uro) * (1 + 2 * (INR k * uro))); [apply Rmult_le_compat_l; lra|]. nra. }
  assert (K : INR n * uro <= / 32).
  { rewrite INR_IZR_INZ. apply IZR_le in H. rewrite uro_val. change (IZR (2 ^ 31)) with 2147483648 in H. lra. }
  specialize (G n ltac:(lra)). lra.
Qed.
Lemma rounds_gam n : roundings n = gam n. Proof. reflexivity. Qed.

Section Weights.
  Variable N : nat.
  Hypothesis HN : (8 <= Z.of_nat N <= 2 ^ 30)%Z.
  (** The weights of the rule add up to N. *)
  Lemma total_close g g' d : (forall i, (i <= N)%nat -> Rabs (g i - g' i) <= d) ->
    Rabs (total N (fun i => simpson_weight N i * g i) - total N (fun i => simpson_weight N i * g' i)) <= INR N * d.
  Proof.
    intros H. rewrite !(total_simpson N HN). pose proof (rsum_close g g' d (N - 5) 3 ltac:(intros; apply H; lia)) as R. rewrite minus_INR in R by lia. replace (INR 5) with 5 in R by (cbn; lra).
    pose proof (H 0%nat ltac:(lia)) as H0. pose proof (H 1%nat ltac:(lia)) as H1. pose proof (H 2%nat ltac:(lia)) as H2. pose proof (H N ltac:(lia)) as H3. pose proof (H (N - 1)%nat ltac:(lia)) as H4. pose proof (H (N - 2)%nat ltac:(lia)) as H5.
    apply Rabs_le_inv in R, H0, H1, H2, H3, H4, H5. apply Rabs_le. lra.
  Qed.
  Lemma total_size g d : (forall i, (i <= N)%nat -> Rabs (g i) <= d) -> total N (fun i => simpson_weight N i * Rabs (g i)) <= INR N * d.
  Proof.
    intros H. rewrite !(total_simpson N HN). pose proof (rsum_size (fun i => Rabs (g i)) d (N - 5) 3 ltac:(intros; apply H; lia)) as R. rewrite minus_INR in R by lia. replace (INR 5) with 5 in R by (cbn; lra).
    pose proof (H 0%nat ltac:(lia)) as H0. pose proof (H 1%nat ltac:(lia)) as H1. pose proof (H 2%nat ltac:(lia)) as H2. pose proof (H N ltac:(lia)) as H3. pose proof (H (N - 1)%nat ltac:(lia)) as H4. pose proof (H (N - 2)%nat ltac:(lia)) as H5.
    cbv beta in R. lra.
  Qed.
  Lemma rule_total F a b : rule F a b N = total N (fun i => simpson_weight N i * F (mesh a b N i)) * ((b - a) / INR N).
  Proof.
    rewrite (total_simpson N HN (fun i => F (mesh a b N i))). unfold rule. rewrite sum_rsum. f_equal. unfold SimpsonProofs.F, mesh. lra.
  Qed.
  Hypothesis N16 : (16 <= N)%nat.
  Lemma half_odd j : (1 <= j < 1 + (N / 2 - 2))%nat -> (2 * j + 1 <= N)%nat.
  Proof. intros H. pose proof (Nat.div_mod N 2 ltac:(lia)). lia. Qed.
  Lemma half_R : INR (N / 2 - 2) <= INR N / 2 - 2.
  Proof.
    rewrite minus_INR by (apply Nat.div_le_lower_bound; lia). replace (INR 2) with 2 by (cbn; lra). apply Rplus_le_compat_r. apply Rmult_le_reg_l with 2; [lra|]. replace (2 * (INR N / 2)) with (INR N) by field.
    replace 2 with (INR 2) by (cbn; lra). rewrite <- mult_INR. apply le_INR. apply Nat.mul_div_le. lia.
  Qed.
  (** Those of a refinement add up to little more than half of it. *)
  Lemma refinement_close g g' d : (forall i, (i <= N)%nat -> Rabs (g i - g' i) <= d) -> Rabs (refinement_sum N g - refinement_sum N g') <= (INR N / 2 + 1) * d.
  Proof.
    intros H. assert (D0 : 0 <= d) by (eapply Rle_trans; [apply Rabs_pos|apply (H 0%nat); lia]). unfold refinement_sum. change (fold_right Rplus 0 (map ?g (seq 1 (N / 2 - 2)))) with (rsum g 1 (N / 2 - 2)).
    pose proof (rsum_close (fun j => g (2 * j + 1)%nat) (fun j => g' (2 * j + 1)%nat) d (N / 2 - 2) 1 ltac:(intros k K; apply H, half_odd, K)) as R.
    assert (R2 : INR (N / 2 - 2) * d <= (INR N / 2 - 2) * d) by (apply Rmult_le_compat_r; [exact D0|apply half_R]).
    pose proof (H 4%nat ltac:(lia)) as H0. pose proof (H 1%nat ltac:(lia)) as H1. pose proof (H 2%nat ltac:(lia)) as H2. pose proof (H (N - 4)%nat ltac:(lia)) as H3. pose proof (H (N - 1)%nat ltac:(lia)) as H4. pose proof (H (N - 2)%nat ltac:(lia)) as H5.
    assert (R3 := Rle_trans _ _ _ R R2). apply Rabs_le_inv in R3, H0, H1, H2, H3, H4, H5. apply Rabs_le. lra.
  Qed.
  Lemma refinement_size_le g d : (forall i, (i <= N)%nat -> Rabs (g i) <= d) -> refinement_size N g <= (INR N / 2 + 1) * d.
  Proof.
    intros H. assert (D0 : 0 <= d) by (eapply Rle_trans; [apply Rabs_pos|apply (H 0%nat); lia]). unfold refinement_size. change (fold_right Rplus 0 (map ?g (seq 1 (N / 2 - 2)))) with (rsum g 1 (N / 2 - 2)).
    pose proof (rsum_size (fun j => Rabs (g (2 * j + 1)%nat)) d (N / 2 - 2) 1 ltac:(intros k K; apply H, half_odd, K)) as R.
    assert (R2 : INR (N / 2 - 2) * d <= (INR N / 2 - 2) * d) by (apply Rmult_le_compat_r; [exact D0|apply half_R]).
    pose proof (H 4%nat ltac:(lia)) as H0. pose proof (H 1%nat ltac:(lia)) as H1. pose proof (H 2%nat ltac:(lia)) as H2. pose proof (H (N - 4)%nat ltac:(lia)) as H3. pose proof (H (N - 1)%nat ltac:(lia)) as H4. pose proof (H (N - 2)%nat ltac:(lia)) as H5.
    lra.
  Qed.
End Weights.

(** The rule with twice as many parts from the one before. *)
Lemma rule_refined F a b m : (4 <= m <= 30)%Z ->
  rule F a b (2 ^ Z.to_nat m) = refinement_sum (2 ^ Z.to_nat m) (fun i => F (mesh a b (2 ^ Z.to_nat m) i)) * ((b - a) / INR (2 ^ Z.to_nat m)) + rule F a b (2 ^ Z.to_nat (m - 1)) / 2.
Proof.
  intros M. pose proof (next_rule F a b m M) as E. unfold simpson_next in E. replace (m <? 4)%Z with false in E by (symmetry; apply Z.ltb_ge; lia). rewrite points_ok in E by lia. cbn [bind] in E. apply ok_inj in E. rewrite <- E.
  pose proof (pow_ge8 m ltac:(lia)) as N8. set (N := (2 ^ Z.to_nat m)%nat) in *. rewrite sum_loop_sum, sum_rsum.
  assert (IN : INR N <> 0) by (apply not_0_INR; lia).
  assert (EE : forall k, (k <= N)%nat -> mesh a b N (N - k) = b - INR k * ((b - a) / INR N)) by (intros k K; unfold mesh; rewrite minus_INR by exact K; field; exact IN).
  unfold refinement_sum. change (fold_right Rplus 0 (map ?g (seq 1 (N / 2 - 2)))) with (rsum g 1 (N / 2 - 2)). rewrite !EE by lia.
  assert (D1 : mesh a b N 1 = a + (b - a) / INR N) by (unfold mesh; cbn [INR]; ring). assert (D2 : mesh a b N 2 = a + 2 * ((b - a) / INR N)) by (unfold mesh; cbn [INR]; ring). assert (D4 : mesh a b N 4 = a + 4 * ((b - a) / INR N)) by (unfold mesh; cbn [INR]; ring).
  rewrite D1, D2, D4. replace (INR 1) with 1 by reflexivity. replace (INR 2) with 2 by (cbn; lra). replace (INR 4) with 4 by (cbn; lra). rewrite Rmult_1_l. f_equal. f_equal.
  set (h := (b - a) / INR N). replace (rsum (fun j => F (mesh a b N (2 * j + 1))) 1 (N / 2 - 2)) with (rsum (fun j => F (a + INR (2 * j + 1) * h)) 1 (N / 2 - 2)) by reflexivity. lra.
Qed.

Lemma mesh_among a b N i : (0 < N)%nat -> (i <= N)%nat -> among a b (mesh a b N i).
Proof.
  intros P I. unfold among, mesh. assert (IN : 0 < INR N) by (apply lt_0_INR; lia). assert (T : 0 <= INR i / INR N <= 1).
  { pose proof (pos_INR i). assert (INR i <= INR N) by (apply le_INR; lia). split; [apply Rmult_le_pos; [lra|left; apply Rinv_0_lt_compat, IN]|apply Rmult_le_reg_r with (INR N); [exact IN|]]. unfold Rdiv. rewrite Rmult_assoc, Rinv_l by lra. lra. }
  replace (a + INR i * ((b - a) / INR N)) with (a + INR i / INR N * (b - a)) by (field; lra). set (t := INR i / INR N) in *. clearbody t. unfold Rmin, Rmax. destruct (Rle_dec a b); nra.
Qed.
Lemma lies_among a b x : is_finite a = true -> is_finite b = true -> lies_between a b x -> among (B2R a) (B2R b) (B2R x).
Proof.
  intros FA FB L. assert (NX : num x) by (destruct L as [[L _]|[L _]]; apply (dle_nums _ _ L)).
  assert (FX : is_finite x = true). { apply (dfinite_iff x NX). pose proof (dext_lt a FA). pose proof (dext_lt b FB). destruct L as [[L1 L2]|[L1 L2]]; apply dle_iff in L1; apply dle_iff in L2; auto using dfinite_num; lra. }
  unfold among. destruct L as [[L1 L2]|[L1 L2]]; apply dle_iff in L1; apply dle_iff in L2; auto using dfinite_num; rewrite (dext_finite _ FX) in *; rewrite ?(dext_finite _ FA), ?(dext_finite _ FB) in *; unfold Rmin, Rmax; destruct (Rle_dec (B2R a) (B2R b)); lra.
Qed.

Section Estimates.
  Variables (f : double -> double) (F : R -> R) (a b : double) (slope size error : R).
  Hypothesis U : usual_range a b.
  Hypothesis W : bpow radix2 (-600) <= Rabs (B2R b - B2R a).
  Hypothesis SL : slope_within F (B2R a) (B2R b) slope.
  Hypothesis SZ : size_within F (B2R a) (B2R b) size.
  Hypothesis CO : computes f F a b error.
  Local Notation len := (Rabs (B2R b - B2R a)).
  Local Notation del := (value_error slope error a b).
  Lemma slope_pos : 0 <= slope.
  Proof.
    assert (P : 0 < len) by (pose proof (bpow_gt_0 radix2 (-600)); lra).
    assert (A : among (B2R a) (B2R b) (B2R a)) by (unfold among, Rmin, Rmax; destruct (Rle_dec (B2R a) (B2R b)); lra). assert (B : among (B2R a) (B2R b) (B2R b)) by (unfold among, Rmin, Rmax; destruct (Rle_dec (B2R a) (B2R b)); lra).
    pose proof (SL _ _ B A) as H. pose proof (Rabs_pos (F (B2R b) - F (B2R a))). nra.
  Qed.
  Lemma del_value N i x : (0 < N)%nat -> (i <= N)%nat -> mesh_double a b N i x ->
    Rabs (B2R (f x) - F (mesh (B2R a) (B2R b) N i)) <= del /\ Rabs (B2R (f x)) <= size + error.
  Proof.
    intros P I [L D]. destruct U as (FA & FB & _). destruct (CO x L) as [_ E]. pose proof (lies_among a b x FA FB L) as AX. pose proof (SL _ _ AX (mesh_among _ _ N i P I)) as S. pose proof (SZ _ AX) as Z. pose proof slope_pos.
    unfold value_error. split.
    - replace (B2R (f x) - F (mesh (B2R a) (B2R b) N i)) with ((B2R (f x) - F (B2R x)) + (F (B2R x) - F (mesh (B2R a) (B2R b) N i))) by ring. eapply Rle_trans; [apply Rabs_triang|].
      apply Rplus_le_compat; [exact E|]. eapply Rle_trans; [exact S|]. apply Rmult_le_compat_l; assumption.
    - replace (B2R (f x)) with ((B2R (f x) - F (B2R x)) + F (B2R x)) by ring. eapply Rle_trans; [apply Rabs_triang|]. lra.
  Qed.
  Lemma pos_facts : 0 <= error /\ 0 <= size /\ error <= del.
  Proof.
    destruct U as (FA & FB & _). assert (L : lies_between a b a \/ lies_between a b b \/ True) by auto. clear L.
    assert (A : among (B2R a) (B2R b) (B2R a)) by (unfold among, Rmin, Rmax; destruct (Rle_dec (B2R a) (B2R b)); lra).
    assert (L : lies_between a b a).
    { unfold lies_between. destruct (Rle_lt_dec (B2R a) (B2R b)) as [H|H]; [left|right]; split; apply dle_iff; auto using dfinite_num; rewrite ?(dext_finite _ FA), ?(dext_finite _ FB); lra. }
    destruct (CO a L) as [_ E]. pose proof (SZ _ A). pose proof (Rabs_pos (B2R (f a) - F (B2R a))). pose proof (Rabs_pos (F (B2R a))). split; [lra|]. split; [lra|].
    unfold value_error. pose proof slope_pos. pose proof (bpow_ge_0 radix2 (-53)). pose proof (Rabs_pos (B2R a)). pose proof (Rabs_pos (B2R b)). assert (0 <= slope * (5 * bpow radix2 (-53) * (Rabs (B2R a) + Rabs (B2R b)))) by (apply Rmult_le_pos; [assumption|apply Rmult_le_pos; lra]). lra.
  Qed.
  Lemma step_abs N : (0 < N)%nat -> INR N * Rabs ((B2R b - B2R a) / INR N) = len.
  Proof.
    intros P. assert (IN : 0 < INR N) by (apply lt_0_INR; exact P). unfold Rdiv. rewrite Rabs_mult, Rabs_inv, (Rabs_pos_eq (INR N)) by lra. field. lra.
  Qed.
  Lemma rule_size N : (8 <= Z.of_nat N <= 2 ^ 30)%Z -> Rabs (rule F (B2R a) (B2R b) N) <= len * size.
  Proof.
    intros HN. rewrite (rule_total N HN). rewrite Rabs_mult. rewrite <- (step_abs N) by lia. pose proof (Rabs_pos ((B2R b - B2R a) / INR N)) as P.
    pose proof (total_close N HN (fun i => F (mesh (B2R a) (B2R b) N i)) (fun _ => 0) size) as T. cbv beta in T. replace (total N (fun i => simpson_weight N i * 0)) with 0 in T.
    2: { unfold total. induction (seq 0 (S N)) as [|k l IH]; [reflexivity|]. cbn [map fold_right]. rewrite <- IH. ring. }
    assert (T' : Rabs (total N (fun i => simpson_weight N i * F (mesh (B2R a) (B2R b) N i))) <= INR N * size) by (rewrite <- (Rminus_0_r (total N _)); apply T; intros i I; rewrite Rminus_0_r; apply SZ, mesh_among; lia).
    nra.
  Qed.
  Lemma first_error order v : dsimpson f a b order = Ok v -> is_finite v = true ->
    Rabs (B2R v - rule F (B2R a) (B2R b) (2 ^ Z.to_nat order)) <= len * del + gam (2 ^ Z.to_nat order + 1) * (len * (size + error) + len * bpow radix2 (-298)).
  Proof.
    intros H FV. destruct (C156_rule f a b order v U W H FV) as (x & X & E). unfold dsimpson in H. destruct (Z.ltb_spec order 3); [discriminate|]. destruct (dsteps order) as [N| | |] eqn:EN; try discriminate. clear H.
    destruct (steps_range order N ltac:(lia) EN) as (HN & EP & _). rewrite <- EP in *. clear EN EP. cbv zeta in E. rewrite (rule_total N HN). change (roundings (N + 1)) with (gam (N + 1)) in E.
    assert (P : (0 < N)%nat) by lia.
    pose proof (total_close N HN (fun i => B2R (f (x i))) (fun i => F (mesh (B2R a) (B2R b) N i)) del ltac:(intros i I; apply del_value; [exact P|exact I|apply X, I])) as T1.
    pose proof (total_size N HN (fun i => B2R (f (x i))) (size + error) ltac:(intros i I; apply (del_value N i); [exact P|exact I|apply X, I])) as T2.
    set (A := total N (fun i => simpson_weight N i * B2R (f (x i)))) in *. set (B := total N (fun i => simpson_weight N i * F (mesh (B2R a) (B2R b) N i))) in *. set (C := total N (fun i => simpson_weight N i * Rabs (B2R (f (x i))))) in *. clearbody A B C.
    pose proof (step_abs N P) as SA. set (s := (B2R b - B2R a) / INR N) in *. pose proof (Rabs_pos s) as PS. pose proof (gam_pos (N + 1)) as G. pose proof (bpow_ge_0 radix2 (-298)) as T0.
    assert (I1 : 1 <= INR N) by (change 1 with (INR 1); apply le_INR; lia).
    replace (B2R v - B * s) with ((B2R v - A * s) + (A - B) * s) by ring. eapply Rle_trans; [apply Rabs_triang|]. rewrite Rplus_comm. apply Rplus_le_compat.
    - rewrite Rabs_mult, <- SA. nra.
    - eapply Rle_trans; [exact E|]. apply Rmult_le_compat_l; [exact G|]. rewrite <- SA. set (t := bpow radix2 (-298)) in *. clearbody t. rewrite Rmult_plus_distr_r. apply Rplus_le_compat; [nra|]. rewrite Rmult_comm. apply Rmult_le_compat_r; [exact T0|]. nra.
  Qed.
  Lemma next_error order p v : dsimpson_next f a b p order = Ok v -> is_finite v = true ->
    Rabs (B2R p - rule F (B2R a) (B2R b) (2 ^ Z.to_nat (order - 1))) <= estimate_error slope size error a b (2 ^ Z.to_nat (order - 1)) ->
    Rabs (B2R v - rule F (B2R a) (B2R b) (2 ^ Z.to_nat order)) <= estimate_error slope size error a b (2 ^ Z.to_nat order).
  Proof.
    intros H FV PRE. destruct (C156_refinement f a b p order v U W H FV) as (x & X & E). unfold dsimpson_next in H. destruct (Z.ltb_spec order 4); [discriminate|]. destruct (dsteps order) as [N| | |] eqn:EN; try discriminate. clear H.
    destruct (steps_range order N ltac:(lia) EN) as (HN & EP & OR). assert (N16 : (16 <= N)%nat) by (rewrite EP; change 16%nat with (2 ^ 4)%nat; apply Nat.pow_le_mono_r; lia).
    pose proof (rule_refined F (B2R a) (B2R b) order ltac:(lia)) as RR. 
    set (M := (2 ^ Z.to_nat (order - 1))%nat) in *. assert (NM : N = (2 * M)%nat) by (rewrite EP; unfold M; replace (Z.to_nat order) with (S (Z.to_nat (order - 1))) by lia; reflexivity).
    rewrite <- EP in *. clear EN EP. cbv zeta in E. change (roundings ?n) with (gam n) in E.
    assert (P : (0 < N)%nat) by lia. assert (HM : (8 <= Z.of_nat M <= 2 ^ 30)%Z) by lia. pose proof (rule_size M HM) as QS.
    pose proof (refinement_close N HN N16 (fun i => B2R (f (x i))) (fun i => F (mesh (B2R a) (B2R b) N i)) del ltac:(intros i I; apply del_value; [exact P|exact I|apply X, I])) as T1.
    pose proof (refinement_size_le N HN N16 (fun i => B2R (f (x i))) (size + error) ltac:(intros i I; apply (del_value N i); [exact P|exact I|apply X, I])) as T2.
    rewrite RR. set (A := refinement_sum N (fun i => B2R (f (x i)))) in *. set (B := refinement_sum N (fun i => F (mesh (B2R a) (B2R b) N i))) in *. set (C := refinement_size N (fun i => B2R (f (x i)))) in *. set (Q := rule F (B2R a) (B2R b) M) in *. clear RR. clearbody A B C Q.
    pose proof (step_abs N P) as SA. set (s := (B2R b - B2R a) / INR N) in *. pose proof (Rabs_pos s) as PS. destruct pos_facts as (PE & PZ & PD).
    unfold estimate_error in *. cbv zeta in PRE |- *. change (roundings ?n) with (gam n) in PRE |- *.
    assert (G1 : gam (N / 2 + 5) <= gam (N + 1)) by (apply gam_mono; rewrite NM, Nat.mul_comm, Nat.div_mul; lia). assert (G2 : gam (M + 1) <= gam (N + 1)) by (apply gam_mono; lia). assert (G3 : gam (N + 1) <= / 16).
    { apply gam_sixteenth. lia. }
    pose proof (gam_pos (N / 2 + 5)) as G4. pose proof (gam_pos (M + 1)) as G5.
    assert (I16 : 16 <= INR N) by (replace 16 with (INR 16) by (cbn; lra); apply le_INR; lia).
    assert (B300 : bpow radix2 (-298) = 4 * bpow radix2 (-300)) by (change 4 with (bpow radix2 2); rewrite <- bpow_plus; reflexivity). pose proof (bpow_ge_0 radix2 (-300)) as T0. rewrite B300 in *. set (t := bpow radix2 (-300)) in *. clearbody t.
    set (g := gam (N + 1)) in *. set (g1 := gam (N / 2 + 5)) in *. set (g2 := gam (M + 1)) in *. clearbody g g1 g2. set (K := size + error) in *. set (D := value_error slope error a b) in *. set (V := B2R v) in *. set (O := B2R p) in *.
    assert (PK : 0 <= K) by (unfold K; lra). assert (D0 : 0 <= D) by lra. assert (QK : Rabs Q <= len * K) by (eapply Rle_trans; [exact QS|]; apply Rmult_le_compat_l; [apply Rabs_pos|unfold K; lra]).
    set (L := len) in *. assert (L0 : 0 <= L) by apply Rabs_pos. clearbody K D V O L. set (z := Rabs s) in *.
    assert (Z16 : 16 * z <= L) by nra.
    (* the three parts *)
    assert (P1 : Rabs ((A - B) * s) <= (L / 2 + L / 16) * D).
    { rewrite Rabs_mult. fold z. apply Rle_trans with ((INR N / 2 + 1) * D * z); [apply Rmult_le_compat_r; assumption|]. replace ((INR N / 2 + 1) * D * z) with ((INR N * z / 2 + z) * D) by field. apply Rmult_le_compat_r; [exact D0|]. lra. }
    assert (P2 : (C + 4 * t) * z <= (L / 2 + L / 16) * K + L * t).
    { apply Rle_trans with (((INR N / 2 + 1) * K + 4 * t) * z); [apply Rmult_le_compat_r; [assumption|lra]|]. replace (((INR N / 2 + 1) * K + 4 * t) * z) with ((INR N * z / 2 + z) * K + 4 * z * t) by field. apply Rplus_le_compat; apply Rmult_le_compat_r; lra. }
    assert (P3 : Rabs O <= L * K + 3 * (L * D + g2 * (L * K + (L + 1) * (4 * t)))).
    { replace O with ((O - Q) + Q) by ring. eapply Rle_trans; [apply Rabs_triang|]. lra. }
    replace (V - (B * s + Q / 2)) with ((V - (A * s + O / 2)) + (A - B) * s + (O - Q) / 2) by field.
    eapply Rle_trans; [apply Rabs_triang|]. eapply Rle_trans; [apply Rplus_le_compat_r, Rabs_triang|].
    assert (P4 : Rabs ((O - Q) / 2) <= 3 * (L * D + g2 * (L * K + (L + 1) * (4 * t))) / 2) by (unfold Rdiv; rewrite Rabs_mult, (Rabs_pos_eq (/ 2)) by lra; apply Rmult_le_compat_r; [lra|exact PRE]).
    assert (LK : 0 <= L * K) by (apply Rmult_le_pos; assumption). assert (LD : 0 <= L * D) by (apply Rmult_le_pos; assumption). assert (LT : 0 <= L * t) by (apply Rmult_le_pos; assumption).
    set (Y := L * K + (L + 1) * (4 * t)) in *. assert (Y0 : 0 <= Y) by (unfold Y; nra). assert (YK : L * K + 4 * (L * t) + 4 * t = Y) by (unfold Y; ring).
    assert (P5 : (C + 4 * t) * z + (Rabs O / 2 + t) <= 9 / 8 * Y + 3 / 2 * (L * D) + 3 / 32 * Y).
    { assert (g2 * Y <= / 16 * Y) by (apply Rmult_le_compat_r; lra). lra. }
    assert (P6 : g1 * ((C + 4 * t) * z + (Rabs O / 2 + t)) <= 5 / 4 * (g * Y) + 3 / 32 * (L * D)).
    { apply Rle_trans with (g1 * (9 / 8 * Y + 3 / 2 * (L * D) + 3 / 32 * Y)); [apply Rmult_le_compat_l; assumption|].
      assert (E1 : g1 * Y <= g * Y) by (apply Rmult_le_compat_r; assumption). assert (E2 : g1 * (L * D) <= / 16 * (L * D)) by (apply Rmult_le_compat_r; [exact LD|exact (Rle_trans _ _ _ G1 G3)]). clear - E1 E2 LD Y0 G4. clearbody Y. set (X := L * D) in *. clearbody X. nra. }
    assert (P7 : g2 * Y <= g * Y) by (apply Rmult_le_compat_r; assumption). assert (gY : 0 <= g * Y) by (apply Rmult_le_pos; lra).
    lra.
  Qed.
  Lemma estimates_error initial m v : (3 <= initial)%Z -> estimate f a b initial m v -> is_finite v = true ->
    (3 <= m <= 30)%Z /\ Rabs (B2R v - rule F (B2R a) (B2R b) (2 ^ Z.to_nat m)) <= estimate_error slope size error a b (2 ^ Z.to_nat m).
  Proof.
    intros I H. induction H as [v H|m u v H IH N]; intros FV.
    - split. { unfold dsimpson in H. destruct (Z.ltb_spec initial 3); [discriminate|]. destruct (dsteps initial) as [N| | |] eqn:EN; try discriminate. destruct (steps_range initial N ltac:(lia) EN) as (_ & _ & ?). lia. }
      eapply Rle_trans; [apply (first_error _ _ H FV)|]. unfold estimate_error. cbv zeta. change (roundings ?n) with (gam n). destruct pos_facts as (PE & PZ & PD). pose proof (gam_pos (2 ^ Z.to_nat initial + 1)) as G. pose proof (bpow_ge_0 radix2 (-298)) as T0. set (L := len) in *. assert (L0 : 0 <= L) by apply Rabs_pos.
      set (t := bpow radix2 (-298)) in *. set (g := gam _) in *. clearbody t g L. assert (0 <= L * del) by (apply Rmult_le_pos; lra). assert (0 <= L * (size + error)) by (apply Rmult_le_pos; lra). assert (0 <= L * t) by (apply Rmult_le_pos; lra).
      assert (g * (L * (size + error) + L * t) <= g * (L * (size + error) + (L + 1) * t)) by (apply Rmult_le_compat_l; lra). assert (0 <= g * (L * (size + error) + (L + 1) * t)) by (apply Rmult_le_pos; lra). lra.
    - assert (FU : is_finite u = true) by (apply (estimates_finite f a b initial (m + 1) v (estimate_next _ _ _ _ _ _ _ H N) FV m u ltac:(lia) H)). destruct (IH FU) as [M E]. split.
      { unfold dsimpson_next in N. destruct (Z.ltb_spec (m + 1) 4); [discriminate|]. destruct (dsteps (m + 1)) as [K| | |] eqn:EN; try discriminate. destruct (steps_range (m + 1) K ltac:(lia) EN) as (_ & _ & ?). lia. }
      apply (next_error (m + 1) u v N FV). replace (m + 1 - 1)%Z with m by lia. exact E.
  Qed.
End Estimates.
