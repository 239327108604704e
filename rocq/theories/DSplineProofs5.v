(** The equations of the curvatures of a spline in double precision, and its slopes at the points. *)
From Coq Require Import ZArith Reals List Arith Bool Lia Lra Psatz.
From Flocq Require Import Core IEEE754.BinarySingleNaN.
From Verif Require Import Common FloatModel FloatProofs DoubleProofs DoubleProofs2 DInterpModel DInterpSpec DInterpProofs DInterpProofs2
  DSOMProofs DSOMProofs2 DSplineModel DSplineSpec DSplineProofs DSplineProofs2 DSplineProofs3 DSplineProofs4.
Import ListNotations.
Local Open Scope R_scope.

Lemma gam_small n k : (n <= 50)%nat -> INR n <= k -> gam n <= (k + 1 / 100) * uro.
Proof.
  intros H K. apply Rle_trans with ((INR n + 1 / 100) * uro); [|pose proof uro_pos; nra]. clear K.
  assert (G : forall m, (m <= 50)%nat -> gam m <= (INR m + INR m / 5000) * uro).
  { induction m as [|m IH]; intros M; [rewrite gam_0; cbn [INR]; pose proof uro_pos; nra|]. rewrite gam_S, S_INR. specialize (IH ltac:(lia)). assert (INR m <= 50) by (change 50 with (IZR (Z.of_nat 50)); rewrite <- INR_IZR_INZ; apply le_INR; lia).
    pose proof (pos_INR m). assert (gam m <= / 5000) by (rewrite uro_val in IH; nra). pose proof uro_pos. nra. }
  specialize (G n H). assert (INR n <= 50) by (change 50 with (IZR (Z.of_nat 50)); rewrite <- INR_IZR_INZ; apply le_INR; lia). pose proof uro_pos. nra.
Qed.
Lemma gam_large n k : k <= INR n -> k * uro <= gam n.
Proof.
  intros H. apply Rle_trans with (INR n * uro); [pose proof uro_pos; nra|]. clear H. induction n as [|n IH]; [rewrite gam_0; cbn [INR]; lra|]. rewrite gam_S, S_INR. pose proof (gam_pos n). pose proof uro_pos. nra.
Qed.

Section Step.
  Variables x0 x1 x2 y0 y1 y2 m z c2 : double.
  Let h0 := dsub x1 x0.
  Let h1 := dsub x2 x1.
  Let w := dsub x2 x0.
  Let g := dsub (dmul dtwo w) (dmul h0 m).
  Let m' := ddiv h1 g.
  Let r := ddiv (dmul dthree (dadd (dsub (dmul y2 h0) (dmul y1 w)) (dmul y0 h1))) (dmul h0 h1).
  Let q := dsub r (dmul h0 z).
  Let z' := ddiv q g.
  Let c1 := dsub z' (dmul m' c2).
  Let c0 := dsub z (dmul m c1).
  Let H0 := B2R x1 - B2R x0.
  Let H1 := B2R x2 - B2R x1.
  Let W := H0 + H1.
  Hypothesis FX0 : is_finite x0 = true.
  Hypothesis FX1 : is_finite x1 = true.
  Hypothesis FX2 : is_finite x2 = true.
  Hypothesis L0 : usual_gap x0 x1.
  Hypothesis L1 : usual_gap x1 x2.
  Hypothesis FM : is_finite m = true.
  Hypothesis BM : 0 <= B2R m <= 1.

  Lemma H0_pos : 0 < H0. Proof. apply (H_pos x0 x1 L0). Qed.
  Lemma H1_pos : 0 < H1. Proof. apply (H_pos x1 x2 L1). Qed.
  Lemma W_eq : B2R x2 - B2R x0 = W. Proof. unfold W, H0, H1. ring. Qed.
  Lemma W_gap : bpow radix2 (-200) <= B2R x2 - B2R x0 <= bpow radix2 201.
  Proof. rewrite W_eq. destruct L0 as [A B]. destruct L1 as [C D]. fold H0 in A, B. fold H1 in C, D. pose proof H0_pos. change 201%Z with (200 + 1)%Z. rewrite half_pow. unfold W. lra. Qed.
  Lemma w_finite : is_finite w = true.
  Proof. apply (gap_finite x0 x2 FX0 FX2 201); [lia|exact W_gap]. Qed.
  Lemma w_near : near 1 W W (B2R w).
  Proof. pose proof (gap_near x0 x2 FX0 FX2 201 ltac:(lia) W_gap) as N. rewrite Rabs_pos_eq in N by (rewrite W_eq; pose proof H0_pos; pose proof H1_pos; unfold W; lra). rewrite W_eq in N. exact N. Qed.
  Lemma h0_near : near 1 H0 H0 (B2R h0). Proof. apply (h_near x0 x1); assumption. Qed.
  Lemma h1_near : near 1 H1 H1 (B2R h1). Proof. apply (h_near x1 x2); assumption. Qed.
  Lemma h0_fin : is_finite h0 = true. Proof. apply (h_finite x0 x1); assumption. Qed.
  Lemma h1_fin : is_finite h1 = true. Proof. apply (h_finite x1 x2); assumption. Qed.
  Lemma h_bound (v : double) V : 0 < V -> near 1 V V (B2R v) -> 99 / 100 * V <= B2R v <= 101 / 100 * V.
  Proof. intros P N. unfold near in N. rewrite gam_1, uro_val in N. apply Rabs_le_inv in N. lra. Qed.
  Lemma W_low : bpow radix2 (-200) <= W. Proof. rewrite <- W_eq. apply W_gap. Qed.
  Lemma W_high : W <= bpow radix2 201. Proof. rewrite <- W_eq. apply W_gap. Qed.

  (** The divisor. *)
  Lemma g_near : is_finite g = true /\ near 3 (2 * W + H0) (2 * W - H0 * B2R m) (B2R g).
  Proof.
    pose proof H0_pos as P0. pose proof H1_pos as P1. pose proof (h_bound h0 H0 P0 h0_near) as B0. assert (PW : 0 < W) by (unfold W; lra). pose proof (h_bound w W PW w_near) as BW.
    pose proof uro_pos as U0. pose proof uro_small as U1. pose proof W_high as WH. pose proof (bpow_gt_0 radix2 200) as BP.
    assert (F2 : is_finite (dmul dtwo w) = true).
    { destruct (dmul_ext dtwo w eq_refl w_finite) as [N E]. rewrite (dext_finite w w_finite), (dext_finite dtwo eq_refl), B2R_dtwo in E. apply (small_finite _ _ 203 N E); [lia|].
      change 203%Z with (2 + 201)%Z. rewrite bpow_plus. change (bpow radix2 2) with 4. rewrite Rabs_pos_eq by lra. nra. }
    assert (N2 : near 2 (2 * W) (2 * W) (B2R (dmul dtwo w))).
    { apply (mul_pad 0 1); auto; [rewrite Rabs_pos_eq; lra|rewrite Rabs_pos_eq; lra|rewrite B2R_dtwo; apply near_refl; rewrite Rabs_pos_eq; lra|apply w_near|].
      apply Rle_trans with (bpow radix2 (-200)); [apply bpow_le; lia|]. pose proof W_low. lra. }
    assert (F0 : is_finite (dmul h0 m) = true).
    { destruct (dmul_ext h0 m h0_fin FM) as [N E]. rewrite (dext_finite h0 h0_fin), (dext_finite m FM) in E. apply (small_finite _ _ 203 N E); [lia|].
      rewrite Rabs_mult, !Rabs_pos_eq by nra. apply Rle_trans with (2 * W * 1); [apply Rmult_le_compat; try lra; unfold W in *; nra|]. change 203%Z with (2 + 201)%Z. rewrite bpow_plus. change (bpow radix2 2) with 4. nra. }
    assert (N0 : near 2 (H0 * 1) (H0 * B2R m) (B2R (dmul h0 m))).
    { apply (mul_pad 1 0); auto; [rewrite Rabs_pos_eq; lra|rewrite Rabs_pos_eq; lra|apply h0_near|apply near_refl; rewrite Rabs_pos_eq; lra|].
      apply Rle_trans with (bpow radix2 (-200)); [apply bpow_le; lia|]. destruct L0 as [A _]. fold H0 in A. lra. }
    rewrite Rmult_1_r in N0.
    assert (FG : is_finite g = true).
    { destruct (dsub_ext _ _ F2 F0) as [N E]. rewrite (dext_finite _ F2), (dext_finite _ F0) in E. apply (small_finite _ _ 205 N E); [lia|].
      unfold Rminus. apply Rle_trans with (1 := Rabs_triang _ _). rewrite Rabs_Ropp. pose proof (near_abs 2 (2 * W) (2 * W) _ ltac:(rewrite Rabs_pos_eq; lra) N2) as A2. pose proof (near_abs 2 H0 (H0 * B2R m) _ ltac:(rewrite Rabs_pos_eq; nra) N0) as A0.
      pose proof (gam_half 2 ltac:(lia)) as G2. pose proof (gam_pos 2). change 205%Z with (4 + 201)%Z. rewrite bpow_plus. change (bpow radix2 4) with 16.
      assert (H0 <= W) by (unfold W; lra). clear E N. assert ((1 + gam 2) * (2 * W) <= 3 * W) by nra. assert ((1 + gam 2) * H0 <= 3 / 2 * H0) by nra. set (bp := bpow radix2 201) in *. lra. }
    split; [exact FG|]. apply sub_near; auto; [rewrite Rabs_pos_eq; lra|rewrite Rabs_pos_eq; nra].
  Qed.
  Lemma g_bound : W + H1 - 1 / 100 * W <= B2R g <= 2 * W + 1 / 100 * W.
  Proof.
    destruct g_near as [_ N]. unfold near in N. apply Rabs_le_inv in N. pose proof (gam_small 3 3 ltac:(lia) ltac:(cbn [INR]; lra)) as G. pose proof (gam_pos 3). pose proof H0_pos. pose proof H1_pos.
    assert (gam 3 <= / 1000) by (rewrite uro_val in G; lra). assert (gam 3 * (2 * W + H0) <= 1 / 100 * W) by (unfold W in *; nra). assert (0 <= H0 * B2R m <= H0) by nra. unfold W in *. lra.
  Qed.
  Lemma g_pos : 0 < B2R g. Proof. pose proof g_bound. pose proof H0_pos. pose proof H1_pos. unfold W in *. lra. Qed.
  Lemma g_ext : ext g <> 0. Proof. rewrite (dext_finite g (proj1 g_near)). pose proof g_pos. lra. Qed.

  (** The factor of the next turn. *)
  Lemma m_next : is_finite m' = true /\ 0 <= B2R m' <= 1 /\ Rabs (B2R m' * B2R g - H1) <= gam 2 * H1 /\ bpow radix2 (-405) <= B2R m'.
  Proof.
    destruct g_near as [FG _]. pose proof g_pos as GP. pose proof g_bound as GB. pose proof H0_pos. pose proof H1_pos as P1. pose proof (h_bound h1 H1 P1 h1_near) as B1. pose proof uro_pos as U0. pose proof uro_small as U1.
    assert (Q : 0 <= B2R h1 / B2R g <= 1).
    { split; [apply Rmult_le_pos; [nra|apply Rlt_le, Rinv_0_lt_compat, GP]|]. apply Rmult_le_reg_r with (B2R g); [exact GP|]. unfold Rdiv. rewrite Rmult_assoc, Rinv_l, Rmult_1_r, Rmult_1_l by lra. unfold W in *. nra. }
    destruct (ddiv_ext h1 g h1_fin FG g_ext) as [N E]. rewrite (dext_finite h1 h1_fin), (dext_finite g FG) in E.
    assert (F : is_finite m' = true). { apply (small_finite _ _ 0 N E); [lia|]. change (bpow radix2 0) with 1. rewrite Rabs_pos_eq; lra. }
    apply (finite_rnd _ _ F) in E. split; [exact F|].
    assert (LOW : bpow radix2 (-404) <= B2R h1 / B2R g).
    { change (-404)%Z with (-201 + -203)%Z. apply pow_prod.
      - destruct L1 as [A _]. fold H1 in A. change (-200)%Z with (-201 + 1)%Z in A. rewrite half_pow in A. pose proof (bpow_gt_0 radix2 (-201)). nra.
      - apply (pow_inv 203); [exact GP|]. change 203%Z with (2 + 201)%Z. rewrite bpow_plus. change (bpow radix2 2) with 4. pose proof W_high. unfold W in *. nra. }
    split; [|split].
    - rewrite E. split; [rewrite <- rnd_0; apply rnd_mono; lra|rewrite <- rnd_1; apply rnd_mono; lra].
    - destruct (rnd_rel (B2R h1 / B2R g)) as (e & BE & R); [rewrite Rabs_pos_eq by lra; apply Rle_trans with (2 := LOW); apply bpow_le; lia|].
      apply (near_round 1 H1 H1 (B2R h1) e); [rewrite Rabs_pos_eq; lra|exact h1_near|exact BE|]. rewrite E, R. field. lra.
    - rewrite E. apply Rle_trans with (rnd53 (bpow radix2 (-404))); [|apply rnd_mono, LOW]. rewrite rnd_format; [apply bpow_le; lia|]. apply generic_format_bpow. unfold SpecFloat.fexp, SpecFloat.emin. lia.
  Qed.

  Hypothesis FC0 : is_finite c0 = true.
  Hypothesis FC1 : is_finite c1 = true.
  Let Y0 := sz (B2R y0).
  Let Y1 := sz (B2R y1).
  Let Y2 := sz (B2R y2).
  Let SR := 3 * (Y2 * H0 + Y1 * W + Y0 * H1) * / (H0 * H1).
  Let RR := 3 * (B2R y2 * H0 - B2R y1 * W + B2R y0 * H1) / (H0 * H1).

  Lemma prod_finite : is_finite (dmul h0 h1) = true /\ near 3 (H0 * H1) (H0 * H1) (B2R (dmul h0 h1)).
  Proof.
    pose proof H0_pos as P0. pose proof H1_pos as P1. pose proof (h_bound h0 H0 P0 h0_near) as B0. pose proof (h_bound h1 H1 P1 h1_near) as B1. pose proof uro_pos. pose proof uro_small. destruct L0 as [A0 C0]. destruct L1 as [A1 C1]. fold H0 in A0, C0. fold H1 in A1, C1.
    assert (F : is_finite (dmul h0 h1) = true).
    { destruct (dmul_ext h0 h1 h0_fin h1_fin) as [N E]. rewrite (dext_finite h0 h0_fin), (dext_finite h1 h1_fin) in E. apply (small_finite _ _ 402 N E); [lia|].
      rewrite Rabs_mult, !Rabs_pos_eq by nra. change 402%Z with (201 + 201)%Z. rewrite bpow_plus. change 201%Z with (200 + 1)%Z. rewrite half_pow. apply Rmult_le_compat; nra. }
    split; [exact F|]. apply (mul_pad 1 1); auto using h0_near, h1_near; [rewrite Rabs_pos_eq; lra|rewrite Rabs_pos_eq; lra|]. apply Rle_trans with (bpow radix2 (-200 + -200)); [apply bpow_le; lia|]. apply pow_prod; assumption.
  Qed.
  Lemma fins : is_finite z = true /\ is_finite (dmul m c1) = true /\ is_finite z' = true /\ is_finite (dmul m' c2) = true /\ is_finite q = true /\ is_finite r = true /\ is_finite (dmul h0 z) = true.
  Proof.
    destruct (fin_sub _ _ FC0) as [A B]. destruct (fin_sub _ _ FC1) as [C D]. pose proof (fin_div _ _ C) as E. destruct (fin_sub _ _ E) as [G I]. repeat split; assumption.
  Qed.
  Lemma prod_pad (y v : double) V : 0 < V -> near 1 V V (B2R v) -> bpow radix2 (-200) <= V -> is_finite (dmul y v) = true -> near 2 (sz (B2R y) * V) (B2R y * V) (B2R (dmul y v)).
  Proof.
    intros P N L F. apply (mul_pad 0 1); auto using sz_near, sz_abs; [rewrite Rabs_pos_eq; lra|]. apply Rle_trans with (bpow radix2 (-300 + -200)); [apply bpow_le; lia|]. apply pow_prod; [apply sz_low|exact L].
  Qed.
  Lemma size_prod y V : 0 < V -> Rabs (y * V) <= sz y * V.
  Proof. intros P. rewrite Rabs_mult, (Rabs_pos_eq V) by lra. apply Rmult_le_compat_r; [lra|apply sz_abs]. Qed.
  Lemma r_near : near 12 SR RR (B2R r).
  Proof.
    destruct fins as (_ & _ & _ & _ & _ & FR & _). pose proof (fin_div _ _ FR) as F3. destruct (fin_mul _ _ F3) as [_ FA]. destruct (fin_add _ _ FA) as [FS FY0]. destruct (fin_sub _ _ FS) as [FY2 FY1].
    pose proof H0_pos as P0. pose proof H1_pos as P1. assert (PW : 0 < W) by (unfold W; lra). pose proof W_low as WL. destruct L0 as [A0 C0]. destruct L1 as [A1 C1]. fold H0 in A0, C0. fold H1 in A1, C1.
    pose proof (prod_pad y2 h0 H0 P0 h0_near A0 FY2) as N2. pose proof (prod_pad y1 w W PW w_near WL FY1) as N1. pose proof (prod_pad y0 h1 H1 P1 h1_near A1 FY0) as N0. fold Y2 in N2. fold Y1 in N1. fold Y0 in N0.
    pose proof (size_prod (B2R y2) H0 P0) as S2. pose proof (size_prod (B2R y1) W PW) as S1. pose proof (size_prod (B2R y0) H1 P1) as S0. fold Y2 in S2. fold Y1 in S1. fold Y0 in S0.
    pose proof (sub_near 2 _ _ _ _ _ _ FS S2 S1 N2 N1) as NS.
    assert (SS : Rabs (B2R y2 * H0 - B2R y1 * W) <= Y2 * H0 + Y1 * W) by (unfold Rminus; apply Rle_trans with (1 := Rabs_triang _ _); rewrite Rabs_Ropp; lra).
    pose proof (sz_pos (B2R y0)) as Q0. pose proof (sz_pos (B2R y1)) as Q1. pose proof (sz_pos (B2R y2)) as Q2. pose proof (sz_low (B2R y2)) as Q3. fold Y0 in Q0. fold Y1 in Q1. fold Y2 in Q2, Q3.
    assert (0 < Y2 * H0) by (apply Rmult_lt_0_compat; lra). assert (0 < Y1 * W) by (apply Rmult_lt_0_compat; lra). assert (0 < Y0 * H1) by (apply Rmult_lt_0_compat; lra).
    pose proof (add_near 3 _ _ _ _ _ _ FA SS S0 NS ltac:(apply (near_more 2); [lia|lra|exact N0])) as NA.
    assert (SA : Rabs (B2R y2 * H0 - B2R y1 * W + B2R y0 * H1) <= Y2 * H0 + Y1 * W + Y0 * H1) by (apply Rle_trans with (1 := Rabs_triang _ _); lra).
    assert (LA : bpow radix2 (-500) <= Y2 * H0 + Y1 * W + Y0 * H1). { assert (bpow radix2 (-300 + -200) <= Y2 * H0) by (apply pow_prod; assumption). change (-300 + -200)%Z with (-500)%Z in *. lra. }
    assert (N3 : near 5 (3 * (Y2 * H0 + Y1 * W + Y0 * H1)) (3 * (B2R y2 * H0 - B2R y1 * W + B2R y0 * H1)) (B2R (dmul dthree (dadd (dsub (dmul y2 h0) (dmul y1 w)) (dmul y0 h1))))).
    { apply (mul_pad 0 4); auto; [rewrite Rabs_pos_eq; lra|rewrite B2R_dthree; apply near_refl; rewrite Rabs_pos_eq; lra|]. apply Rle_trans with (bpow radix2 (-500)); [apply bpow_le; lia|lra]. }
    destruct prod_finite as [FP NP]. assert (PP : 0 < H0 * H1) by (apply Rmult_lt_0_compat; lra).
    unfold SR, RR. rewrite <- (Rabs_pos_eq (H0 * H1)) at 1 by lra. apply (div_pad 5 3); auto.
    - lra.
    - lia.
    - rewrite Rabs_mult, (Rabs_pos_eq 3) by lra. lra.
    - rewrite Rabs_pos_eq by lra. exact NP.
    - rewrite Rabs_pos_eq by lra. apply Rle_trans with (bpow radix2 (-500 + -400)); [apply bpow_le; lia|]. apply pow_prod; [lra|]. apply (pow_inv 400); [exact PP|]. change 400%Z with (200 + 200)%Z. rewrite bpow_plus. apply Rmult_le_compat; lra.
  Qed.
  Lemma SR_pos : 0 < SR.
  Proof.
    pose proof H0_pos as P0. pose proof H1_pos as P1. pose proof (sz_pos (B2R y0)) as Q0. pose proof (sz_pos (B2R y1)) as Q1. pose proof (sz_pos (B2R y2)) as Q2. fold Y0 in Q0. fold Y1 in Q1. fold Y2 in Q2.
    unfold SR. assert (0 < Y2 * H0) by (apply Rmult_lt_0_compat; lra). assert (0 < Y1 * W) by (apply Rmult_lt_0_compat; unfold W; lra). assert (0 < Y0 * H1) by (apply Rmult_lt_0_compat; lra).
    apply Rmult_lt_0_compat; [lra|]. apply Rinv_0_lt_compat, Rmult_lt_0_compat; lra.
  Qed.
  Lemma q_near : near 13 (SR + H0 * sz (B2R z)) (RR - H0 * B2R z) (B2R q).
  Proof.
    destruct fins as (_ & _ & _ & _ & FQ & _ & FZ). pose proof H0_pos as P0. destruct L0 as [A0 C0]. fold H0 in A0, C0.
    assert (NZ : near 2 (H0 * sz (B2R z)) (H0 * B2R z) (B2R (dmul h0 z))).
    { apply (mul_pad 1 0); auto using sz_near, sz_abs, h0_near; [rewrite Rabs_pos_eq; lra|]. apply Rle_trans with (bpow radix2 (-200 + -300)); [apply bpow_le; lia|]. apply pow_prod; [exact A0|apply sz_low]. }
    apply sub_near; auto.
    - unfold RR, SR, Rdiv. pose proof H1_pos as P1. assert (PP : 0 < H0 * H1) by (apply Rmult_lt_0_compat; lra). assert (PW : 0 < W) by (unfold W; lra).
      rewrite Rabs_mult, (Rabs_pos_eq (/ (H0 * H1))) by (apply Rlt_le, Rinv_0_lt_compat, PP). apply Rmult_le_compat_r; [apply Rlt_le, Rinv_0_lt_compat, PP|]. rewrite Rabs_mult, (Rabs_pos_eq 3) by lra. apply Rmult_le_compat_l; [lra|].
      apply Rle_trans with (1 := Rabs_triang _ _). pose proof (size_prod (B2R y2) H0 P0) as S2. pose proof (size_prod (B2R y1) W PW) as S1. pose proof (size_prod (B2R y0) H1 P1) as S0. fold Y2 in S2. fold Y1 in S1. fold Y0 in S0.
      apply Rplus_le_compat; [|exact S0]. unfold Rminus. apply Rle_trans with (1 := Rabs_triang _ _). rewrite Rabs_Ropp. lra.
    - rewrite Rabs_mult, (Rabs_pos_eq H0) by lra. apply Rmult_le_compat_l; [lra|apply sz_abs].
    - apply r_near.
    - apply (near_more 2); [lia|apply Rmult_le_pos; [lra|apply Rlt_le, sz_pos]|exact NZ].
  Qed.
  Lemma RR_size : Rabs (RR - H0 * B2R z) <= SR + H0 * sz (B2R z).
  Proof.
    pose proof H0_pos as P0. unfold Rminus. apply Rle_trans with (1 := Rabs_triang _ _). rewrite Rabs_Ropp. apply Rplus_le_compat.
    - unfold RR, SR, Rdiv. pose proof H1_pos as P1. assert (PP : 0 < H0 * H1) by (apply Rmult_lt_0_compat; lra). assert (PW : 0 < W) by (unfold W; lra).
      rewrite Rabs_mult, (Rabs_pos_eq (/ (H0 * H1))) by (apply Rlt_le, Rinv_0_lt_compat, PP). apply Rmult_le_compat_r; [apply Rlt_le, Rinv_0_lt_compat, PP|]. rewrite Rabs_mult, (Rabs_pos_eq 3) by lra. apply Rmult_le_compat_l; [lra|].
      apply Rle_trans with (1 := Rabs_triang _ _). pose proof (size_prod (B2R y2) H0 P0) as S2. pose proof (size_prod (B2R y1) W PW) as S1. pose proof (size_prod (B2R y0) H1 P1) as S0. fold Y2 in S2. fold Y1 in S1. fold Y0 in S0.
      apply Rplus_le_compat; [|exact S0]. unfold Rminus. apply Rle_trans with (1 := Rabs_triang _ _). rewrite Rabs_Ropp. lra.
    - rewrite Rabs_mult, (Rabs_pos_eq H0) by lra. apply Rmult_le_compat_l; [lra|apply sz_abs].
  Qed.
  Lemma z_next : Rabs (B2R z' * B2R g - (RR - H0 * B2R z)) <= gam 14 * (SR + H0 * sz (B2R z)).
  Proof.
    destruct fins as (_ & _ & FZ & _ & FQ & _). destruct g_near as [FG _]. pose proof g_pos as GP. pose proof q_near as NQ. pose proof H0_pos as P0. pose proof SR_pos as SP. pose proof (sz_low (B2R z)) as ZL. pose proof (sz_pos (B2R z)) as ZP.
    destruct L0 as [A0 _]. fold H0 in A0. assert (LS : bpow radix2 (-500) <= SR + H0 * sz (B2R z)). { assert (bpow radix2 (-200 + -300) <= H0 * sz (B2R z)) by (apply pow_prod; assumption). change (-200 + -300)%Z with (-500)%Z in *. lra. }
    destruct (ddiv_ext q g FQ FG g_ext) as [_ E]. apply (finite_rnd _ _ FZ) in E. rewrite (dext_finite q FQ), (dext_finite g FG) in E. pose proof (Rinv_0_lt_compat _ GP) as IG.
    assert (N : near 14 ((SR + H0 * sz (B2R z)) * / B2R g) ((RR - H0 * B2R z) * / B2R g) (B2R z')).
    { rewrite E. apply round_pad.
      - rewrite Rabs_mult, (Rabs_pos_eq (/ B2R g)) by lra. apply Rmult_le_compat_r; [lra|apply RR_size].
      - apply Rle_trans with (bpow radix2 (-500 + -203)); [apply bpow_le; lia|]. apply pow_prod; [exact LS|]. apply (pow_inv 203); [exact GP|]. pose proof g_bound as GB. pose proof W_high. change 203%Z with (2 + 201)%Z. rewrite bpow_plus. change (bpow radix2 2) with 4. pose proof H1_pos. unfold W in *. nra.
      - unfold near in *. unfold Rdiv. replace (B2R q * / B2R g - (RR - H0 * B2R z) * / B2R g) with ((B2R q - (RR - H0 * B2R z)) * / B2R g) by ring. rewrite Rabs_mult, (Rabs_pos_eq (/ B2R g)) by lra. rewrite <- Rmult_assoc. apply Rmult_le_compat_r; [lra|exact NQ]. }
    unfold near in N. replace (B2R z' * B2R g - (RR - H0 * B2R z)) with ((B2R z' - (RR - H0 * B2R z) * / B2R g) * B2R g) by (field; lra). rewrite Rabs_mult, (Rabs_pos_eq (B2R g)) by lra.
    apply Rle_trans with (gam 14 * ((SR + H0 * sz (B2R z)) * / B2R g) * B2R g); [apply Rmult_le_compat_r; [lra|exact N]|]. apply Req_le. field. lra.
  Qed.
  Let C0 := sz (B2R c0).
  Let C1 := sz (B2R c1).
  Let C2 := sz (B2R c2).
  Lemma c1_near : Rabs (B2R c1 - (B2R z' - B2R m' * B2R c2)) <= gam 2 * (Rabs (B2R z') + B2R m' * C2).
  Proof.
    destruct fins as (_ & _ & FZ & F2 & _). destruct m_next as (_ & (M0 & M1) & _ & ML). apply (sub_near 1 (Rabs (B2R z')) (B2R m' * C2) z' (dmul m' c2) (B2R z') (B2R m' * B2R c2)); [exact FC1| | | |].
    - apply Rle_refl.
    - rewrite Rabs_mult, (Rabs_pos_eq (B2R m')) by lra. apply Rmult_le_compat_l; [lra|apply sz_abs].
    - apply near_refl, Rle_refl.
    - apply (mul_pad 0 0 (B2R m') C2 m' c2 (B2R m') (B2R c2)); [exact F2|rewrite Rabs_pos_eq; lra|apply sz_abs|apply near_refl; rewrite Rabs_pos_eq; lra|apply sz_near|]. apply Rle_trans with (bpow radix2 (-405 + -300)); [apply bpow_le; lia|]. apply pow_prod; [exact ML|apply sz_low].
  Qed.
  Lemma c0_near : Rabs (B2R c0 - (B2R z - B2R m * B2R c1)) <= gam 2 * (Rabs (B2R z) + 1 * C1).
  Proof.
    destruct fins as (FZ & F2 & _). pose proof (sz_abs (B2R c1)) as A1. pose proof (Rabs_pos (B2R c1)). apply (sub_near 1 (Rabs (B2R z)) (1 * C1) z (dmul m c1) (B2R z) (B2R m * B2R c1)); [exact FC0| | | |].
    - apply Rle_refl.
    - rewrite Rabs_mult, (Rabs_pos_eq (B2R m)) by lra. apply Rmult_le_compat; try lra. exact A1.
    - apply near_refl, Rle_refl.
    - apply (mul_pad 0 0 1 C1 m c1 (B2R m) (B2R c1)); [exact F2|rewrite Rabs_pos_eq; lra|apply sz_abs|apply near_refl; rewrite Rabs_pos_eq; lra|apply sz_near|]. apply Rle_trans with (bpow radix2 (-300)); [apply bpow_le; lia|]. rewrite Rmult_1_l. apply sz_low.
  Qed.

  (** The equation of the curvatures. *)
  Lemma equation : Rabs (H0 * B2R c0 + 2 * W * B2R c1 + H1 * B2R c2 - RR) <= gam 20 * (SR + 2 * (H0 * (C0 + C1) + H1 * (C1 + C2))).
  Proof.
    pose proof H0_pos as P0. pose proof H1_pos as P1. pose proof SR_pos as SP. destruct g_near as [_ NG]. pose proof g_bound as GB. pose proof g_pos as GP. destruct m_next as (_ & M & NM & _).
    pose proof z_next as NZ. pose proof c1_near as N1. pose proof c0_near as N0. unfold near in NG.
    pose proof (gam_small 2 2 ltac:(lia) ltac:(cbn [INR]; lra)) as G2. pose proof (gam_small 3 3 ltac:(lia) ltac:(cbn [INR]; lra)) as G3. pose proof (gam_small 14 14 ltac:(lia) ltac:(cbn [INR]; lra)) as G14.
    pose proof (gam_large 20 20 ltac:(cbn [INR]; lra)) as G20. pose proof (gam_pos 2) as Q2. pose proof (gam_pos 3) as Q3. pose proof (gam_pos 14) as Q14. pose proof uro_pos as U0.
    assert (U1 : uro <= / 100000) by (rewrite uro_val; lra).
    pose proof (sz_abs (B2R c0)) as A0. pose proof (sz_abs (B2R c1)) as A1. pose proof (sz_abs (B2R c2)) as A2. fold C0 in A0. fold C1 in A1. fold C2 in A2.
    pose proof (Rabs_pos (B2R c0)) as V0. pose proof (Rabs_pos (B2R c1)) as V1. pose proof (Rabs_pos (B2R c2)) as V2. pose proof (Rabs_pos (B2R z)) as VZ. pose proof (Rabs_pos (B2R z')) as VZ'.
    assert (PAD0 : C0 = Rabs (B2R c0) + bpow radix2 (-300)) by reflexivity. assert (PAD1 : C1 = Rabs (B2R c1) + bpow radix2 (-300)) by reflexivity. assert (PADZ : sz (B2R z) = Rabs (B2R z) + bpow radix2 (-300)) by reflexivity.
    pose proof (bpow_gt_0 radix2 (-300)) as BP. set (pad := bpow radix2 (-300)) in *. clearbody pad.
    clear PAD1. set (Z := sz (B2R z)) in *. clearbody Z. clearbody C0 C1 C2 SR.
    set (rc0 := B2R c0) in *. set (rc1 := B2R c1) in *. set (rc2 := B2R c2) in *. set (rz := B2R z) in *. set (rz' := B2R z') in *. set (rm := B2R m) in *. set (rm' := B2R m') in *. set (rg := B2R g) in *.
    clearbody rc0 rc1 rc2 rz rz' rm rm' rg. clearbody RR. unfold W in *. clearbody H0 H1. clear W.
    (* sizes of z and z' *)
    assert (BZ : Rabs rz <= 101 / 100 * (C0 + C1) - pad).
    { assert (T : Rabs rz <= Rabs rc0 + rm * Rabs rc1 + Rabs (rc0 - (rz - rm * rc1))).
      { replace rz with (rc0 + rm * rc1 - (rc0 - (rz - rm * rc1))) at 1 by ring. unfold Rminus at 1. apply Rle_trans with (1 := Rabs_triang _ _). rewrite Rabs_Ropp. apply Rplus_le_compat_r. apply Rle_trans with (1 := Rabs_triang _ _).
        rewrite Rabs_mult, (Rabs_pos_eq rm) by lra. lra. }
      assert (rm * Rabs rc1 <= C1) by nra. assert (gam 2 <= / 1000) by lra. assert (gam 2 * (Rabs rz + 1 * C1) <= / 1000 * (Rabs rz + C1)) by nra. lra. }
    assert (BZ' : Rabs rz' <= 101 / 100 * (C1 + rm' * C2)).
    { assert (T : Rabs rz' <= Rabs rc1 + rm' * Rabs rc2 + Rabs (rc1 - (rz' - rm' * rc2))).
      { replace rz' with (rc1 + rm' * rc2 - (rc1 - (rz' - rm' * rc2))) at 1 by ring. unfold Rminus at 1. apply Rle_trans with (1 := Rabs_triang _ _). rewrite Rabs_Ropp. apply Rplus_le_compat_r. apply Rle_trans with (1 := Rabs_triang _ _).
        rewrite Rabs_mult, (Rabs_pos_eq rm') by lra. lra. }
      assert (0 <= rm' * C2) by (apply Rmult_le_pos; lra). assert (rm' * Rabs rc2 <= rm' * C2) by (apply Rmult_le_compat_l; lra). assert (gam 2 <= / 1000) by lra. assert (gam 2 * (Rabs rz' + rm' * C2) <= / 1000 * (Rabs rz' + rm' * C2)) by nra. lra. }
    set (e1 := rg - (2 * (H0 + H1) - H0 * rm)) in *. set (e2 := rm' * rg - H1) in *. set (e3 := rz' * rg - (RR - H0 * rz)) in *. set (e4 := rc1 - (rz' - rm' * rc2)) in *. set (e5 := rc0 - (rz - rm * rc1)) in *.
    replace (H0 * rc0 + 2 * (H0 + H1) * rc1 + H1 * rc2 - RR) with (H0 * e5 + e3 + - (e2 * rc2) + rg * e4 + - (e1 * rc1)) by (unfold e1, e2, e3, e4, e5; ring).
    assert (T : Rabs (H0 * e5 + e3 + - (e2 * rc2) + rg * e4 + - (e1 * rc1)) <= H0 * Rabs e5 + Rabs e3 + Rabs e2 * Rabs rc2 + rg * Rabs e4 + Rabs e1 * Rabs rc1).
    { repeat (apply Rle_trans with (1 := Rabs_triang _ _); apply Rplus_le_compat); rewrite ?Rabs_Ropp, ?Rabs_mult; try apply Rle_refl; apply Req_le; f_equal; apply Rabs_pos_eq; lra. }
    apply Rle_trans with (1 := T). clear T.
    assert (RM' : rm' * rg <= 101 / 100 * H1). { apply Rabs_le_inv in NM. unfold e2 in NM. assert (gam 2 * H1 <= / 1000 * H1) by (apply Rmult_le_compat_r; lra). lra. }
    clearbody e1 e2 e3 e4 e5.
    assert (T1 : H0 * Rabs e5 <= 21 / 10 * uro * (H0 * (102 / 100 * C0 + 202 / 100 * C1))).
    { replace (21 / 10 * uro * (H0 * (102 / 100 * C0 + 202 / 100 * C1))) with (H0 * (21 / 10 * uro * (102 / 100 * C0 + 202 / 100 * C1))) by ring. apply Rmult_le_compat_l; [lra|]. apply Rle_trans with (1 := N0). apply Rmult_le_compat; lra. }
    assert (T2 : Rabs e3 <= 141 / 10 * uro * (SR + H0 * (101 / 100 * (C0 + C1)))).
    { apply Rle_trans with (1 := NZ). assert (0 <= H0 * Z) by (apply Rmult_le_pos; lra). assert (H0 * Z <= H0 * (101 / 100 * (C0 + C1))) by (apply Rmult_le_compat_l; lra). apply Rmult_le_compat; lra. }
    assert (T3 : Rabs e2 * Rabs rc2 <= 21 / 10 * uro * (H1 * C2)).
    { replace (21 / 10 * uro * (H1 * C2)) with (21 / 10 * uro * H1 * C2) by ring. apply Rmult_le_compat; try apply Rabs_pos; [|lra]. apply Rle_trans with (1 := NM). apply Rmult_le_compat_r; lra. }
    assert (T4 : rg * Rabs e4 <= 21 / 10 * uro * (101 / 100 * (201 / 100 * (H0 + H1)) * C1 + 21 / 10 * (H1 * C2))).
    { apply Rle_trans with (rg * (gam 2 * (101 / 100 * (C1 + rm' * C2) + rm' * C2))).
      - apply Rmult_le_compat_l; [lra|]. apply Rle_trans with (1 := N1). apply Rmult_le_compat_l; lra.
      - replace (rg * (gam 2 * (101 / 100 * (C1 + rm' * C2) + rm' * C2))) with (gam 2 * (101 / 100 * rg * C1 + 201 / 100 * (rm' * rg * C2))) by field.
        assert (0 <= rg * C1) by (apply Rmult_le_pos; lra). assert (0 <= rm' * rg * C2) by (apply Rmult_le_pos; [apply Rmult_le_pos; lra|lra]).
        assert (rg * C1 <= 201 / 100 * (H0 + H1) * C1) by (apply Rmult_le_compat_r; lra). assert (rm' * rg * C2 <= 101 / 100 * H1 * C2) by (apply Rmult_le_compat_r; lra). assert (0 <= H1 * C2) by (apply Rmult_le_pos; lra).
        apply Rmult_le_compat; lra. }
    assert (T5 : Rabs e1 * Rabs rc1 <= 31 / 10 * uro * ((3 * H0 + 2 * H1) * C1)).
    { replace (31 / 10 * uro * ((3 * H0 + 2 * H1) * C1)) with (31 / 10 * uro * (3 * H0 + 2 * H1) * C1) by ring. apply Rmult_le_compat; try apply Rabs_pos; [|lra]. apply Rle_trans with (1 := NG). apply Rmult_le_compat; lra. }
    apply Rle_trans with (20 * uro * (SR + 2 * (H0 * (C0 + C1) + H1 * (C1 + C2)))).
    2:{ apply Rmult_le_compat_r; [|lra]. assert (0 <= H0 * (C0 + C1)) by (apply Rmult_le_pos; lra). assert (0 <= H1 * (C1 + C2)) by (apply Rmult_le_pos; lra). lra. }
    set (p00 := H0 * C0) in *. assert (0 <= p00) by (apply Rmult_le_pos; lra). assert (P01 : 0 <= H0 * C1) by (apply Rmult_le_pos; lra). assert (P11 : 0 <= H1 * C1) by (apply Rmult_le_pos; lra). assert (P12 : 0 <= H1 * C2) by (apply Rmult_le_pos; lra).
    apply Rle_trans with (uro * (21 / 10 * (H0 * (102 / 100 * C0 + 202 / 100 * C1)) + 141 / 10 * (SR + H0 * (101 / 100 * (C0 + C1))) + 21 / 10 * (H1 * C2) + 21 / 10 * (101 / 100 * (201 / 100 * (H0 + H1)) * C1 + 21 / 10 * (H1 * C2)) + 31 / 10 * ((3 * H0 + 2 * H1) * C1))); [lra|].
    replace (20 * uro * (SR + 2 * (H0 * (C0 + C1) + H1 * (C1 + C2)))) with (uro * (20 * (SR + 2 * (H0 * (C0 + C1) + H1 * (C1 + C2))))) by ring. apply Rmult_le_compat_l; [lra|]. unfold p00 in *. lra.
  Qed.

  (** The slopes of two pieces at the point between them. *)
  Let b := dsub (ddiv (dsub y1 y0) h0) (ddiv (dmul h0 (dadd c1 (dmul dtwo c0))) dthree).
  Let d := ddiv (dsub c1 c0) (dmul dthree h0).
  Let b' := dsub (ddiv (dsub y2 y1) h1) (ddiv (dmul h1 (dadd c2 (dmul dtwo c1))) dthree).
  Lemma slopes : is_finite b = true -> is_finite d = true -> is_finite b' = true ->
    Rabs (cubic_slope (B2R b) (B2R c0) (B2R d) (B2R x0) (B2R x1) - B2R b') <= gam 26 * ((Y0 + Y1) / H0 + (Y1 + Y2) / H1 + H0 * (C0 + C1) + H1 * (C1 + C2)).
  Proof.
    intros FB FD FB'. pose proof (b_near x0 x1 y0 y1 c0 c1 FX0 FX1 L0 FB) as NB. pose proof (d_near x0 x1 c0 c1 FX0 FX1 L0 FD) as ND. pose proof (b_near x1 x2 y1 y2 c1 c2 FX1 FX2 L1 FB') as NB'.
    fold H0 in NB, ND. fold H1 in NB'. fold h0 in NB, ND. fold h1 in NB'. fold b in NB. fold d in ND. fold b' in NB'. fold Y0 Y1 C0 C1 in NB. fold C0 C1 in ND. fold Y1 Y2 C1 C2 in NB'.
    pose proof equation as EQ. unfold near in *. unfold cubic_slope. fold H0. pose proof H0_pos as P0. pose proof H1_pos as P1.
    pose proof (sz_pos (B2R c0)) as S0. pose proof (sz_pos (B2R c1)) as S1. pose proof (sz_pos (B2R c2)) as S2. fold C0 in S0. fold C1 in S1. fold C2 in S2.
    pose proof (sz_pos (B2R y0)) as T0. pose proof (sz_pos (B2R y1)) as T1. pose proof (sz_pos (B2R y2)) as T2. fold Y0 in T0. fold Y1 in T1. fold Y2 in T2.
    assert (ESR : SR = 3 * ((Y0 + Y1) / H0 + (Y1 + Y2) / H1)) by (unfold SR, W; field; lra).
    set (Y := (Y0 + Y1) / H0) in *. set (Y' := (Y1 + Y2) / H1) in *.
    replace ((Y1 + Y0) * / H0) with Y in NB by (unfold Y; field; lra). replace ((Y2 + Y1) * / H1) with Y' in NB' by (unfold Y'; field; lra).
    assert (PY : 0 <= Y) by (apply Rmult_le_pos; [lra|apply Rlt_le, Rinv_0_lt_compat, P0]). assert (PY' : 0 <= Y') by (apply Rmult_le_pos; [lra|apply Rlt_le, Rinv_0_lt_compat, P1]).
    rewrite ESR in EQ. clear ESR.
    set (eb := (B2R y1 - B2R y0) / H0 - H0 * (B2R c1 + 2 * B2R c0) / 3) in *. set (ed := (B2R c1 - B2R c0) / (3 * H0)) in *. set (eb' := (B2R y2 - B2R y1) / H1 - H1 * (B2R c2 + 2 * B2R c1) / 3) in *.
    set (res := H0 * B2R c0 + 2 * W * B2R c1 + H1 * B2R c2 - RR) in *.
    replace (B2R b + 2 * B2R c0 * H0 + 3 * B2R d * H0 ^ 2 - B2R b') with (res / 3 + (B2R b - eb) + (B2R d - ed) * (3 * H0 ^ 2) + - (B2R b' - eb')) by (unfold res, eb, ed, eb', RR, W; field; lra).
    assert (T : Rabs (res / 3 + (B2R b - eb) + (B2R d - ed) * (3 * H0 ^ 2) + - (B2R b' - eb')) <= Rabs res / 3 + Rabs (B2R b - eb) + Rabs (B2R d - ed) * (3 * H0 ^ 2) + Rabs (B2R b' - eb')).
    { assert (0 <= 3 * H0 ^ 2) by (pose proof (pow2_ge_0 H0); lra). repeat (apply Rle_trans with (1 := Rabs_triang _ _); apply Rplus_le_compat); rewrite ?Rabs_Ropp, ?Rabs_mult; try apply Rle_refl.
      - unfold Rdiv. rewrite Rabs_mult, (Rabs_pos_eq (/ 3)) by lra. apply Rle_refl.
      - rewrite (Rabs_pos_eq 3), (Rabs_pos_eq (H0 ^ 2)) by (try apply pow2_ge_0; lra). apply Rle_refl. }
    apply Rle_trans with (1 := T). clear T.
    assert (TD : Rabs (B2R d - ed) * (3 * H0 ^ 2) <= gam 6 * (H0 * (C0 + C1))).
    { apply Rle_trans with (gam 6 * ((C1 + C0) * / (3 * H0)) * (3 * H0 ^ 2)); [apply Rmult_le_compat_r; [pose proof (pow2_ge_0 H0); lra|exact ND]|]. apply Req_le. field. lra. }
    set (rres := Rabs res) in *. set (rb := Rabs (B2R b - eb)) in *. set (rd := Rabs (B2R d - ed) * (3 * H0 ^ 2)) in *. set (rb' := Rabs (B2R b' - eb')) in *. clearbody rres rb rd rb' Y Y' C0 C1 C2. clear ND. clear eb ed eb' res. clearbody H0 H1.
    assert (P00 : 0 <= H0 * C0) by (apply Rmult_le_pos; lra). assert (P01 : 0 <= H0 * C1) by (apply Rmult_le_pos; lra). assert (P11 : 0 <= H1 * C1) by (apply Rmult_le_pos; lra). assert (P12 : 0 <= H1 * C2) by (apply Rmult_le_pos; lra).
    pose proof (gam_pos 20) as Q20. pose proof (gam_pos 6) as Q6. assert (GS : gam 20 + gam 6 <= gam 26) by (pose proof (gam_add 20 6) as GA; change (20 + 6)%nat with 26%nat in GA; assert (0 <= gam 20 * gam 6) by (apply Rmult_le_pos; assumption); lra).
    assert (G6 : gam 6 <= 7 / 20 * gam 20). { pose proof (gam_small 6 6 ltac:(lia) ltac:(cbn [INR]; lra)). pose proof (gam_large 20 20 ltac:(cbn [INR]; lra)). pose proof uro_pos. lra. }
    apply Rle_trans with ((gam 20 + gam 6) * (Y + Y' + H0 * (C0 + C1) + H1 * (C1 + C2))); [|apply Rmult_le_compat_r; lra].
    set (g20 := gam 20) in *. set (g6 := gam 6) in *. clearbody g20 g6.
    assert (X1 : g6 * (H0 * C0) <= 7 / 20 * g20 * (H0 * C0)) by (apply Rmult_le_compat_r; lra). assert (X2 : g6 * (H0 * C1) <= 7 / 20 * g20 * (H0 * C1)) by (apply Rmult_le_compat_r; lra).
    assert (X3 : g6 * (H1 * C1) <= 7 / 20 * g20 * (H1 * C1)) by (apply Rmult_le_compat_r; lra). assert (X4 : g6 * (H1 * C2) <= 7 / 20 * g20 * (H1 * C2)) by (apply Rmult_le_compat_r; lra).
    assert (Z1 : 0 <= g20 * (H0 * C0)) by (apply Rmult_le_pos; lra). assert (Z2 : 0 <= g20 * (H0 * C1)) by (apply Rmult_le_pos; lra). assert (Z3 : 0 <= g20 * (H1 * C1)) by (apply Rmult_le_pos; lra). assert (Z4 : 0 <= g20 * (H1 * C2)) by (apply Rmult_le_pos; lra).
    assert (Z5 : 0 <= g6 * (H0 * C0)) by (apply Rmult_le_pos; lra). assert (Z6 : 0 <= g6 * (H0 * C1)) by (apply Rmult_le_pos; lra). assert (Z7 : 0 <= g6 * (H1 * C1)) by (apply Rmult_le_pos; lra). assert (Z8 : 0 <= g6 * (H1 * C2)) by (apply Rmult_le_pos; lra).
    lra.
  Qed.
End Step.
