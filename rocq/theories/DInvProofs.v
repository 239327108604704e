(** The rounding errors of the inverse cumulative in double precision: one segment. *)
From Coq Require Import ZArith Reals List Arith Bool Lia Lra Psatz.
From Flocq Require Import Core IEEE754.BinarySingleNaN.
From Verif Require Import Common FloatModel FloatProofs DoubleProofs DoubleProofs2 DInterpModel DInterpSpec DInterpProofs DInterpProofs2
  DSOMProofs DSplineModel DSplineSpec DSplineProofs DSplineProofs2 DSplineProofs3 DSplineProofs4 DSplineProofs5 DPieceSpec DPieceProofs DModeModel DModeSpec DModeProofs DModeProofs2 DDiffProofs DDiffProofs2 DInvModel.
Import ListNotations.
Local Open Scope R_scope.

Lemma fin_sqrt (z : double) : is_finite (dsqrt z) = true -> is_finite z = true /\ 0 <= B2R z.
Proof.
  intro F. destruct z as [s|s| |s m e H]; cbn in F; try discriminate; [split; [reflexivity|cbn; lra]|destruct s; discriminate|].
  split; [reflexivity|]. destruct s; [discriminate|]. cbn. apply F2R_ge_0. cbn. lia.
Qed.
Lemma fin_div_den (a b : double) : is_finite (ddiv a b) = true -> is_nan b = false.
Proof. destruct a, b; cbn; try discriminate; auto. Qed.
(** The quadratic formula on numbers: [R'] is the computed radicand, [q'] the computed middle. *)
Lemma root_bound (Q R Y R' q' s e1 e2 sg : R) : 0 <= Y -> 0 <= R' -> Rabs e1 <= uro -> Rabs e2 <= uro -> (sg = 1 \/ sg = -1) ->
  Rabs Q <= Y -> near 19 Y Q q' -> near 40 (4 * (Y * Y)) R R' -> R <= 4 * (Y * Y) ->
  s = (sg * (sqrt R' * (1 + e1)) - q') * (1 + e2) -> Rabs ((s + Q) * (s + Q) - R) <= 400 * uro * (Y * Y).
Proof.
  intros HY HR E1 E2 SG HQ NQ NR BR ->. pose proof uro_pos as U0. pose proof uro_val as UV.
  assert (US : uro <= / 1000000000000) by (rewrite UV; lra).
  pose proof (gam_small 19 19 ltac:(lia) ltac:(cbn; lra)) as G19. pose proof (gam_small 40 40 ltac:(lia) ltac:(cbn; lra)) as G40.
  assert (Hq : Rabs (q' - Q) <= 20 * uro * Y). { apply Rle_trans with (1 := NQ). apply Rmult_le_compat_r; lra. }
  assert (HRr : Rabs (R' - R) <= 164 * uro * (Y * Y)). { apply Rle_trans with (1 := NR). assert (0 <= Y * Y) by nra. nra. }
  set (w := sqrt R') in *. assert (W0 : 0 <= w) by apply sqrt_pos. assert (WW : w * w = R') by (apply sqrt_sqrt, HR).
  assert (YY : 0 <= Y * Y) by nra. assert (UYY : uro * (Y * Y) <= / 1000000000000 * (Y * Y)) by (apply Rmult_le_compat_r; lra).
  apply Rabs_le_inv in HRr. assert (WB : w <= 3 * Y). { apply Rnot_lt_le. intro L. assert (w * w > 9 * (Y * Y)) by nra. nra. }
  assert (Hq2 : Rabs q' <= 2 * Y). { replace q' with (Q + (q' - Q)) by ring. apply Rle_trans with (1 := Rabs_triang _ _). assert (20 * uro * Y <= Y) by (apply Rle_trans with (1 * Y); [apply Rmult_le_compat_r; lra|lra]). lra. }
  set (z := w * (1 + e1)). set (dl := (sg * z - q') * e2 + (Q - q')).
  replace ((sg * z - q') * (1 + e2) + Q) with (sg * z + dl) by (unfold dl; ring).
  assert (Z0 : Rabs z <= 4 * Y). { unfold z. rewrite Rabs_mult, (Rabs_pos_eq w W0). apply Rabs_le_inv in E1. rewrite (Rabs_pos_eq (1 + e1)) by lra. nra. }
  assert (DL : Rabs dl <= 26 * uro * Y).
  { unfold dl. apply Rle_trans with (1 := Rabs_triang _ _). rewrite (Rabs_minus_sym Q q'). rewrite Rabs_mult.
    assert (Rabs (sg * z - q') <= 6 * Y). { unfold Rminus. apply Rle_trans with (1 := Rabs_triang _ _). rewrite Rabs_Ropp, Rabs_mult. replace (Rabs sg) with 1 by (destruct SG as [-> | ->]; unfold Rabs; destruct (Rcase_abs _); lra). lra. }
    assert (Rabs (sg * z - q') * Rabs e2 <= 6 * Y * uro) by (apply Rmult_le_compat; auto using Rabs_pos). lra. }
  replace ((sg * z + dl) * (sg * z + dl) - R) with ((sg * sg) * (z * z) - R + (2 * (sg * (z * dl)) + dl * dl)) by ring.
  replace (sg * sg) with 1 by (destruct SG as [-> | ->]; ring).
  replace (1 * (z * z) - R) with ((R' - R) + w * w * (2 * e1 + e1 * e1)) by (unfold z; rewrite WW at 1; replace (1 * (w * (1 + e1) * (w * (1 + e1)))) with (w * w * (1 + e1) * (1 + e1)) by ring; rewrite WW; ring).
  assert (T1 : Rabs (w * w * (2 * e1 + e1 * e1)) <= 27 * uro * (Y * Y)).
  { rewrite Rabs_mult. rewrite (Rabs_pos_eq (w * w)) by nra. assert (Rabs (2 * e1 + e1 * e1) <= 3 * uro).
    { apply Rle_trans with (1 := Rabs_triang _ _). rewrite !Rabs_mult, (Rabs_pos_eq 2) by lra. assert (Rabs e1 * Rabs e1 <= uro * 1) by (apply Rmult_le_compat; try apply Rabs_pos; lra). lra. }
    assert (w * w <= 9 * (Y * Y)) by nra. apply Rle_trans with (9 * (Y * Y) * (3 * uro)); [apply Rmult_le_compat; auto using Rabs_pos; nra|lra]. }
  assert (T2 : Rabs (sg * (z * dl)) <= 104 * uro * (Y * Y)).
  { rewrite Rabs_mult. replace (Rabs sg) with 1 by (destruct SG as [-> | ->]; unfold Rabs; destruct (Rcase_abs _); lra). rewrite Rabs_mult, Rmult_1_l.
    apply Rle_trans with (4 * Y * (26 * uro * Y)); [apply Rmult_le_compat; auto using Rabs_pos|nra]. }
  assert (T3 : Rabs (dl * dl) <= uro * (Y * Y)).
  { rewrite Rabs_mult. apply Rle_trans with (26 * uro * Y * (26 * uro * Y)); [apply Rmult_le_compat; auto using Rabs_pos|].
    replace (26 * uro * Y * (26 * uro * Y)) with (676 * uro * (uro * (Y * Y))) by ring. apply Rle_trans with (1 * (uro * (Y * Y))); [apply Rmult_le_compat_r; [apply Rmult_le_pos; lra|lra]|lra]. }
  apply Rabs_le_inv in T1. apply Rabs_le_inv in T2. apply Rabs_le_inv in T3. apply Rabs_le. lra.
Qed.

Section Segment.
  Variables x0 x1 p0 p1 c0 u : double.
  Hypothesis Fx0 : is_finite x0 = true. Hypothesis Fx1 : is_finite x1 = true. Hypothesis Fp0 : is_finite p0 = true. Hypothesis Fp1 : is_finite p1 = true.
  Hypothesis Fc0 : is_finite c0 = true. Hypothesis Fu : is_finite u = true.
  Variables M P U : R.
  Hypothesis X : B2R x0 < B2R x1. Hypothesis NP : B2R p0 <> B2R p1.
  Hypothesis M0 : Rabs (B2R x0) <= M. Hypothesis M1 : Rabs (B2R x1) <= M.
  Hypothesis P0 : 0 <= B2R p0 <= P. Hypothesis P1 : 0 <= B2R p1 <= P.
  Hypothesis C0 : 0 <= B2R c0 <= U. Hypothesis U0 : 0 <= B2R u <= U.
  Hypothesis ML : bpow radix2 (-200) <= M. Hypothesis MH : M <= bpow radix2 200.
  Let W := B2R x1 - B2R x0.
  Let D := B2R p1 - B2R p0.
  Let A := D / W.
  Hypothesis WL : bpow radix2 (-200) <= W. Hypothesis DL : bpow radix2 (-200) <= Rabs D.
  Hypothesis PH : P <= bpow radix2 200.
  Let B := B2R p0 - A * B2R x0.
  Let C := B2R c0 - A / 2 * (B2R x0 * B2R x0) - B * B2R x0.
  Let a := ddiv (dsub p1 p0) (dsub x1 x0).
  Let b := dsub p0 (dmul a x0).
  Let c := dsub (dsub c0 (dmul (ddiv a dtwo) (dmul x0 x0))) (dmul b x0).
  Let h := ddiv a dtwo.
  Let Z := P / Rabs A + M.
  Let T := U / Rabs A + Z * Z.
  Let e := bpow radix2.

  Lemma W_pos : 0 < W. Proof. unfold W. lra. Qed.
  Lemma W_high : W <= e 201.
  Proof. unfold W, e. replace 201%Z with (200 + 1)%Z by reflexivity. rewrite bpow_plus. change (bpow radix2 1) with 2. pose proof (Rabs_le_inv _ _ M0). pose proof (Rabs_le_inv _ _ M1). lra. Qed.
  Lemma A_abs : Rabs A = Rabs D * / W.
  Proof. unfold A, Rdiv. rewrite Rabs_mult, Rabs_inv, (Rabs_pos_eq W) by (pose proof W_pos; lra). reflexivity. Qed.
  Lemma A_low : e (-401) <= Rabs A.
  Proof.
    rewrite A_abs. unfold e. replace (-401)%Z with (-200 + -201)%Z by reflexivity. rewrite bpow_plus. apply Rmult_le_compat; try apply bpow_ge_0; [exact DL|].
    replace (bpow radix2 (-201)) with (/ bpow radix2 201) by (rewrite <- bpow_opp; reflexivity). apply Rinv_le; [exact W_pos|exact W_high].
  Qed.
  Lemma A_pos : 0 < Rabs A. Proof. apply Rlt_le_trans with (2 := A_low). apply bpow_gt_0. Qed.
  Lemma A_nz : A <> 0. Proof. intro E. pose proof A_pos as N. rewrite E, Rabs_R0 in N. lra. Qed.
  Lemma A_high : Rabs A <= e 400.
  Proof.
    rewrite A_abs. unfold e. replace 400%Z with (200 + 200)%Z by reflexivity. rewrite bpow_plus. apply Rmult_le_compat; try apply Rabs_pos; [left; apply Rinv_0_lt_compat, W_pos| |].
    - apply Rle_trans with (2 := PH). unfold D. apply Rabs_le. lra.
    - replace (bpow radix2 200) with (/ bpow radix2 (-200)) by (rewrite <- bpow_opp; reflexivity). apply Rinv_le; [apply bpow_gt_0|exact WL].
  Qed.
  Lemma P_pos : 0 <= P. Proof. lra. Qed.
  Lemma M_pos : 0 < M. Proof. apply Rlt_le_trans with (2 := ML). apply bpow_gt_0. Qed.
  Lemma U_pos : 0 <= U. Proof. lra. Qed.

  Lemma w_fin : is_finite (dsub x1 x0) = true.
  Proof.
    destruct (dsub_ext x1 x0 Fx1 Fx0) as [N E]. apply (rnd_finite _ _ N E). rewrite (dext_finite x1 Fx1), (dext_finite x0 Fx0).
    apply Rle_lt_trans with (e 201); [|unfold e; apply bpow_lt; lia]. apply rnd_bound; [lia|]. fold W. rewrite Rabs_pos_eq by (pose proof W_pos; lra). exact W_high.
  Qed.
  Lemma w_near : near 1 (Rabs W) W (B2R (dsub x1 x0)). Proof. apply sub_exact_near, w_fin. Qed.
  Lemma d_fin : is_finite (dsub p1 p0) = true.
  Proof.
    destruct (dsub_ext p1 p0 Fp1 Fp0) as [N E]. apply (rnd_finite _ _ N E). rewrite (dext_finite p1 Fp1), (dext_finite p0 Fp0).
    apply Rle_lt_trans with (e 200); [|unfold e; apply bpow_lt; lia]. apply rnd_bound; [lia|]. apply Rle_trans with (2 := PH). apply Rabs_le. lra.
  Qed.
  Lemma a_near : is_finite a = true -> near 4 (Rabs A) A (B2R a).
  Proof.
    intro F. pose proof (div_pad 1 1 (Rabs D) (dsub p1 p0) (dsub x1 x0) D W F w_fin ltac:(pose proof W_pos; lra) ltac:(lia) (Rle_refl _) (sub_exact_near _ _ d_fin) w_near) as N.
    assert (E : Rabs D * / Rabs W = Rabs A) by (rewrite A_abs, (Rabs_pos_eq W) by (pose proof W_pos; lra); reflexivity). rewrite E in N. apply N.
    apply Rle_trans with (2 := A_low). apply bpow_le. lia.
  Qed.
  Lemma two_near : near 0 (Rabs 2) 2 (B2R dtwo). Proof. rewrite (proj2 dtwo_val). apply near_refl. lra. Qed.
  Lemma h_near : is_finite h = true -> near 5 (Rabs (A / 2)) (A / 2) (B2R h).
  Proof.
    intro F. pose proof (fin_div _ _ F) as FA. pose proof (div_pad 4 0 (Rabs A) a dtwo A 2 F (proj1 dtwo_val) ltac:(lra) ltac:(lia) (Rle_refl _) (a_near FA) two_near) as N.
    assert (E : Rabs A * / Rabs 2 = Rabs (A / 2)) by (unfold Rdiv; rewrite Rabs_mult, Rabs_inv; reflexivity). rewrite E in N. apply N.
    unfold Rdiv. rewrite Rabs_mult, (Rabs_pos_eq (/ 2)) by lra. pose proof A_low. apply Rle_trans with (e (-401) * / 2); [|lra].
    change (/ 2) with (bpow radix2 (-1)). unfold e. rewrite <- bpow_plus. apply bpow_le. lia.
  Qed.
  Lemma half_abs : Rabs (A / 2) = Rabs A / 2. Proof. unfold Rdiv. rewrite Rabs_mult, (Rabs_pos_eq (/ 2)) by lra. reflexivity. Qed.
  Lemma h2_fin : is_finite h = true -> is_finite (dmul dtwo h) = true.
  Proof.
    intro F. destruct (dmul_ext dtwo h (proj1 dtwo_val) F) as [N E]. apply (rnd_finite _ _ N E). rewrite (dext_finite dtwo (proj1 dtwo_val)), (dext_finite h F), (proj2 dtwo_val).
    apply Rle_lt_trans with (e 401); [|unfold e; apply bpow_lt; lia]. apply rnd_bound; [lia|].
    pose proof (near_abs 5 _ _ _ (Rle_refl _) (h_near F)) as H. pose proof (gam_half 5 ltac:(lia)). pose proof A_high as AH. pose proof (Rabs_pos A).
    rewrite half_abs in H. rewrite Rabs_mult, (Rabs_pos_eq 2) by lra. unfold e in *. replace 401%Z with (400 + 1)%Z by reflexivity. rewrite bpow_plus. change (bpow radix2 1) with 2. nra.
  Qed.
  Lemma h2_near : is_finite h = true -> near 6 (Rabs A) A (B2R (dmul dtwo h)).
  Proof.
    intro F. pose proof (mul_pad 0 5 (Rabs 2) (Rabs (A / 2)) dtwo h 2 (A / 2) (h2_fin F) (Rle_refl _) (Rle_refl _) two_near (h_near F)) as N.
    rewrite <- Rabs_mult in N. replace (2 * (A / 2)) with A in N by field. apply N. apply Rle_trans with (2 := A_low). apply bpow_le. lia.
  Qed.
  Lemma x_near : near 0 M (B2R x0) (B2R x0). Proof. apply near_refl, M0. Qed.
  Lemma AM_low : bpow radix2 (-1000) <= Rabs A * M.
  Proof. apply Rle_trans with (e (-401) * e (-200)); [unfold e; rewrite <- bpow_plus; apply bpow_le; lia|]. apply Rmult_le_compat; try apply bpow_ge_0; [exact A_low|exact ML]. Qed.
  Lemma AMM_low : bpow radix2 (-900) <= Rabs A / 2 * (M * M).
  Proof.
    apply Rle_trans with (e (-401) * e (-1) * (e (-200) * e (-200))); [unfold e; rewrite <- !bpow_plus; apply bpow_le; lia|].
    apply Rmult_le_compat; try (apply Rmult_le_pos; apply bpow_ge_0); [apply Rmult_le_compat; try apply bpow_ge_0; [exact A_low|unfold e; cbn; lra]|]. apply Rmult_le_compat; try apply bpow_ge_0; exact ML.
  Qed.
  Lemma low_1022 r k : bpow radix2 k <= r -> (-1022 <= k)%Z -> bpow radix2 (-1022) <= r.
  Proof. intros H K. apply Rle_trans with (2 := H). apply bpow_le, K. Qed.
  Lemma ax_near : is_finite (dmul a x0) = true -> near 5 (Rabs A * M) (A * B2R x0) (B2R (dmul a x0)).
  Proof.
    intro F. destruct (fin_mul _ _ F) as [FA _]. apply (mul_pad 4 0); auto; [apply Rle_refl|apply a_near, FA|exact x_near|]. apply (low_1022 _ _ AM_low). lia.
  Qed.
  Let SB := P + Rabs A * M.
  Lemma b_near : is_finite b = true -> near 6 SB B (B2R b).
  Proof.
    intro F. destruct (fin_sub _ _ F) as [_ FM]. apply (sub_near 5); auto.
    - rewrite Rabs_pos_eq by lra. lra.
    - rewrite Rabs_mult. apply Rmult_le_compat_l; [apply Rabs_pos|exact M0].
    - apply near_refl. rewrite Rabs_pos_eq by lra. lra.
    - apply ax_near, FM.
  Qed.
  Lemma B_abs : Rabs B <= SB.
  Proof. unfold B, SB, Rminus. apply Rle_trans with (1 := Rabs_triang _ _). rewrite Rabs_Ropp, Rabs_mult, (Rabs_pos_eq (B2R p0)) by lra. apply Rplus_le_compat; [lra|apply Rmult_le_compat_l; [apply Rabs_pos|exact M0]]. Qed.
  Lemma SB_low : bpow radix2 (-1000) <= SB. Proof. unfold SB. pose proof AM_low. lra. Qed.
  Lemma SBM_low : bpow radix2 (-900) <= SB * M.
  Proof.
    apply Rle_trans with (Rabs A * M * M); [|apply Rmult_le_compat_r; [left; exact M_pos|unfold SB; lra]]. pose proof AMM_low as L. apply Rle_trans with (1 := L). pose proof (Rabs_pos A) as A0. pose proof M_pos. assert (0 <= Rabs A * (M * M)) by (apply Rmult_le_pos; nra). lra.
  Qed.
  Let SC := U + Rabs A / 2 * (M * M) + SB * M.
  Lemma xx_abs : Rabs (B2R x0 * B2R x0) <= M * M. Proof. rewrite Rabs_mult. apply Rmult_le_compat; auto using Rabs_pos. Qed.
  Lemma hx_abs : Rabs (A / 2 * (B2R x0 * B2R x0)) <= Rabs A / 2 * (M * M).
  Proof. rewrite Rabs_mult, half_abs. apply Rmult_le_compat_l; [pose proof (Rabs_pos A); lra|exact xx_abs]. Qed.
  Lemma bx_abs : Rabs (B * B2R x0) <= SB * M. Proof. rewrite Rabs_mult. apply Rmult_le_compat; auto using Rabs_pos. exact B_abs. Qed.
  Lemma c_near : is_finite c = true -> near 9 SC C (B2R c).
  Proof.
    intro F. destruct (fin_sub _ _ F) as [F1 F2]. destruct (fin_sub _ _ F1) as [_ F3]. destruct (fin_mul _ _ F3) as [FH FX]. destruct (fin_mul _ _ F2) as [FB _].
    assert (NX : near 1 (M * M) (B2R x0 * B2R x0) (B2R (dmul x0 x0))).
    { apply (mul_pad 0 0); auto using x_near. apply (low_1022 _ (-400)); [|lia]. replace (-400)%Z with (-200 + -200)%Z by reflexivity. rewrite bpow_plus. apply Rmult_le_compat; try apply bpow_ge_0; exact ML. }
    assert (NHX : near 7 (Rabs A / 2 * (M * M)) (A / 2 * (B2R x0 * B2R x0)) (B2R (dmul (ddiv a dtwo) (dmul x0 x0)))).
    { rewrite <- half_abs. apply (mul_pad 5 1); auto; [apply Rle_refl|exact xx_abs|apply h_near, FH|]. rewrite half_abs. apply (low_1022 _ _ AMM_low). lia. }
    assert (N1 : near 8 (U + Rabs A / 2 * (M * M)) (B2R c0 - A / 2 * (B2R x0 * B2R x0)) (B2R (dsub c0 (dmul (ddiv a dtwo) (dmul x0 x0))))).
    { apply (sub_near 7); auto; [rewrite Rabs_pos_eq; lra|exact hx_abs|]. apply near_refl. rewrite Rabs_pos_eq; lra. }
    assert (NB : near 7 (SB * M) (B * B2R x0) (B2R (dmul b x0))).
    { apply (mul_pad 6 0); auto using B_abs, x_near; [apply b_near, FB|]. apply (low_1022 _ _ SBM_low). lia. }
    unfold SC, C. pose proof (Rabs_pos A). pose proof M_pos. pose proof U_pos. apply (sub_near 8); auto.
    - unfold Rminus. apply Rle_trans with (1 := Rabs_triang _ _). rewrite Rabs_Ropp. pose proof hx_abs. rewrite (Rabs_pos_eq (B2R c0)) by lra. lra.
    - exact bx_abs.
    - apply (near_more 7); auto. pose proof SBM_low. pose proof (bpow_gt_0 radix2 (-900)). lra.
  Qed.
  Lemma C_abs : Rabs C <= SC.
  Proof.
    unfold C, SC. pose proof hx_abs. pose proof bx_abs. unfold Rminus. apply Rle_trans with (1 := Rabs_triang _ _). apply Rplus_le_compat; [|rewrite Rabs_Ropp; assumption].
    apply Rle_trans with (1 := Rabs_triang _ _). apply Rplus_le_compat; [rewrite Rabs_pos_eq; lra|rewrite Rabs_Ropp; assumption].
  Qed.
  Lemma SC_low : bpow radix2 (-900) <= SC.
  Proof. unfold SC. pose proof SBM_low. pose proof AMM_low. pose proof U_pos. pose proof (bpow_gt_0 radix2 (-900)). lra. Qed.
  Lemma Z_eq : SB * / Rabs A = Z. Proof. unfold SB, Z, Rdiv. field. pose proof A_pos. lra. Qed.
  Lemma Z_low : bpow radix2 (-200) <= Z.
  Proof. unfold Z. assert (0 <= P / Rabs A) by (apply Rmult_le_pos; [exact P_pos|left; apply Rinv_0_lt_compat, A_pos]). lra. Qed.
  Lemma q_near : is_finite (ddiv b (dmul dtwo h)) = true -> is_finite h = true -> near 19 Z (B / A) (B2R (ddiv b (dmul dtwo h))).
  Proof.
    intros F FH. pose proof (fin_div _ _ F) as FB. rewrite <- Z_eq. apply (div_pad 6 6); auto using B_abs, b_near, h2_near, h2_fin, A_nz; [lia|].
    rewrite Z_eq. apply (low_1022 _ _ Z_low). lia.
  Qed.
  Lemma Q_abs : Rabs (B / A) <= Z.
  Proof. rewrite <- Z_eq. unfold Rdiv. rewrite Rabs_mult, Rabs_inv. apply Rmult_le_compat_r; [left; apply Rinv_0_lt_compat, A_pos|exact B_abs]. Qed.
  Lemma T_low : Z * Z <= T. Proof. unfold T. assert (0 <= U / Rabs A) by (apply Rmult_le_pos; [exact U_pos|left; apply Rinv_0_lt_compat, A_pos]). lra. Qed.
  Lemma rad_size : (U + SC) * / Rabs (A / 2) + Z * Z <= 4 * T.
  Proof.
    rewrite half_abs. unfold T. assert (A1 : 0 < Rabs A) by exact A_pos. assert (EQ : (U + SC) * / (Rabs A / 2) = 4 * (U / Rabs A) + 3 * (M * M) + 2 * (P / Rabs A * M)).
    { unfold SC, SB. field. lra. }
    rewrite EQ. unfold Z. set (k := P / Rabs A). assert (0 <= k) by (apply Rmult_le_pos; [exact P_pos|left; apply Rinv_0_lt_compat, A1]). pose proof M_pos. nra.
  Qed.
  Let rad := dadd (ddiv (dsub u c) h) (dmul (ddiv b (dmul dtwo h)) (ddiv b (dmul dtwo h))).
  Let R0 := (B2R u - C) / (A / 2) + B / A * (B / A).
  Lemma uc_abs : Rabs (B2R u - C) <= U + SC.
  Proof. unfold Rminus. apply Rle_trans with (1 := Rabs_triang _ _). rewrite Rabs_Ropp, (Rabs_pos_eq (B2R u)) by lra. pose proof C_abs. lra. Qed.
  Lemma R0_abs : Rabs R0 <= 4 * T.
  Proof.
    apply Rle_trans with (2 := rad_size). unfold R0. apply Rle_trans with (1 := Rabs_triang _ _). apply Rplus_le_compat.
    - unfold Rdiv at 1. rewrite Rabs_mult, Rabs_inv. apply Rmult_le_compat_r; [left; apply Rinv_0_lt_compat; rewrite half_abs; pose proof A_pos; lra|exact uc_abs].
    - rewrite Rabs_mult. apply Rmult_le_compat; auto using Rabs_pos, Q_abs.
  Qed.
  Lemma rad_near : is_finite rad = true -> is_finite h = true -> near 40 (4 * T) R0 (B2R rad).
  Proof.
    intros F FH. destruct (fin_add _ _ F) as [F1 F2]. destruct (fin_mul _ _ F2) as [FQ _]. pose proof (fin_div _ _ F1) as F3. destruct (fin_sub _ _ F3) as [_ FC].
    apply (near_wide _ ((U + SC) * / Rabs (A / 2) + Z * Z)); [exact rad_size|]. pose proof half_abs as HA. pose proof A_pos as AP. pose proof SC_low as SL. pose proof U_pos. pose proof (bpow_gt_0 radix2 (-900)) as BP.
    assert (I0 : 0 < / Rabs (A / 2)) by (apply Rinv_0_lt_compat; lra).
    unfold R0. apply (add_near 39); auto.
    - unfold Rdiv at 1. rewrite Rabs_mult, Rabs_inv. apply Rmult_le_compat_r; [lra|exact uc_abs].
    - rewrite Rabs_mult. apply Rmult_le_compat; auto using Rabs_pos, Q_abs.
    - apply (near_more 21); [lia|apply Rmult_le_pos; lra|]. apply (div_pad 10 5); auto using uc_abs, h_near; [intro E; rewrite E, Rabs_R0 in HA; lra|lia| |].
      + apply (sub_near 9); auto using C_abs; [rewrite Rabs_pos_eq; lra|apply near_refl; rewrite Rabs_pos_eq; lra|apply c_near, FC].
      + apply (low_1022 _ (-200 + -200)); [|lia]. rewrite bpow_plus. apply Rle_trans with (M * M); [apply Rmult_le_compat; try apply bpow_ge_0; exact ML|].
        replace (M * M) with (Rabs A / 2 * (M * M) * / Rabs (A / 2)) by (rewrite half_abs; field; lra). apply Rmult_le_compat_r; [lra|]. unfold SC. pose proof SBM_low. lra.
    - apply (mul_pad 19 19); auto using Q_abs, q_near. apply (low_1022 _ (-200 + -200)); [|lia]. rewrite bpow_plus. apply Rmult_le_compat; try apply bpow_ge_0; exact Z_low.
  Qed.
  (** The area up to x if the segment goes on. *)
  Let F (x : R) := B2R c0 + (x - B2R x0) * (B2R p0 + (B2R p0 + D * ((x - B2R x0) / W))) / 2.
  Lemma F_square x : F x - B2R u = A / 2 * ((x + B / A) * (x + B / A) - R0).
  Proof. unfold F, R0, C, B. pose proof A_nz as N. assert (W <> 0) by (pose proof W_pos; lra). replace D with (A * W) by (unfold A; field; assumption). field. split; [exact N|assumption]. Qed.
  Lemma root_accurate (s : double) (sg : bool) : s = dsub (if sg then dsqrt rad else Bopp (dsqrt rad)) (ddiv b (dmul dtwo h)) -> is_finite h = true -> is_finite s = true ->
    Rabs (F (B2R s) - B2R u) <= 200 * uro * (U + SB * SB / Rabs A).
  Proof.
    intros E FH FS. rewrite E in FS. destruct (fin_sub _ _ FS) as [FR FQ]. assert (FSR : is_finite (dsqrt rad) = true) by (destruct sg; [exact FR|rewrite is_finite_Bopp in FR; exact FR]).
    destruct (fin_sqrt _ FSR) as [FRAD P9]. destruct (sqrt_rel rad FRAD P9) as (e1 & E1 & V1). destruct (sub_rel _ _ FR FQ FS) as (e2 & E2 & V2). rewrite <- E in V2.
    set (Y := sqrt T). assert (T0 : 0 <= T) by (pose proof T_low; pose proof Z_low; pose proof (bpow_gt_0 radix2 (-200)); nra). assert (YY : Y * Y = T) by (apply sqrt_sqrt, T0). assert (Y0 : 0 <= Y) by apply sqrt_pos.
    assert (ZY : Z <= Y). { apply Rnot_lt_le. intro L. pose proof T_low. nra. }
    assert (V3 : B2R s = ((if sg then 1 else -1) * (sqrt (B2R rad) * (1 + e1)) - B2R (ddiv b (dmul dtwo h))) * (1 + e2)).
    { rewrite V2. destruct sg; [rewrite V1; ring|rewrite B2R_Bopp, V1; ring]. }
    rewrite F_square, Rabs_mult, half_abs.
    pose proof (root_bound (B / A) R0 Y (B2R rad) (B2R (ddiv b (dmul dtwo h))) (B2R s) e1 e2 (if sg then 1 else -1) Y0 P9 E1 E2 ltac:(destruct sg; auto)
      ltac:(apply Rle_trans with (1 := Q_abs); exact ZY) ltac:(apply (near_wide _ Z); [exact ZY|apply q_near; assumption]) ltac:(rewrite YY; apply rad_near; assumption)
      ltac:(rewrite YY; apply Rle_trans with (1 := Rle_abs _); exact R0_abs) V3) as K.
    rewrite YY in K. pose proof A_pos as AP. apply Rle_trans with (Rabs A / 2 * (400 * uro * T)); [apply Rmult_le_compat_l; [lra|exact K]|].
    apply Req_le. unfold T. rewrite <- Z_eq. field. lra.
  Qed.
  Lemma h_ok : is_finite h = true /\ B2R h <> 0.
  Proof.
    assert (WN : B2R (dsub x1 x0) <> 0 /\ bpow radix2 (-201) <= Rabs (B2R (dsub x1 x0))).
    { pose proof (near_below 1 W _ ltac:(lia) w_near) as H. pose proof W_pos. rewrite (Rabs_pos_eq W) in H by lra.
      assert (L : bpow radix2 (-201) <= Rabs (B2R (dsub x1 x0))).
      { apply Rle_trans with (2 := H). replace (-201)%Z with (-200 + -1)%Z by reflexivity. rewrite bpow_plus. change (bpow radix2 (-1)) with (/ 2). unfold Rdiv. lra. }
      split; [|exact L]. intro Z1. rewrite Z1, Rabs_R0 in L. pose proof (bpow_gt_0 radix2 (-201)). lra. }
    destruct WN as [WN WL1].
    assert (DB : Rabs (B2R (dsub p1 p0)) <= bpow radix2 200).
    { destruct (dsub_ext p1 p0 Fp1 Fp0) as [N E]. rewrite <- (dext_finite _ d_fin), E, (dext_finite p1 Fp1), (dext_finite p0 Fp0).
      assert (B0 : Rabs (rnd53 (B2R p1 - B2R p0)) <= bpow radix2 200) by (apply rnd_bound; [lia|]; apply Rle_trans with (2 := PH); apply Rabs_le; lra).
      rewrite crnd_small; [exact B0|]. apply Rle_lt_trans with (1 := B0). apply bpow_lt. lia. }
    assert (FA : is_finite a = true).
    { destruct (ddiv_ext _ _ d_fin w_fin ltac:(rewrite (dext_finite _ w_fin); exact WN)) as [N E]. apply (rnd_finite _ _ N E). rewrite (dext_finite _ d_fin), (dext_finite _ w_fin).
      apply Rle_lt_trans with (bpow radix2 401); [|apply bpow_lt; lia]. apply rnd_bound; [lia|]. unfold Rdiv. rewrite Rabs_mult, Rabs_inv.
      replace 401%Z with (200 + 201)%Z by reflexivity. rewrite bpow_plus. apply Rmult_le_compat; [apply Rabs_pos|left; apply Rinv_0_lt_compat, Rabs_pos_lt, WN|exact DB|].
      replace (bpow radix2 201) with (/ bpow radix2 (-201)) by (rewrite <- bpow_opp; reflexivity). apply Rinv_le; [apply bpow_gt_0|exact WL1]. }
    assert (FH : is_finite h = true).
    { destruct (ddiv_ext a dtwo FA (proj1 dtwo_val) ltac:(rewrite (dext_finite _ (proj1 dtwo_val)), (proj2 dtwo_val); lra)) as [N E]. apply (rnd_finite _ _ N E).
      rewrite (dext_finite _ FA), (dext_finite _ (proj1 dtwo_val)), (proj2 dtwo_val). apply Rle_lt_trans with (bpow radix2 401); [|apply bpow_lt; lia]. apply rnd_bound; [lia|].
      pose proof (near_abs 4 _ _ _ (Rle_refl _) (a_near FA)) as H. pose proof (gam_half 4 ltac:(lia)). pose proof A_high as AH. unfold e in AH. pose proof (Rabs_pos A).
      unfold Rdiv. rewrite Rabs_mult, (Rabs_pos_eq (/ 2)) by lra. replace 401%Z with (400 + 1)%Z by reflexivity. rewrite bpow_plus. change (bpow radix2 1) with 2. nra. }
    split; [exact FH|]. intro Z1. pose proof (near_below 5 _ _ ltac:(lia) (h_near FH)) as H. rewrite Z1, Rabs_R0, half_abs in H. pose proof A_pos. lra.
  Qed.
End Segment.
