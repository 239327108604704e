(** The rounding errors of the inverse cumulative in double precision: flat segments and sums. *)
From Coq Require Import ZArith Reals List Arith Bool Lia Lra Psatz.
From Flocq Require Import Core IEEE754.BinarySingleNaN.
From Verif Require Import Common CumulModel CumulProofs FloatModel FloatProofs DoubleProofs DoubleProofs2 DInterpModel DInterpSpec DInterpProofs DInterpProofs2
  DSOMProofs DSplineModel DSplineSpec DSplineProofs DSplineProofs2 DSplineProofs3 DSplineProofs4 DSplineProofs5 DPieceSpec DPieceProofs DModeModel DModeSpec DModeProofs DModeProofs2 DDiffProofs DDiffProofs2
  InterpSpec InvCumulSpec DInvModel DInvSpec DInvProofs.
Import ListNotations.
Local Open Scope R_scope.

(** One segment of the cumulative. *)
Definition dterm (k0 k1 p0 p1 : double) : double := ddiv (dmul (dsub k1 k0) (dadd p1 p0)) dtwo.
Lemma ord_fmt (v : double) : fmt (B2R v). Proof. apply generic_format_B2R. Qed.
Lemma ord_abs (v : double) : ordinary v -> Rabs (B2R v) <= bpow radix2 100.
Proof. intros [_ [->|[_ H]]]; [rewrite Rabs_R0; apply bpow_ge_0|exact H]. Qed.
Lemma ord_gap (a b : double) : ordinary a -> ordinary b -> B2R a < B2R b -> bpow radix2 (-154) <= B2R b - B2R a.
Proof.
  intros [_ OA] [_ OB] L. destruct OA as [E|[LA _]].
  - rewrite E in *. destruct OB as [EB|[LB _]]; [lra|]. rewrite Rabs_pos_eq in LB by lra. apply Rle_trans with (bpow radix2 (-100)); [apply bpow_le; lia|lra].
  - pose proof (gap (B2R a) (B2R b) (ord_fmt a) (ord_fmt b) L) as G. apply Rle_trans with (2 := G). replace (-154)%Z with (-53 + -1 + -100)%Z by reflexivity. rewrite !bpow_plus.
    apply Rmult_le_compat; try apply bpow_ge_0; [apply Rmult_le_pos; apply bpow_ge_0|unfold uro; change (bpow radix2 (-1)) with (/ 2); lra|exact LA].
Qed.
Lemma term_near (k0 k1 p0 p1 : double) : ordinary k0 -> ordinary k1 -> ordinary p0 -> ordinary p1 -> B2R k0 <= B2R k1 -> 0 <= B2R p0 -> 0 <= B2R p1 ->
  let v := (B2R k1 - B2R k0) * (B2R p0 + B2R p1) / 2 in
  is_finite (dterm k0 k1 p0 p1) = true /\ near 4 v v (B2R (dterm k0 k1 p0 p1)) /\ 0 <= v <= bpow radix2 201 /\ 0 <= B2R (dterm k0 k1 p0 p1) /\ (v = 0 \/ bpow radix2 (-255) <= v).
Proof.
  intros O0 O1 Q0 Q1 K H0 H1 v. pose proof (ord_abs _ O0) as A0. pose proof (ord_abs _ O1) as A1. pose proof (ord_abs _ Q0) as B0. pose proof (ord_abs _ Q1) as B1.
  assert (EQ : forall k, bpow radix2 (k + 1) = 2 * bpow radix2 k) by (intro k; rewrite bpow_plus; change (bpow radix2 1) with 2; ring).
  set (W := B2R k1 - B2R k0). set (S := B2R p1 + B2R p0).
  assert (W1 : 0 <= W <= bpow radix2 101). { unfold W. change 101%Z with (100 + 1)%Z. rewrite EQ. apply Rabs_le_inv in A0. apply Rabs_le_inv in A1. lra. }
  assert (S1 : 0 <= S <= bpow radix2 101). { unfold S. change 101%Z with (100 + 1)%Z. rewrite EQ. apply Rabs_le_inv in B0. apply Rabs_le_inv in B1. lra. }
  assert (FW : is_finite (dsub k1 k0) = true).
  { destruct (dsub_ext k1 k0 (proj1 O1) (proj1 O0)) as [N E]. apply (rnd_finite _ _ N E). rewrite (dext_finite k1 (proj1 O1)), (dext_finite k0 (proj1 O0)).
    apply Rle_lt_trans with (bpow radix2 101); [|apply bpow_lt; lia]. apply rnd_bound; [lia|]. fold W. rewrite Rabs_pos_eq; lra. }
  assert (FS : is_finite (dadd p1 p0) = true).
  { destruct (dadd_ext p1 p0 (proj1 Q1) (proj1 Q0)) as [N E]. apply (rnd_finite _ _ N E). rewrite (dext_finite p1 (proj1 Q1)), (dext_finite p0 (proj1 Q0)).
    apply Rle_lt_trans with (bpow radix2 101); [|apply bpow_lt; lia]. apply rnd_bound; [lia|]. fold S. rewrite Rabs_pos_eq; lra. }
  assert (NW : near 1 W W (B2R (dsub k1 k0))). { pose proof (sub_exact_near k0 k1 FW) as N. fold W in N. rewrite Rabs_pos_eq in N by lra. exact N. }
  assert (NS : near 1 S S (B2R (dadd p1 p0))).
  { destruct (add_rel p1 p0 (proj1 Q1) (proj1 Q0) FS) as (e & E & R). unfold near. rewrite R, gam_1. fold S. replace (S * (1 + e) - S) with (e * S) by ring. rewrite Rabs_mult, (Rabs_pos_eq S) by lra. apply Rmult_le_compat_r; lra. }
  assert (WS : W = 0 \/ bpow radix2 (-154) <= W). { destruct (Req_dec (B2R k0) (B2R k1)) as [E|N]; [left; unfold W; lra|right; apply ord_gap; auto; lra]. }
  assert (SS : S = 0 \/ bpow radix2 (-100) <= S).
  { unfold S. destruct Q0 as [_ [E|[L _]]]; [rewrite E; destruct Q1 as [_ [E1|[L _]]]; [left; lra|right; rewrite Rabs_pos_eq in L by lra; lra]|right; rewrite Rabs_pos_eq in L by lra; lra]. }
  assert (VS : W * S = 0 \/ bpow radix2 (-254) <= W * S).
  { destruct WS as [-> |LW]; [left; ring|]. destruct SS as [-> |LS]; [left; ring|]. right. replace (-254)%Z with (-154 + -100)%Z by reflexivity. rewrite bpow_plus. apply Rmult_le_compat; auto; apply bpow_ge_0. }
  assert (VH : 0 <= W * S <= bpow radix2 202). { split; [apply Rmult_le_pos; lra|]. change 202%Z with (101 + 101)%Z. rewrite bpow_plus. apply Rmult_le_compat; lra. }
  assert (NP : near 2 (W * S) (W * S) (B2R (dsub k1 k0) * B2R (dadd p1 p0))). { apply (near_mul 1 1); auto; rewrite Rabs_pos_eq; lra. }
  assert (G2 : gam 2 <= / 2) by (apply gam_half; lia). assert (G3 : gam 3 <= / 2) by (apply gam_half; lia). assert (G4 : gam 4 <= / 2) by (apply gam_half; lia).
  assert (FM : is_finite (dmul (dsub k1 k0) (dadd p1 p0)) = true).
  { destruct (dmul_ext _ _ FW FS) as [N E]. apply (rnd_finite _ _ N E). rewrite (dext_finite _ FW), (dext_finite _ FS).
    apply Rle_lt_trans with (bpow radix2 203); [|apply bpow_lt; lia]. apply rnd_bound; [lia|]. pose proof (near_abs 2 (W * S) (W * S) _ ltac:(rewrite Rabs_pos_eq; lra) NP) as A.
    apply Rle_trans with (1 := A). change 203%Z with (202 + 1)%Z. rewrite EQ. pose proof (gam_pos 2). nra. }
  assert (NM : near 3 (W * S) (W * S) (B2R (dmul (dsub k1 k0) (dadd p1 p0)))).
  { apply (mul_near 1 1); auto; try (rewrite Rabs_pos_eq; lra). apply (product_low 2 (W * S)); [lia| |rewrite Rabs_pos_eq by lra; exact NP].
    destruct VS as [E|L]; [left; exact E|right]. rewrite Rabs_pos_eq by lra. apply Rle_trans with (2 := L). apply bpow_le. lia. }
  assert (FT : is_finite (dterm k0 k1 p0 p1) = true).
  { unfold dterm. destruct (ddiv_ext _ dtwo FM (proj1 dtwo_val)) as [N E]; [rewrite (dext_finite dtwo (proj1 dtwo_val)), (proj2 dtwo_val); lra|]. apply (rnd_finite _ _ N E). rewrite (dext_finite _ FM), (dext_finite dtwo (proj1 dtwo_val)), (proj2 dtwo_val).
    apply Rle_lt_trans with (bpow radix2 203); [|apply bpow_lt; lia]. apply rnd_bound; [lia|]. pose proof (near_abs 3 (W * S) (W * S) _ ltac:(rewrite Rabs_pos_eq; lra) NM) as A.
    change 203%Z with (202 + 1)%Z. rewrite EQ. unfold Rdiv. rewrite Rabs_mult, (Rabs_pos_eq (/ 2)) by lra. pose proof (gam_pos 3). nra. }
  assert (EV : v = W * S / 2) by (unfold v, W, S; field).
  assert (NT : near 4 v v (B2R (dterm k0 k1 p0 p1))).
  { rewrite EV. unfold dterm. pose proof (div_near 3 0 (W * S) (dmul (dsub k1 k0) (dadd p1 p0)) dtwo (W * S) 2 FT (proj1 dtwo_val) ltac:(lra) ltac:(lia) ltac:(rewrite Rabs_pos_eq; lra) NM) as N.
    rewrite (Rabs_pos_eq 2) in N by lra. apply N; [rewrite (proj2 dtwo_val); apply near_refl; rewrite Rabs_pos_eq; lra|]. rewrite (proj2 dtwo_val).
    destruct VS as [Z|L]; [left; apply (near_zero 3); rewrite Rabs_R0; rewrite Z in NM; exact NM|right].
    pose proof (near_below 3 (W * S) (B2R (dmul (dsub k1 k0) (dadd p1 p0))) ltac:(lia) ltac:(rewrite Rabs_pos_eq by lra; exact NM)) as B. rewrite (Rabs_pos_eq (W * S)) in B by lra.
    unfold Rdiv. rewrite Rabs_mult, (Rabs_pos_eq (/ 2)) by lra. apply Rle_trans with (bpow radix2 (-254) * / 4); [|lra]. change (/ 4) with (bpow radix2 (-2)). rewrite <- bpow_plus. apply bpow_le. lia. }
  split; [exact FT|]. split; [exact NT|]. split; [rewrite EV; split; [lra|]; change 202%Z with (201 + 1)%Z in VH; rewrite EQ in VH; lra|].
  split.
  - assert (V0 : 0 <= v) by (rewrite EV; lra). unfold near in NT. apply Rabs_le_inv in NT. nra.
  - rewrite EV. destruct VS as [E|L]; [left; lra|right]. replace (-254)%Z with (-255 + 1)%Z in L by reflexivity. rewrite EQ in L. lra.
Qed.
(** A flat segment: [V] is the probability of the segment as computed. *)
Lemma flat_accurate (x0 x1 c0 c1 u : double) (P M U : R) : is_finite x0 = true -> is_finite x1 = true -> is_finite c0 = true -> is_finite c1 = true -> is_finite u = true ->
  B2R x0 <= B2R x1 -> Rabs (B2R x0) <= M -> Rabs (B2R x1) <= M -> M <= bpow radix2 200 -> bpow radix2 (-200) <= B2R x1 - B2R x0 -> 0 <= P ->
  0 <= B2R c0 -> B2R c0 <= B2R u -> B2R u < B2R c1 -> B2R c1 <= U -> U <= bpow radix2 300 ->
  Rabs (B2R c1 - B2R c0 - (B2R x1 - B2R x0) * P) <= 12 * uro * U ->
  let r := dadd (dmul (dsub x1 x0) (ddiv (dsub u c0) (dsub c1 c0))) x0 in
  is_finite r = true /\ Rabs (B2R c0 + (B2R r - B2R x0) * P - B2R u) <= 24 * uro * (U + P * M) /\
  B2R x0 - 24 * uro * M <= B2R r <= B2R x1 + 24 * uro * M.
Proof.
  intros F0 F1 G0 G1 FU X M0 M1 MH WL P0 C0 CU UC UH U3 DV r.
  assert (EQ : forall k, bpow radix2 (k + 1) = 2 * bpow radix2 k) by (intro k; rewrite bpow_plus; change (bpow radix2 1) with 2; ring).
  set (W := B2R x1 - B2R x0) in *. set (V := B2R c1 - B2R c0) in *. assert (VP : 0 < V) by (unfold V; lra). assert (W0 : 0 < W) by (pose proof (bpow_gt_0 radix2 (-200)); lra).
  assert (W1 : W <= 2 * M) by (unfold W; apply Rabs_le_inv in M0; apply Rabs_le_inv in M1; lra).
  assert (FW : is_finite (dsub x1 x0) = true).
  { destruct (dsub_ext x1 x0 F1 F0) as [N E]. apply (rnd_finite _ _ N E). rewrite (dext_finite x1 F1), (dext_finite x0 F0).
    apply Rle_lt_trans with (bpow radix2 201); [|apply bpow_lt; lia]. apply rnd_bound; [lia|]. fold W. rewrite Rabs_pos_eq by lra. change 201%Z with (200 + 1)%Z. rewrite EQ. lra. }
  assert (FV : is_finite (dsub c1 c0) = true).
  { destruct (dsub_ext c1 c0 G1 G0) as [N E]. apply (rnd_finite _ _ N E). rewrite (dext_finite c1 G1), (dext_finite c0 G0).
    apply Rle_lt_trans with (bpow radix2 300); [|apply bpow_lt; lia]. apply rnd_bound; [lia|]. fold V. rewrite Rabs_pos_eq by lra. unfold V. lra. }
  assert (FN : is_finite (dsub u c0) = true).
  { destruct (dsub_ext u c0 FU G0) as [N E]. apply (rnd_finite _ _ N E). rewrite (dext_finite u FU), (dext_finite c0 G0).
    apply Rle_lt_trans with (bpow radix2 300); [|apply bpow_lt; lia]. apply rnd_bound; [lia|]. rewrite Rabs_pos_eq by lra. lra. }
  assert (NW : near 1 W W (B2R (dsub x1 x0))). { pose proof (sub_exact_near x0 x1 FW) as N. fold W in N. rewrite Rabs_pos_eq in N by lra. exact N. }
  assert (NV : near 1 (Rabs V) V (B2R (dsub c1 c0))) by (apply sub_exact_near, FV).
  assert (NN : near 1 V (B2R u - B2R c0) (B2R (dsub u c0))). { apply (near_wide _ (Rabs (B2R u - B2R c0))); [rewrite Rabs_pos_eq by lra; unfold V; lra|apply sub_exact_near, FN]. }
  set (rho := (B2R u - B2R c0) / V). assert (RH : 0 <= rho <= 1).
  { unfold rho. split; [apply Rmult_le_pos; [lra|left; apply Rinv_0_lt_compat, VP]|]. apply Rmult_le_reg_r with V; [exact VP|]. unfold Rdiv. rewrite Rmult_assoc, Rinv_l by lra. unfold V. lra. }
  assert (B0 : B2R (dsub c1 c0) <> 0). { intro E. pose proof (near_below 1 V _ ltac:(lia) NV) as B. rewrite E, Rabs_R0, Rabs_pos_eq in B by lra. lra. }
  assert (FI : is_finite (ddiv (dsub u c0) (dsub c1 c0)) = true).
  { destruct (ddiv_ext _ _ FN FV) as [N E]; [rewrite (dext_finite _ FV); exact B0|]. apply (rnd_finite _ _ N E). rewrite (dext_finite _ FN), (dext_finite _ FV).
    apply Rle_lt_trans with (bpow radix2 3); [|apply bpow_lt; lia]. apply rnd_bound; [lia|].
    pose proof (near_below 1 V _ ltac:(lia) NV) as B. rewrite (Rabs_pos_eq V) in B by lra.
    pose proof (near_abs 1 V (B2R u - B2R c0) _ ltac:(rewrite Rabs_pos_eq by lra; unfold V; lra) NN) as A. pose proof (gam_half 1 ltac:(lia)) as GH.
    unfold Rdiv. rewrite Rabs_mult, Rabs_inv. apply Rmult_le_reg_r with (Rabs (B2R (dsub c1 c0))); [apply Rabs_pos_lt, B0|]. rewrite Rmult_assoc, Rinv_l by (apply Rabs_no_R0, B0). rewrite Rmult_1_r.
    apply Rle_trans with (1 := A). change (bpow radix2 3) with 8. nra. }
  assert (NI : near 4 1 rho (B2R (ddiv (dsub u c0) (dsub c1 c0)))).
  { replace 1 with (V * / Rabs V) by (rewrite Rabs_pos_eq by lra; field; lra). apply (div_pad 1 1); auto; [lra|lia|rewrite Rabs_pos_eq by lra; unfold V; lra|].
    rewrite Rabs_pos_eq by lra. rewrite Rinv_r by lra. change 1 with (bpow radix2 0). apply bpow_le. lia. }
  assert (AR : Rabs rho <= 1) by (rewrite Rabs_pos_eq; lra). assert (AW : Rabs W <= W) by (rewrite Rabs_pos_eq; lra).
  assert (NM0 : near 5 (W * 1) (W * rho) (B2R (dsub x1 x0) * B2R (ddiv (dsub u c0) (dsub c1 c0)))) by (apply (near_mul 1 4); auto).
  assert (AWR : Rabs (W * rho) <= W * 1) by (rewrite Rabs_mult; apply Rmult_le_compat; auto using Rabs_pos).
  assert (G7 : gam 7 <= / 2) by (apply gam_half; lia). assert (G6 : gam 6 <= / 2) by (apply gam_half; lia). assert (G5 : gam 5 <= / 2) by (apply gam_half; lia).
  assert (FM : is_finite (dmul (dsub x1 x0) (ddiv (dsub u c0) (dsub c1 c0))) = true).
  { destruct (dmul_ext _ _ FW FI) as [N E]. apply (rnd_finite _ _ N E). rewrite (dext_finite _ FW), (dext_finite _ FI).
    apply Rle_lt_trans with (bpow radix2 202); [|apply bpow_lt; lia]. apply rnd_bound; [lia|]. pose proof (near_abs 5 (W * 1) (W * rho) _ AWR NM0) as A. apply Rle_trans with (1 := A).
    change 202%Z with (200 + 1 + 1)%Z. rewrite !EQ. nra. }
  assert (NM : near 6 (W * 1) (W * rho) (B2R (dmul (dsub x1 x0) (ddiv (dsub u c0) (dsub c1 c0))))).
  { apply (mul_pad 1 4); auto. rewrite Rmult_1_r. apply Rle_trans with (2 := WL). apply bpow_le. lia. }
  assert (FR : is_finite r = true).
  { unfold r. destruct (dadd_ext _ _ FM F0) as [N E]. apply (rnd_finite _ _ N E). rewrite (dext_finite _ FM), (dext_finite _ F0).
    apply Rle_lt_trans with (bpow radix2 203); [|apply bpow_lt; lia]. apply rnd_bound; [lia|]. pose proof (near_abs 6 (W * 1) (W * rho) _ AWR NM) as A. apply Rle_trans with (1 := Rabs_triang _ _).
    change 203%Z with (200 + 1 + 1 + 1)%Z. rewrite !EQ. nra. }
  assert (NR : near 7 (W * 1 + M) (W * rho + B2R x0) (B2R r)). { apply (add_near 6); auto. apply near_refl. exact M0. }
  assert (M2 : 0 <= M) by (pose proof (Rabs_pos (B2R x0)); lra).
  assert (ER : Rabs (B2R r - (W * rho + B2R x0)) <= 24 * uro * M).
  { apply Rle_trans with (1 := NR). pose proof (gam_small 7 7 ltac:(lia) ltac:(cbn; lra)) as GS. pose proof uro_pos. pose proof (gam_pos 7).
    apply Rle_trans with ((7 + 1 / 100) * uro * (3 * M)); [apply Rmult_le_compat; lra|]. assert (0 <= uro * M) by (apply Rmult_le_pos; lra). lra. }
  split; [exact FR|]. split.
  - replace (B2R c0 + (B2R r - B2R x0) * P - B2R u) with (- (rho * (V - W * P)) + P * (B2R r - (W * rho + B2R x0))) by (unfold rho; field; lra).
    apply Rle_trans with (1 := Rabs_triang _ _). rewrite Rabs_Ropp, !Rabs_mult. assert (E1 : Rabs rho * Rabs (V - W * P) <= 1 * (12 * uro * U)) by (apply Rmult_le_compat; auto using Rabs_pos).
    assert (E2 : Rabs P * Rabs (B2R r - (W * rho + B2R x0)) <= P * (24 * uro * M)) by (rewrite (Rabs_pos_eq P) by lra; apply Rmult_le_compat_l; lra).
    pose proof uro_pos. assert (0 <= uro * U) by (apply Rmult_le_pos; lra). lra.
  - apply Rabs_le_inv in ER. assert (0 <= W * rho <= W) by (split; [apply Rmult_le_pos; lra|nra]). unfold W in *. lra.
Qed.
