(** C164: the expansion rate of the universe in double precision. *)
From Coq Require Import ZArith Reals List Bool Arith Lia Lra Psatz.
From Flocq Require Import Core IEEE754.BinarySingleNaN.
From Verif Require Import Common FloatModel FloatProofs DoubleProofs DoubleProofs2 DInterpProofs2 DSOMProofs2 DSplineProofs DGridProofs2 DQuadModel DQuadSpec DQuadProps DCosmoModel DCosmoSpec DCosmoProofs.
Local Open Scope R_scope.

(** The rate is finite and right up to a relative error of 2^-48, for the curvature as it is stored. *)
Theorem C164_rate p z : sensible (dc_m p) -> sensible (dc_lambda p) -> sensible (dc_k p) -> 0 <= B2R (dc_m p) -> 0 <= B2R (dc_lambda p) -> redshift z ->
  not_too_closed (B2R (dc_m p)) (B2R (dc_k p)) (B2R (dc_lambda p)) (B2R z) ->
  let e := rate (B2R (dc_m p)) (B2R (dc_k p)) (B2R (dc_lambda p)) (B2R z) in
  is_finite (dhubble_parameter z p) = true /\ Rabs (B2R (dhubble_parameter z p) - e) <= bpow radix2 (-48) * e.
Proof.
  intros (FM & BM & TM) (FL & BL & TL) (FK & BK & TK) PM PL (FZ & PZ & BZ) C. cbv zeta.
  assert (BZ' : -1 <= B2R z <= bpow radix2 100) by lra.
  destruct (terms_val p z FM FK FL BM BK BL FZ BZ') as (_ & _ & _ & _ & _ & _ & F & _). pose proof (radicand_near p z FM FK FL BM BK BL FZ BZ' PZ TM TK) as N.
  rewrite fold_rate. unfold rate. unfold not_too_closed in C. set (M := B2R (dc_m p)) in *. set (K := B2R (dc_k p)) in *. set (L := B2R (dc_lambda p)) in *. set (W := 1 + B2R z) in *.
  replace (W ^ 3) with (W * W * W) in * by ring. replace (W ^ 2) with (W * W) in * by ring. assert (W1 : 1 <= W) by (unfold W; lra). assert (W2 : 1 <= W * W) by nra. assert (W3 : 1 <= W * W * W) by nra.
  rewrite (Rabs_pos_eq M), (Rabs_pos_eq L) in N by assumption. set (A := W * W * W) in *. set (B := W * W) in *. clearbody A B.
  assert (MA : 0 <= M * A) by nra.
  assert (S3 : M * A + Rabs K * B + L <= 3 * (M * A + K * B + L)).
  { destruct (Rle_lt_dec 0 K) as [KP|KN].
    - rewrite (Rabs_pos_eq K KP). assert (0 <= K * B) by nra. lra.
    - rewrite (Rabs_left K KN). destruct C as [C|C]; [lra|]. lra. }
  assert (R0 : 0 <= M * A + K * B + L) by (pose proof (Rabs_pos K); assert (0 <= Rabs K * B) by nra; lra).
  apply sqrt_error; [exact F|exact R0| |].
  - assert (BIG : forall r, bpow radix2 (-800) <= Rabs r -> bpow radix2 (-900) * 3 <= Rabs r).
    { intros r H. apply Rle_trans with (2 := H). apply Rle_trans with (bpow radix2 (-900) * 4); [pose proof (bpow_gt_0 radix2 (-900)); lra|]. change 4 with (bpow radix2 2). rewrite <- bpow_plus. apply bpow_le. lia. }
    destruct TM as [TM|TM]; [|right; apply BIG in TM; rewrite (Rabs_pos_eq M PM) in TM; assert (0 <= Rabs K * B) by (pose proof (Rabs_pos K); nra); nra].
    destruct TL as [TL|TL]; [|right; apply BIG in TL; rewrite (Rabs_pos_eq L PL) in TL; assert (0 <= Rabs K * B) by (pose proof (Rabs_pos K); nra); nra].
    destruct TK as [TK|TK]; [|right; apply BIG in TK; assert (Rabs K <= Rabs K * B) by (pose proof (Rabs_pos K); nra); lra].
    left. rewrite TM, TL, TK. ring.
  - unfold near in N. pose proof gam_8 as G8. pose proof (gam_pos 8). pose proof uro_pos.
    assert (0 <= M * A + Rabs K * B + L) by (pose proof (Rabs_pos K); assert (0 <= Rabs K * B) by nra; lra).
    eapply Rle_trans; [exact N|]. nra.
Qed.
Print Assumptions C164_rate.

(** The curvature is stored with an error of at most 2^-52. *)
Theorem C164_curvature p : is_finite (dc_m p) = true -> is_finite (dc_lambda p) = true -> 0 <= B2R (dc_m p) <= 1 -> 0 <= B2R (dc_lambda p) <= 1 ->
  is_finite (dc_k p) = true /\ Rabs (B2R (dc_k p) - (1 - B2R (dc_m p) - B2R (dc_lambda p))) <= bpow radix2 (-52).
Proof.
  intros FM FL HM HL. destruct one_val as [F1 V1]. unfold dc_k. set (m := dc_m p) in *. set (l := dc_lambda p) in *.
  assert (B0 : bpow radix2 0 = 1) by reflexivity.
  destruct (sub_val d1 m 0 ltac:(lia) F1 FM) as (FA & VA & _); [rewrite V1, B0; apply Rabs_le; lra|]. destruct (sub_rel d1 m F1 FM FA) as (e1 & E1 & Q1).
  assert (A01 : 0 <= B2R (dsub d1 m) <= 1).
  { rewrite VA, V1. split; [rewrite <- rnd_0; apply rnd_mono; lra|]. rewrite <- (rnd_format 1) at 2 by (apply (int_format 1); lia). apply rnd_mono. lra. }
  destruct (sub_val (dsub d1 m) l 0 ltac:(lia) FA FL) as (FB & VB & _); [rewrite B0; apply Rabs_le; lra|]. destruct (sub_rel _ l FA FL FB) as (e2 & E2 & Q2). split; [exact FB|].
  rewrite Q2. rewrite V1 in Q1. set (a := B2R (dsub d1 m)) in *. replace ((a - B2R l) * (1 + e2) - (1 - B2R m - B2R l)) with ((1 - B2R m) * e1 + (a - B2R l) * e2) by (rewrite Q1; ring).
  eapply Rle_trans; [apply Rabs_triang|]. rewrite !Rabs_mult. assert (Rabs (1 - B2R m) <= 1) by (apply Rabs_le; lra). assert (Rabs (a - B2R l) <= 1) by (apply Rabs_le; lra).
  assert (B52 : bpow radix2 (-52) = 2 * uro) by (unfold uro; rewrite twice; reflexivity). rewrite B52. pose proof uro_pos.
  assert (Rabs (1 - B2R m) * Rabs e1 <= 1 * uro) by (apply Rmult_le_compat; auto using Rabs_pos). assert (Rabs (a - B2R l) * Rabs e2 <= 1 * uro) by (apply Rmult_le_compat; auto using Rabs_pos). lra.
Qed.
Print Assumptions C164_curvature.

(** When the two densities add up to one the curvature is zero, and the rate of today is one, exactly. *)
Theorem C164_flat p : is_finite (dc_m p) = true -> is_finite (dc_lambda p) = true -> 0 <= B2R (dc_m p) -> 0 <= B2R (dc_lambda p) -> B2R (dc_m p) + B2R (dc_lambda p) = 1 ->
  B2R (dc_k p) = 0 /\ is_finite (dhubble_parameter d0 p) = true /\ B2R (dhubble_parameter d0 p) = 1.
Proof.
  intros FM FL PM PL E. destruct one_val as [F1 V1]. assert (B0 : bpow radix2 0 = 1) by reflexivity. assert (V0 : B2R d0 = 0) by reflexivity. assert (F0 : is_finite d0 = true) by reflexivity.
  assert (ID : forall x : double, rnd53 (B2R x) = B2R x) by (intro x; apply rnd_format, generic_format_B2R). assert (I1 : rnd53 1 = 1) by (rewrite <- V1; apply ID).
  destruct (sub_val d1 (dc_m p) 0 ltac:(lia) F1 FM) as (FA & VA & _); [rewrite V1, B0; apply Rabs_le; lra|]. rewrite V1 in VA. replace (1 - B2R (dc_m p)) with (B2R (dc_lambda p)) in VA by lra. rewrite ID in VA.
  destruct (sub_val (dsub d1 (dc_m p)) (dc_lambda p) 0 ltac:(lia) FA FL) as (FK & VK & _); [rewrite VA, B0; apply Rabs_le; lra|]. rewrite VA in VK. replace (B2R (dc_lambda p) - B2R (dc_lambda p)) with 0 in VK by ring. rewrite rnd_0 in VK.
  assert (KZ : B2R (dc_k p) = 0) by exact VK. split; [exact KZ|].
  assert (BIG : forall r, 0 <= r <= 1 -> Rabs r <= bpow radix2 100) by (intros r H; rewrite Rabs_pos_eq by lra; apply Rle_trans with (bpow radix2 0); [lra|apply bpow_le; lia]).
  assert (BM : Rabs (B2R (dc_m p)) <= bpow radix2 100) by (apply BIG; lra). assert (BL : Rabs (B2R (dc_lambda p)) <= bpow radix2 100) by (apply BIG; lra). assert (BK : Rabs (B2R (dc_k p)) <= bpow radix2 100) by (apply BIG; lra).
  assert (BZ : -1 <= B2R d0 <= bpow radix2 100) by (pose proof (bpow_ge_0 radix2 100); lra).
  destruct (w_val d0 F0 BZ) as (_ & VW & _). rewrite V0, Rplus_0_r, I1 in VW. destruct (square_val d0 F0 BZ) as (_ & VS & _). rewrite VW, Rmult_1_r, I1 in VS. destruct (cube_val d0 F0 BZ) as (_ & VC & _). rewrite VS, VW, Rmult_1_r, I1 in VC.
  destruct (terms_val p d0 FM FK FL BM BK BL F0 BZ) as (_ & T1 & _ & T2 & _ & T3 & F & T4). rewrite VC, Rmult_1_r, ID in T1. rewrite VS, KZ, Rmult_1_r, rnd_0 in T2. rewrite T1, T2, Rplus_0_r, ID in T3. rewrite T3, E, I1 in T4.
  rewrite fold_rate. destruct (sqrt_val _ F) as [A B]; [rewrite T4; lra|]. split; [exact A|]. rewrite B, T4, sqrt_1. exact I1.
Qed.
Print Assumptions C164_flat.

(** Densities that add up to one as decimal numbers need not do so as doubles: with 0.32 and 0.68 the space is closed. *)
Theorem C164_flat_decimals_refuted : exists p, Rabs (B2R (dc_m p) - 32 / 100) <= bpow radix2 (-55) /\ Rabs (B2R (dc_lambda p) - 68 / 100) <= bpow radix2 (-54) /\ dlt (dc_k p) d0 = true.
Proof.
  exists (mkDCosmo (d2 5764607523034235 (-54)) (d2 6124895493223875 (-53)) d1). cbn [dc_m dc_lambda]. split; [|split].
  - match goal with |- context [B2R ?d] => let s := eval vm_compute in (B2SF d) in replace (B2R d) with (SF2R radix2 s) by (rewrite <- SF2R_B2SF; f_equal; vm_compute; reflexivity) end. unfold SF2R, F2R. cbn. apply Rabs_le. lra.
  - match goal with |- context [B2R ?d] => let s := eval vm_compute in (B2SF d) in replace (B2R d) with (SF2R radix2 s) by (rewrite <- SF2R_B2SF; f_equal; vm_compute; reflexivity) end. unfold SF2R, F2R. cbn. apply Rabs_le. lra.
  - vm_compute. reflexivity.
Qed.
Print Assumptions C164_flat_decimals_refuted.

(** The rate never falls with the redshift, in spite of the rounding, in a space that is not closed; it is also defined in the future. *)
Theorem C164_growing p z z' : sensible (dc_m p) -> sensible (dc_lambda p) -> sensible (dc_k p) -> 0 <= B2R (dc_m p) -> 0 <= B2R (dc_lambda p) -> 0 <= B2R (dc_k p) ->
  is_finite z = true -> is_finite z' = true -> -1 <= B2R z -> B2R z <= B2R z' -> B2R z' <= bpow radix2 100 ->
  is_finite (dhubble_parameter z p) = true /\ is_finite (dhubble_parameter z' p) = true /\ 0 <= B2R (dhubble_parameter z p) <= B2R (dhubble_parameter z' p).
Proof.
  intros (FM & BM & _) (FL & BL & _) (FK & BK & _) PM PL PK FZ FZ' L1 L2 L3.
  assert (BZ : -1 <= B2R z <= bpow radix2 100) by lra. assert (BZ' : -1 <= B2R z' <= bpow radix2 100) by lra.
  destruct (w_val z FZ BZ) as (_ & VW & _ & PW). destruct (w_val z' FZ' BZ') as (_ & VW' & _ & PW'). destruct (square_val z FZ BZ) as (_ & VS & _ & PS). destruct (square_val z' FZ' BZ') as (_ & VS' & _ & PS').
  destruct (cube_val z FZ BZ) as (_ & VC & _ & PC). destruct (cube_val z' FZ' BZ') as (_ & VC' & _ & PC').
  destruct (terms_val p z FM FK FL BM BK BL FZ BZ) as (_ & T1 & _ & T2 & _ & T3 & F & T4). destruct (terms_val p z' FM FK FL BM BK BL FZ' BZ') as (_ & T1' & _ & T2' & _ & T3' & F' & T4').
  assert (W : B2R (dadd d1 z) <= B2R (dadd d1 z')) by (rewrite VW, VW'; apply rnd_mono; lra).
  assert (S : B2R (dmul (dadd d1 z) (dadd d1 z)) <= B2R (dmul (dadd d1 z') (dadd d1 z'))) by (rewrite VS, VS'; apply rnd_mono, Rmult_le_compat; assumption).
  assert (C : B2R (dmul (dmul (dadd d1 z) (dadd d1 z)) (dadd d1 z)) <= B2R (dmul (dmul (dadd d1 z') (dadd d1 z')) (dadd d1 z'))) by (rewrite VC, VC'; apply rnd_mono, Rmult_le_compat; assumption).
  match type of T1 with B2R ?a = _ => match type of T1' with B2R ?b = _ => assert (I1 : 0 <= B2R a <= B2R b) by (rewrite T1, T1'; split; [rewrite <- rnd_0; apply rnd_mono, Rmult_le_pos; assumption|apply rnd_mono, Rmult_le_compat_l; assumption]) end end.
  match type of T2 with B2R ?a = _ => match type of T2' with B2R ?b = _ => assert (I2 : 0 <= B2R a <= B2R b) by (rewrite T2, T2'; split; [rewrite <- rnd_0; apply rnd_mono, Rmult_le_pos; assumption|apply rnd_mono, Rmult_le_compat_l; assumption]) end end.
  match type of T3 with B2R ?a = _ => match type of T3' with B2R ?b = _ => assert (I3 : 0 <= B2R a <= B2R b) by (rewrite T3, T3'; split; [rewrite <- rnd_0; apply rnd_mono; lra|apply rnd_mono; lra]) end end.
  match type of T4 with B2R ?a = _ => match type of T4' with B2R ?b = _ => assert (I4 : 0 <= B2R a <= B2R b) by (rewrite T4, T4'; split; [rewrite <- rnd_0; apply rnd_mono; lra|apply rnd_mono; lra]) end end.
  rewrite !fold_rate. destruct (sqrt_val _ F (proj1 I4)) as [A B]. destruct (sqrt_val _ F') as [A' B']; [lra|]. split; [exact A|]. split; [exact A'|]. rewrite B, B'. split; [rewrite <- rnd_0; apply rnd_mono, sqrt_pos|apply rnd_mono, sqrt_le_1_alt, I4].
Qed.
Print Assumptions C164_growing.

(** The integrand of the comoving distance is a number and never grows with the redshift. *)
Theorem C164_integrand p z z' : sensible (dc_m p) -> sensible (dc_lambda p) -> sensible (dc_k p) -> 0 <= B2R (dc_m p) -> 0 <= B2R (dc_lambda p) -> 0 <= B2R (dc_k p) ->
  0 < B2R (dc_m p) + B2R (dc_k p) + B2R (dc_lambda p) -> redshift z -> redshift z' -> B2R z <= B2R z' ->
  dle (dintegrand p z') (dintegrand p z) = true /\ dle d0 (dintegrand p z') = true.
Proof.
  intros SM SL SK PM PL PK POS (FZ & PZ & BZ) (FZ' & PZ' & BZ') L.
  destruct (C164_growing p z z' SM SL SK PM PL PK FZ FZ' ltac:(lra) L BZ') as (FA & FB & PA & LE).
  destruct (C164_rate p z SM SL SK PM PL (conj FZ (conj PZ BZ)) (or_introl PK)) as [_ ERR].
  assert (RP : 0 < rate (B2R (dc_m p)) (B2R (dc_k p)) (B2R (dc_lambda p)) (B2R z)).
  { unfold rate. apply sqrt_lt_R0. set (W := 1 + B2R z). assert (1 <= W) by (unfold W; lra). replace (W ^ 3) with (W * W * W) by ring. replace (W ^ 2) with (W * W) by ring. assert (1 <= W * W) by nra. assert (1 <= W * W * W) by nra. nra. }
  set (e := rate _ _ _ _) in *. assert (PP : 0 < B2R (dhubble_parameter z p)).
  { apply Rabs_le_inv in ERR. assert (bpow radix2 (-48) <= / 2) by (change (/ 2) with (bpow radix2 (-1)); apply bpow_le; lia). nra. }
  destruct one_val as [F1 V1]. unfold dintegrand.
  destruct (ddiv_ext d1 (dhubble_parameter z p) F1 FA) as [N1 E1]; [rewrite dext_finite by exact FA; lra|]. destruct (ddiv_ext d1 (dhubble_parameter z' p) F1 FB) as [N2 E2]; [rewrite dext_finite by exact FB; lra|].
  rewrite (dext_finite d1 F1), (dext_finite _ FA) in E1. rewrite (dext_finite d1 F1), (dext_finite _ FB) in E2. rewrite V1 in E1, E2.
  split; apply dle_iff; auto; try reflexivity.
  - rewrite E1, E2. apply crd_mono. unfold Rdiv. rewrite !Rmult_1_l. apply Rinv_le; [exact PP|exact LE].
  - rewrite E2. rewrite ext_d0. apply crd_nonneg. unfold Rdiv. rewrite Rmult_1_l. left. apply Rinv_0_lt_compat. lra.
Qed.
Print Assumptions C164_integrand.

(** In a space that is closed by much the rate is not a number. *)
Theorem C164_closed_refuted : exists p z, sensible (dc_m p) /\ sensible (dc_lambda p) /\ sensible (dc_k p) /\ 0 <= B2R (dc_m p) /\ 0 <= B2R (dc_lambda p) /\ redshift z /\ is_nan (dhubble_parameter z p) = true.
Proof.
  assert (B1 : B2R d1 = 1 /\ B2R d0 = 0 /\ B2R dtwo = 2) by (split; [apply one_val|split; [reflexivity|rewrite <- ext_dtwo; symmetry; apply dext_finite; reflexivity]]). destruct B1 as (V1 & V0 & V2).
  assert (U : bpow radix2 2 <= bpow radix2 100) by (apply bpow_le; lia). change (bpow radix2 2) with 4 in U. assert (D : bpow radix2 (-800) <= 1) by (change 1 with (bpow radix2 0); apply bpow_le; lia).
  assert (SF : dc_k (mkDCosmo d0 dtwo d1) = Bopp d1) by (apply sf_inj; vm_compute; reflexivity).
  exists (mkDCosmo d0 dtwo d1), d1. rewrite SF. cbn [dc_m dc_lambda]. unfold sensible, redshift. rewrite B2R_Bopp, Rabs_Ropp, V0, V1, V2, Rabs_R0, Rabs_R1, (Rabs_pos_eq 2) by lra. repeat split; try lra; try (vm_compute; reflexivity).
Qed.
Print Assumptions C164_closed_refuted.

(** The Hubble distance has a relative error of at most three units in the last place. *)
Theorem C164_distance c p : sensible c -> sensible (dc_h0 p) -> B2R (dc_h0 p) <> 0 ->
  is_finite (dhubble_distance c p) = true /\ Rabs (B2R (dhubble_distance c p) - B2R c * 1000 / B2R (dc_h0 p)) <= 3 * bpow radix2 (-53) * Rabs (B2R c * 1000 / B2R (dc_h0 p)).
Proof.
  intros (FC & BC & TC) (FH & BH & TH) NZ. unfold dhubble_distance. destruct (d2_int 1000 ltac:(cbn; lia)) as [F1 V1]. destruct TH as [TH|TH]; [contradiction|]. set (H := B2R (dc_h0 p)) in *. set (C := B2R c) in *.
  assert (K10 : Rabs (B2R (d2 1000 0)) <= bpow radix2 10) by (rewrite V1, Rabs_pos_eq by lra; cbn; lra).
  destruct (mul_val c (d2 1000 0) 100 10 ltac:(lia) FC F1 BC K10) as (FM & VM & BM). rewrite V1 in VM. fold C in VM.
  destruct (ddiv_ext _ (dc_h0 p) FM FH) as [N E]; [rewrite (dext_finite _ FH); exact NZ|]. rewrite (dext_finite _ FM), (dext_finite _ FH) in E. fold H in E.
  assert (HP : 0 < Rabs H) by (apply Rabs_pos_lt, NZ).
  assert (IH : Rabs (/ H) <= bpow radix2 800). { rewrite Rabs_inv. replace (bpow radix2 800) with (/ bpow radix2 (-800)) by (rewrite <- bpow_opp; reflexivity). apply Rinv_le; [apply bpow_gt_0|exact TH]. }
  assert (LH : bpow radix2 (-100) <= Rabs (/ H)). { rewrite Rabs_inv. change (-100)%Z with (- (100))%Z. rewrite bpow_opp. apply Rinv_le; [exact HP|exact BH]. }
  destruct (fin_value _ _ (110 + 800) ltac:(lia) N E) as (F & V & _); [unfold Rdiv; apply prod_le; [exact BM|exact IH]|]. split; [exact F|].
  destruct TC as [TC|TC].
  - rewrite TC, Rmult_0_l, rnd_0 in VM. rewrite V, VM, TC. unfold Rdiv. rewrite !Rmult_0_l, rnd_0, Rminus_0_r, Rabs_R0. lra.
  - assert (BIG1 : bpow radix2 (-800) <= Rabs (C * 1000)) by (rewrite Rabs_mult, (Rabs_pos_eq 1000) by lra; pose proof (Rabs_pos C); lra).
    destruct (rnd_rel (C * 1000)) as (e1 & E1 & Q1); [apply Rle_trans with (2 := BIG1); apply bpow_le; lia|]. rewrite Q1 in VM.
    assert (UE : Rabs e1 <= / 2) by (pose proof uro_small; lra). apply Rabs_le_inv in UE.
    assert (BIG2 : bpow radix2 (-801) <= Rabs (B2R (dmul c (d2 1000 0)))).
    { rewrite VM, Rabs_mult. rewrite (Rabs_pos_eq (1 + e1)) by lra. replace (bpow radix2 (-800)) with (2 * bpow radix2 (-801)) in BIG1 by (rewrite twice; reflexivity). pose proof (bpow_gt_0 radix2 (-801)). nra. }
    destruct (rnd_rel (B2R (dmul c (d2 1000 0)) / H)) as (e2 & E2 & Q2).
    { unfold Rdiv. rewrite Rabs_mult. apply Rle_trans with (bpow radix2 (-801) * bpow radix2 (-100)); [rewrite <- bpow_plus; apply bpow_le; lia|]. apply Rmult_le_compat; try apply bpow_ge_0; assumption. }
    rewrite V, Q2, VM. replace (C * 1000 * (1 + e1) / H * (1 + e2) - C * 1000 / H) with (C * 1000 / H * (e1 + e2 + e1 * e2)) by (field; exact NZ). rewrite Rabs_mult, Rmult_comm. apply Rmult_le_compat_r; [apply Rabs_pos|].
    eapply Rle_trans; [apply Rabs_triang|]. pose proof (Rabs_triang e1 e2). rewrite Rabs_mult. fold uro. pose proof uro_small. pose proof uro_pos. pose proof (Rabs_pos e1). pose proof (Rabs_pos e2). assert (Rabs e1 * Rabs e2 <= uro * uro) by (apply Rmult_le_compat; assumption). nra.
Qed.
Print Assumptions C164_distance.

(** The comoving distance is zero for a redshift that is taken for zero; else it is the Hubble distance times the first
    estimate of the integral that differs little from the one before, unless there is none. *)
Theorem C164_comoving c is_equal z p precision :
  (is_equal d0 z = true -> dcomoving c is_equal z p precision = Ok d0) /\
  (is_equal d0 z = false ->
    (exists k u v, (3 <= k < 30)%Z /\ estimate (dintegrand p) d0 z 3 k u /\ estimate (dintegrand p) d0 z 3 (k + 1) v /\ settled precision u v /\
       dcomoving c is_equal z p precision = Ok (dmul (dhubble_distance c p) v)) \/
    (dcomoving c is_equal z p precision = UB /\ forall j x y, (3 <= j)%Z -> estimate (dintegrand p) d0 z 3 j x -> estimate (dintegrand p) d0 z 3 (j + 1) y -> ~ settled precision x y)).
Proof.
  unfold dcomoving. split; intros ->; [reflexivity|]. destruct (C156_outcomes (dintegrand p) d0 z precision 3) as (_ & _ & H). destruct (H ltac:(lia)) as [(k & u & v & K & EU & EV & ST & -> & _)|[-> ST]].
  - left. exists k, u, v. cbn [bind]. auto.
  - right. cbn [bind]. split; [reflexivity|exact ST].
Qed.
Print Assumptions C164_comoving.

(** Densities 1/4 and 5/8 and a redshift of one. *)
Example C164_example : let p := mkDCosmo (d2 1 (-2)) (d2 5 (-3)) (d2 70 0) in
  sensible (dc_m p) /\ sensible (dc_lambda p) /\ sensible (dc_k p) /\ sensible (dc_h0 p) /\ 0 <= B2R (dc_m p) <= 1 /\ 0 <= B2R (dc_lambda p) <= 1 /\ 0 <= B2R (dc_k p) /\
  B2R (dc_k p) = 1 / 8 /\ redshift d0 /\ redshift d1 /\ B2R d0 <= B2R d1 /\ rate (1 / 4) (1 / 8) (5 / 8) 1 = sqrt (25 / 8) /\ B2R (dc_h0 p) <> 0 /\
  dlt (d2 1767 (-10)) (dhubble_parameter d1 p) = true /\ dlt (dhubble_parameter d1 p) (d2 1811 (-10)) = true.
Proof.
  cbv zeta. set (p := mkDCosmo (d2 1 (-2)) (d2 5 (-3)) (d2 70 0)).
  assert (VM : B2R (dc_m p) = 1 / 4). { match goal with |- B2R ?d = _ => let s := eval vm_compute in (B2SF d) in replace (B2R d) with (SF2R radix2 s) by (rewrite <- SF2R_B2SF; f_equal; vm_compute; reflexivity) end. unfold SF2R, F2R. cbn. lra. }
  assert (VL : B2R (dc_lambda p) = 5 / 8). { match goal with |- B2R ?d = _ => let s := eval vm_compute in (B2SF d) in replace (B2R d) with (SF2R radix2 s) by (rewrite <- SF2R_B2SF; f_equal; vm_compute; reflexivity) end. unfold SF2R, F2R. cbn. lra. }
  assert (VK : B2R (dc_k p) = 1 / 8). { match goal with |- B2R ?d = _ => let s := eval vm_compute in (B2SF d) in replace (B2R d) with (SF2R radix2 s) by (rewrite <- SF2R_B2SF; f_equal; vm_compute; reflexivity) end. unfold SF2R, F2R. cbn. lra. }
  assert (VH : B2R (dc_h0 p) = 70) by (apply (d2_int 70); cbn; lia). destruct one_val as [F1 V1]. assert (V0 : B2R d0 = 0) by reflexivity.
  assert (U : bpow radix2 7 <= bpow radix2 100) by (apply bpow_le; lia). change (bpow radix2 7) with 128 in U. assert (D : bpow radix2 (-800) <= / 8) by (change (/ 8) with (bpow radix2 (-3)); apply bpow_le; lia).
  unfold sensible, redshift. rewrite VM, VL, VK, VH, V0, V1. rewrite !Rabs_pos_eq by lra.
  repeat match goal with |- _ /\ _ => split end; try lra; try (vm_compute; reflexivity). unfold rate. f_equal. lra.
Qed.
