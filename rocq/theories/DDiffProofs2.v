(** Accuracy of the finite differences. *)
From Coq Require Import ZArith Reals List Arith Bool Lia Lra Psatz.
From Flocq Require Import Core IEEE754.BinarySingleNaN.
From Verif Require Import Common FloatModel FloatProofs DoubleProofs DoubleProofs2 DInterpProofs DInterpProofs2 DDiffModel DDiffSpec DDiffProofs.
Local Open Scope R_scope.

Lemma abs_mul a b A B : Rabs a <= A -> Rabs b <= B -> Rabs (a * b) <= A * B.
Proof. intros HA HB. rewrite Rabs_mult. apply Rmult_le_compat; auto using Rabs_pos. Qed.
Lemma abs_add a b A B : Rabs a <= A -> Rabs b <= B -> Rabs (a + b) <= A + B.
Proof. intros HA HB. apply Rle_trans with (1 := Rabs_triang a b). lra. Qed.
Lemma h1_val : dmul (dsqrt depsilon) dtwo = d2 1 (-25).
Proof. apply sf_inj. vm_compute. reflexivity. Qed.
Lemma h2_val : dmul (dsqrt (dsqrt depsilon)) dtwo = d2 1 (-12).
Proof. apply sf_inj. vm_compute. reflexivity. Qed.
Lemma pow_double k : (1 <= k <= 60)%Z -> is_finite (d2 1 (-k)) = true /\ B2R (d2 1 (-k)) = bpow radix2 (-k).
Proof.
  intros K. assert (E : F2R (Float radix2 1 (-k)) = bpow radix2 (-k)) by (unfold F2R; cbn [Fnum Fexp]; ring). rewrite <- E. apply d2_exact; rewrite E.
  - apply generic_format_bpow. rewrite fe_val. lia.
  - rewrite Rabs_pos_eq by apply bpow_ge_0. apply bpow_lt. lia.
Qed.
Lemma step1 (x : double) : is_finite x = true -> deq x dmaximum = false -> step_ok 25 x (dguess_h (d2 1 (-25)) x).
Proof. intros FX NM. destruct (pow_double 25 ltac:(lia)). apply guess_ok; auto. lia. Qed.
Lemma step2 (x : double) : is_finite x = true -> deq x dmaximum = false -> step_ok 12 x (dguess_h (d2 1 (-12)) x).
Proof. intros FX NM. destruct (pow_double 12 ltac:(lia)). apply guess_ok; auto. lia. Qed.

Lemma first_bound Fc Fx w delta h d1 d2 d3 e t : 0 <= delta -> 0 <= w -> bpow radix2 (-27) <= h -> Rabs e <= 2 * delta -> Rabs d1 <= uro -> Rabs d2 <= uro -> Rabs d3 <= 4 * uro -> Rabs t <= tiny ->
  Rabs (Fc - Fx) <= w ->
  Rabs ((Fc * (h * (1 + d3)) + e) * (1 + d1) / h * (1 + d2) + t - Fx)
    <= w + bpow radix2 28 * delta + bpow radix2 (-50) * (Rabs Fx + w + bpow radix2 28 * delta) + bpow radix2 (-1075).
Proof.
  intros PD PW HB HE H1 H2 H3 HT HF. pose proof uro_pos as UP. pose proof uro_small as US. assert (HP : 0 < h) by (pose proof (bpow_gt_0 radix2 (-27)); lra).
  assert (U8 : bpow radix2 (-50) = 8 * uro). { unfold uro. change (-50)%Z with (3 + -53)%Z. rewrite bpow_plus. reflexivity. }
  assert (HI : / h <= bpow radix2 27). { replace (bpow radix2 27) with (/ bpow radix2 (-27)) by (rewrite <- bpow_opp; reflexivity). apply Rinv_le; [apply bpow_gt_0|exact HB]. }
  assert (HIP : 0 < / h) by (apply Rinv_0_lt_compat; lra).
  assert (ED : Rabs (e / h) <= bpow radix2 28 * delta).
  { unfold Rdiv. apply Rle_trans with (2 * delta * bpow radix2 27); [apply abs_mul; [exact HE|rewrite Rabs_pos_eq; lra]|]. change 28%Z with (1 + 27)%Z. rewrite bpow_plus. change (bpow radix2 1) with 2. lra. }
  set (D := bpow radix2 28 * delta) in *. rewrite U8. clearbody D. clear HI.
  replace ((Fc * (h * (1 + d3)) + e) * (1 + d1) / h * (1 + d2) + t - Fx)
    with ((Fc - Fx) + Fc * ((1 + d3) * (1 + d1) * (1 + d2) - 1) + (e / h) * ((1 + d1) * (1 + d2)) + t) by (field; lra).
  set (g := (1 + d3) * (1 + d1) * (1 + d2) - 1). assert (G : Rabs g <= 8 * uro).
  { apply Rabs_le_inv in H1, H2, H3. unfold g. assert (A : Rabs ((1 + d1) * (1 + d2) - 1) <= 3 * uro) by (apply Rabs_le; split; nra). apply Rabs_le_inv in A. apply Rabs_le. split; nra. }
  set (p := (1 + d1) * (1 + d2)). assert (P : Rabs p <= 1 + 8 * uro).
  { apply Rabs_le_inv in H1, H2. unfold p. apply Rabs_le. split; nra. }
  assert (FB : Rabs Fc <= Rabs Fx + w). { replace Fc with (Fx + (Fc - Fx)) by ring. apply abs_add; lra. }
  apply Rle_trans with (w + (Rabs Fx + w) * (8 * uro) + D * (1 + 8 * uro) + tiny); [|unfold tiny; lra].
  repeat apply abs_add; auto; apply abs_mul; assumption.
Qed.
Lemma first_accurate f F F' x delta w : is_finite x = true -> deq x dmaximum = false ->
  computes f F delta (B2R x) (B2R x + reach1 (B2R x)) -> derivative_on F F' (B2R x) (B2R x + reach1 (B2R x)) -> varies_within F' w (B2R x) (B2R x) (B2R x + reach1 (B2R x)) ->
  is_finite (dderivative f x) = true ->
  Rabs (B2R (dderivative f x) - F' (B2R x)) <= w + bpow radix2 28 * delta + bpow radix2 (-50) * (Rabs (F' (B2R x)) + w + bpow radix2 28 * delta) + bpow radix2 (-1075).
Proof.
  intros FX NM C DF V FQ. unfold dderivative in *. rewrite h1_val in *. set (h := dguess_h (d2 1 (-25)) x) in *.
  destruct (step1 x FX NM) as [S1 S2 S3 S4 S5 _ _ _]. fold h in S1, S2, S3, S4, S5. pose proof uro_pos as UP. pose proof uro_small as US. pose proof (bpow_gt_0 radix2 (-25)) as BP.
  change (- (25))%Z with (-25)%Z in S3, S4.
  replace (bpow radix2 (-25) / 4) with (bpow radix2 (-27)) in S3 by (change (-25)%Z with (2 + -27)%Z; rewrite bpow_plus; change (bpow radix2 2) with 4; field).
  assert (HP : 0 < B2R h) by (pose proof (bpow_gt_0 radix2 (-27)); lra).
  set (x' := dadd x h) in *. set (H := B2R x' - B2R x) in *.
  assert (HH : 0 < H <= reach1 (B2R x)).
  { apply Rabs_le_inv in S5. split; [nra|]. unfold reach1. replace (bpow radix2 (-23)) with (4 * bpow radix2 (-25)) by (change (-23)%Z with (2 + -25)%Z; rewrite bpow_plus; reflexivity).
    replace (bpow radix2 (-50)) with (8 * uro) by (unfold uro; change (-50)%Z with (3 + -53)%Z; rewrite bpow_plus; reflexivity). pose proof (Rabs_pos (B2R x)). nra. }
  destruct (C x FX) as [FY0 D0]; [lra|]. destruct (C x' S2) as [FY1 D1]; [unfold H in HH; lra|].
  assert (PD : 0 <= delta) by (pose proof (Rabs_pos (B2R (f x) - F (B2R x))); lra).
  assert (PW : 0 <= w) by (pose proof (V (B2R x) ltac:(lra)); pose proof (Rabs_pos (F' (B2R x) - F' (B2R x))); lra).
  destruct (MVT_cor2 F F' (B2R x) (B2R x')) as (c & MV & CR); [unfold H in HH; lra|intros c CC; apply DF; unfold H in HH; lra|].
  pose proof (fin_div _ _ FQ) as FS. destruct (sub_rel (f x') (f x) FY1 FY0 FS) as (d1 & HD1 & E1). set (s := dsub (f x') (f x)) in *.
  destruct (ddiv_ext s h FS S1) as [NQ EQ]; [rewrite dext_finite by exact S1; lra|]. apply (finite_rnd _ _ FQ) in EQ. rewrite (dext_finite s FS), (dext_finite h S1) in EQ.
  destruct (rnd_err (B2R s / B2R h)) as (d2 & t & HD2 & HT & E2). rewrite EQ, E2, E1.
  set (e := (B2R (f x') - B2R (f x)) - (F (B2R x') - F (B2R x))).
  assert (HE : Rabs e <= 2 * delta). { unfold e. apply Rabs_le_inv in D0, D1. apply Rabs_le. lra. }
  set (d3 := H / B2R h - 1). assert (HD3 : Rabs d3 <= 4 * uro).
  { unfold d3. replace (H / B2R h - 1) with ((H - B2R h) * / B2R h) by (field; lra). rewrite Rabs_mult. rewrite (Rabs_pos_eq (/ B2R h)) by (left; apply Rinv_0_lt_compat; lra).
    apply Rmult_le_reg_r with (B2R h); [lra|]. rewrite Rmult_assoc, Rinv_l by lra. rewrite Rmult_1_r. exact S5. }
  replace (B2R (f x') - B2R (f x)) with (F' c * (B2R h * (1 + d3)) + e).
  2:{ replace (B2R h * (1 + d3)) with H by (unfold d3; field; lra). unfold e, H. rewrite MV. ring. }
  apply first_bound; auto. apply V. unfold H in HH. lra.
Qed.

Lemma mvt F F' a b lo hi : derivative_on F F' lo hi -> lo <= a <= hi -> lo <= b <= hi -> exists c, (a <= c <= b \/ b <= c <= a) /\ F b - F a = F' c * (b - a).
Proof.
  intros D HA HB. destruct (Rtotal_order a b) as [L|[->|L]].
  - destruct (MVT_cor2 F F' a b L) as (c & E & R); [intros; apply D; lra|]. exists c. split; [left; lra|exact E].
  - exists b. split; [left; lra|ring].
  - destruct (MVT_cor2 F F' b a L) as (c & E & R); [intros; apply D; lra|]. exists c. split; [right; lra|lra].
Qed.
Lemma taylor F F' F'' x w lo hi t : derivative_on F F' lo hi -> derivative_on F' F'' lo hi -> varies_within F'' w x lo hi -> lo <= x <= hi -> lo <= t <= hi ->
  Rabs (F t - F x - F' x * (t - x) - F'' x / 2 * (t - x) ^ 2) <= w * (t - x) ^ 2.
Proof.
  intros D1 D2 V HX HT.
  set (G := fun s => F s - F' x * (s - x) - F'' x / 2 * (s - x) ^ 2). set (G' := fun s => F' s - F' x - F'' x * (s - x)).
  assert (DG : derivative_on G G' lo hi).
  { intros r HR. unfold G, G'. replace (F' r - F' x - F'' x * (r - x)) with (F' r - (F' x * (1 - 0)) - (F'' x / 2 * (INR 2 * (r - x) ^ Nat.pred 2 * (1 - 0)))) by (cbn; field).
    apply derivable_pt_lim_minus; [apply derivable_pt_lim_minus; [apply D1, HR|]|].
    - apply (derivable_pt_lim_scal (fun s => s - x)). apply derivable_pt_lim_minus; [apply derivable_pt_lim_id|apply derivable_pt_lim_const].
    - apply (derivable_pt_lim_scal (fun s => (s - x) ^ 2)). apply (derivable_pt_lim_comp (fun s => s - x) (fun u => u ^ 2)).
      + apply derivable_pt_lim_minus; [apply derivable_pt_lim_id|apply derivable_pt_lim_const].
      + apply derivable_pt_lim_pow. }
  destruct (mvt G G' x t lo hi DG HX HT) as (c & CR & E).
  assert (CL : lo <= c <= hi) by lra.
  destruct (mvt F' F'' x c lo hi D2 HX CL) as (d & DR & E2).
  assert (GB : Rabs (G' c) <= w * Rabs (c - x)).
  { unfold G'. replace (F' c - F' x - F'' x * (c - x)) with ((F'' d - F'' x) * (c - x)) by (rewrite E2; ring). apply abs_mul; [apply V; lra|lra]. }
  replace (F t - F x - F' x * (t - x) - F'' x / 2 * (t - x) ^ 2) with (G t - G x) by (unfold G; ring). rewrite E.
  assert (PW : 0 <= w) by (pose proof (V x HX); pose proof (Rabs_pos (F'' x - F'' x)); lra).
  assert (CB : Rabs (c - x) <= Rabs (t - x)). { destruct CR; [rewrite !Rabs_pos_eq by lra; lra|rewrite !Rabs_left1 by lra; lra]. }
  rewrite Rabs_mult. rewrite <- (pow2_abs (t - x)). pose proof (Rabs_pos (t - x)). pose proof (Rabs_pos (c - x)). apply Rle_trans with (w * Rabs (c - x) * Rabs (t - x)); [apply Rmult_le_compat_r; [apply Rabs_pos|exact GB]|].
  rewrite Rmult_assoc. apply Rmult_le_compat_l; [exact PW|]. replace (Rabs (t - x) ^ 2) with (Rabs (t - x) * Rabs (t - x)) by ring. apply Rmult_le_compat_r; [apply Rabs_pos|exact CB].
Qed.
Lemma second_bound F1 F2 w delta B A S e h al be d2 d4 d5 t : 0 <= delta -> 0 <= w -> 0 <= B -> uro <= A -> A <= / 65536 -> bpow radix2 (-13) <= h -> Rabs al <= A -> Rabs be <= A ->
  Rabs (S - (F1 * (al - be) + F2 / 2 * ((h + al) ^ 2 + (h + be) ^ 2))) <= w * ((h + al) ^ 2 + (h + be) ^ 2) -> Rabs e <= 5 * delta + 3 * uro * B ->
  Rabs d2 <= uro -> Rabs d4 <= uro -> Rabs d5 <= uro -> Rabs t <= tiny ->
  Rabs ((S + e) * (1 + d2) / (h * h * (1 + d4)) * (1 + d5) + t - F2) <= 4 * w + bpow radix2 29 * (delta + uro * B + A * Rabs F1) + bpow radix2 15 * (A * Rabs F2) + bpow radix2 (-1075).
Proof.
  intros PD PW PB UA A16 HB HAL HBE HS HE H2 H4 H5 HT. pose proof uro_pos as UP. pose proof uro_small as US.
  change (bpow radix2 (-13)) with (/ 8192) in HB. change (bpow radix2 29) with 536870912. change (bpow radix2 15) with 32768.
  assert (HP : 0 < h) by lra. set (k := / h). assert (KP : 0 < k <= 8192). { unfold k. split; [apply Rinv_0_lt_compat; lra|]. rewrite <- (Rinv_inv 8192). apply Rinv_le; lra. }
  assert (KH : k * h = 1) by (unfold k; apply Rinv_l; lra).
  set (a := al * k). set (b := be * k).
  assert (HA : Rabs a <= A * 8192) by (apply abs_mul; [lra|rewrite Rabs_pos_eq; lra]).
  assert (HBB : Rabs b <= A * 8192) by (apply abs_mul; [lra|rewrite Rabs_pos_eq; lra]).
  set (r := A * 8192) in *. assert (R8 : 0 <= r <= 1 / 8) by (unfold r; lra).
  assert (AL : al = a * h) by (unfold a; rewrite Rmult_assoc, KH; ring). assert (BE : be = b * h) by (unfold b; rewrite Rmult_assoc, KH; ring).
  set (T := (S + e) * (k * k)).
  replace ((h + al) ^ 2 + (h + be) ^ 2) with (((1 + a) ^ 2 + (1 + b) ^ 2) * (h * h)) in HS by (rewrite AL, BE; ring).
  set (W := (1 + a) ^ 2 + (1 + b) ^ 2) in *.
  assert (W3 : 0 <= W <= 3) by (unfold W; apply Rabs_le_inv in HA, HBB; split; nra).
  set (N := S - (F1 * (al - be) + F2 / 2 * (W * (h * h)))) in *.
  assert (E1 : Rabs (N * (k * k)) <= 3 * w).
  { rewrite Rabs_mult, (Rabs_pos_eq (k * k)) by nra. apply Rle_trans with (w * (W * (h * h)) * (k * k)); [apply Rmult_le_compat_r; nra|].
    replace (w * (W * (h * h)) * (k * k)) with (w * W * ((k * h) * (k * h))) by ring. rewrite KH. nra. }
  assert (KK : 0 <= k * k <= 67108864) by nra.
  assert (E2 : Rabs (F1 * (al - be) * (k * k)) <= Rabs F1 * (2 * A) * 67108864).
  { apply abs_mul; [apply abs_mul; [lra|]|rewrite Rabs_pos_eq; lra]. apply Rabs_le_inv in HAL, HBE. apply Rabs_le. lra. }
  assert (E3 : Rabs (F2 * (W / 2 - 1)) <= Rabs F2 * (3 * r)).
  { apply abs_mul; [lra|]. unfold W. apply Rabs_le_inv in HA, HBB. apply Rabs_le. split; nra. }
  assert (E4 : Rabs (e * (k * k)) <= (5 * delta + 3 * uro * B) * 67108864) by (apply abs_mul; [exact HE|rewrite Rabs_pos_eq; lra]).
  set (X := 3 * w + Rabs F1 * (2 * A) * 67108864 + Rabs F2 * (3 * r) + (5 * delta + 3 * uro * B) * 67108864).
  assert (TX : Rabs (T - F2) <= X).
  { replace (T - F2) with (N * (k * k) + F1 * (al - be) * (k * k) + F2 * (W / 2 - 1) + e * (k * k)).
    - unfold X. repeat apply abs_add; assumption.
    - unfold T, N. replace (F2 / 2 * (W * (h * h))) with (F2 / 2 * W * (h * h)) by ring.
      replace ((S - (F1 * (al - be) + F2 / 2 * W * (h * h))) * (k * k)) with (S * (k * k) - F1 * (al - be) * (k * k) - F2 / 2 * W * ((k * h) * (k * h))) by ring. rewrite KH. ring_simplify. lra. }
  set (g := (1 + d2) * (1 + d5) / (1 + d4) - 1).
  assert (G : Rabs g <= 4 * uro).
  { apply Rabs_le_inv in H2, H4, H5. unfold g. assert (0 < 1 + d4) by lra. apply Rabs_le. assert (Q : (1 + d2) * (1 + d5) / (1 + d4) * (1 + d4) = (1 + d2) * (1 + d5)) by (field; lra).
    set (z := (1 + d2) * (1 + d5) / (1 + d4)) in *. assert (L1 : 1 - 3 * uro <= (1 + d2) * (1 + d5) <= 1 + 3 * uro - uro / 2) by (split; nra). split; nra. }
  replace ((S + e) * (1 + d2) / (h * h * (1 + d4)) * (1 + d5) + t - F2) with ((T - F2) + T * g + t).
  2:{ unfold T, g, k. apply Rabs_le_inv in H4. field. split; lra. }
  assert (TB : Rabs T <= Rabs F2 + X). { replace T with (F2 + (T - F2)) by ring. apply abs_add; lra. }
  apply Rle_trans with (X + (Rabs F2 + X) * (4 * uro) + tiny); [apply abs_add; [apply abs_add; [exact TX|apply abs_mul; assumption]|exact HT]|].
  assert (XP : 0 <= X) by (apply Rle_trans with (2 := TX); apply Rabs_pos). pose proof (Rabs_pos F1) as P1. pose proof (Rabs_pos F2) as P2.
  assert (Q1 : X * (4 * uro) <= X / 256) by nra. assert (Q2 : Rabs F2 * (4 * uro) <= 4 * (A * Rabs F2)) by nra.
  assert (Q3 : 0 <= A * Rabs F1) by nra. assert (Q4 : 0 <= A * Rabs F2) by nra. assert (Q5 : 0 <= uro * B) by nra.
  replace X with (3 * w + 134217728 * (A * Rabs F1) + 24576 * (A * Rabs F2) + 335544320 * delta + 201326592 * (uro * B)) in * by (unfold X, r; ring). unfold tiny. lra.
Qed.

Lemma fmt_twice y : fmt y -> fmt (2 * y).
Proof.
  intros G. assert (C : (-1074 <= cexp radix2 (SpecFloat.fexp 53 1024) y)%Z) by (unfold cexp; rewrite fe_val; lia).
  apply (grid_fmt (cexp radix2 (SpecFloat.fexp 53 1024) y + 1)); [lia| |].
  - destruct (fmt_grid y G) as (m & E). exists m. rewrite E at 1. rewrite bpow_plus. change (bpow radix2 1) with 2. ring.
  - rewrite Rabs_mult, (Rabs_pos_eq 2) by lra. replace (cexp radix2 (SpecFloat.fexp 53 1024) y + 1 + 53)%Z with (1 + (cexp radix2 (SpecFloat.fexp 53 1024) y + 53))%Z by lia.
    rewrite bpow_plus. change (bpow radix2 1) with 2. apply Rmult_le_compat_l; [lra|]. apply Rle_trans with (bpow radix2 (mag radix2 y)).
    + destruct (Req_dec y 0) as [-> |N]; [rewrite Rabs_R0; apply bpow_ge_0|]. left. apply bpow_mag_gt.
    + apply bpow_le. unfold cexp. rewrite fe_val. lia.
Qed.
Lemma dtwo_val : is_finite dtwo = true /\ B2R dtwo = 2.
Proof. split; [reflexivity|]. rewrite <- dext_finite by reflexivity. apply ext_dtwo. Qed.
Lemma twice_val (y : double) : is_finite y = true -> is_finite (dmul dtwo y) = true -> B2R (dmul dtwo y) = 2 * B2R y.
Proof.
  intros FY F. destruct dtwo_val as [FT VT]. destruct (dmul_ext dtwo y FT FY) as [N E]. apply (finite_rnd _ _ F) in E. rewrite (dext_finite dtwo FT), (dext_finite y FY), VT in E.
  rewrite E. apply rnd_format, fmt_twice, generic_format_B2R.
Qed.
Lemma second_accurate f F F' F'' x delta w B : is_finite x = true -> Rabs (B2R x) <= bpow radix2 36 ->
  let lo := B2R x - reach2 (B2R x) in let hi := B2R x + reach2 (B2R x) in
  computes f F delta lo hi -> derivative_on F F' lo hi -> derivative_on F' F'' lo hi -> varies_within F'' w (B2R x) lo hi -> (forall r, lo <= r <= hi -> Rabs (F r) <= B) ->
  is_finite (dderivative2nd f x) = true ->
  Rabs (B2R (dderivative2nd f x) - F'' (B2R x)) <=
    4 * w + bpow radix2 29 * (delta + bpow radix2 (-53) * B + bpow radix2 (-53) * (Rabs (B2R x) + 1) * Rabs (F' (B2R x)))
    + bpow radix2 (-38) * (Rabs (B2R x) + 1) * Rabs (F'' (B2R x)) + bpow radix2 (-1075).
Proof.
  intros FX XB lo hi C D1 D2 V BB FQ. pose proof uro_pos as UP. pose proof uro_small as US.
  assert (NM : deq x dmaximum = false).
  { destruct highest_value as [HV HF]. change DInterpModel.dhighest with dmaximum in *. destruct (deq x dmaximum) eqn:E; [exfalso|reflexivity].
    apply deq_iff in E; [|apply dfinite_num, FX|apply dfinite_num, HF]. rewrite (dext_finite x FX), (dext_finite dmaximum HF), HV in E.
    rewrite E in XB. assert (bpow radix2 36 < MX - bpow radix2 (1024 - 53)).
    { assert (bpow radix2 36 <= bpow radix2 1022) by (apply bpow_le; lia). assert (bpow radix2 (1024 - 53) <= bpow radix2 1022) by (apply bpow_le; lia).
      replace MX with (4 * bpow radix2 1022) by (change 1024%Z with (2 + 1022)%Z; rewrite bpow_plus; reflexivity). pose proof (bpow_gt_0 radix2 1022). lra. }
    rewrite Rabs_pos_eq in XB; [lra|]. pose proof (bpow_gt_0 radix2 36). lra. }
  unfold dderivative2nd in *. rewrite h2_val in *. set (h := dguess_h (d2 1 (-12)) x) in *.
  destruct (step2 x FX NM) as [S1 S2 S3 S4 S5 _ _ S8]. fold h in S1, S2, S3, S4, S5, S8.
  change (- (12))%Z with (-12)%Z in *. change (51 - 12)%Z with 39%Z in S8. clear S3 S4.
  assert (U36 : uro * bpow radix2 36 = / 131072) by (unfold uro; rewrite <- bpow_plus; reflexivity).
  assert (UX : uro * Rabs (B2R x) <= / 131072) by (rewrite <- U36; apply Rmult_le_compat_l; lra).
  assert (HN : Rabs (B2R h - bpow radix2 (-12)) <= uro * Rabs (B2R x) + 8 * uro * bpow radix2 (-12)) by (apply S8; apply Rle_trans with (1 := XB); apply bpow_le; lia).
  clear S8. change (bpow radix2 (-12)) with (/ 4096) in HN. apply Rabs_le_inv in HN.
  assert (U20 : uro <= / 1048576) by (rewrite uro_val; apply Rinv_le; lra).
  assert (HB : / 8192 <= B2R h <= / 2048) by lra.
  set (xp := dadd x h) in *. set (al := B2R xp - B2R x - B2R h) in *.
  destruct (dsub_val x h _ FX S1 eq_refl) as [FM _].
  { apply Rle_lt_trans with (bpow radix2 37); [|apply bpow_lt; lia]. apply rnd_bound; [lia|]. change (bpow radix2 37) with (2 * bpow radix2 36). apply Rabs_le_inv in XB. assert (1 <= bpow radix2 36) by (change 1 with (bpow radix2 0); apply bpow_le; lia). apply Rabs_le. lra. }
  destruct (sub_rel x h FX S1 FM) as (d & HD & EM). set (xm := dsub x h) in *. set (be := - ((B2R x - B2R h) * d)).
  set (A := uro * (Rabs (B2R x) + 1)).
  assert (HAL : Rabs al <= A) by (apply Rle_trans with (1 := S5); unfold A; pose proof (Rabs_pos (B2R x)); nra).
  assert (HBE : Rabs be <= A).
  { unfold be, A. rewrite Rabs_Ropp, (Rmult_comm uro). apply abs_mul; [|exact HD]. replace (B2R x - B2R h) with (B2R x + - B2R h) by ring. apply abs_add; [lra|]. rewrite Rabs_Ropp, Rabs_pos_eq; lra. }
  assert (A16 : A <= / 65536) by (unfold A; lra). assert (UA : uro <= A) by (unfold A; pose proof (Rabs_pos (B2R x)); nra).
  assert (XP : B2R xp = B2R x + (B2R h + al)) by (unfold al; ring). assert (XM : B2R xm = B2R x - (B2R h + be)) by (rewrite EM; unfold be; ring).
  assert (RB : / 1024 <= reach2 (B2R x)).
  { unfold reach2. change (bpow radix2 (-10)) with (/ 1024). pose proof (Rmult_le_pos _ _ (bpow_ge_0 radix2 (-50)) (Rabs_pos (B2R x))). lra. }
  assert (XL : lo <= B2R x <= hi) by (unfold lo, hi; lra).
  pose proof (Rabs_le_inv _ _ HAL) as HAL'. pose proof (Rabs_le_inv _ _ HBE) as HBE'.
  assert (PL : lo <= B2R xp <= hi) by (rewrite XP; unfold lo, hi; lra). assert (ML : lo <= B2R xm <= hi) by (rewrite XM; unfold lo, hi; lra).
  destruct (C x FX XL) as [FY E0]. destruct (C xp S2 PL) as [FYP EP]. destruct (C xm FM ML) as [FYM EMM].
  assert (PD : 0 <= delta) by (pose proof (Rabs_pos (B2R (f x) - F (B2R x))); lra).
  assert (PW : 0 <= w) by (pose proof (V (B2R x) XL); pose proof (Rabs_pos (F'' (B2R x) - F'' (B2R x))); lra).
  assert (PB : 0 <= B) by (pose proof (BB (B2R x) XL); pose proof (Rabs_pos (F (B2R x))); lra).
  set (y := f x) in *. set (yp := f xp) in *. set (ym := f xm) in *.
  pose proof (fin_div _ _ FQ) as FN. destruct (fin_add _ _ FN) as [FS _]. destruct (fin_sub _ _ FS) as [_ FT].
  pose proof (twice_val y FY FT) as VT. set (y2 := dmul dtwo y) in *.
  destruct (sub_rel yp y2 FYP FT FS) as (e1 & HE1 & V1). set (n1 := dsub yp y2) in *. rewrite VT in V1.
  destruct (add_rel n1 ym FS FYM FN) as (e2 & HE2 & V2). set (n := dadd n1 ym) in *.
  destruct (rnd_rel (B2R h * B2R h)) as (e4 & HE4 & V4).
  { rewrite Rabs_pos_eq by nra. apply Rle_trans with (/ 8192 * / 8192); [|nra]. change (/ 8192) with (bpow radix2 (-13)). rewrite <- bpow_plus. apply bpow_le. lia. }
  destruct (dmul_ext h h S1 S1) as [NH EH]. rewrite (dext_finite h S1) in EH.
  assert (FHH : is_finite (dmul h h) = true).
  { apply (rnd_finite _ _ NH EH). apply Rle_lt_trans with (bpow radix2 0); [|apply bpow_lt; lia]. apply rnd_bound; [lia|]. change (bpow radix2 0) with 1. rewrite Rabs_pos_eq by nra. nra. }
  apply (finite_rnd _ _ FHH) in EH. rewrite V4 in EH. set (den := dmul h h) in *.
  pose proof (Rabs_le_inv _ _ HE4) as HE4'.
  assert (DP : B2R den <> 0). { rewrite EH. assert (0 < B2R h * B2R h) by nra. nra. }
  destruct (ddiv_ext n den FN FHH) as [NQ EQ]; [rewrite dext_finite by exact FHH; exact DP|]. apply (finite_rnd _ _ FQ) in EQ. rewrite (dext_finite n FN), (dext_finite den FHH) in EQ.
  destruct (rnd_err (B2R n / B2R den)) as (e5 & t & HE5 & HT & E5). rewrite EQ, E5, V2, V1, EH.
  set (S := F (B2R xp) - 2 * F (B2R x) + F (B2R xm)).
  set (e := (B2R yp - 2 * B2R y) * (1 + e1) + B2R ym - S).
  assert (HE : Rabs e <= 5 * delta + 3 * uro * B).
  { unfold e, S. replace ((B2R yp - 2 * B2R y) * (1 + e1) + B2R ym - (F (B2R xp) - 2 * F (B2R x) + F (B2R xm)))
      with (((B2R yp - F (B2R xp)) - 2 * (B2R y - F (B2R x)) + (B2R ym - F (B2R xm))) + (B2R yp - 2 * B2R y) * e1) by ring.
    pose proof (BB _ XL) as B0. pose proof (BB _ PL) as B1. apply Rabs_le_inv in B0, B1. apply Rabs_le_inv in E0, EP, EMM.
    apply Rle_trans with (4 * delta + (3 * (B + delta)) * uro); [|nra]. apply abs_add; [apply Rabs_le; lra|]. apply abs_mul; [apply Rabs_le; lra|exact HE1]. }
  replace ((B2R yp - 2 * B2R y) * (1 + e1) + B2R ym) with (S + e) by (unfold e; ring).
  assert (A38 : bpow radix2 (-38) * (Rabs (B2R x) + 1) * Rabs (F'' (B2R x)) = bpow radix2 15 * (A * Rabs (F'' (B2R x)))).
  { unfold A, uro. change (-38)%Z with (15 + -53)%Z. rewrite bpow_plus. ring. }
  rewrite A38. fold uro. fold A. apply (second_bound _ _ _ _ _ _ _ _ _ al be); auto; [change (bpow radix2 (-13)) with (/ 8192); lra|].
  pose proof (taylor F F' F'' (B2R x) w lo hi (B2R xp) D1 D2 V XL PL) as T1. pose proof (taylor F F' F'' (B2R x) w lo hi (B2R xm) D1 D2 V XL ML) as T2.
  replace (B2R xp - B2R x) with (B2R h + al) in T1 by (rewrite XP; ring). replace (B2R xm - B2R x) with (- (B2R h + be)) in T2 by (rewrite XM; ring).
  replace ((- (B2R h + be)) ^ 2) with ((B2R h + be) ^ 2) in T2 by ring. rewrite (Rmult_plus_distr_l w). unfold S.
  match goal with |- Rabs ?g <= _ => replace g with
   ((F (B2R xp) - F (B2R x) - F' (B2R x) * (B2R h + al) - F'' (B2R x) / 2 * (B2R h + al) ^ 2) + (F (B2R xm) - F (B2R x) - F' (B2R x) * - (B2R h + be) - F'' (B2R x) / 2 * (B2R h + be) ^ 2)) by ring end.
  apply abs_add; assumption.
Qed.
