(** Steps of the finite differences. *)
From Coq Require Import ZArith Reals List Arith Bool Lia Lra Psatz.
From Flocq Require Import Core IEEE754.BinarySingleNaN.
From Flocq.Prop Require Import Sterbenz Relative.
From Verif Require Import Common FloatModel FloatProofs DoubleProofs DoubleProofs2 DInterpModel DInterpProofs DDiffModel.
Local Open Scope R_scope.

Notation fmt := (generic_format radix2 (SpecFloat.fexp 53 1024)).
Notation fe := (SpecFloat.fexp 53 1024).
Lemma fe_val e : fe e = Z.max (e - 53) (-1074).
Proof. reflexivity. Qed.
Lemma valid_fe : Valid_exp fe. Proof. apply fexp_correct. reflexivity. Qed.
#[local] Existing Instance valid_fe.
Definition grid (e : Z) (r : R) : Prop := exists m : Z, r = IZR m * bpow radix2 e.
Lemma grid_sub e a b : grid e a -> grid e b -> grid e (a - b).
Proof. intros (m & ->) (n & ->). exists (m - n)%Z. rewrite minus_IZR. ring. Qed.
Lemma grid_add e a b : grid e a -> grid e b -> grid e (a + b).
Proof. intros (m & ->) (n & ->). exists (m + n)%Z. rewrite plus_IZR. ring. Qed.
Lemma grid_coarse e g a : (e <= g)%Z -> grid g a -> grid e a.
Proof.
  intros L (m & ->). exists (m * 2 ^ (g - e))%Z. rewrite mult_IZR. change (2 ^ (g - e))%Z with (Zpower radix2 (g - e)). rewrite IZR_Zpower by lia. rewrite Rmult_assoc, <- bpow_plus. do 2 f_equal. lia.
Qed.
Lemma grid_fmt e r : (-1074 <= e)%Z -> grid e r -> Rabs r <= bpow radix2 (e + 53) -> fmt r.
Proof.
  intros E (m & ->) B. rewrite Rabs_mult, (Rabs_pos_eq (bpow radix2 e)) in B by apply bpow_ge_0.
  rewrite Z.add_comm, bpow_plus in B. apply Rmult_le_reg_r in B; [|apply bpow_gt_0]. rewrite <- abs_IZR in B. change (bpow radix2 53) with (IZR (2 ^ 53)) in B. apply le_IZR in B.
  destruct (Z.eq_dec (Z.abs m) (2 ^ 53)) as [Q|Q].
  - assert (G : fmt (bpow radix2 (e + 53))) by (apply generic_format_bpow; rewrite fe_val; lia).
    assert (D : m = (2 ^ 53)%Z \/ m = (- 2 ^ 53)%Z) by lia. destruct D as [-> | ->].
    + change (IZR (2 ^ 53)) with (bpow radix2 53). rewrite <- bpow_plus. rewrite Z.add_comm. exact G.
    + rewrite opp_IZR. change (IZR (2 ^ 53)) with (bpow radix2 53). rewrite Ropp_mult_distr_l_reverse. apply generic_format_opp. rewrite <- bpow_plus, Z.add_comm. exact G.
  - apply generic_format_FLT. exists (Float radix2 m e); [reflexivity|cbn; lia|cbn; lia].
Qed.
Lemma fmt_grid r : fmt r -> grid (cexp radix2 fe r) r.
Proof. intros G. red in G. exists (Ztrunc (scaled_mantissa radix2 fe r)). exact G. Qed.
Lemma grid_round e s : grid e s -> grid e (rnd53 s).
Proof.
  intros G. destruct (Z_le_gt_dec (cexp radix2 fe s) e) as [C|C].
  - rewrite rnd_format; [exact G|]. destruct G as (m & ->). apply (generic_format_F2R radix2 fe m e). intros _. exact C.
  - apply (grid_coarse e (cexp radix2 fe s)); [lia|]. eexists. reflexivity.
Qed.
Lemma nearest s g : fmt g -> Rabs (rnd53 s - s) <= Rabs (g - s).
Proof. intros G. apply (round_N_pt radix2 fe (fun n => negb (Z.even n)) s). exact G. Qed.

Section Step.
Variable k : Z.
Hypothesis K : (1 <= k <= 60)%Z.
Let h0 := bpow radix2 (-k).
Lemma h0_pos : 0 < h0. Proof. apply bpow_gt_0. Qed.
Lemma far_step x : fmt x -> h0 <= Rabs x -> let xh := rnd53 (x + h0) in fmt (xh - x) /\ 0 <= xh - x <= 2 * h0 /\ grid (Z.min (cexp radix2 fe x) (-k)) (xh - x).
Proof.
  intros G A xh. pose proof h0_pos as HP. pose proof (nearest (x + h0) x G) as N. fold xh in N.
  assert (B : 0 <= xh - x <= 2 * h0).
  { split.
    - assert (x <= xh) by (rewrite <- (rnd_format x G); apply rnd_mono; lra). lra.
    - replace (x - (x + h0)) with (- h0) in N by ring. rewrite Rabs_Ropp, (Rabs_pos_eq h0) in N by lra. apply Rabs_le_inv in N. lra. }
  set (e := Z.min (cexp radix2 fe x) (-k)).
  assert (M : (1 - k <= mag radix2 x)%Z).
  { apply mag_ge_bpow. replace (1 - k - 1)%Z with (- k)%Z by lia. exact A. }
  assert (E : (-1074 <= e)%Z /\ (1 - k <= e + 53)%Z) by (unfold e, cexp; rewrite fe_val; lia).
  assert (GG : grid e (xh - x)).
  { assert (GX : grid e x) by (apply (grid_coarse e (cexp radix2 fe x)); [unfold e; lia|apply fmt_grid, G]).
    apply grid_sub; [|exact GX]. apply grid_round. apply grid_add; [exact GX|]. apply (grid_coarse e (-k)); [unfold e; lia|]. exists 1%Z. unfold h0. ring. }
  split; [|split; [exact B|exact GG]]. apply (grid_fmt e); [lia|exact GG|].
  rewrite Rabs_pos_eq by lra. apply Rle_trans with (2 * h0); [lra|]. replace (2 * h0) with (bpow radix2 (1 - k)); [apply bpow_le; lia|].
    unfold h0, Z.sub. rewrite bpow_plus. reflexivity.
Qed.
Lemma small_h0 : h0 <= 1 / 2 /\ bpow radix2 (-60) <= h0.
Proof.
  split; [|apply bpow_le; lia]. replace (1 / 2) with (bpow radix2 (-1)) by (cbn; lra). apply bpow_le. lia.
Qed.
(** Neighbours. *)
Lemma ulp_big a : uro * Rabs a <= ulp radix2 fe a.
Proof. pose proof (ulp_FLT_gt radix2 (-1074) 53 a) as H. unfold uro. change (FLT_exp (-1074) 53) with fe in H. rewrite Rmult_comm. apply Rlt_le, H. Qed.
Lemma gap_pos a b : fmt a -> fmt b -> 0 < a -> a < b -> uro * a <= b - a.
Proof.
  intros FA FB P L. pose proof (succ_le_lt radix2 fe a b FA FB L) as S. rewrite succ_eq_pos in S by lra.
  pose proof (ulp_big a) as U. rewrite Rabs_pos_eq in U by lra. lra.
Qed.
Lemma gap a b : fmt a -> fmt b -> a < b -> uro / 2 * Rabs a <= b - a.
Proof.
  intros FA FB L. pose proof uro_pos. pose proof uro_small. destruct (Rlt_le_dec 0 a) as [P|P].
  - pose proof (gap_pos a b FA FB P L). rewrite Rabs_pos_eq by lra. nra.
  - rewrite Rabs_left1 by lra. destruct (Rle_lt_dec (a / 2) b) as [Q|Q]; [nra|].
    assert (GP : uro * (- b) <= - a - - b) by (apply gap_pos; [apply generic_format_opp, FB|apply generic_format_opp, FA|lra|lra]). nra.
Qed.
Lemma fmt_ulp a : a <> 0 -> fmt (ulp radix2 fe a).
Proof.
  intros N. rewrite ulp_neq_0 by exact N. apply (grid_fmt (cexp radix2 fe a)); [unfold cexp; rewrite fe_val; lia|exists 1%Z; ring|].
  rewrite Rabs_pos_eq by apply bpow_ge_0. apply bpow_le. lia.
Qed.
Lemma ulp_low a : bpow radix2 (-1022) <= Rabs a -> ulp radix2 fe a <= 2 * uro * Rabs a.
Proof.
  intros B. pose proof (ulp_FLT_le radix2 (-1074) 53 a B) as H. change (FLT_exp (-1074) 53) with fe in H. change (1 - 53)%Z with (1 + -53)%Z in H. rewrite bpow_plus in H. unfold uro. change (bpow radix2 1) with 2 in H. lra.
Qed.
Lemma succ_step x : fmt x -> h0 <= Rabs x -> fmt (succ radix2 fe x - x) /\ succ radix2 fe x - x <= 2 * uro * Rabs x.
Proof.
  intros G A. pose proof h0_pos as HP. assert (T : bpow radix2 (-1022) <= Rabs x) by (apply Rle_trans with (2 := A); apply bpow_le; lia).
  destruct (Rlt_le_dec 0 x) as [P|P].
  - rewrite succ_eq_pos by lra. replace (x + ulp radix2 fe x - x) with (ulp radix2 fe x) by ring. split; [apply fmt_ulp; lra|apply ulp_low, T].
  - rewrite Rabs_left1 in A by lra. set (y := - x). assert (GY : fmt y) by apply generic_format_opp, G.
    assert (S : succ radix2 fe x = - pred radix2 fe y) by (unfold y; rewrite pred_opp; ring).
    pose proof (pred_plus_ulp radix2 fe y ltac:(unfold y; lra) GY) as Q.
    assert (H2 : fmt (bpow radix2 (- k - 1))) by (apply generic_format_bpow; rewrite fe_val; lia).
    assert (HH : bpow radix2 (- k - 1) < y).
    { apply Rlt_le_trans with h0; [apply bpow_lt; lia|unfold y; lra]. }
    pose proof (pred_ge_gt radix2 fe _ _ H2 GY HH) as PG. pose proof (bpow_gt_0 radix2 (- k - 1)) as BP.
    replace (succ radix2 fe x - x) with (ulp radix2 fe (pred radix2 fe y)) by (rewrite S; unfold y in *; lra).
    split; [apply fmt_ulp; lra|]. pose proof (pred_le_id radix2 fe y) as PL.
    assert (T2 : bpow radix2 (-1022) <= Rabs (pred radix2 fe y)).
    { rewrite Rabs_pos_eq by lra. apply Rle_trans with (2 := PG). apply bpow_le. lia. }
    pose proof (ulp_low _ T2) as U. rewrite Rabs_pos_eq in U by lra. rewrite Rabs_left1 by lra. fold y. pose proof uro_pos. nra.
Qed.
Lemma top_room : MX - bpow radix2 971 + 1 < MX.
Proof. assert (1 < bpow radix2 971) by (change 1 with (bpow radix2 0); apply bpow_lt; lia). lra. Qed.

(** The step that is used. *)
Variable h0d : double.
Hypothesis FH : is_finite h0d = true.
Hypothesis VH : B2R h0d = h0.
Record step_ok (x h : double) : Prop := {
  so_finite : is_finite h = true;
  so_point : is_finite (dadd x h) = true;
  so_low : h0 / 4 <= B2R h;
  so_high : B2R h <= 2 * h0 + 2 * uro * Rabs (B2R x);
  so_near : Rabs (B2R (dadd x h) - B2R x - B2R h) <= 4 * uro * B2R h;
  so_exact : h0 <= Rabs (B2R x) -> B2R (dadd x h) - B2R x = B2R h;
  so_gap : uro / 2 * Rabs (B2R x) <= B2R h;
  so_usual : Rabs (B2R x) <= bpow radix2 (51 - k) -> Rabs (B2R h - h0) <= uro * Rabs (B2R x) + 8 * uro * h0 }.
Lemma dadd_val (x y : double) r : is_finite x = true -> is_finite y = true -> rnd53 (B2R x + B2R y) = r -> Rabs r < MX -> is_finite (dadd x y) = true /\ B2R (dadd x y) = r.
Proof.
  intros FX FY E B. destruct (dadd_ext x y FX FY) as [N X]. rewrite (dext_finite x FX), (dext_finite y FY) in X. subst r.
  assert (F : is_finite (dadd x y) = true) by (apply (rnd_finite _ _ N X B)). split; [exact F|apply (finite_rnd _ _ F X)].
Qed.
Lemma dsub_val (x y : double) r : is_finite x = true -> is_finite y = true -> rnd53 (B2R x - B2R y) = r -> Rabs r < MX -> is_finite (dsub x y) = true /\ B2R (dsub x y) = r.
Proof.
  intros FX FY E B. destruct (dsub_ext x y FX FY) as [N X]. rewrite (dext_finite x FX), (dext_finite y FY) in X. subst r.
  assert (F : is_finite (dsub x y) = true) by (apply (rnd_finite _ _ N X B)). split; [exact F|apply (finite_rnd _ _ F X)].
Qed.
Lemma double_top (x : double) : Rabs (B2R x) <= MX - bpow radix2 971.
Proof. apply (abs_B2R_le_emax_minus_prec 53 1024 prec53 x). Qed.
Lemma far_guess (x : double) : is_finite x = true -> deq x dmaximum = false -> h0 <= Rabs (B2R x) -> step_ok x (dguess_h h0d x).
Proof.
  intros FX NM A. pose proof (generic_format_B2R 53 1024 x) as GX. pose proof h0_pos as HP. pose proof small_h0 as [HS HB]. pose proof uro_pos as UP. pose proof uro_small as US.
  destruct (far_step (B2R x) GX A) as (G & B & GR). set (xh := rnd53 (B2R x + h0)) in *.
  pose proof (double_top x) as T. pose proof top_room as TR.
  destruct (dadd_val x h0d xh FX FH) as [F1 V1]; [rewrite VH; reflexivity|apply Rabs_def1; apply Rabs_le_inv in T; lra|].
  destruct (dsub_val (dadd x h0d) x (xh - B2R x) F1 FX) as [F2 V2]; [rewrite V1; apply rnd_format, G|apply Rabs_def1; lra|].
  destruct (add_rel x h0d FX FH F1) as (d & D & R1). rewrite V1, VH in R1.
  assert (NR : Rabs (xh - (B2R x + h0)) <= uro * Rabs (B2R x) + uro * h0).
  { rewrite R1. replace ((B2R x + h0) * (1 + d) - (B2R x + h0)) with ((B2R x + h0) * d) by ring. rewrite Rabs_mult.
    pose proof (Rabs_triang (B2R x) h0) as TT. rewrite (Rabs_pos_eq h0) in TT by lra. pose proof (Rabs_pos d). pose proof (Rabs_pos (B2R x + h0)). nra. }
  assert (Z : deq (dsub (dadd x h0d) x) d0 = true <-> xh = B2R x).
  { rewrite deq_iff; [|apply dfinite_num, F2|reflexivity]. rewrite (dext_finite _ F2), V2, ext_d0. split; intros; lra. }
  unfold dguess_h. destruct (deq (dsub (dadd x h0d) x) d0) eqn:E.
  - (* the sum is x *)
    assert (X0 : xh = B2R x) by (apply Z; reflexivity). clear Z.
    assert (LT : B2R x < B2R dmaximum).
    { destruct (within_limits x FX) as [_ L]. destruct highest_value as [_ HF]. change dhighest with dmaximum in L, HF.
      apply dle_iff in L; [|apply dfinite_num, FX|apply dfinite_num, HF]. rewrite (dext_finite x FX), (dext_finite dmaximum HF) in L.
      destruct (Req_dec (B2R x) (B2R dmaximum)) as [Q|Q]; [|lra]. exfalso. assert (deq x dmaximum = true) as C by (apply deq_iff; [apply dfinite_num, FX|apply dfinite_num, HF|rewrite (dext_finite x FX), (dext_finite dmaximum HF); exact Q]). congruence. }
    destruct highest_value as [HV HF]. change dhighest with dmaximum in HV, HF.
    assert (NX : dnextafter_max x = Bsucc x).
    { unfold dnextafter_max. rewrite NM. rewrite (proj2 (dlt_iff x dmaximum (dfinite_num _ FX) (dfinite_num _ HF))); [reflexivity|rewrite !dext_finite by assumption; exact LT]. }
    pose proof (Bsucc_correct 53 1024 prec53 emax53 x FX) as SC.
    assert (GM : fmt (B2R dmaximum)) by apply generic_format_B2R.
    pose proof (succ_le_lt radix2 fe _ _ GX GM LT) as SL. pose proof (bpow_gt_0 radix2 (1024 - 53)) as BP.
    rewrite Rlt_bool_true in SC by lra. destruct SC as (SV & SF & _).
    destruct (succ_step (B2R x) GX A) as (SG & SU). set (sx := succ radix2 fe (B2R x)) in *.
    assert (XN : B2R x <> 0) by (intros Q; rewrite Q, Rabs_R0 in A; lra).
    pose proof (succ_gt_id radix2 fe (B2R x) XN) as SX. fold sx in SX.
    assert (GS : fmt sx) by (apply generic_format_succ; [apply valid_fe|exact GX]).
    assert (BIG : h0 < sx - B2R x).
    { apply Rnot_le_lt. intros Q. assert (rnd53 sx <= rnd53 (B2R x + h0)) as M by (apply rnd_mono; lra). rewrite (rnd_format sx GS) in M. fold xh in M. lra. }
    assert (SM : sx - B2R x < MX).
    { apply Rabs_le_inv in T. assert (2 * uro * Rabs (B2R x) <= 1 / 2 * (MX - bpow radix2 971)) by (pose proof (double_top x); pose proof (Rabs_pos (B2R x)); nra).
      pose proof (bpow_gt_0 radix2 971). assert (0 < MX) by apply bpow_gt_0. lra. }
    destruct (dsub_val (Bsucc x) x (sx - B2R x) SF FX) as [F3 V3]; [rewrite SV; apply rnd_format, SG|apply Rabs_def1; [exact SM|assert (0 < MX) by apply bpow_gt_0; lra]|].
    assert (SB : Rabs sx < MX).
    { rewrite <- SV. apply abs_B2R_lt_emax. }
    rewrite NX. destruct (dadd_val x (dsub (Bsucc x) x) sx FX F3) as [F4 V4]; [rewrite V3; replace (B2R x + (sx - B2R x)) with sx by ring; apply rnd_format, GS|exact SB|].
    constructor; rewrite ?V3, ?V4; auto.
    + lra.
    + lra.
    + replace (sx - B2R x - (sx - B2R x)) with 0 by ring. rewrite Rabs_R0. nra.
    + apply gap; assumption.
    + intros Q. exfalso. rewrite X0 in NR. replace (B2R x - (B2R x + h0)) with (- h0) in NR by ring. rewrite Rabs_Ropp, (Rabs_pos_eq h0) in NR by lra.
      assert (uro * Rabs (B2R x) <= h0 / 4).
      { apply Rle_trans with (uro * bpow radix2 (51 - k)); [apply Rmult_le_compat_l; lra|]. unfold uro. rewrite <- bpow_plus. unfold h0. replace (-53 + (51 - k))%Z with (-2 + - k)%Z by lia. rewrite bpow_plus. change (bpow radix2 (-2)) with (/ 4). lra. }
      nra.
  - assert (XP : B2R x < xh). { destruct (Req_dec xh (B2R x)) as [Q|Q]; [apply Z in Q; discriminate Q|lra]. }
    clear Z. assert (GXH : fmt xh) by (apply generic_format_round; [apply valid_fe|apply valid_rnd_N]).
    assert (SB : Rabs xh < MX) by (rewrite <- V1; apply abs_B2R_lt_emax).
    destruct (dadd_val x (dsub (dadd x h0d) x) xh FX F2) as [F4 V4]; [rewrite V2; replace (B2R x + (xh - B2R x)) with xh by ring; apply rnd_format, GXH|exact SB|].
    constructor; rewrite ?V2, ?V4; auto.
    + destruct (Rle_lt_dec (h0 / 4) (xh - B2R x)) as [Q|Q]; [exact Q|exfalso].
      assert (BX : bpow radix2 (52 - k) <= Rabs (B2R x)).
      { apply Rabs_le_inv in NR. assert (h0 / 2 <= uro * Rabs (B2R x)) by nra. apply Rmult_le_reg_l with uro; [lra|]. apply Rle_trans with (2 := H).
        unfold uro. rewrite <- bpow_plus. unfold h0. replace (-53 + (52 - k))%Z with (-1 + - k)%Z by lia. rewrite bpow_plus. change (bpow radix2 (-1)) with (/ 2). lra. }
      assert (M : (53 - k <= mag radix2 (B2R x))%Z) by (apply mag_ge_bpow; replace (53 - k - 1)%Z with (52 - k)%Z by lia; exact BX).
      assert (C : (- k <= cexp radix2 fe (B2R x))%Z) by (unfold cexp; rewrite fe_val; lia).
      rewrite Z.min_r in GR by exact C. destruct GR as (m & GM). fold h0 in GM.
      assert (0 < IZR m) by nra. assert (1 <= m)%Z by (apply lt_IZR in H; lia). apply IZR_le in H0. nra.
    + pose proof (Rabs_pos (B2R x)). nra.
    + replace (xh - B2R x - (xh - B2R x)) with 0 by ring. rewrite Rabs_R0. nra.
    + apply gap; assumption.
    + intros _. replace (xh - B2R x - h0) with (xh - (B2R x + h0)) by ring. nra.
Qed.
Lemma rnd_bound r e : (-1074 <= e)%Z -> Rabs r <= bpow radix2 e -> Rabs (rnd53 r) <= bpow radix2 e.
Proof.
  intros E B. apply Rabs_le_inv in B. assert (G : fmt (bpow radix2 e)) by (apply generic_format_bpow; rewrite fe_val; lia).
  apply Rabs_le. split.
  - rewrite <- (rnd_format (- bpow radix2 e)) by apply generic_format_opp, G. apply rnd_mono. lra.
  - rewrite <- (rnd_format (bpow radix2 e) G). apply rnd_mono. lra.
Qed.
Lemma one_top : bpow radix2 2 < MX.
Proof. apply bpow_lt. lia. Qed.
Lemma near_guess (x : double) : is_finite x = true -> Rabs (B2R x) < h0 -> step_ok x (dguess_h h0d x).
Proof.
  intros FX A. pose proof h0_pos as HP. pose proof small_h0 as [HS HB]. pose proof uro_pos as UP. pose proof uro_small as US. pose proof one_top as OT.
  assert (BB : forall r, Rabs r <= 4 -> Rabs (rnd53 r) < MX) by (intros r B; apply Rle_lt_trans with (2 := OT); apply rnd_bound; [lia|exact B]).
  destruct (dadd_val x h0d _ FX FH eq_refl) as [F1 _].
  { apply BB. rewrite VH. apply Rabs_lt_inv in A. apply Rabs_le. lra. }
  destruct (add_rel x h0d FX FH F1) as (d1 & D1 & R1). rewrite VH in R1. apply Rabs_le_inv in D1.
  set (xh := B2R (dadd x h0d)) in *. apply Rabs_lt_inv in A.
  assert (E1 : Rabs (xh - (B2R x + h0)) <= 2 * uro * h0). { rewrite R1. apply Rabs_le. split; nra. }
  apply Rabs_le_inv in E1.
  destruct (dsub_val (dadd x h0d) x _ F1 FX eq_refl) as [F2 _].
  { apply BB. fold xh. apply Rabs_le. split; nra. }
  destruct (sub_rel (dadd x h0d) x F1 FX F2) as (d2 & D2 & R2). fold xh in R2. apply Rabs_le_inv in D2.
  set (hd := dsub (dadd x h0d) x) in *. set (h := B2R hd) in *.
  assert (E2 : Rabs (h - h0) <= 8 * uro * h0). { rewrite R2. assert (Rabs (xh - B2R x - h0) <= 2 * uro * h0) by (apply Rabs_le; lra). apply Rabs_le_inv in H. apply Rabs_le. split; nra. }
  apply Rabs_le_inv in E2.
  unfold dguess_h. fold hd. destruct (deq hd d0) eqn:E.
  { exfalso. apply deq_iff in E; [|apply dfinite_num, F2|reflexivity]. rewrite (dext_finite _ F2), ext_d0 in E. fold h in E. nra. }
  destruct (dadd_val x hd _ FX F2 eq_refl) as [F3 _].
  { apply BB. fold h. apply Rabs_le. split; nra. }
  destruct (add_rel x hd FX F2 F3) as (d3 & D3 & R3). fold h in R3. apply Rabs_le_inv in D3.
  constructor; fold h; auto.
  - nra.
  - pose proof (Rabs_pos (B2R x)). nra.
  - rewrite R3. apply Rabs_le. assert (h0 <= 2 * h) by nra. split; nra.
  - intros Q. exfalso. assert (Rabs (B2R x) < h0) by (apply Rabs_def1; lra). lra.
  - assert (Rabs (B2R x) < h0) by (apply Rabs_def1; lra). nra.
  - intros _. apply Rabs_le. pose proof (Rabs_pos (B2R x)). split; nra.
Qed.
Lemma guess_ok (x : double) : is_finite x = true -> deq x dmaximum = false -> step_ok x (dguess_h h0d x).
Proof. intros FX NM. destruct (Rlt_le_dec (Rabs (B2R x)) h0) as [A|A]; [apply near_guess|apply far_guess]; assumption. Qed.
End Step.
