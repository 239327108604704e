(** The cubic of a piece of a spline in double precision at the ends of the piece. *)
From Coq Require Import ZArith Reals List Arith Bool Lia Lra Psatz.
From Flocq Require Import Core IEEE754.BinarySingleNaN.
From Verif Require Import Common FloatModel FloatProofs DoubleProofs DoubleProofs2 DInterpModel DInterpSpec DInterpProofs DInterpProofs2
  DSOMProofs DSOMProofs2 DSplineModel DSplineSpec DSplineProofs DSplineProofs2 DSplineProofs3.
Import ListNotations.
Local Open Scope R_scope.

(** ** Rounding with sizes that are not too small *)
Lemma round_pad n S a a' : Rabs a <= S -> bpow radix2 (-1022) <= S -> near n S a a' -> near (Datatypes.S n) S a (rnd53 a').
Proof.
  intros A P N. destruct (Rle_lt_dec (bpow radix2 (-1022)) (Rabs a')) as [H|H].
  - destruct (rnd_rel _ H) as (e & B & R). apply (near_round n S a a' e); assumption.
  - assert (E : Rabs (rnd53 a' - a') <= uro * bpow radix2 (-1022)).
    { pose proof (error_le_half_ulp radix2 (SpecFloat.fexp 53 1024) (fun z => negb (Z.even z)) a') as U. replace (ulp radix2 (SpecFloat.fexp 53 1024) a') with (bpow radix2 (-1074)) in U.
      - apply Rle_trans with (1 := U). change (/ 2) with (bpow radix2 (-1)). unfold uro. rewrite <- !bpow_plus. apply bpow_le. lia.
      - symmetry. apply (ulp_FLT_small radix2 (-1074) 53). apply Rlt_trans with (1 := H). apply bpow_lt. lia. }
    unfold near in *. rewrite gam_S. replace (rnd53 a' - a) with ((rnd53 a' - a') + (a' - a)) by ring. apply Rle_trans with (1 := Rabs_triang _ _).
    pose proof uro_pos. pose proof (gam_pos n). pose proof (bpow_gt_0 radix2 (-1022)).
    assert (uro * bpow radix2 (-1022) <= uro * S) by (apply Rmult_le_compat_l; lra). assert (0 <= uro * gam n * S) by (apply Rmult_le_pos; [apply Rmult_le_pos; lra|lra]). lra.
Qed.
Lemma mul_pad n m S T (a b : double) ra rb : is_finite (dmul a b) = true -> Rabs ra <= S -> Rabs rb <= T ->
  near n S ra (B2R a) -> near m T rb (B2R b) -> bpow radix2 (-1022) <= S * T -> near (Datatypes.S (n + m)) (S * T) (ra * rb) (B2R (dmul a b)).
Proof.
  intros F A B NA NB P. destruct (fin_mul a b F) as (FA & FB). destruct (dmul_ext a b FA FB) as [_ E].
  apply (finite_rnd _ _ F) in E. rewrite (dext_finite a FA), (dext_finite b FB) in E. rewrite E.
  apply round_pad; [rewrite Rabs_mult; apply Rmult_le_compat; auto using Rabs_pos|exact P|apply near_mul; assumption].
Qed.
Lemma div_pad n m S (a b : double) ra rb : is_finite (ddiv a b) = true -> is_finite b = true -> rb <> 0 -> (Z.of_nat m <= 1000)%Z -> Rabs ra <= S ->
  near n S ra (B2R a) -> near m (Rabs rb) rb (B2R b) -> bpow radix2 (-1022) <= S * / Rabs rb ->
  near (Datatypes.S (n + 2 * m)) (S * / Rabs rb) (ra / rb) (B2R (ddiv a b)).
Proof.
  intros F FB NB Hm A NA N P. pose proof (fin_div a b F) as FA.
  assert (B0 : B2R b <> 0). { intro E. pose proof (near_below m rb (B2R b) ltac:(lia) N) as B. rewrite E, Rabs_R0 in B. pose proof (Rabs_pos_lt rb NB). lra. }
  assert (EB : ext b <> 0) by (rewrite (dext_finite b FB); exact B0). destruct (ddiv_ext a b FA FB EB) as [_ E].
  apply (finite_rnd _ _ F) in E. rewrite (dext_finite a FA), (dext_finite b FB) in E. rewrite E. rewrite <- Rabs_inv in P |- *.
  apply round_pad; [|exact P|].
  - unfold Rdiv. rewrite Rabs_mult. apply Rmult_le_compat_r; [apply Rabs_pos|exact A].
  - unfold Rdiv. apply near_mul; auto; [apply Rle_refl|apply near_inv; auto; lia].
Qed.
Lemma small_finite (z : double) r e : num z -> ext z = crd r -> (-1074 <= e < 1024)%Z -> Rabs r <= bpow radix2 e -> is_finite z = true.
Proof. intros N E HE B. apply (rnd_finite _ _ N E). apply Rle_lt_trans with (bpow radix2 e); [apply rnd_bound; [lia|exact B]|apply bpow_lt; lia]. Qed.
Lemma sz_abs r : Rabs r <= sz r.
Proof. unfold sz. pose proof (bpow_gt_0 radix2 (-300)). lra. Qed.
Lemma sz_low r : bpow radix2 (-300) <= sz r.
Proof. unfold sz. pose proof (Rabs_pos r). lra. Qed.
Lemma sz_pos r : 0 < sz r.
Proof. pose proof (sz_low r). pose proof (bpow_gt_0 radix2 (-300)). lra. Qed.
Lemma pow_prod e f a b : bpow radix2 e <= a -> bpow radix2 f <= b -> bpow radix2 (e + f) <= a * b.
Proof. intros A B. rewrite bpow_plus. apply Rmult_le_compat; auto using bpow_ge_0. Qed.
Lemma pow_inv e a : 0 < a -> a <= bpow radix2 e -> bpow radix2 (- e) <= / a.
Proof. intros P A. rewrite bpow_opp. apply Rinv_le; assumption. Qed.
Lemma sz_near r : near 0 (sz r) r r.
Proof. apply near_refl, sz_abs. Qed.

(** ** A gap *)
Section Gap.
  Variables x0 x1 : double.
  Let h := dsub x1 x0.
  Let H := B2R x1 - B2R x0.
  Hypothesis FX0 : is_finite x0 = true.
  Hypothesis FX1 : is_finite x1 = true.
  Variable e : Z.
  Hypothesis HE : (200 <= e <= 201)%Z.
  Hypothesis LH : bpow radix2 (-200) <= H <= bpow radix2 e.
  Lemma gap_pos : 0 < H.
  Proof. pose proof (bpow_gt_0 radix2 (-200)). lra. Qed.
  Lemma gap_finite : is_finite h = true.
  Proof.
    destruct (dsub_ext x1 x0 FX1 FX0) as [N E]. rewrite (dext_finite x1 FX1), (dext_finite x0 FX0) in E. apply (small_finite _ _ e N E); [lia|]. fold H. rewrite Rabs_pos_eq; [apply LH|]. pose proof gap_pos. lra.
  Qed.
  Lemma gap_near : near 1 (Rabs H) H (B2R h).
  Proof.
    destruct (sub_rel x1 x0 FX1 FX0 gap_finite) as (d & E & EQ). apply (near_round 0 _ _ H d); [apply Rle_refl|apply near_refl; apply Rle_refl|exact E|exact EQ].
  Qed.
End Gap.

Section Ends.
  Variables x0 x1 y0 y1 c0 c1 : double.
  Let h := dsub x1 x0.
  Let s := ddiv (dsub y1 y0) h.
  Let t := ddiv (dmul h (dadd c1 (dmul dtwo c0))) dthree.
  Let b := dsub s t.
  Let d := ddiv (dsub c1 c0) (dmul dthree h).
  Let H := B2R x1 - B2R x0.
  Hypothesis FX0 : is_finite x0 = true.
  Hypothesis FX1 : is_finite x1 = true.
  Hypothesis LH : usual_gap x0 x1.
  Hypothesis FB : is_finite b = true.
  Hypothesis FD : is_finite d = true.

  Lemma H_pos : 0 < H.
  Proof. apply (gap_pos x0 x1 200 LH). Qed.
  Lemma h_finite : is_finite h = true.
  Proof. apply (gap_finite x0 x1 FX0 FX1 200); [lia|exact LH]. Qed.
  Lemma h_near : near 1 H H (B2R h).
  Proof. pose proof (gap_near x0 x1 FX0 FX1 200 ltac:(lia) LH) as N. rewrite Rabs_pos_eq in N by (pose proof H_pos; unfold H in *; lra). exact N. Qed.
  Lemma inv_H : bpow radix2 (-200) <= / H.
  Proof. apply (pow_inv 200); [apply H_pos|apply LH]. Qed.
  Lemma diff_near (a c : double) : is_finite (dsub a c) = true -> near 1 (sz (B2R a) + sz (B2R c)) (B2R a - B2R c) (B2R (dsub a c)).
  Proof. intros F. apply sub_near; auto using sz_abs, sz_near. Qed.
  Lemma diff_size (a c : double) : Rabs (B2R a - B2R c) <= sz (B2R a) + sz (B2R c).
  Proof. unfold Rminus. apply Rle_trans with (1 := Rabs_triang _ _). rewrite Rabs_Ropp. pose proof (sz_abs (B2R a)). pose proof (sz_abs (B2R c)). lra. Qed.
  Lemma diff_low (a c : double) : bpow radix2 (-300) <= sz (B2R a) + sz (B2R c).
  Proof. pose proof (sz_low (B2R a)). pose proof (sz_pos (B2R c)). lra. Qed.
  Lemma s_near : is_finite s = true -> near 4 ((sz (B2R y1) + sz (B2R y0)) * / H) ((B2R y1 - B2R y0) / H) (B2R s).
  Proof.
    intros F. pose proof (fin_div _ _ F) as FY. pose proof H_pos as HP. rewrite <- (Rabs_pos_eq H) at 1 by lra. apply (div_pad 1 1); auto using diff_near, diff_size, h_finite.
    - lra.
    - lia.
    - rewrite Rabs_pos_eq by lra. exact h_near.
    - rewrite Rabs_pos_eq by lra. apply Rle_trans with (bpow radix2 (-300 + -200)); [apply bpow_le; lia|]. apply pow_prod; [apply diff_low|apply inv_H].
  Qed.
  Lemma t_near : is_finite t = true -> near 5 (H * (sz (B2R c1) + 2 * sz (B2R c0)) * / 3) (H * (B2R c1 + 2 * B2R c0) / 3) (B2R t).
  Proof.
    intros F. pose proof (fin_div _ _ F) as FM. pose proof (fin_mul _ _ FM) as (_ & FS). pose proof (fin_add _ _ FS) as (_ & F2). pose proof H_pos as HP.
    pose proof (sz_pos (B2R c0)) as P0. pose proof (sz_low (B2R c0)) as Q0. pose proof (sz_pos (B2R c1)) as P1. pose proof (sz_abs (B2R c0)) as A0. pose proof (sz_abs (B2R c1)) as A1. pose proof (sz_low (B2R c1)) as Q1.
    assert (R2 : Rabs (2 * B2R c0) <= 2 * sz (B2R c0)) by (rewrite Rabs_mult, Rabs_pos_eq by lra; lra).
    assert (N2 : near 1 (2 * sz (B2R c0)) (2 * B2R c0) (B2R (dmul dtwo c0))).
    { apply (mul_pad 0 0); auto using sz_near; [rewrite Rabs_pos_eq; lra|rewrite B2R_dtwo; apply near_refl; rewrite Rabs_pos_eq; lra|].
      apply Rle_trans with (bpow radix2 (-300)); [apply bpow_le; lia|lra]. }
    assert (NS : near 2 (sz (B2R c1) + 2 * sz (B2R c0)) (B2R c1 + 2 * B2R c0) (B2R (dadd c1 (dmul dtwo c0)))).
    { apply add_near; auto. apply near_refl, A1. }
    assert (RS : Rabs (B2R c1 + 2 * B2R c0) <= sz (B2R c1) + 2 * sz (B2R c0)) by (apply Rle_trans with (1 := Rabs_triang _ _); lra).
    assert (NM : near 4 (H * (sz (B2R c1) + 2 * sz (B2R c0))) (H * (B2R c1 + 2 * B2R c0)) (B2R (dmul h (dadd c1 (dmul dtwo c0))))).
    { apply (mul_pad 1 2); auto; [rewrite Rabs_pos_eq; lra|apply h_near|]. apply Rle_trans with (bpow radix2 (-200 + -300)); [apply bpow_le; lia|]. apply pow_prod; [apply LH|lra]. }
    rewrite <- (Rabs_pos_eq 3) at 1 by lra. apply (div_pad 4 0); auto.
    - lia.
    - rewrite Rabs_mult, (Rabs_pos_eq H) by lra. apply Rmult_le_compat_l; lra.
    - rewrite B2R_dthree. apply near_refl. apply Rle_refl.
    - rewrite Rabs_pos_eq by lra. apply Rle_trans with (bpow radix2 (-200 + -300 + -2)); [apply bpow_le; lia|]. apply pow_prod; [apply pow_prod; [apply LH|lra]|]. apply (pow_inv 2); [lra|]. change (bpow radix2 2) with 4. lra.
  Qed.
  Lemma b_near : near 6 ((sz (B2R y1) + sz (B2R y0)) * / H + H * (sz (B2R c1) + 2 * sz (B2R c0)) * / 3)
    ((B2R y1 - B2R y0) / H - H * (B2R c1 + 2 * B2R c0) / 3) (B2R b).
  Proof.
    destruct (fin_sub _ _ FB) as (FS & FT). pose proof (s_near FS) as NS. pose proof (t_near FT) as NT. pose proof H_pos as HP. pose proof (Rinv_0_lt_compat H HP) as IP.
    pose proof (diff_size y1 y0) as DS. pose proof (sz_pos (B2R y1)). pose proof (sz_pos (B2R y0)). pose proof (sz_abs (B2R c0)) as A0. pose proof (sz_abs (B2R c1)) as A1.
    apply sub_near; [exact FB| | |apply (near_more 4); [lia|apply Rmult_le_pos; lra|exact NS]|exact NT].
    - unfold Rdiv. rewrite Rabs_mult, (Rabs_pos_eq (/ H)) by lra. apply Rmult_le_compat_r; lra.
    - unfold Rdiv. rewrite !Rabs_mult, (Rabs_pos_eq (/ 3)), (Rabs_pos_eq H) by lra. apply Rmult_le_compat_r; [lra|]. apply Rmult_le_compat_l; [lra|].
      apply Rle_trans with (1 := Rabs_triang _ _). rewrite Rabs_mult, (Rabs_pos_eq 2) by lra. lra.
  Qed.
  Lemma three_h : is_finite (dmul dthree h) = true /\ near 2 (3 * H) (3 * H) (B2R (dmul dthree h)).
  Proof.
    pose proof H_pos as HP.
    assert (F : is_finite (dmul dthree h) = true).
    { destruct (dmul_ext dthree h eq_refl h_finite) as [N E]. rewrite (dext_finite h h_finite), (dext_finite dthree eq_refl), B2R_dthree in E. apply (small_finite _ _ 203 N E); [lia|].
      pose proof (near_abs 1 H H (B2R h) ltac:(rewrite Rabs_pos_eq; lra) h_near) as NA. rewrite gam_1 in NA. pose proof uro_small. destruct LH as [_ LU]. fold H in LU.
      rewrite Rabs_mult, (Rabs_pos_eq 3) by lra. change 203%Z with (3 + 200)%Z. rewrite bpow_plus. change (bpow radix2 3) with 8. nra. }
    split; [exact F|]. apply (mul_pad 0 1); auto; [rewrite Rabs_pos_eq; lra|rewrite Rabs_pos_eq; lra|rewrite B2R_dthree; apply near_refl; rewrite Rabs_pos_eq; lra|apply h_near|].
    apply Rle_trans with (bpow radix2 (-200)); [apply bpow_le; lia|]. destruct LH as [LL _]. fold H in LL. lra.
  Qed.
  Lemma d_near : near 6 ((sz (B2R c1) + sz (B2R c0)) * / (3 * H)) ((B2R c1 - B2R c0) / (3 * H)) (B2R d).
  Proof.
    destruct three_h as (F3 & N3). pose proof (fin_div _ _ FD) as FC. pose proof H_pos as HP. rewrite <- (Rabs_pos_eq (3 * H)) at 1 by lra. apply (div_pad 1 2); auto using diff_near, diff_size.
    - lra.
    - lia.
    - rewrite Rabs_pos_eq by lra. exact N3.
    - rewrite Rabs_pos_eq by lra. apply Rle_trans with (bpow radix2 (-300 + -202)); [apply bpow_le; lia|]. apply pow_prod; [apply diff_low|]. apply (pow_inv 202); [lra|].
      destruct LH as [_ LU]. fold H in LU. change 202%Z with (2 + 200)%Z. rewrite bpow_plus. change (bpow radix2 2) with 4. lra.
  Qed.
  Lemma end_value : Rabs (cubic (B2R y0) (B2R b) (B2R c0) (B2R d) (B2R x0) (B2R x1) - B2R y1)
    <= gam 6 * (sz (B2R y0) + sz (B2R y1) + H ^ 2 * (sz (B2R c0) + sz (B2R c1))).
  Proof.
    pose proof b_near as NB. pose proof d_near as ND. pose proof H_pos as HP. unfold cubic. fold H. unfold near in NB, ND.
    pose proof (sz_pos (B2R c0)) as P0. pose proof (sz_pos (B2R c1)) as P1.
    set (bb := B2R b) in *. set (dd := B2R d) in *. set (C0 := sz (B2R c0)) in *. set (C1 := sz (B2R c1)) in *. set (Y0 := sz (B2R y0)) in *. set (Y1 := sz (B2R y1)) in *.
    set (h1 := H) in *. clearbody h1. clearbody bb dd C0 C1 Y0 Y1.
    set (eb := (B2R y1 - B2R y0) / h1 - h1 * (B2R c1 + 2 * B2R c0) / 3) in *. set (ed := (B2R c1 - B2R c0) / (3 * h1)) in *.
    replace (B2R y0 + bb * h1 + B2R c0 * h1 ^ 2 + dd * h1 ^ 3 - B2R y1) with ((bb - eb) * h1 + (dd - ed) * h1 ^ 3) by (unfold eb, ed; field; lra).
    apply Rle_trans with (1 := Rabs_triang _ _). rewrite !Rabs_mult, (Rabs_pos_eq h1) by lra. rewrite (Rabs_pos_eq (h1 ^ 3)) by (apply pow_le; lra).
    assert (B1 : Rabs (bb - eb) * h1 <= gam 6 * ((Y1 + Y0) * / h1 + h1 * (C1 + 2 * C0) * / 3) * h1) by (apply Rmult_le_compat_r; [lra|exact NB]).
    assert (B2 : Rabs (dd - ed) * h1 ^ 3 <= gam 6 * ((C1 + C0) * / (3 * h1)) * h1 ^ 3) by (apply Rmult_le_compat_r; [apply pow_le; lra|exact ND]).
    replace (gam 6 * ((Y1 + Y0) * / h1 + h1 * (C1 + 2 * C0) * / 3) * h1) with (gam 6 * (Y1 + Y0 + h1 ^ 2 * (C1 + 2 * C0) / 3)) in B1 by (field; lra).
    replace (gam 6 * ((C1 + C0) * / (3 * h1)) * h1 ^ 3) with (gam 6 * (h1 ^ 2 * (C1 + C0) / 3)) in B2 by (field; lra).
    apply Rle_trans with (gam 6 * (Y1 + Y0 + h1 ^ 2 * (C1 + 2 * C0) / 3) + gam 6 * (h1 ^ 2 * (C1 + C0) / 3)); [lra|].
    rewrite <- Rmult_plus_distr_l. apply Rmult_le_compat_l; [apply gam_pos|]. assert (0 <= h1 ^ 2 * C1) by (apply Rmult_le_pos; [apply pow_le; lra|lra]).
    assert (0 <= h1 ^ 2 * C0) by (apply Rmult_le_pos; [apply pow_le; lra|lra]). lra.
  Qed.
  Lemma end_curvature : Rabs (cubic_curvature (B2R c0) (B2R d) (B2R x0) (B2R x1) - 2 * B2R c1) <= gam 6 * (2 * (sz (B2R c0) + sz (B2R c1))).
  Proof.
    pose proof d_near as ND. pose proof H_pos as HP. unfold cubic_curvature. fold H. unfold near in ND.
    replace (2 * B2R c0 + 6 * B2R d * H - 2 * B2R c1) with ((B2R d - (B2R c1 - B2R c0) / (3 * H)) * (6 * H)) by (field; lra).
    rewrite Rabs_mult, (Rabs_pos_eq (6 * H)) by lra. apply Rle_trans with (gam 6 * ((sz (B2R c1) + sz (B2R c0)) * / (3 * H)) * (6 * H)); [apply Rmult_le_compat_r; [lra|exact ND]|].
    apply Req_le. field. lra.
  Qed.
End Ends.
