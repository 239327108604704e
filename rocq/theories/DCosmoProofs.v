From Coq Require Import ZArith Reals List Bool Arith Lia Lra Psatz.
From Flocq Require Import Core IEEE754.BinarySingleNaN.
From Verif Require Import Common FloatModel FloatProofs DoubleProofs DoubleProofs2 DInterpProofs2 DSOMProofs2 DSplineProofs DGridProofs2 DCosmoModel DCosmoSpec.
Local Open Scope R_scope.

(** ** Operations on numbers of a usual size *)
Lemma fin_value (z : double) r k : (-1000 <= k <= 1000)%Z -> num z -> ext z = crd r -> Rabs r <= bpow radix2 k -> is_finite z = true /\ B2R z = rnd53 r /\ Rabs (B2R z) <= bpow radix2 k.
Proof. intros K N E H. destruct (small_fin z r k K N E H) as [F B]. split; [exact F|]. split; [exact (finite_rnd z r F E)|exact B]. Qed.
Lemma add_val (a b : double) k : (-1000 <= k <= 1000)%Z -> is_finite a = true -> is_finite b = true -> Rabs (B2R a + B2R b) <= bpow radix2 k ->
  is_finite (dadd a b) = true /\ B2R (dadd a b) = rnd53 (B2R a + B2R b) /\ Rabs (B2R (dadd a b)) <= bpow radix2 k.
Proof. intros K FA FB H. destruct (dadd_ext a b FA FB) as [N E]. rewrite (dext_finite a FA), (dext_finite b FB) in E. exact (fin_value _ _ k K N E H). Qed.
Lemma sub_val (a b : double) k : (-1000 <= k <= 1000)%Z -> is_finite a = true -> is_finite b = true -> Rabs (B2R a - B2R b) <= bpow radix2 k ->
  is_finite (dsub a b) = true /\ B2R (dsub a b) = rnd53 (B2R a - B2R b) /\ Rabs (B2R (dsub a b)) <= bpow radix2 k.
Proof. intros K FA FB H. destruct (dsub_ext a b FA FB) as [N E]. rewrite (dext_finite a FA), (dext_finite b FB) in E. exact (fin_value _ _ k K N E H). Qed.
Lemma mul_val (a b : double) j k : (-1000 <= j + k <= 1000)%Z -> is_finite a = true -> is_finite b = true -> Rabs (B2R a) <= bpow radix2 j -> Rabs (B2R b) <= bpow radix2 k ->
  is_finite (dmul a b) = true /\ B2R (dmul a b) = rnd53 (B2R a * B2R b) /\ Rabs (B2R (dmul a b)) <= bpow radix2 (j + k).
Proof. intros K FA FB HA HB. destruct (dmul_ext a b FA FB) as [N E]. rewrite (dext_finite a FA), (dext_finite b FB) in E. apply (fin_value _ _ _ K N E). apply prod_le; assumption. Qed.
Lemma sqrt_val (x : double) : is_finite x = true -> 0 <= B2R x -> is_finite (dsqrt x) = true /\ B2R (dsqrt x) = rnd53 (sqrt (B2R x)).
Proof.
  intros F P. destruct (Bsqrt_correct 53 1024 prec53 emax53 mode_NE x) as (V & FI & _). split; [|exact V]. unfold dsqrt. rewrite FI.
  destruct x as [s|s| |s m e H]; try discriminate; [reflexivity|]. destruct s; [|reflexivity]. exfalso. apply Rle_not_lt in P. apply P. apply F2R_lt_0. reflexivity.
Qed.
Lemma sqrt_neg (x : double) : is_finite x = true -> B2R x < 0 -> is_nan (dsqrt x) = true.
Proof.
  intros F P. destruct x as [s|s| |s m e H]; try discriminate; [cbn in P; lra|]. destruct s; [reflexivity|]. exfalso. apply Rlt_not_le in P. apply P. apply F2R_ge_0. cbn. lia.
Qed.

(** ** The radicand *)
Section Rate.
  Variables (p : dcosmology) (z : double).
  Let M := B2R (dc_m p). Let K := B2R (dc_k p). Let L := B2R (dc_lambda p). Let Z := B2R z. Let W := 1 + Z.
  Let w := dadd d1 z. Let square := dmul w w. Let cube := dmul square w.
  Let radicand := dadd (dadd (dmul (dc_m p) cube) (dmul (dc_k p) square)) (dc_lambda p).
  Lemma fold_rate : dhubble_parameter z p = dsqrt radicand. Proof. reflexivity. Qed.
  Hypothesis FM : is_finite (dc_m p) = true. Hypothesis FK : is_finite (dc_k p) = true. Hypothesis FL : is_finite (dc_lambda p) = true.
  Hypothesis BM : Rabs M <= bpow radix2 100. Hypothesis BK : Rabs K <= bpow radix2 100. Hypothesis BL : Rabs L <= bpow radix2 100.
  Hypothesis FZ : is_finite z = true. Hypothesis BZ : -1 <= Z <= bpow radix2 100.
  Lemma one_val : is_finite d1 = true /\ B2R d1 = 1.
  Proof. split; [reflexivity|]. rewrite <- ext_d1. symmetry. apply dext_finite. reflexivity. Qed.
  Lemma w_val : is_finite w = true /\ B2R w = rnd53 W /\ Rabs (B2R w) <= bpow radix2 101 /\ 0 <= B2R w.
  Proof.
    destruct one_val as [F1 V1]. assert (H : Rabs (B2R d1 + B2R z) <= bpow radix2 101).
    { rewrite V1. fold Z. assert (bpow radix2 101 = 2 * bpow radix2 100) by (rewrite twice; reflexivity). assert (1 <= bpow radix2 100) by (change 1 with (bpow radix2 0); apply bpow_le; lia). apply Rabs_le. lra. }
    destruct (add_val d1 z 101 ltac:(lia) F1 FZ H) as (A & B & C). fold w in A, B, C. rewrite V1 in B. fold Z in B. fold W in B. repeat split; auto. rewrite B. rewrite <- rnd_0. apply rnd_mono. unfold W. lra.
  Qed.
  Lemma square_val : is_finite square = true /\ B2R square = rnd53 (B2R w * B2R w) /\ Rabs (B2R square) <= bpow radix2 202 /\ 0 <= B2R square.
  Proof. destruct w_val as (A & _ & C & P). destruct (mul_val w w 101 101 ltac:(lia) A A C C) as (D & E & F). repeat split; auto. fold square in E. rewrite E, <- rnd_0. apply rnd_mono. nra. Qed.
  Lemma cube_val : is_finite cube = true /\ B2R cube = rnd53 (B2R square * B2R w) /\ Rabs (B2R cube) <= bpow radix2 303 /\ 0 <= B2R cube.
  Proof. destruct w_val as (A & _ & C & P). destruct square_val as (A' & _ & C' & P'). destruct (mul_val square w 202 101 ltac:(lia) A' A C' C) as (D & E & F). repeat split; auto. fold cube in E. rewrite E, <- rnd_0. apply rnd_mono. nra. Qed.
  Lemma terms_val : is_finite (dmul (dc_m p) cube) = true /\ B2R (dmul (dc_m p) cube) = rnd53 (M * B2R cube) /\ is_finite (dmul (dc_k p) square) = true /\ B2R (dmul (dc_k p) square) = rnd53 (K * B2R square) /\
    is_finite (dadd (dmul (dc_m p) cube) (dmul (dc_k p) square)) = true /\ B2R (dadd (dmul (dc_m p) cube) (dmul (dc_k p) square)) = rnd53 (B2R (dmul (dc_m p) cube) + B2R (dmul (dc_k p) square)) /\
    is_finite radicand = true /\ B2R radicand = rnd53 (B2R (dadd (dmul (dc_m p) cube) (dmul (dc_k p) square)) + L).
  Proof.
    destruct square_val as (A2 & _ & C2 & _). destruct cube_val as (A3 & _ & C3 & _).
    destruct (mul_val (dc_m p) cube 100 303 ltac:(lia) FM A3 BM C3) as (D1 & E1 & F1). destruct (mul_val (dc_k p) square 100 202 ltac:(lia) FK A2 BK C2) as (D2 & E2 & F2).
    assert (H : Rabs (B2R (dmul (dc_m p) cube) + B2R (dmul (dc_k p) square)) <= bpow radix2 404).
    { eapply Rle_trans; [apply Rabs_triang|]. replace (bpow radix2 404) with (2 * bpow radix2 403) by (rewrite twice; reflexivity). assert (H2 : bpow radix2 (100 + 202) <= bpow radix2 403) by (apply bpow_le; lia). assert (H1 : bpow radix2 (100 + 303) <= bpow radix2 403) by (apply bpow_le; lia). pose proof (Rle_trans _ _ _ F1 H1). pose proof (Rle_trans _ _ _ F2 H2). lra. }
    destruct (add_val _ _ 404 ltac:(lia) D1 D2 H) as (D3 & E3 & F3).
    assert (H' : Rabs (B2R (dadd (dmul (dc_m p) cube) (dmul (dc_k p) square)) + L) <= bpow radix2 405).
    { eapply Rle_trans; [apply Rabs_triang|]. replace (bpow radix2 405) with (2 * bpow radix2 404) by (rewrite twice; reflexivity). assert (bpow radix2 100 <= bpow radix2 404) by (apply bpow_le; lia). lra. }
    destruct (add_val _ _ 405 ltac:(lia) D3 FL H') as (D4 & E4 & F4). repeat split; auto.
  Qed.

  Hypothesis PZ : 0 <= Z.
  Hypothesis TM : M = 0 \/ bpow radix2 (-800) <= Rabs M. Hypothesis TK : K = 0 \/ bpow radix2 (-800) <= Rabs K.
  Lemma W_ge : 1 <= W. Proof. unfold W. lra. Qed.
  Lemma w_near : near 1 W W (B2R w).
  Proof.
    destruct w_val as (A & _). destruct one_val as [F1 V1]. pose proof W_ge. replace W with (1 + Z) at 1 2 by reflexivity. apply add_near; [exact A|rewrite Rabs_R1; lra|rewrite Rabs_pos_eq; lra|rewrite V1; apply near_refl; rewrite Rabs_R1; lra|apply near_refl; rewrite Rabs_pos_eq; fold Z; lra].
  Qed.
  Lemma w_ge1 : 1 <= B2R w.
  Proof. destruct w_val as (_ & -> & _). rewrite <- (rnd_format 1) at 1 by (apply (int_format 1); lia). apply rnd_mono, W_ge. Qed.
  Lemma square_ge1 : 1 <= B2R square.
  Proof. destruct square_val as (_ & -> & _). rewrite <- (rnd_format 1) at 1 by (apply (int_format 1); lia). apply rnd_mono. pose proof w_ge1. nra. Qed.
  Lemma cube_ge1 : 1 <= B2R cube.
  Proof. destruct cube_val as (_ & -> & _). rewrite <- (rnd_format 1) at 1 by (apply (int_format 1); lia). apply rnd_mono. pose proof w_ge1. pose proof square_ge1. nra. Qed.
  Lemma tiny1 : bpow radix2 (-1022) <= 1. Proof. change 1 with (bpow radix2 0). apply bpow_le. lia. Qed.
  Lemma square_near : near 3 (W * W) (W * W) (B2R square).
  Proof. destruct square_val as (A & _). pose proof W_ge. pose proof w_ge1. apply (mul_near 1 1); [exact A|rewrite Rabs_pos_eq; lra|rewrite Rabs_pos_eq; lra|exact w_near|exact w_near|right]. pose proof tiny1. rewrite Rabs_pos_eq; nra. Qed.
  Lemma cube_near : near 5 (W * W * W) (W * W * W) (B2R cube).
  Proof. destruct cube_val as (A & _). pose proof W_ge. pose proof w_ge1. pose proof square_ge1. apply (mul_near 3 1); [exact A|rewrite Rabs_pos_eq; nra|rewrite Rabs_pos_eq; lra|exact square_near|exact w_near|right]. pose proof tiny1. rewrite Rabs_pos_eq; nra. Qed.
  Lemma tiny_prod a b : (a = 0 \/ bpow radix2 (-800) <= Rabs a) -> 1 <= b -> a * b = 0 \/ bpow radix2 (-1022) <= Rabs (a * b).
  Proof. intros [->|H] B; [left; ring|right]. assert (bpow radix2 (-1022) <= bpow radix2 (-800)) by (apply bpow_le; lia). rewrite Rabs_mult, (Rabs_pos_eq b) by lra. pose proof (Rabs_pos a). nra. Qed.
  Lemma radicand_near : near 8 (Rabs M * (W * W * W) + Rabs K * (W * W) + Rabs L) (M * (W * W * W) + K * (W * W) + L) (B2R radicand).
  Proof.
    destruct terms_val as (A1 & _ & A2 & _ & A3 & _ & A4 & _). pose proof W_ge. assert (W2 : 1 <= W * W) by nra. assert (W3 : 1 <= W * W * W) by nra.
    apply (add_near 7); [exact A4| |apply Rle_refl| |apply near_refl, Rle_refl].
    - eapply Rle_trans; [apply Rabs_triang|]. rewrite !(Rabs_mult _ (W * W)), !(Rabs_mult _ (W * W * W)), (Rabs_pos_eq (W * W)), (Rabs_pos_eq (W * W * W)) by lra. lra.
    - apply (add_near 6); [exact A3|rewrite Rabs_mult, (Rabs_pos_eq (W * W * W)); lra|rewrite Rabs_mult, (Rabs_pos_eq (W * W)); lra| |].
      + apply (mul_near 0 5); [exact A1|fold M; lra|rewrite Rabs_pos_eq; lra|apply near_refl; fold M; lra|exact cube_near|]. fold M. apply tiny_prod; [exact TM|exact cube_ge1].
      + apply (near_more 4); [lia|pose proof (Rabs_pos K); nra|]. apply (mul_near 0 3); [exact A2|fold K; lra|rewrite Rabs_pos_eq; lra|apply near_refl; fold K; lra|exact square_near|]. fold K. apply tiny_prod; [exact TK|exact square_ge1].
  Qed.
End Rate.

Lemma gam_8 : gam 8 <= 9 * uro.
Proof. unfold gam. rewrite uro_val. cbn [pow]. lra. Qed.
(** The root of a number that is known up to rounding. *)
Lemma sqrt_error (x : double) R0 : is_finite x = true -> 0 <= R0 -> (R0 = 0 \/ bpow radix2 (-900) <= R0) -> Rabs (B2R x - R0) <= 27 * uro * R0 ->
  is_finite (dsqrt x) = true /\ Rabs (B2R (dsqrt x) - sqrt R0) <= bpow radix2 (-48) * sqrt R0.
Proof.
  intros F P T H. pose proof uro_pos as UP. pose proof uro_small as US. assert (U : 27 * uro <= / 2) by (rewrite uro_val; lra). apply Rabs_le_inv in H. assert (X0 : 0 <= B2R x) by nra. destruct (sqrt_val x F X0) as [FS VS]. split; [exact FS|]. rewrite VS.
  destruct T as [T|T].
  - subst R0. replace (B2R x) with 0 by lra. rewrite sqrt_0, rnd_0, Rminus_0_r, Rabs_R0. lra.
  - pose proof (bpow_gt_0 radix2 (-900)) as B9. assert (SR : 0 < sqrt R0) by (apply sqrt_lt_R0; lra). pose proof (sqrt_sqrt R0 P) as SS. pose proof (sqrt_sqrt (B2R x) X0) as SX. pose proof (sqrt_pos (B2R x)) as SXP.
    assert (D : Rabs (sqrt (B2R x) - sqrt R0) <= 27 * uro * sqrt R0).
    { apply Rmult_le_reg_r with (sqrt R0); [exact SR|]. assert (Q : Rabs (sqrt (B2R x) - sqrt R0) * (sqrt (B2R x) + sqrt R0) = Rabs (B2R x - R0)).
      { rewrite <- (Rabs_pos_eq (sqrt (B2R x) + sqrt R0)) by lra. rewrite <- Rabs_mult. f_equal. replace (B2R x - R0) with (sqrt (B2R x) * sqrt (B2R x) - sqrt R0 * sqrt R0) by lra. ring. }
      assert (Q2 : Rabs (B2R x - R0) <= 27 * uro * (sqrt R0 * sqrt R0)) by (rewrite SS; apply Rabs_le; lra). pose proof (Rabs_pos (sqrt (B2R x) - sqrt R0)). nra. }
    assert (BIG : bpow radix2 (-1022) <= Rabs (sqrt (B2R x))).
    { rewrite Rabs_pos_eq by lra. apply Rle_trans with (sqrt (B2R x)); [|lra]. assert (X9 : bpow radix2 (-902) <= B2R x) by (replace (bpow radix2 (-900)) with (4 * bpow radix2 (-902)) in T by (change 4 with (bpow radix2 2); rewrite <- bpow_plus; reflexivity); pose proof (bpow_gt_0 radix2 (-902)); nra).
      apply Rle_trans with (bpow radix2 (-451)); [apply bpow_le; lia|]. rewrite <- (sqrt_square (bpow radix2 (-451))) by apply bpow_ge_0. rewrite <- bpow_plus. apply sqrt_le_1_alt. exact X9. }
    destruct (rnd_rel _ BIG) as (e & E1 & E2). rewrite E2. replace (sqrt (B2R x) * (1 + e) - sqrt R0) with ((sqrt (B2R x) - sqrt R0) + sqrt (B2R x) * e) by ring.
    eapply Rle_trans; [apply Rabs_triang|]. rewrite Rabs_mult, (Rabs_pos_eq (sqrt (B2R x))) by lra. apply Rabs_le_inv in D.
    assert (B48 : bpow radix2 (-48) = 32 * uro) by (unfold uro; change 32 with (bpow radix2 5); rewrite <- bpow_plus; reflexivity). rewrite B48.
    assert (A1 : Rabs (sqrt (B2R x) - sqrt R0) <= 27 * uro * sqrt R0) by (apply Rabs_le; lra). assert (A2 : sqrt (B2R x) <= 2 * sqrt R0) by nra.
    assert (A3 : sqrt (B2R x) * Rabs e <= 2 * sqrt R0 * uro) by (apply Rmult_le_compat; try lra; apply Rabs_pos). nra.
Qed.
