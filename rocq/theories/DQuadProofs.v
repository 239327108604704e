(** Where the numerical integration evaluates the function, in double precision. *)
From Coq Require Import ZArith Reals List Arith Bool Lia Lra Psatz.
From Flocq Require Import Core IEEE754.BinarySingleNaN.
From Verif Require Import Common FloatModel FloatProofs DoubleProofs DoubleProofs2 DInterpModel DInterpSpec DInterpProofs DInterpProofs2
  DSOMProofs DSOMProofs2 DSplineModel DSplineSpec DSplineProofs DSplineProofs3 DSplineProofs4 DSplineProofs5 DQuadModel DQuadSpec.
Import ListNotations.
Local Open Scope R_scope.

Lemma dint_val n : (Z.of_nat n <= 2 ^ 53)%Z -> is_finite (dint n) = true /\ B2R (dint n) = INR n.
Proof. intros H. unfold dint. rewrite INR_IZR_INZ. apply d2_int. rewrite Z.abs_eq; lia. Qed.
Lemma pow30 k : (k <= 30)%nat -> (8 <= Z.of_nat (2 ^ (3 + k)))%Z.
Proof. intros H. rewrite Nat.pow_add_r. change (2 ^ 3)%nat with 8%nat. pose proof (Nat.pow_nonzero 2 k ltac:(lia)). lia. Qed.

(** [r] times the exact value [x], with [r] close to 1. *)
Definition scaled (n : nat) (x y : R) : Prop := exists e, Rabs e <= gam n /\ y = x * (1 + e).
Lemma scaled_near n x y : scaled n x y <-> near n (Rabs x) x y.
Proof.
  unfold scaled, near. split.
  - intros (e & E & ->). replace (x * (1 + e) - x) with (x * e) by ring. rewrite Rabs_mult. pose proof (Rabs_pos x). nra.
  - intros H. destruct (Req_dec x 0) as [->|N].
    + rewrite Rabs_R0, Rmult_0_r in H. exists 0. rewrite Rabs_R0. split; [apply gam_pos|]. assert (Rabs (y - 0) = 0) by (pose proof (Rabs_pos (y - 0)); lra).
      pose proof (Rabs_no_R0 (y - 0)). destruct (Req_dec (y - 0) 0); [lra|tauto].
    + exists ((y - x) / x). split; [|field; exact N]. unfold Rdiv. rewrite Rabs_mult, Rabs_inv. pose proof (Rabs_pos_lt x N).
      apply (Rmult_le_reg_r (Rabs x)); [assumption|]. rewrite Rmult_assoc, Rinv_l by lra. lra.
Qed.

Lemma rnd_abs_le r (x : double) : Rabs r <= Rabs (B2R x) -> Rabs (rnd53 r) <= Rabs (B2R x).
Proof.
  intros H. apply abs_round_le_generic; [apply fexp_correct; reflexivity|apply valid_rnd_N| |exact H].
  apply generic_format_abs. apply generic_format_B2R.
Qed.
Lemma compose_rel x y z n m (e d : R) : Rabs e <= gam n -> Rabs d <= gam m -> y = x * (1 + e) -> z = y * (1 + d) -> scaled (n + m) x z.
Proof.
  intros E D -> ->. exists (e + d + e * d). split; [|ring]. rewrite <- gam_add. pose proof (Rabs_triang (e + d) (e * d)). pose proof (Rabs_triang e d). rewrite Rabs_mult in *.
  pose proof (Rabs_pos e). pose proof (Rabs_pos d). assert (Rabs e * Rabs d <= gam n * gam m) by (apply Rmult_le_compat; assumption). lra.
Qed.

Section Range.
  Variables (a b : double) (N : nat).
  Hypothesis U : usual_range a b.
  Hypothesis HN : (8 <= Z.of_nat N <= 2 ^ 30)%Z.
  Let h := ddiv (dsub b a) (dint N).
  Let w := B2R b - B2R a.
  Lemma N_R : 8 <= INR N <= bpow radix2 30.
  Proof. rewrite INR_IZR_INZ. change (bpow radix2 30) with (IZR (2 ^ 30)). split; apply IZR_le; lia. Qed.
  Lemma N_fin : is_finite (dint N) = true /\ B2R (dint N) = INR N.
  Proof. apply dint_val. lia. Qed.
  Lemma diff_scaled : scaled 1 w (B2R (dsub b a)).
  Proof.
    destruct U as (FA & FB & FD & _). destruct (sub_rel b a FB FA FD) as (e & E & EQ). exists e. rewrite gam_1. split; assumption.
  Qed.
  Lemma w_cases : w = 0 \/ bpow radix2 (-990) <= Rabs w.
  Proof. destruct U as (_ & _ & _ & [H|H]); [left; unfold w; lra|right; exact H]. Qed.
  Lemma gam1_half : gam 1 <= / 2. Proof. rewrite gam_1, uro_val. lra. Qed.
  (** The step *)
  Lemma gam2_small : gam 2 <= / 1000000.
  Proof. pose proof (gam_small 2 2 ltac:(lia) ltac:(cbn; lra)). rewrite uro_val in *. lra. Qed.
  (** The step *)
  Lemma step_D : is_finite h = true /\ scaled 1 (B2R (dsub b a) / INR N) (B2R h).
  Proof.
    destruct U as (FA & FB & FD & _). destruct N_fin as (FN & VN). destruct N_R as [N1 N2].
    assert (E0 : ext (dint N) <> 0) by (rewrite dext_finite, VN by exact FN; lra).
    destruct (ddiv_ext _ _ FD FN E0) as [NH EH]. rewrite (dext_finite _ FD), (dext_finite _ FN), VN in EH.
    assert (FH : is_finite h = true).
    { apply (rnd_finite h _ NH EH). apply Rle_lt_trans with (Rabs (B2R (dsub b a))).
      - apply rnd_abs_le. unfold Rdiv. rewrite Rabs_mult, Rabs_inv, (Rabs_pos_eq (INR N)) by lra.
        pose proof (Rabs_pos (B2R (dsub b a))). assert (/ INR N <= 1) by (rewrite <- Rinv_1; apply Rinv_le; lra). nra.
      - pose proof (dext_lt _ FD). rewrite (dext_finite _ FD) in H. apply Rabs_def1; lra. }
    split; [exact FH|]. apply (finite_rnd _ _ FH) in EH. rewrite EH.
    destruct diff_scaled as (e & E & ED).
    destruct w_cases as [W|W].
    - rewrite ED, W. exists 0. rewrite Rabs_R0. split; [apply gam_pos|]. replace (0 * (1 + e) / INR N) with 0 by (field; lra). rewrite rnd_0. field; lra.
    - assert (B : bpow radix2 (-1022) <= Rabs (B2R (dsub b a) / INR N)).
      { rewrite ED. unfold Rdiv. rewrite !Rabs_mult, Rabs_inv, (Rabs_pos_eq (INR N)) by lra.
        assert (/ 2 <= Rabs (1 + e)). { pose proof gam1_half. rewrite Rabs_pos_eq; apply Rabs_le_inv in E; lra. }
        assert (bpow radix2 (-30) <= / INR N). { change (bpow radix2 (-30)) with (/ bpow radix2 30). apply Rinv_le; lra. }
        apply Rle_trans with (bpow radix2 (-990) * bpow radix2 (-1) * bpow radix2 (-30)).
        - rewrite <- !bpow_plus. apply bpow_le. lia.
        - change (bpow radix2 (-1)) with (/ 2). pose proof (bpow_gt_0 radix2 (-990)). pose proof (bpow_gt_0 radix2 (-30)).
          apply Rmult_le_compat; [nra|lra| |assumption]. apply Rmult_le_compat; lra. }
      destruct (rnd_rel _ B) as (d & D & R). exists d. rewrite gam_1. split; assumption.
  Qed.
  Lemma step_scaled : is_finite h = true /\ scaled 2 (w / INR N) (B2R h).
  Proof.
    destruct step_D as (FH & d & D & EH). split; [exact FH|]. destruct diff_scaled as (e & E & ED). destruct N_R as [N1 N2].
    apply (compose_rel _ (B2R (dsub b a) / INR N) _ 1 1 e d E D); [rewrite ED; field; lra|exact EH].
  Qed.
  Lemma ratio_one k (d : R) : 0 <= k <= INR N - 1 -> Rabs d <= / 1000000000000 -> 0 <= k / INR N * (1 + d) <= 1 /\ Rabs (k / INR N * (1 + d)) <= 1.
  Proof.
    intros K D. destruct N_R as [N1 N2]. apply Rabs_le_inv in D.
    assert (Q1 : 0 <= k / INR N) by (apply Rmult_le_pos; [lra|left; apply Rinv_0_lt_compat; lra]).
    assert (Q2 : k / INR N <= 1 - / bpow radix2 30).
    { assert (/ bpow radix2 30 <= / INR N) by (apply Rinv_le; lra). apply Rle_trans with (1 - / INR N); [|lra].
      replace (1 - / INR N) with ((INR N - 1) / INR N) by (field; lra). unfold Rdiv. apply Rmult_le_compat_r; [left; apply Rinv_0_lt_compat; lra|lra]. }
    change (bpow radix2 30) with 1073741824 in Q2. assert (0 <= k / INR N * (1 + d) <= 1) by nra. split; [assumption|]. rewrite Rabs_pos_eq; lra.
  Qed.
  Lemma step_mult k : (k < N)%nat -> is_finite (dmul (dint k) h) = true /\ scaled 3 (INR k * (w / INR N)) (B2R (dmul (dint k) h)).
  Proof.
    intros K. destruct step_scaled as (FH & e & E & EH). destruct (dint_val k ltac:(lia)) as (FK & VK). destruct N_R as [N1 N2].
    destruct (dmul_ext _ _ FK FH) as [NM EM]. rewrite (dext_finite _ FK), (dext_finite _ FH), VK in EM.
    assert (KN : 0 <= INR k <= INR N - 1).
    { split; [apply pos_INR|]. assert (INR (S k) <= INR N) by (apply le_INR; lia). rewrite S_INR in *. lra. }
    pose proof gam2_small as G2.
    assert (FM : is_finite (dmul (dint k) h) = true).
    { apply (rnd_finite _ _ NM EM). destruct step_D as (_ & d & D & EHD). destruct U as (_ & _ & FD & _).
      apply Rle_lt_trans with (Rabs (B2R (dsub b a))).
      - apply rnd_abs_le. rewrite EHD. replace (INR k * (B2R (dsub b a) / INR N * (1 + d))) with (B2R (dsub b a) * (INR k / INR N * (1 + d))) by (field; lra).
        rewrite Rabs_mult. pose proof (Rabs_pos (B2R (dsub b a))). assert (Q : Rabs (INR k / INR N * (1 + d)) <= 1); [|nra].
        apply ratio_one; [exact KN|]. rewrite gam_1, uro_val in D. lra.
      - pose proof (dext_lt _ FD). rewrite (dext_finite _ FD) in H. apply Rabs_def1; lra. }
    split; [exact FM|]. apply (finite_rnd _ _ FM) in EM. rewrite EM, EH. destruct w_cases as [W|W].
    - rewrite W. exists 0. rewrite Rabs_R0. split; [apply gam_pos|]. replace (INR k * (0 / INR N * (1 + e))) with 0 by (field; lra). rewrite rnd_0. field; lra.
    - destruct (Nat.eq_dec k 0) as [->|K0]; [cbn [INR]; rewrite !Rmult_0_l, rnd_0; exists 0; rewrite Rabs_R0; split; [apply gam_pos|ring]|].
      assert (K1 : 1 <= INR k) by (change 1 with (INR 1); apply le_INR; lia).
      assert (B : bpow radix2 (-1022) <= Rabs (INR k * (w / INR N * (1 + e)))).
      { unfold Rdiv. rewrite !Rabs_mult, Rabs_inv, (Rabs_pos_eq (INR N)), (Rabs_pos_eq (INR k)) by lra.
        assert (/ 2 <= Rabs (1 + e)). { rewrite Rabs_pos_eq; apply Rabs_le_inv in E; lra. }
        assert (bpow radix2 (-30) <= / INR N). { change (bpow radix2 (-30)) with (/ bpow radix2 30). apply Rinv_le; lra. }
        apply Rle_trans with (1 * (bpow radix2 (-990) * bpow radix2 (-30) * bpow radix2 (-1))).
        - rewrite Rmult_1_l, <- !bpow_plus. apply bpow_le. lia.
        - change (bpow radix2 (-1)) with (/ 2). pose proof (bpow_gt_0 radix2 (-990)). pose proof (bpow_gt_0 radix2 (-30)).
          apply Rmult_le_compat; [lra|nra|lra|]. apply Rmult_le_compat; [nra|lra| |assumption]. apply Rmult_le_compat; lra. }
      destruct (rnd_rel _ B) as (d & D & ->). rewrite <- gam_1 in D. apply (compose_rel _ (INR k * (w / INR N * (1 + e))) _ 2 1 e d E D); ring.
  Qed.

  Lemma blend q : 0 <= q <= 1 -> Rmin (B2R a) (B2R b) <= B2R a + q * w <= Rmax (B2R a) (B2R b).
  Proof. intros Q. unfold w, Rmin, Rmax. destruct (Rle_dec (B2R a) (B2R b)); split; nra. Qed.
  Lemma between_of (x : double) r : num x -> ext x = crd r -> Rmin (B2R a) (B2R b) <= r <= Rmax (B2R a) (B2R b) -> is_finite x = true /\ lies_between a b x.
  Proof.
    intros NX EX [R1 R2]. destruct U as (FA & FB & _). pose proof (dfinite_num a FA) as NA. pose proof (dfinite_num b FB) as NB.
    rewrite <- (dext_finite a FA), <- (dext_finite b FB) in R1, R2.
    assert (C : (ext a <= ext x <= ext b) \/ (ext b <= ext x <= ext a)).
    { rewrite EX. rewrite <- (crd_ext a), <- (crd_ext b). unfold Rmin, Rmax in *. destruct (Rle_dec (ext a) (ext b)); [left|right]; split; apply crd_mono; assumption. }
    split.
    - apply (dfinite_iff x NX). pose proof (dext_lt a FA). pose proof (dext_lt b FB). lra.
    - destruct C as [[C1 C2]|[C1 C2]]; [left|right]; split; apply dle_iff; assumption.
  Qed.
  Lemma sizes_bound r : Rmin (B2R a) (B2R b) <= r <= Rmax (B2R a) (B2R b) -> Rabs r <= Rabs (B2R a) + Rabs (B2R b).
  Proof. unfold Rmin, Rmax. intros [R1 R2]. unfold Rabs. repeat destruct (Rcase_abs _); destruct (Rle_dec (B2R a) (B2R b)); lra. Qed.
  Lemma place_up (z : double) q : is_finite z = true -> B2R z = q * w -> 0 <= q <= 1 ->
    lies_between a b (dadd a z) /\ Rabs (B2R (dadd a z) - (B2R a + q * w)) <= uro * (Rabs (B2R a) + Rabs (B2R b)).
  Proof.
    intros FZ EZ Q. destruct U as (FA & FB & _). destruct (dadd_ext a z FA FZ) as [NX EX]. rewrite (dext_finite a FA), (dext_finite z FZ), EZ in EX.
    pose proof (blend q Q) as BL. destruct (between_of _ _ NX EX BL) as [FX BX]. split; [exact BX|].
    destruct (add_rel a z FA FZ FX) as (e & E & ->). rewrite EZ. replace ((B2R a + q * w) * (1 + e) - (B2R a + q * w)) with ((B2R a + q * w) * e) by ring.
    rewrite Rabs_mult, Rmult_comm. apply Rmult_le_compat; auto using Rabs_pos. apply sizes_bound, BL.
  Qed.
  Lemma place_down (z : double) q : is_finite z = true -> B2R z = q * w -> 0 <= q <= 1 ->
    lies_between a b (dsub b z) /\ Rabs (B2R (dsub b z) - (B2R b - q * w)) <= uro * (Rabs (B2R a) + Rabs (B2R b)).
  Proof.
    intros FZ EZ Q. destruct U as (FA & FB & _). destruct (dsub_ext b z FB FZ) as [NX EX]. rewrite (dext_finite b FB), (dext_finite z FZ), EZ in EX.
    pose proof (blend (1 - q) ltac:(lra)) as BL. replace (B2R a + (1 - q) * w) with (B2R b - q * w) in BL by (unfold w; ring).
    destruct (between_of _ _ NX EX BL) as [FX BX]. split; [exact BX|].
    destruct (sub_rel b z FB FZ FX) as (e & E & ->). rewrite EZ. replace ((B2R b - q * w) * (1 + e) - (B2R b - q * w)) with ((B2R b - q * w) * e) by ring.
    rewrite Rabs_mult, Rmult_comm. apply Rmult_le_compat; auto using Rabs_pos. apply sizes_bound, BL.
  Qed.
  Lemma gam3_small : gam 3 <= 4 * uro /\ gam 3 <= / 1000000000000.
  Proof. pose proof (gam_small 3 3 ltac:(lia) ltac:(cbn; lra)). pose proof uro_pos. split; [nra|]. rewrite uro_val in *. lra. Qed.
  Lemma w_size : Rabs w <= Rabs (B2R a) + Rabs (B2R b).
  Proof. unfold w. pose proof (Rabs_triang (B2R b) (- B2R a)). rewrite Rabs_Ropp in *. unfold Rminus. lra. Qed.
  Lemma multiple_of (z : double) k : (k < N)%nat -> scaled 3 (INR k * (w / INR N)) (B2R z) ->
    exists q, 0 <= q <= 1 /\ B2R z = q * w /\ Rabs (q * w - INR k * (w / INR N)) <= 4 * uro * (Rabs (B2R a) + Rabs (B2R b)).
  Proof.
    intros K (e & E & EZ). destruct N_R as [N1 N2]. destruct gam3_small as [G1 G2].
    assert (KN : 0 <= INR k <= INR N - 1).
    { split; [apply pos_INR|]. assert (INR (S k) <= INR N) by (apply le_INR; lia). rewrite S_INR in *. lra. }
    destruct (ratio_one (INR k) e KN ltac:(lra)) as [Q _]. destruct (ratio_one (INR k) 0 KN ltac:(rewrite Rabs_R0; lra)) as [Q0 _].
    exists (INR k / INR N * (1 + e)). split; [exact Q|]. split; [rewrite EZ; field; lra|].
    replace (INR k / INR N * (1 + e) * w - INR k * (w / INR N)) with (INR k / INR N * (1 + 0) * e * w) by (field; lra).
    rewrite !Rabs_mult, <- Rabs_mult. rewrite (Rabs_pos_eq (INR k / INR N * (1 + 0))) by lra. pose proof w_size. pose proof (Rabs_pos w). pose proof (Rabs_pos e). pose proof uro_pos.
    apply Rmult_le_compat; [nra|assumption| |assumption]. nra.
  Qed.
  Lemma mesh_of_up (z : double) k : (k < N)%nat -> is_finite z = true -> scaled 3 (INR k * (w / INR N)) (B2R z) -> mesh_double a b N k (dadd a z).
  Proof.
    intros K FZ SZ. destruct (multiple_of z k K SZ) as (q & Q & EZ & B). destruct (place_up z q FZ EZ Q) as [L E]. split; [exact L|]. unfold mesh. fold w. fold uro.
    replace (B2R (dadd a z) - (B2R a + INR k * (w / INR N))) with ((B2R (dadd a z) - (B2R a + q * w)) + (q * w - INR k * (w / INR N))) by ring.
    apply Rle_trans with (1 := Rabs_triang _ _). lra.
  Qed.
  Lemma mesh_of_down (z : double) k : (k < N)%nat -> is_finite z = true -> scaled 3 (INR k * (w / INR N)) (B2R z) -> mesh_double a b N (N - k) (dsub b z).
  Proof.
    intros K FZ SZ. destruct (multiple_of z k K SZ) as (q & Q & EZ & B). destruct (place_down z q FZ EZ Q) as [L E]. split; [exact L|]. unfold mesh. fold w. fold uro.
    destruct N_R as [N1 N2]. rewrite minus_INR by lia.
    replace (B2R (dsub b z) - (B2R a + (INR N - INR k) * (w / INR N))) with ((B2R (dsub b z) - (B2R b - q * w)) - (q * w - INR k * (w / INR N))) by (unfold w; field; lra).
    unfold Rminus at 1. apply Rle_trans with (1 := Rabs_triang _ _). rewrite Rabs_Ropp. lra.
  Qed.
  Lemma scaled_more n m x y : (n <= m)%nat -> scaled n x y -> scaled m x y.
  Proof. intros H (e & E & EQ). exists e. split; [|exact EQ]. pose proof (gam_mono n m H). lra. Qed.
  Lemma one_step : is_finite h = true /\ scaled 3 (INR 1 * (w / INR N)) (B2R h).
  Proof. destruct step_scaled as (F & S). split; [exact F|]. cbn [INR]. rewrite Rmult_1_l. apply (scaled_more 2); [lia|exact S]. Qed.
  (** The points where the function is evaluated *)
  Lemma mesh_up k : (k < N)%nat -> mesh_double a b N k (dadd a (dmul (dint k) h)).
  Proof. intros K. destruct (step_mult k K) as (F & S). apply mesh_of_up; assumption. Qed.
  Lemma mesh_down k : (k < N)%nat -> mesh_double a b N (N - k) (dsub b (dmul (dint k) h)).
  Proof. intros K. destruct (step_mult k K) as (F & S). apply mesh_of_down; assumption. Qed.
  Lemma mesh_up1 : mesh_double a b N 1 (dadd a h).
  Proof. destruct one_step as (F & S). apply mesh_of_up; [lia|assumption|assumption]. Qed.
  Lemma mesh_down1 : mesh_double a b N (N - 1) (dsub b h).
  Proof. destruct one_step as (F & S). apply mesh_of_down; [lia|assumption|assumption]. Qed.
  Lemma ends_between : lies_between a b a /\ lies_between a b b.
  Proof.
    destruct U as (FA & FB & _). pose proof (dfinite_num a FA) as NA. pose proof (dfinite_num b FB) as NB.
    destruct (Rle_lt_dec (ext a) (ext b)); split; [left|left|right|right]; split; apply dle_iff; auto; lra.
  Qed.
  Lemma mesh_ends : mesh_double a b N 0 a /\ mesh_double a b N N b.
  Proof.
    destruct ends_between as [EA EB]. destruct N_R as [N1 N2]. pose proof (Rabs_pos (B2R a)). pose proof (Rabs_pos (B2R b)). pose proof (bpow_gt_0 radix2 (-53)).
    split; (split; [assumption|]); unfold mesh.
    - cbn [INR]. replace (B2R a - (B2R a + 0 * ((B2R b - B2R a) / INR N))) with 0 by ring. rewrite Rabs_R0. nra.
    - replace (B2R b - (B2R a + INR N * ((B2R b - B2R a) / INR N))) with 0 by (field; lra). rewrite Rabs_R0. nra.
  Qed.
End Range.

(** ** What the function is outside of the range does not matter *)
Lemma dsum_ext g g' : forall n i s, (forall k, (i <= k < i + n)%nat -> g k = g' k) -> dsum_loop g i n s = dsum_loop g' i n s.
Proof. induction n as [|n IH]; intros i s H; [reflexivity|]. cbn [dsum_loop]. rewrite (H i) by lia. apply IH. intros k K. apply H. lia. Qed.
Lemma steps_range order N : (3 <= order)%Z -> dsteps order = Ok N -> (8 <= Z.of_nat N <= 2 ^ 30)%Z /\ N = (2 ^ Z.to_nat order)%nat /\ (order <= 30)%Z.
Proof.
  intros O H. unfold dsteps in H. destruct (Z.ltb_spec 30 order); [discriminate|]. injection H as <-. rewrite Nat2Z.inj_pow. change (Z.of_nat 2) with 2%Z. rewrite Z2Nat.id by lia.
  split; [|split; [reflexivity|lia]]. split; [change 8%Z with (2 ^ 3)%Z|]; apply Z.pow_le_mono_r; lia.
Qed.
Lemma simpson_ext f g a b order : usual_range a b -> (forall x, lies_between a b x -> f x = g x) -> dsimpson f a b order = dsimpson g a b order.
Proof.
  intros U H. unfold dsimpson. destruct (Z.ltb_spec order 3); [reflexivity|]. destruct (dsteps order) as [N| | |] eqn:EN; [|reflexivity..]. cbn [bind].
  destruct (steps_range order N ltac:(lia) EN) as [HN _]. pose proof (mesh_up a b N U HN) as MU. pose proof (mesh_down a b N U HN) as MD.
  pose proof (mesh_up1 a b N U HN) as MU1. pose proof (mesh_down1 a b N U HN) as MD1. destruct (ends_between a b U) as [EA EB].
  cbv zeta in MU, MD, MU1, MD1. 
  rewrite (dsum_ext (fun i => f _) (fun i => g (dadd a (dmul (dint i) (ddiv (dsub b a) (dint N)))))) by (intros k K; apply H, MU; lia).
  rewrite (H a EA), (H b EB), (H _ (proj1 MU1)), (H _ (proj1 MD1)), (H _ (proj1 (MU 2%nat ltac:(lia)))), (H _ (proj1 (MD 2%nat ltac:(lia)))). reflexivity.
Qed.
Lemma next_ext f g a b previous order : usual_range a b -> (forall x, lies_between a b x -> f x = g x) -> dsimpson_next f a b previous order = dsimpson_next g a b previous order.
Proof.
  intros U H. unfold dsimpson_next. destruct (Z.ltb_spec order 4) as [|O]; [reflexivity|]. destruct (dsteps order) as [N| | |] eqn:EN; [|reflexivity..]. cbn [bind].
  destruct (steps_range order N ltac:(lia) EN) as [HN _]. pose proof (mesh_up a b N U HN) as MU. pose proof (mesh_down a b N U HN) as MD.
  pose proof (mesh_up1 a b N U HN) as MU1. pose proof (mesh_down1 a b N U HN) as MD1.
  cbv zeta in MU, MD, MU1, MD1. 
  rewrite (dsum_ext (fun j => f _) (fun j => g (dadd a (dmul (dint (2 * j + 1)) (ddiv (dsub b a) (dint N)))))).
  2:{ intros k K. apply H, MU. pose proof (Nat.div_mod N 2 ltac:(lia)). lia. }
  rewrite (H _ (proj1 MU1)), (H _ (proj1 MD1)), (H _ (proj1 (MU 2%nat ltac:(lia)))), (H _ (proj1 (MD 2%nat ltac:(lia)))), (H _ (proj1 (MU 4%nat ltac:(lia)))), (H _ (proj1 (MD 4%nat ltac:(lia)))). reflexivity.
Qed.
Lemma refine_ext f g a b : usual_range a b -> (forall x, lies_between a b x -> f x = g x) -> forall fuel p m v, drefine fuel f a b p m v = drefine fuel g a b p m v.
Proof.
  intros U H. induction fuel as [|fuel IH]; intros p m v; [reflexivity|]. cbn [drefine]. rewrite (next_ext f g) by assumption.
  destruct (dsimpson_next g a b v (m + 1)) as [w| | |]; [|reflexivity..]. cbn [bind]. rewrite IH. reflexivity.
Qed.
Lemma adaptive_ext f g a b p m : usual_range a b -> (forall x, lies_between a b x -> f x = g x) -> dadaptive f a b p m = dadaptive g a b p m.
Proof.
  intros U H. unfold dadaptive. rewrite (simpson_ext f g) by assumption. destruct (dsimpson g a b m); cbn [bind]; [|reflexivity..]. apply refine_ext; assumption.
Qed.
