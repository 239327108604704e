(** C151: linear interpolation of points in double precision. *)
From Coq Require Import ZArith Reals List Bool Arith Lia Lra.
From Flocq Require Import Core IEEE754.BinarySingleNaN.
From Verif Require Import Common CumulModel FloatModel FloatProofs DoubleProofs DoubleProofs2 DInterpModel DInterpSpec DInterpProofs DInterpProofs2.
Import ListNotations.
Local Open Scope R_scope.

(** v is the value at x of the function returned by interpolate(xs, ys, LINEAR, ex), or
    the number returned by simple_interpolation(x, xs, ys, ex). *)
Definition gives (xs ys : list double) (ex : bool) (x v : double) : Prop :=
  (exists f, dinterpolate xs ys ex = Ok f /\ deval f x = Ok v) \/ dsimple_interpolation x xs ys ex = Ok v.

(** Both return for every finite argument. Without extrapolation the value is 0 out of
    the range of the points; in every other case it is that of the line through the two
    points around the argument, computed step by step. *)
Theorem C151_value xs ys ex : good_points xs ys ->
  exists f, dinterpolate xs ys ex = Ok f /\
    (forall x, is_finite x = true -> exists v w, deval f x = Ok v /\ dsimple_interpolation x xs ys ex = Ok w) /\
    (forall i x0 y0 x1 y1 x, neighbours xs ys i x0 y0 x1 y1 -> is_finite x = true -> falls_in ex (length xs) i x0 x1 x ->
       exists v, deval f x = Ok v /\ same_value v (computed_line x0 y0 x1 y1 x)) /\
    (forall i x0 y0 x1 y1 x, neighbours xs ys i x0 y0 x1 y1 -> is_finite x = true -> falls_right ex (length xs) i x0 x1 x ->
       dsimple_interpolation x xs ys ex = Ok (computed_line x0 y0 x1 y1 x)) /\
    (forall x, ex = false -> is_finite x = true -> out_of_range xs x -> deval f x = Ok d0 /\ dsimple_interpolation x xs ys ex = Ok d0).
Proof.
  intros G. pose proof G as (L & N & A & F). eexists. split; [apply interpolate_ok, G|]. cbn [deval].
  assert (OUT : forall x, ex = false -> is_finite x = true -> out_of_range xs x -> dpiecewise (if ex then dreplace_ends xs else xs) (dlinear_pieces xs ys) x = Ok d0 /\ dsimple_interpolation x xs ys ex = Ok d0).
  { intros x -> FX (first & last_ & H0 & H1 & O). split; [eapply value_out; eassumption|]. unfold dsimple_interpolation. destruct xs as [|front r]; [discriminate H0|]. cbn [nth_error] in H0. injection H0 as ->. set (xs := first :: r) in *.
    rewrite (proj2 (Nat.eqb_eq _ _) L). cbn [negb]. replace (length xs =? 1)%nat with false by (symmetry; apply Nat.eqb_neq; lia).
    assert (LA : last xs first = last_). { pose proof (last_nth xs first ltac:(discriminate)). congruence. }
    destruct O as [O|O].
    - unfold xs at 1. cbn [count_while]. rewrite O. reflexivity.
    - assert (C : count_while (fun k => negb (dlt x k)) xs = length xs).
      { destruct (CumulProofs.count_while_spec (fun k => negb (dlt x k)) xs) as (K1 & K2 & K3). destruct (nth_error xs (count_while (fun k => negb (dlt x k)) xs)) as [v|] eqn:V.
        - specialize (K3 v eq_refl). cbn in K3. apply negb_false_iff in K3. assert (J : (count_while (fun k => negb (dlt x k)) xs < length xs)%nat) by (apply nth_error_Some; congruence).
          assert (Q : dlt v x = true). { destruct (Nat.eq_dec (count_while (fun k => negb (dlt x k)) xs) (length xs - 1)) as [Q|Q]; [congruence|]. apply le_lt_trans with last_; [|exact O]. apply dlt_le. eapply (asc_lt' xs); [exact A| |exact V|exact H1]. lia. }
          rewrite (dlt_not_lt _ _ Q) in K3. discriminate.
        - apply nth_error_None in V. lia. }
      rewrite C. replace (length xs =? 0)%nat with false by (symmetry; apply Nat.eqb_neq; lia). cbn [andb]. rewrite Nat.eqb_refl, LA, O. reflexivity. }
  split; [|split; [|split; [|exact OUT]]].
  - intros x FX. destruct (nth_error xs 0) as [first|] eqn:H0; [|apply nth_error_None in H0; lia]. destruct (nth_error xs (length xs - 1)) as [last_|] eqn:H1; [|apply nth_error_None in H1; lia].
    assert (NX : num x) by (apply dfinite_num, FX). assert (NF : num first) by (apply dfinite_num, (fin_at _ _ _ F H0)). assert (NL : num last_) by (apply dfinite_num, (fin_at _ _ _ F H1)).
    assert (D : (ex = true \/ (dle first x = true /\ dle x last_ = true)) \/ (ex = false /\ out_of_range xs x)).
    { destruct ex; [auto|]. destruct (dle first x) eqn:B1; [destruct (dle x last_) eqn:B2; [auto|]|]; right; split; auto; exists first, last_; repeat split; auto.
      - right. apply dlt_iff; auto. apply dle_no in B2; auto.
      - left. apply dlt_iff; auto. apply dle_no in B1; auto. }
    destruct D as [IN|[-> O]].
    + destruct (interval_of xs x first last_ ex N A F NX H0 H1 IN) as (i & x0 & x1 & E0 & E1 & FI). destruct (ordinate_at xs ys i x0 L E0) as [y0 Y0]. destruct (ordinate_at xs ys (S i) x1 L E1) as [y1 Y1].
      destruct (value_in xs ys ex i x0 y0 x1 y1 x G) as (v & V & _); auto; [repeat split; assumption|].
      destruct (interval_right xs x first last_ ex N A F NX H0 H1 IN) as (j & u0 & u1 & P0 & P1 & FJ). destruct (ordinate_at xs ys j u0 L P0) as [w0 W0]. destruct (ordinate_at xs ys (S j) u1 L P1) as [w1 W1].
      exists v, (computed_line u0 w0 u1 w1 x). split; [exact V|]. apply (simple_value xs ys ex j u0 w0 u1 w1 x G); auto. repeat split; assumption.
    + destruct (OUT x eq_refl FX O) as [V W]. eauto.
  - intros i x0 y0 x1 y1 x NB FX FI. apply (value_in xs ys ex i x0 y0 x1 y1 x); assumption.
  - intros i x0 y0 x1 y1 x NB FX FI. apply (simple_value xs ys ex i x0 y0 x1 y1 x); auto. apply dfinite_num, FX.
Qed.
Print Assumptions C151_value.

(** The line used for an argument that has one. *)
Lemma used_line xs ys ex x v : good_points xs ys -> is_finite x = true -> ex = true \/ in_range xs x -> gives xs ys ex x v ->
  exists i x0 y0 x1 y1, neighbours xs ys i x0 y0 x1 y1 /\ covers ex (length xs) i x0 x1 x /\ same_value v (computed_line x0 y0 x1 y1 x).
Proof.
  intros G FX IN GV. pose proof G as (L & N & A & F). assert (NX : num x) by (apply dfinite_num, FX).
  destruct (nth_error xs 0) as [first|] eqn:H0; [|apply nth_error_None in H0; lia]. destruct (nth_error xs (length xs - 1)) as [last_|] eqn:H1; [|apply nth_error_None in H1; lia].
  assert (IN' : ex = true \/ (dle first x = true /\ dle x last_ = true)).
  { destruct IN as [E|(a & b & A1 & A2 & A3 & A4)]; [auto|right]. rewrite H0 in A1. rewrite H1 in A2. injection A1 as ->. injection A2 as ->. auto. }
  destruct GV as [(f & EF & V)|V].
  - destruct (interval_of xs x first last_ ex N A F NX H0 H1 IN') as (i & x0 & x1 & E0 & E1 & FI). destruct (ordinate_at xs ys i x0 L E0) as [y0 Y0]. destruct (ordinate_at xs ys (S i) x1 L E1) as [y1 Y1].
    assert (NB : neighbours xs ys i x0 y0 x1 y1) by (repeat split; assumption).
    destruct (value_in xs ys ex i x0 y0 x1 y1 x G NB FX FI) as (v' & V' & SV). rewrite (interpolate_ok xs ys ex G) in EF. injection EF as <-. cbn [deval] in V. rewrite V' in V. injection V as ->.
    exists i, x0, y0, x1, y1. split; [exact NB|]. split; [|exact SV]. assert (N0 : num x0) by (apply dfinite_num, (fin_at _ _ _ F E0)). destruct FI as [FL FR]. split.
    + destruct FL as [B|(Z & [B|B])]; [left; apply dlt_le, B|auto|left]. apply deq_iff in B; auto. apply dle_iff; auto. lra.
    + tauto.
  - destruct (interval_right xs x first last_ ex N A F NX H0 H1 IN') as (i & x0 & x1 & E0 & E1 & FI). destruct (ordinate_at xs ys i x0 L E0) as [y0 Y0]. destruct (ordinate_at xs ys (S i) x1 L E1) as [y1 Y1].
    assert (NB : neighbours xs ys i x0 y0 x1 y1) by (repeat split; assumption).
    pose proof (simple_value xs ys ex i x0 y0 x1 y1 x G NB NX FI) as V'. rewrite V' in V. injection V as <-.
    exists i, x0, y0, x1, y1. split; [exact NB|]. split; [|apply same_refl]. assert (N1 : num x1) by (apply dfinite_num, (fin_at _ _ _ F E1)). destruct FI as [FL FR]. split; [exact FL|].
    destruct FR as [B|(Z & [B|B])]; [left; apply dlt_le, B|auto|left]. apply deq_iff in B; auto. apply dle_iff; auto. lra.
Qed.

(** A finite value differs from that of the straight line through the points around the
    argument by less than a few roundings of the numbers in the computation, as long as
    the distance of the two abscissae is not too large for a double. *)
Theorem C151_error xs ys ex x v : good_points xs ys -> is_finite x = true -> ex = true \/ in_range xs x -> gives xs ys ex x v -> is_finite v = true ->
  (forall i a b, nth_error xs i = Some a -> nth_error xs (S i) = Some b -> B2R b - B2R a < bpow radix2 1023) ->
  exists i x0 y0 x1 y1, neighbours xs ys i x0 y0 x1 y1 /\ covers ex (length xs) i x0 x1 x /\
    let s := (B2R y1 - B2R y0) / (B2R x1 - B2R x0) in
    Rabs (B2R v - line (B2R x0) (B2R y0) (B2R x1) (B2R y1) (B2R x))
      <= 9 * bpow radix2 (-53) * (Rabs (B2R y0) + Rabs (s * B2R x0) + Rabs (s * B2R x)) + 3 * bpow radix2 (-1075) * (Rabs (B2R x0) + Rabs (B2R x) + 1).
Proof.
  intros G FX IN GV FV D. destruct (used_line xs ys ex x v G FX IN GV) as (i & x0 & y0 & x1 & y1 & NB & CV & SV). pose proof G as (L & N & A & F). pose proof NB as (H1 & H2 & H3 & H4).
  exists i, x0, y0, x1, y1. split; [exact NB|]. split; [exact CV|]. destruct (same_finite _ _ SV FV) as [FC EC]. rewrite EC.
  pose proof (fin_at _ _ _ F H1) as F0. pose proof (fin_at _ _ _ F H3) as F1. pose proof (A i x0 x1 H1 H3) as LT.
  apply line_error; [exact LT| |exact FC].
  destruct (dsub_ext x1 x0 F1 F0) as [ND ED]. apply (rnd_finite _ _ ND ED). rewrite !dext_finite by assumption. pose proof (D i x0 x1 H1 H3) as B.
  apply dlt_iff in LT; try (apply dfinite_num; assumption). rewrite !dext_finite in LT by assumption.
  assert (G1 : rnd53 (bpow radix2 1023) = bpow radix2 1023) by (apply rnd_format, generic_format_bpow; cbn; lia).
  assert (rnd53 (B2R x1 - B2R x0) <= bpow radix2 1023) by (rewrite <- G1; apply rnd_mono; lra).
  assert (0 <= rnd53 (B2R x1 - B2R x0)) by (rewrite <- (rnd_format 0) by apply generic_format_0; apply rnd_mono; lra).
  rewrite Rabs_pos_eq by assumption. apply Rle_lt_trans with (bpow radix2 1023); [assumption|]. apply bpow_lt. lia.
Qed.
Print Assumptions C151_error.

(** Points with equal ordinates give this number everywhere in their range, and
    everywhere with extrapolation. *)
Theorem C151_flat xs ys ex c x v : good_points xs ys -> is_finite c = true -> Forall (fun y => y = c) ys -> is_finite x = true -> ex = true \/ in_range xs x ->
  gives xs ys ex x v -> deq v c = true.
Proof.
  intros G FC FY FX IN GV. destruct (used_line xs ys ex x v G FX IN GV) as (i & x0 & y0 & x1 & y1 & (H1 & H2 & H3 & H4) & CV & SV). pose proof G as (L & N & A & F).
  rewrite Forall_forall in FY. rewrite (FY y0 (nth_error_In _ _ H2)), (FY y1 (nth_error_In _ _ H4)) in SV.
  destruct (flat_line x0 x1 c x (A i x0 x1 H1 H3) (fin_at _ _ _ F H1) (fin_at _ _ _ F H3) FX FC) as [FL VL].
  destruct (same_deq _ _ SV FL) as [FV VV]. apply finite_same; congruence.
Qed.
Print Assumptions C151_flat.

(** With integers up to 2^25 everywhere, and slopes that are integers, there is no
    rounding: the value is that of the line. *)
Theorem C151_integers xs ys ex x z v (px py : nat -> Z) (s : nat -> Z) : good_points xs ys ->
  (forall i a, nth_error xs i = Some a -> stands_for a (px i) /\ (Z.abs (px i) <= 2 ^ 25)%Z) ->
  (forall i b, nth_error ys i = Some b -> stands_for b (py i) /\ (Z.abs (py i) <= 2 ^ 25)%Z) ->
  (forall i, (S i < length xs)%nat -> (py (S i) - py i = s i * (px (S i) - px i))%Z) ->
  stands_for x z -> (Z.abs z <= 2 ^ 25)%Z -> ex = true \/ in_range xs x -> gives xs ys ex x v ->
  exists i, (S i < length xs)%nat /\ ((px i <= z)%Z \/ (i = O /\ ex = true)) /\ ((z <= px (S i))%Z \/ (S (S i) = length xs /\ ex = true)) /\
    stands_for v (py i + s i * (z - px i)).
Proof.
  intros G PX PY SL SX BX IN GV. pose proof SX as [FX VX]. destruct (used_line xs ys ex x v G FX IN GV) as (i & x0 & y0 & x1 & y1 & (H1 & H2 & H3 & H4) & CV & SV). pose proof G as (L & N & A & F).
  destruct (PX i x0 H1) as [S0 B0]. destruct (PX _ x1 H3) as [S1 B1]. destruct (PY i y0 H2) as [T0 C0]. destruct (PY _ y1 H4) as [T1 C1].
  assert (I : (S i < length xs)%nat) by (apply nth_error_Some; congruence).
  assert (LE : forall a b p q, stands_for a p -> stands_for b q -> dle a b = true -> (p <= q)%Z).
  { intros a b p q [FA VA] [FB VB] LE. apply dle_iff in LE; try (apply dfinite_num; assumption). rewrite !dext_finite, VA, VB in LE by assumption. apply le_IZR, LE. }
  assert (LT : (px i < px (S i))%Z).
  { pose proof (A i x0 x1 H1 H3) as Q. destruct S0 as [FA VA]. destruct S1 as [FB VB]. apply dlt_iff in Q; try (apply dfinite_num; assumption). rewrite !dext_finite, VA, VB in Q by assumption. apply lt_IZR, Q. }
  exists i. split; [exact I|]. destruct CV as [CL CR]. split; [destruct CL as [Q|Q]; [left; apply (LE x0 x); assumption|right; exact Q]|]. split; [destruct CR as [Q|Q]; [left; apply (LE x x1); assumption|right; exact Q]|].
  destruct (int_line x0 y0 x1 y1 x (px i) (py i) (px (S i)) (py (S i)) z (s i) S0 T0 S1 T1 SX B0 C0 B1 C1 BX LT (SL i I)) as [FL VL].
  destruct (same_deq _ _ SV FL) as [FV VV]. split; [exact FV|congruence].
Qed.
Print Assumptions C151_integers.

(** Between two points that do not descend the values do not descend. *)
Theorem C151_monotone xs ys ex i x0 y0 x1 y1 x x' v v' : good_points xs ys -> neighbours xs ys i x0 y0 x1 y1 -> dle y0 y1 = true -> B2R x1 - B2R x0 < bpow radix2 1023 ->
  dlt x0 x = true -> dle x x' = true -> dlt x' x1 = true -> gives xs ys ex x v -> gives xs ys ex x' v' -> is_finite v = true -> is_finite v' = true ->
  dle v v' = true.
Proof.
  intros G NB LY B L0 LX L1 GV GV' FV FV'. pose proof G as (L & N & A & F). pose proof NB as (H1 & H2 & H3 & H4).
  pose proof (fin_at _ _ _ F H1) as F0. pose proof (fin_at _ _ _ F H3) as F1. pose proof (A i x0 x1 H1 H3) as LT.
  destruct (dlt_nums _ _ L0) as [N0 NX]. destruct (dlt_nums _ _ L1) as [NX' N1].
  assert (IN : forall z, num z -> dlt x0 z = true -> dlt z x1 = true -> is_finite z = true).
  { intros z NZ P Q. apply dfinite_iff; auto. apply dlt_iff in P; auto. apply dlt_iff in Q; auto. pose proof (dext_lt x0 F0). pose proof (dext_lt x1 F1). lra. }
  assert (X1 : dlt x x1 = true) by (apply le_lt_trans with x'; assumption). assert (X0' : dlt x0 x' = true) by (apply lt_le_trans with x; assumption).
  assert (SAME : forall z w, num z -> dlt x0 z = true -> dlt z x1 = true -> gives xs ys ex z w -> same_value w (computed_line x0 y0 x1 y1 z)).
  { intros z w NZ P Q [(f & EF & V)|V].
    - destruct (value_in xs ys ex i x0 y0 x1 y1 z G NB (IN z NZ P Q)) as (w' & V' & SV); [split; left; [exact P|apply dlt_le, Q]|].
      rewrite (interpolate_ok xs ys ex G) in EF. injection EF as <-. cbn [deval] in V. rewrite V' in V. injection V as <-. exact SV.
    - rewrite (simple_value xs ys ex i x0 y0 x1 y1 z G NB NZ) in V by (split; left; [apply dlt_le, P|exact Q]). injection V as <-. apply same_refl. }
  destruct (same_finite _ _ (SAME x v NX L0 X1 GV) FV) as [FL EL]. destruct (same_finite _ _ (SAME x' v' NX' X0' L1 GV') FV') as [FL' EL'].
  assert (M : dle (computed_line x0 y0 x1 y1 x) (computed_line x0 y0 x1 y1 x') = true).
  { apply line_mono; auto.
    destruct (dsub_ext x1 x0 F1 F0) as [ND ED]. apply (rnd_finite _ _ ND ED). rewrite !dext_finite by assumption. apply dlt_iff in LT; auto. rewrite !dext_finite in LT by assumption.
    assert (G1 : rnd53 (bpow radix2 1023) = bpow radix2 1023) by (apply rnd_format, generic_format_bpow; cbn; lia).
    assert (rnd53 (B2R x1 - B2R x0) <= bpow radix2 1023) by (rewrite <- G1; apply rnd_mono; lra).
    assert (0 <= rnd53 (B2R x1 - B2R x0)) by (rewrite <- (rnd_format 0) by apply generic_format_0; apply rnd_mono; lra).
    rewrite Rabs_pos_eq by assumption. apply Rle_lt_trans with (bpow radix2 1023); [assumption|]. apply bpow_lt. lia. }
  apply dle_iff in M; try (apply dfinite_num; assumption). rewrite !dext_finite in M by assumption. apply dle_iff; try (apply dfinite_num; assumption). rewrite !dext_finite by assumption. lra.
Qed.
Print Assumptions C151_monotone.

(** Strictly between two points both ways of interpolating give the same number. *)
Theorem C151_same_functions xs ys ex i x0 y0 x1 y1 x f v w : good_points xs ys -> neighbours xs ys i x0 y0 x1 y1 -> is_finite x = true -> dlt x0 x = true -> dlt x x1 = true ->
  dinterpolate xs ys ex = Ok f -> deval f x = Ok v -> dsimple_interpolation x xs ys ex = Ok w -> same_value v w.
Proof.
  intros G NB FX L0 L1 EF V W. destruct (value_in xs ys ex i x0 y0 x1 y1 x G NB FX) as (v' & V' & SV); [split; left; [exact L0|apply dlt_le, L1]|].
  rewrite (interpolate_ok xs ys ex G) in EF. injection EF as <-. cbn [deval] in V. rewrite V' in V. injection V as <-.
  rewrite (simple_value xs ys ex i x0 y0 x1 y1 x G NB (dfinite_num x FX)) in W by (split; left; [apply dlt_le, L0|exact L1]). injection W as <-. exact SV.
Qed.
Print Assumptions C151_same_functions.

(** ** Cases *)
Definition i2d (z : Z) : double := d2 z 0.
Lemma good_ints (zs ws : list Z) : length zs = length ws -> (2 <= length zs)%nat -> forallb (fun p => dlt (i2d (fst p)) (i2d (snd p))) (combine zs (tl zs)) = true -> forallb (fun z => is_finite (i2d z)) zs = true ->
  good_points (map i2d zs) (map i2d ws).
Proof.
  intros L N A F. unfold good_points. rewrite !map_length. split; [exact L|]. split; [exact N|]. split.
  - clear L N F. induction zs as [|a [|b r] IH]; intros i u v HU HV; [destruct i; discriminate| |].
    + destruct i; [discriminate HV|destruct i; discriminate HU].
    + cbn [tl combine forallb fst snd] in A. apply andb_true_iff in A. destruct A as [A1 A2]. destruct i as [|i].
      * cbn in HU, HV. inversion HU; inversion HV; subst. exact A1.
      * cbn [map nth_error] in HU, HV. exact (IH A2 i u v HU HV).
  - rewrite forallb_forall in F. rewrite Forall_forall. intros x I. apply in_map_iff in I. destruct I as (z & <- & I). apply F, I.
Qed.
Lemma ok_inj {A} (a b : A) : Ok a = Ok b -> a = b.
Proof. congruence. Qed.
(** A polyline through (1, 3), (3, 7), (10, 0): both functions give 5 at 2 and 4 at 6. *)
Example C151_case :
  good_points (map i2d [1; 3; 10]%Z) (map i2d [3; 7; 0]%Z) /\ in_range (map i2d [1; 3; 10]%Z) (i2d 6) /\
  (forall ex f, dinterpolate (map i2d [1; 3; 10]%Z) (map i2d [3; 7; 0]%Z) ex = Ok f ->
     omap B2SF (deval f (i2d 2)) = Ok (B2SF (i2d 5)) /\ omap B2SF (deval f (i2d 6)) = Ok (B2SF (i2d 4))) /\
  omap B2SF (dsimple_interpolation (i2d 6) (map i2d [1; 3; 10]%Z) (map i2d [3; 7; 0]%Z) false) = Ok (B2SF (i2d 4)) /\
  omap B2SF (dsimple_interpolation (i2d 12) (map i2d [1; 3; 10]%Z) (map i2d [3; 7; 0]%Z) true) = Ok (B2SF (i2d (-2))).
Proof.
  split; [apply good_ints; vm_compute; try reflexivity; lia|]. split; [exists (i2d 1), (i2d 10); repeat split; vm_compute; reflexivity|].
  split; [|split; vm_compute; reflexivity].
  intros ex f E. rewrite interpolate_ok in E by (apply good_ints; vm_compute; try reflexivity; lia). apply ok_inj in E. rewrite <- E. destruct ex; split; vm_compute; reflexivity.
Qed.

(** The curve does not go through its points: with (4, 7) and (11, 4) the value at 11 is
    below 4. *)
Theorem C151_through_points_refuted : exists xs ys x y v, good_points xs ys /\ nth_error xs 1 = Some x /\ nth_error ys 1 = Some y /\
  gives xs ys false x v /\ dlt v y = true.
Proof.
  exists (map i2d [4; 11]%Z), (map i2d [7; 4]%Z), (i2d 11), (i2d 4), (computed_line (i2d 4) (i2d 7) (i2d 11) (i2d 4) (i2d 11)).
  assert (G : good_points (map i2d [4; 11]%Z) (map i2d [7; 4]%Z)) by (apply good_ints; vm_compute; try reflexivity; lia).
  split; [exact G|]. split; [reflexivity|]. split; [reflexivity|]. split; [|vm_compute; reflexivity].
  right. apply (simple_value _ _ false 0 (i2d 4) (i2d 7) (i2d 11) (i2d 4)); [exact G|repeat split|reflexivity|]. split; [left; vm_compute; reflexivity|right; split; [reflexivity|right; vm_compute; reflexivity]].
Qed.
Print Assumptions C151_through_points_refuted.

(** Values can be above all ordinates: (5, 1) and (11, 6) give more than 6 at 11. *)
Theorem C151_above_the_points_refuted : exists xs ys x v, good_points xs ys /\ in_range xs x /\ gives xs ys false x v /\ Forall (fun y => dlt y v = true) ys.
Proof.
  exists (map i2d [5; 11]%Z), (map i2d [1; 6]%Z), (i2d 11), (computed_line (i2d 5) (i2d 1) (i2d 11) (i2d 6) (i2d 11)).
  assert (G : good_points (map i2d [5; 11]%Z) (map i2d [1; 6]%Z)) by (apply good_ints; vm_compute; try reflexivity; lia).
  split; [exact G|]. split; [exists (i2d 5), (i2d 11); repeat split; vm_compute; reflexivity|]. split; [|repeat constructor; vm_compute; reflexivity].
  right. apply (simple_value _ _ false 0 (i2d 5) (i2d 1) (i2d 11) (i2d 6)); [exact G|repeat split|reflexivity|]. split; [left; vm_compute; reflexivity|right; split; [reflexivity|right; vm_compute; reflexivity]].
Qed.
Print Assumptions C151_above_the_points_refuted.

(** Rising points do not give a rising curve: with (2, 0), (14, 10) and (29, 11) the value
    right after 14 is below that at 14. *)
Theorem C151_rising_refuted : exists xs ys x x' f v v', good_points xs ys /\ ascending ys /\ dlt x x' = true /\ in_range xs x /\ in_range xs x' /\
  dinterpolate xs ys false = Ok f /\ deval f x = Ok v /\ deval f x' = Ok v' /\ dlt v' v = true.
Proof.
  set (xs := map i2d [2; 14; 29]%Z). set (ys := map i2d [0; 10; 11]%Z). set (x' := d2 (14 * 2 ^ 49 + 1) (-49)).
  assert (G : good_points xs ys) by (apply good_ints; vm_compute; try reflexivity; lia).
  exists xs, ys, (i2d 14), x', (DPiece xs (dlinear_pieces xs ys)), (dpoly [dsub (i2d 0) (dmul (slope (i2d 2) (i2d 0) (i2d 14) (i2d 10)) (i2d 2)); slope (i2d 2) (i2d 0) (i2d 14) (i2d 10)] (i2d 14)),
    (dpoly [dsub (i2d 10) (dmul (slope (i2d 14) (i2d 10) (i2d 29) (i2d 11)) (i2d 14)); slope (i2d 14) (i2d 10) (i2d 29) (i2d 11)] x').
  assert (GY : good_points ys ys) by (apply good_ints; vm_compute; try reflexivity; lia).
  split; [exact G|]. split; [exact (proj1 (proj2 (proj2 GY)))|].
  split; [vm_compute; reflexivity|]. split; [exists (i2d 2), (i2d 29); repeat split; vm_compute; reflexivity|]. split; [exists (i2d 2), (i2d 29); repeat split; vm_compute; reflexivity|].
  split; [apply (interpolate_ok xs ys false G)|]. destruct G as (L & N & A & F). split; [|split; [|vm_compute; reflexivity]].
  - apply (piece_found xs _ 0 (i2d 2) (i2d 14)); try reflexivity; [exact A|left; vm_compute; reflexivity].
  - apply (piece_found xs _ 1 (i2d 14) (i2d 29)); try reflexivity; [exact A|left; vm_compute; reflexivity].
Qed.
Print Assumptions C151_rising_refuted.

(** Points too far apart: from (-2^1023, 0) to (2^1023, 1) everything is 0. *)
Theorem C151_far_points_refuted : exists xs ys x v, good_points xs ys /\ nth_error xs 1 = Some x /\ nth_error ys 1 = Some d1 /\ gives xs ys false x v /\ deq v d0 = true.
Proof.
  exists [d2 (-1) 1023; d2 1 1023], [d0; d1], (d2 1 1023), (computed_line (d2 (-1) 1023) d0 (d2 1 1023) d1 (d2 1 1023)).
  assert (G : good_points [d2 (-1) 1023; d2 1 1023] [d0; d1]).
  { split; [reflexivity|]. split; [cbn; lia|]. split; [|repeat constructor]. intros [|[|[|i]]] a b HA HB; try discriminate. injection HA as <-. injection HB as <-. vm_compute. reflexivity. }
  split; [exact G|]. split; [reflexivity|]. split; [reflexivity|]. split; [|vm_compute; reflexivity].
  right. apply (simple_value _ _ false 0 (d2 (-1) 1023) d0 (d2 1 1023) d1); [exact G|repeat split|reflexivity|]. split; [left; vm_compute; reflexivity|right; split; [reflexivity|right; vm_compute; reflexivity]].
Qed.
Print Assumptions C151_far_points_refuted.

(** Finite points can give a value that is not a number: (1, -2^1023) and (2, 2^1023). *)
Theorem C151_finite_refuted : exists xs ys x v, good_points xs ys /\ Forall (fun y => is_finite y = true) ys /\ in_range xs x /\ gives xs ys false x v /\ is_nan v = true.
Proof.
  exists [d1; dtwo], [d2 (-1) 1023; d2 1 1023], dtwo, (computed_line d1 (d2 (-1) 1023) dtwo (d2 1 1023) dtwo).
  assert (G : good_points [d1; dtwo] [d2 (-1) 1023; d2 1 1023]).
  { split; [reflexivity|]. split; [cbn; lia|]. split; [|repeat constructor]. intros [|[|[|i]]] a b HA HB; try discriminate. injection HA as <-. injection HB as <-. vm_compute. reflexivity. }
  split; [exact G|]. split; [repeat constructor|]. split; [exists d1, dtwo; repeat split; vm_compute; reflexivity|]. split; [|vm_compute; reflexivity].
  right. apply (simple_value _ _ false 0 d1 (d2 (-1) 1023) dtwo (d2 1 1023)); [exact G|repeat split|reflexivity|]. split; [left; vm_compute; reflexivity|right; split; [reflexivity|right; vm_compute; reflexivity]].
Qed.
Print Assumptions C151_finite_refuted.

(** The argument NaN: the function of interpolate reads a position before the first
    polynomial, simple_interpolation returns NaN. *)
Theorem C151_nan_argument xs ys ex : good_points xs ys ->
  exists f v, dinterpolate xs ys ex = Ok f /\ deval f dnan = UB /\ dsimple_interpolation dnan xs ys ex = Ok v /\ is_nan v = true.
Proof.
  intros G. pose proof G as (L & N & A & F). destruct (exists_last (l := xs)) as (pre & x1 & EX); [destruct xs; [cbn in N; lia|discriminate]|].
  destruct (nth_error xs (length xs - 2)) as [x0|] eqn:E0; [|apply nth_error_None in E0; lia]. destruct (nth_error xs (length xs - 1)) as [xl|] eqn:E1; [|apply nth_error_None in E1; lia].
  destruct (ordinate_at xs ys _ _ L E0) as [y0 Y0]. destruct (ordinate_at xs ys _ _ L E1) as [y1 Y1].
  exists (DPiece (if ex then dreplace_ends xs else xs) (dlinear_pieces xs ys)), (dsegment dnan x0 y0 xl y1). split; [apply (interpolate_ok xs ys ex G)|]. clear EX pre x1.
  assert (NO : forall k : double, dlt k dnan = false /\ dlt dnan k = false /\ deq dnan k = false) by (intros [s|s| |s m e H]; auto; destruct s; auto).
  split; [|split].
  - cbn [deval]. unfold dpiecewise. assert (Q : forall l : list double, l <> [] -> count_while (fun k => dlt k dnan) l = 0%nat) by (intros [|k l] NE; [congruence|]; cbn [count_while]; rewrite (proj1 (NO k)); reflexivity).
    destruct (if ex then dreplace_ends xs else xs) as [|k0 l] eqn:EL.
    + reflexivity.
    + destruct (NO k0) as (P1 & P2 & P3). rewrite P2, P3, Q by discriminate. reflexivity.
  - unfold dsimple_interpolation. assert (C : forall l : list double, count_while (fun k => negb (dlt dnan k)) l = length l) by (induction l as [|k l IH]; [reflexivity|]; cbn [count_while length]; rewrite (proj1 (proj2 (NO k))); cbn [negb]; rewrite IH; reflexivity).
    destruct xs as [|front r]; [cbn in N; lia|]. set (xs := front :: r) in *. rewrite (proj2 (Nat.eqb_eq _ _) L). cbn [negb]. replace (length xs =? 1)%nat with false by (symmetry; apply Nat.eqb_neq; lia).
    rewrite C. replace (length xs =? 0)%nat with false by (symmetry; apply Nat.eqb_neq; lia). cbn [andb]. rewrite Nat.eqb_refl. cbn [andb]. rewrite (proj1 (NO (last xs front))), andb_false_r.
    unfold dsegment_at. rewrite E1, Y1. replace (length xs - 1 - 1)%nat with (length xs - 2)%nat by lia. rewrite E0, Y0. reflexivity.
  - assert (LT : dlt x0 xl = true) by (apply (asc_lt' xs (length xs - 2) (length xs - 1)); auto; lia). rewrite segment_line by exact LT. unfold computed_line.
    assert (M : dmul (slope x0 y0 xl y1) dnan = B754_nan) by (destruct (slope x0 y0 xl y1) as [s|s| |s m e H]; reflexivity). rewrite M. destruct (dsub y0 (dmul (slope x0 y0 xl y1) x0)) as [s|s| |s m e H]; reflexivity.
Qed.
Print Assumptions C151_nan_argument.
(** The argument infinity: extrapolation stops and gives 0. *)
Theorem C151_infinite_argument xs ys : good_points xs ys ->
  exists f, dinterpolate xs ys true = Ok f /\ deval f dinf = Ok d0 /\ deval f (B754_infinity true) = Ok d0.
Proof.
  intros G. exists (DPiece (dreplace_ends xs) (dlinear_pieces xs ys)). split; [apply (interpolate_ok xs ys true G)|]. destruct G as (L & N & A & F). cbn [deval].
  destruct xs as [|x0 [|x1 r]]; cbn in N; try lia. split; [|reflexivity].
  assert (B : forall i a, nth_error (dreplace_ends (x0 :: x1 :: r)) i = Some a -> dlt a dinf = true).
  { intros i a E. assert (FA : is_finite a = true).
    { rewrite nth_replaced in E by (cbn; lia). destruct (Nat.eqb i 0); [injection E as <-; reflexivity|]. destruct (Nat.eqb (S i) (length (x0 :: x1 :: r))); [injection E as <-; reflexivity|]. exact (fin_at _ _ _ F E). }
    destruct a as [s|s| |s m e H]; try discriminate FA; try destruct s; reflexivity. }
  unfold dpiecewise. pose proof (B 0%nat dlowest eq_refl) as B0. unfold dreplace_ends. fold (dreplace_ends (x0 :: x1 :: r)). cbn [dlt].
  change (dlowest :: removelast (x1 :: r) ++ [dhighest]) with (dreplace_ends (x0 :: x1 :: r)).
  replace (dlt dinf dlowest) with false by reflexivity. replace (deq dinf dlowest) with false by reflexivity. rewrite all_below by exact B. rewrite replaced_length. cbn [length]. rewrite Nat.eqb_refl. reflexivity.
Qed.
Print Assumptions C151_infinite_argument.

(** Two points with the first abscissa: interpolate accepts them, and the value there is not
    a number. *)
Theorem C151_step_at_the_front_refuted : exists f v, dinterpolate (map i2d [1; 1; 2]%Z) (map i2d [0; 1; 3]%Z) false = Ok f /\
  deval f (i2d 1) = Ok v /\ is_nan v = true.
Proof.
  exists (DPiece (map i2d [1; 1; 2]%Z) (dlinear_pieces (map i2d [1; 1; 2]%Z) (map i2d [0; 1; 3]%Z))).
  exists (dpoly [dsub (i2d 0) (dmul (slope (i2d 1) (i2d 0) (i2d 1) (i2d 1)) (i2d 1)); slope (i2d 1) (i2d 0) (i2d 1) (i2d 1)] (i2d 1)).
  assert (E : deq (i2d 1) (i2d 1) = true) by (vm_compute; reflexivity). assert (L : dlt (i2d 1) (i2d 1) = false) by (vm_compute; reflexivity).
  assert (Y : deq (i2d 1) (i2d 0) = false) by (vm_compute; reflexivity). assert (E2 : deq (i2d 2) (i2d 1) = false) by (vm_compute; reflexivity). assert (L2 : dlt (i2d 2) (i2d 1) = false) by (vm_compute; reflexivity).
  split; [|split; [|vm_compute; reflexivity]].
  - unfold dinterpolate. cbn [map length Nat.eqb negb andb dclean_from]. rewrite E, Y, L, E2, L2. cbn [andb bind fst snd]. unfold dlinear, dnew_piecewise. cbn [dlinear_pieces length Nat.eqb dgrowing]. rewrite L, L2. reflexivity.
  - cbn [deval map dpiecewise]. rewrite L, E. reflexivity.
Qed.
Print Assumptions C151_step_at_the_front_refuted.
