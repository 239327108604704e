(** C154 and C155: polynomials and cubic splines in double precision. *)
From Coq Require Import ZArith Reals List Bool Arith Lia Lra.
From Flocq Require Import Core IEEE754.BinarySingleNaN.
From Coquelicot Require Import Hierarchy Derive RInt.
From Verif Require Import Common CumulModel FloatModel FloatProofs DoubleProofs DoubleProofs2 DInterpModel DInterpSpec DInterpProofs DInterpProofs2 DInterpProps
  DSOMProofs DSOMProofs2 DSplineModel DSplineSpec DSplineProofs DSplineProofs2 DSplineProofs3 DSplineProofs4 DSplineProofs5 DSplineProofs6 DSplineProofs7.
Import ListNotations.
Local Open Scope R_scope.

(** ** C154: polynomials *)
Lemma some_inj {A} (a b : A) : Some a = Some b -> a = b. Proof. congruence. Qed.

(** The error of the value is at most (1 + 2^-53)^n - 1 times the sum of the absolute
    values of the n terms. *)
Theorem C154_value coefs (x : double) : (Z.of_nat (length coefs) <= 2 ^ 50)%Z -> terms_not_tiny coefs x ->
  is_finite x = true -> is_finite (dpoly coefs x) = true ->
  Rabs (B2R (dpoly coefs x) - poly_at (map B2R coefs) (B2R x)) <= rounding (length coefs) * poly_size (map B2R coefs) (B2R x).
Proof. intros L T FX F. apply dpoly_error; assumption. Qed.
Print Assumptions C154_value.

(** So coefficients and arguments that are not negative give a small relative error. *)
Theorem C154_no_cancellation coefs (x : double) : (Z.of_nat (length coefs) <= 2 ^ 50)%Z -> terms_not_tiny coefs x ->
  is_finite x = true -> is_finite (dpoly coefs x) = true -> Forall (fun c : double => 0 <= B2R c) coefs -> 0 <= B2R x ->
  Rabs (B2R (dpoly coefs x) - poly_at (map B2R coefs) (B2R x)) <= rounding (length coefs) * poly_at (map B2R coefs) (B2R x).
Proof.
  intros L T FX F P PX. pose proof (C154_value coefs x L T FX F) as E. unfold poly_size in E. rewrite (Rabs_pos_eq (B2R x) PX) in E.
  replace (map Rabs (map B2R coefs)) with (map (@B2R 53 1024) coefs) in E; [exact E|]. clear -P. induction P as [|c r Q P IH]; cbn [map]; [reflexivity|]. rewrite <- IH, Rabs_pos_eq by exact Q. reflexivity.
Qed.
Print Assumptions C154_no_cancellation.

(** The derivative returned is one of the polynomial, up to rounding. *)
Theorem C154_derivative coefs (x : double) dP : (Z.of_nat (length coefs) <= 2 ^ 50)%Z -> coefs_not_tiny coefs -> terms_not_tiny (dderiv coefs) x ->
  is_finite x = true -> is_finite (dpoly (dderiv coefs) x) = true -> is_derive (poly_at (map B2R coefs)) (B2R x) dP ->
  Rabs (B2R (dpoly (dderiv coefs) x) - dP) <= rounding (length coefs) * slope_size (map B2R coefs) (B2R x).
Proof. intros L T TT FX F D. apply derivative_value; assumption. Qed.
Print Assumptions C154_derivative.

(** The integral between two numbers. *)
Theorem C154_integral coefs (a b : double) I : (Z.of_nat (length coefs) <= 2 ^ 49)%Z -> coefs_not_tiny coefs -> terms_not_tiny (dinteg coefs) a -> terms_not_tiny (dinteg coefs) b ->
  is_finite a = true -> is_finite b = true -> is_finite (dpoly_integrate coefs a b) = true -> is_RInt (poly_at (map B2R coefs)) (B2R a) (B2R b) I ->
  Rabs (B2R (dpoly_integrate coefs a b) - I) <= rounding (3 + length coefs) * (integral_size (map B2R coefs) (B2R a) + integral_size (map B2R coefs) (B2R b)).
Proof. intros L T TA TB FA FB F D. apply integrate_value; assumption. Qed.
Print Assumptions C154_integral.

(** The coefficients themselves: that of x^i in the derivative is (i + 1) c_(i+1) rounded
    once, that of x^(i+1) in the integral c_i / (i + 1) rounded once; the constant is 0. *)
Theorem C154_coefficients coefs : length (dderiv coefs) = (length coefs - 1)%nat /\ length (dinteg coefs) = S (length coefs) /\ nth_error (dinteg coefs) 0 = Some d0 /\
  forall i c, nth_error coefs i = Some c ->
    nth_error (dinteg coefs) (S i) = Some (ddiv c (d2 (Z.of_nat (S i)) 0)) /\
    (forall j, i = S j -> nth_error (dderiv coefs) j = Some (dmul (d2 (Z.of_nat i) 0) c)).
Proof.
  split; [apply dderiv_len|]. split; [apply dinteg_len|]. split; [reflexivity|]. intros i c E. split.
  - unfold dinteg. cbn [nth_error]. assert (G : forall l k i, nth_error l i = Some c -> nth_error (dinteg_from k l) i = Some (ddiv c (dsize (k + i + 1)))).
    { induction l as [|a l IH]; intros k [|j] H; cbn [nth_error dinteg_from] in *; try discriminate; [injection H as ->; rewrite Nat.add_0_r; reflexivity|]. rewrite (IH (S k) j H). replace (S k + j + 1)%nat with (k + S j + 1)%nat by lia. reflexivity. }
    rewrite (G coefs 0%nat i E). unfold dsize. replace (0 + i + 1)%nat with (S i) by lia. reflexivity.
  - intros j ->. destruct coefs as [|a l]; [discriminate|]. cbn [dderiv nth_error] in *. assert (G : forall l k i, nth_error l i = Some c -> nth_error (dderiv_from k l) i = Some (dmul (dsize (k + i)) c)).
    { clear. induction l as [|a l IH]; intros k [|j] H; cbn [nth_error dderiv_from] in *; try discriminate; [injection H as ->; rewrite Nat.add_0_r; reflexivity|]. rewrite (IH (S k) j H). replace (S k + j)%nat with (k + S j)%nat by lia. reflexivity. }
    rewrite (G l 1%nat j E). reflexivity.
Qed.
Print Assumptions C154_coefficients.

(** Without the restriction to terms of one sign there is no bound on the relative error:
    (x - 1)^3 at 1 + 2^-30 is not even rounded to a positive number. *)
Theorem C154_sign_refuted : exists coefs (x : double), terms_not_tiny coefs x /\ is_finite x = true /\ is_finite (dpoly coefs x) = true /\
  0 < poly_at (map B2R coefs) (B2R x) /\ B2R (dpoly coefs x) <= 0.
Proof.
  set (x := d2 (2 ^ 30 + 1) (-30)). exists (map i2d [-1; 3; -3; 1]%Z), x.
  assert (VX : B2R x = 1 + / 1073741824). { replace (B2R x) with (SF2R radix2 (B2SF x)) by apply SF2R_B2SF. vm_compute (B2SF x). cbn. unfold F2R. cbn. lra. }
  assert (VI : forall z, (Z.abs z <= 2 ^ 53)%Z -> B2R (i2d z) = IZR z) by (intros z H; apply d2_int; exact H).
  split; [|split; [vm_compute; reflexivity|split; [vm_compute; reflexivity|split]]].
  - assert (T : forall i z, (1 <= Z.abs z <= 2 ^ 53)%Z -> not_tiny (B2R (i2d z) * B2R x ^ i)).
    { intros i z H. right. rewrite VI by lia. rewrite Rabs_mult, VX. assert (1 <= Rabs (IZR z)) by (rewrite <- abs_IZR; apply IZR_le; lia). assert (1 <= (1 + / 1073741824) ^ i) by (apply pow_R1_Rle; lra).
      rewrite (Rabs_pos_eq (_ ^ i)) by lra. apply Rle_trans with 1; [change 1 with (bpow radix2 0); apply bpow_le; lia|]. nra. }
    intros i c E. split.
    + pose proof (T i 1%Z ltac:(lia)) as Q. rewrite VI, Rmult_1_l in Q by lia. exact Q.
    + destruct i as [|[|[|[|[|]]]]]; cbn [map nth_error] in E; try discriminate E; apply some_inj in E; rewrite <- E; apply T; lia.
  - cbn [map poly_at]. rewrite !VI by lia. rewrite VX. match goal with |- 0 < ?t => replace t with ((/ 1073741824) ^ 3) by (field) end. apply pow_lt. lra.
  - assert (E : dle (dpoly (map i2d [-1; 3; -3; 1]%Z) x) d0 = true) by (vm_compute; reflexivity).
    assert (F : is_finite (dpoly (map i2d [-1; 3; -3; 1]%Z) x) = true) by (vm_compute; reflexivity).
    revert E F. generalize (dpoly (map i2d [-1; 3; -3; 1]%Z) x). intros v E F. apply dle_iff in E; [|apply dfinite_num, F|apply dfinite_num; reflexivity]. rewrite (dext_finite v F), (dext_finite d0 eq_refl) in E. change (B2R d0) with 0 in E. exact E.
Qed.
Print Assumptions C154_sign_refuted.

(** 1 + 2 x + 3 x^2 at 2: the hypotheses hold; value, derivative and integral are exact. *)
Example C154_case : let coefs := map i2d [1; 2; 3]%Z in
  terms_not_tiny coefs (i2d 2) /\ coefs_not_tiny coefs /\ terms_not_tiny (dderiv coefs) (i2d 2) /\
  B2SF (dpoly coefs (i2d 2)) = B2SF (i2d 17) /\ B2SF (dpoly (dderiv coefs) (i2d 2)) = B2SF (i2d 14) /\
  B2SF (dpoly_integrate coefs (i2d 1) (i2d 2)) = B2SF (i2d 11).
Proof.
  assert (VI : forall z, (Z.abs z <= 2 ^ 53)%Z -> B2R (i2d z) = IZR z) by (intros z H; apply d2_int; exact H).
  assert (T : forall i z, (1 <= z <= 2 ^ 53)%Z -> not_tiny (IZR z * 2 ^ i)).
  { intros i z H. right. assert (1 <= IZR z) by (apply IZR_le; lia). assert (1 <= 2 ^ i) by (apply pow_R1_Rle; lra). rewrite Rabs_pos_eq by nra. apply Rle_trans with 1; [change 1 with (bpow radix2 0); apply bpow_le; lia|]. nra. }
  assert (T1 : forall i, not_tiny (2 ^ i)) by (intros i; pose proof (T i 1%Z ltac:(lia)) as Q; rewrite Rmult_1_l in Q; exact Q).
  cbv zeta. split; [|split; [|split; [|repeat split; vm_compute; reflexivity]]].
  - intros i c E. rewrite (VI 2%Z) by lia. split; [apply T1|]. destruct i as [|[|[|[|]]]]; cbn [map nth_error] in E; try discriminate E; apply some_inj in E; rewrite <- E; rewrite VI by lia; apply T; lia.
  - assert (NT : forall z, (1 <= z <= 100)%Z -> is_finite (i2d z) = true /\ (B2R (i2d z) = 0 \/ bpow radix2 (-900) <= Rabs (B2R (i2d z)))).
    { intros z H. split; [apply (d2_int z); lia|]. right. rewrite VI by lia. assert (1 <= IZR z) by (apply IZR_le; lia). rewrite Rabs_pos_eq by lra. apply Rle_trans with 1; [|lra]. change 1 with (bpow radix2 0). apply bpow_le. lia. }
    constructor; [apply NT; lia|]. constructor; [apply NT; lia|]. constructor; [apply NT; lia|]. constructor.
  - intros i c E. rewrite (VI 2%Z) by lia. split; [apply T1|].
    assert (VM : forall a b, (1 <= a <= 100)%Z -> (1 <= b <= 100)%Z -> B2R (dmul (i2d a) (i2d b)) = IZR (a * b)).
    { intros a b HA HB. destruct (d2_int a ltac:(lia)) as [FA _]. destruct (d2_int b ltac:(lia)) as [FB _]. destruct (dmul_ext (i2d a) (i2d b) FA FB) as [N Q]. rewrite (dext_finite (i2d a) FA), (dext_finite (i2d b) FB), !VI in Q by lia. rewrite <- mult_IZR in Q.
      assert (G : rnd53 (IZR (a * b)) = IZR (a * b)) by (apply rnd_format, int_format; nia).
      assert (F : is_finite (dmul (i2d a) (i2d b)) = true). { apply (rnd_finite _ _ N Q). rewrite G. rewrite <- abs_IZR. apply Rle_lt_trans with (IZR (2 ^ 53)); [apply IZR_le; nia|apply big53]. }
      apply (finite_rnd _ _ F) in Q. rewrite Q. exact G. }
    destruct i as [|[|[|]]]; cbn [map nth_error dderiv dderiv_from] in E; try discriminate E; apply some_inj in E; rewrite <- E; change (dsize ?n) with (i2d (Z.of_nat n)); (rewrite VM by (cbn; lia)); apply T; cbn; lia.
Qed.

(** ** C155: cubic splines *)

Example two_three : B2R dtwo = 2 /\ B2R dthree = 3.
Proof. split; [apply B2R_dtwo|apply B2R_dthree]. Qed.
(** The coefficients of (x - x0) and (x - x0)^3 between the points (x0, y0) and (x1, y1),
    when those of the squares are c0 and c1. *)
Definition first_coef (x0 y0 x1 y1 c0 c1 : double) : double :=
  dsub (ddiv (dsub y1 y0) (dsub x1 x0)) (ddiv (dmul (dsub x1 x0) (dadd c1 (dmul dtwo c0))) dthree).
Definition third_coef (x0 x1 c0 c1 : double) : double := ddiv (dsub c1 c0) (dmul dthree (dsub x1 x0)).
Definition cubic_of (x0 y0 x1 y1 c0 c1 : double) (x : R) : R :=
  cubic (B2R y0) (B2R (first_coef x0 y0 x1 y1 c0 c1)) (B2R c0) (B2R (third_coef x0 x1 c0 c1)) (B2R x0) x.
Definition slope_of (x0 y0 x1 y1 c0 c1 : double) (x : R) : R :=
  cubic_slope (B2R (first_coef x0 y0 x1 y1 c0 c1)) (B2R c0) (B2R (third_coef x0 x1 c0 c1)) (B2R x0) x.
Definition curvature_of (x0 x1 c0 c1 : double) (x : R) : R :=
  cubic_curvature (B2R c0) (B2R (third_coef x0 x1 c0 c1)) (B2R x0) x.
(** The coefficients of a piece did not overflow. *)
Definition piece_finite (x0 y0 x1 y1 c0 c1 : double) : Prop :=
  is_finite c0 = true /\ is_finite c1 = true /\ is_finite (first_coef x0 y0 x1 y1 c0 c1) = true /\ is_finite (third_coef x0 x1 c0 c1) = true.

(** ... and the slope is the derivative of the cubic, the curvature that of the slope. *)
Lemma slope_derive x0 y0 x1 y1 c0 c1 x : is_derive (cubic_of x0 y0 x1 y1 c0 c1) x (slope_of x0 y0 x1 y1 c0 c1 x) /\ is_derive (slope_of x0 y0 x1 y1 c0 c1) x (curvature_of x0 x1 c0 c1 x).
Proof. split; [apply cubic_derive|apply cubic_slope_derive]. Qed.

Lemma coef_next x y n j : (j < n)%nat -> dsc x y n j = dsub (snd (dmuz x y j)) (dmul (fst (dmuz x y j)) (dsc x y n (S j))).
Proof.
  intros H. unfold dsc. replace (n - j)%nat with (S (n - S j)) by lia. cbn [dc_down]. replace (n - S (n - S j))%nat with j by lia. destruct (dmuz x y j) as [m z]. reflexivity.
Qed.
Lemma factor_ok xs y : ascending xs -> Forall (fun x : double => is_finite x = true) xs -> usual_gaps xs -> forall i, (S i < length xs)%nat ->
  is_finite (fst (dmuz (fun i => nth i xs d0) y i)) = true /\ 0 <= B2R (fst (dmuz (fun i => nth i xs d0) y i)) <= 1.
Proof.
  intros A F G. induction i as [|i IH]; intros H; [cbn; split; [reflexivity|lra]|]. specialize (IH ltac:(lia)). cbn [dmuz]. destruct (dmuz (fun i => nth i xs d0) y i) as [m z]. cbn [fst] in *.
  assert (E : forall k, (k < length xs)%nat -> nth_error xs k = Some (nth k xs d0)) by (intros; apply nth_error_nth'; assumption).
  destruct IH as [FM BM]. destruct (m_next (nth i xs d0) (nth (S i) xs d0) (nth (S (S i)) xs d0) m) as (Q1 & Q2 & _).
  - apply (fin_at xs i); auto. apply E. lia.
  - apply (fin_at xs (S i)); auto. apply E. lia.
  - apply (fin_at xs (S (S i))); auto.
  - apply (G i); apply E; lia.
  - apply (G (S i)); apply E; lia.
  - exact FM.
  - exact BM.
  - split; assumption.
Qed.

(** For points with increasing finite abscissas there are numbers c_i, the last one 0, such
    that the function returned is, between the points i and i + 1, the cubic with the
    coefficients above, up to rounding. If no distance between neighbours is extreme, the
    cubic goes through both points, its curvature at the second one is 2 c_(i+1) and its
    slope there that of the next cubic, up to rounding. *)
Theorem C155_spline xs ys ex : good_points xs ys ->
  exists f c, dspline_interpolate xs ys ex = Ok f /\ c (length xs - 1)%nat = d0 /\ (is_finite (c 1%nat) = true -> B2R (c 0%nat) = 0) /\
    (forall i x0 y0 x1 y1 x, neighbours xs ys i x0 y0 x1 y1 -> is_finite x = true -> falls_in ex (length xs) i x0 x1 x ->
       exists v, deval f x = Ok v /\
         (is_finite v = true -> cubic_not_tiny y0 (first_coef x0 y0 x1 y1 (c i) (c (S i))) (c i) (third_coef x0 x1 (c i) (c (S i))) x0 x ->
          Rabs (B2R v - cubic_of x0 y0 x1 y1 (c i) (c (S i)) (B2R x)) <=
          rounding 8 * cubic_size (B2R y0) (B2R (first_coef x0 y0 x1 y1 (c i) (c (S i)))) (B2R (c i)) (B2R (third_coef x0 x1 (c i) (c (S i)))) (B2R x0) (B2R x))) /\
    (usual_gaps xs -> forall i x0 y0 x1 y1, neighbours xs ys i x0 y0 x1 y1 -> piece_finite x0 y0 x1 y1 (c i) (c (S i)) ->
       let h := B2R x1 - B2R x0 in
       cubic_of x0 y0 x1 y1 (c i) (c (S i)) (B2R x0) = B2R y0 /\
       Rabs (cubic_of x0 y0 x1 y1 (c i) (c (S i)) (B2R x1) - B2R y1) <= rounding 6 * (sz (B2R y0) + sz (B2R y1) + h ^ 2 * (sz (B2R (c i)) + sz (B2R (c (S i))))) /\
       curvature_of x0 x1 (c i) (c (S i)) (B2R x0) = 2 * B2R (c i) /\
       Rabs (curvature_of x0 x1 (c i) (c (S i)) (B2R x1) - 2 * B2R (c (S i))) <= rounding 6 * (2 * (sz (B2R (c i)) + sz (B2R (c (S i)))))) /\
    (usual_gaps xs -> forall i x0 y0 x1 y1 x2 y2, neighbours xs ys i x0 y0 x1 y1 -> neighbours xs ys (S i) x1 y1 x2 y2 ->
       piece_finite x0 y0 x1 y1 (c i) (c (S i)) -> piece_finite x1 y1 x2 y2 (c (S i)) (c (S (S i))) ->
       let h := B2R x1 - B2R x0 in let h' := B2R x2 - B2R x1 in
       Rabs (slope_of x0 y0 x1 y1 (c i) (c (S i)) (B2R x1) - slope_of x1 y1 x2 y2 (c (S i)) (c (S (S i))) (B2R x1)) <=
       rounding 26 * ((sz (B2R y0) + sz (B2R y1)) / h + (sz (B2R y1) + sz (B2R y2)) / h' +
                      h * (sz (B2R (c i)) + sz (B2R (c (S i)))) + h' * (sz (B2R (c (S i))) + sz (B2R (c (S (S i))))))).
Proof.
  intros GP. pose proof GP as (L & N & A & F). set (fx := fun i => nth i xs d0). set (fy := fun i => nth i ys d0). set (n := (length xs - 1)%nat).
  exists (DPiece (if ex then dreplace_ends xs else xs) (pieces xs ys)), (dsc fx fy n). split; [apply spline_ok, GP|].
  split; [unfold dsc; rewrite Nat.sub_diag; reflexivity|]. split.
  { intros F1. rewrite coef_next by (unfold n; lia). cbn [dmuz fst snd].
    assert (FM : is_finite (dmul d0 (dsc fx fy n 1)) = true /\ B2R (dmul d0 (dsc fx fy n 1)) = 0).
    { destruct (dmul_ext d0 (dsc fx fy n 1) eq_refl F1) as [N1 E1]. rewrite (dext_finite d0 eq_refl), (dext_finite _ F1) in E1. change (B2R d0) with 0 in E1. rewrite Rmult_0_l in E1.
      assert (FF : is_finite (dmul d0 (dsc fx fy n 1)) = true). { apply (small_finite _ _ 0 N1 E1); [lia|]. rewrite Rabs_R0. apply bpow_ge_0. }
      split; [exact FF|]. apply (finite_rnd _ _ FF) in E1. rewrite E1. apply rnd_0. }
    destruct FM as [FM VM]. destruct (dsub_ext d0 _ eq_refl FM) as [N2 E2]. rewrite (dext_finite d0 eq_refl), (dext_finite _ FM), VM in E2. change (B2R d0) with 0 in E2. rewrite Rminus_0_r in E2.
    assert (FF : is_finite (dsub d0 (dmul d0 (dsc fx fy n 1))) = true). { apply (small_finite _ _ 0 N2 E2); [lia|]. rewrite Rabs_R0. apply bpow_ge_0. }
    apply (finite_rnd _ _ FF) in E2. rewrite E2. apply rnd_0. }
  assert (AT : forall i x0 y0 x1 y1, neighbours xs ys i x0 y0 x1 y1 -> fx i = x0 /\ fy i = y0 /\ fx (S i) = x1 /\ fy (S i) = y1 /\ is_finite x0 = true /\ is_finite x1 = true /\ (S i < length xs)%nat).
  { intros i x0 y0 x1 y1 (E0 & E1 & E2 & E3). unfold fx, fy. repeat split; try (apply nth_error_nth; assumption); try (eapply fin_at; eassumption). apply nth_error_Some. congruence. }
  split; [|split].
  - intros i x0 y0 x1 y1 x NB FX FI. destruct (AT _ _ _ _ _ NB) as (V0 & W0 & V1 & W1 & F0 & F1 & I). destruct NB as (E0 & E1 & E2 & E3).
    exists (dpoly (dspline_piece fx fy n i) x). split.
    + cbn [deval]. apply (piece_value xs (pieces xs ys) ex i x0 x1); auto; [apply pieces_len; exact N|apply nth_pieces, I].
    + intros FV NT. unfold dspline_piece, dsb, dsd, dsh in FV |- *. rewrite V0, V1, W0, W1 in FV |- *. unfold cubic_of. apply shifted_error; assumption.
  - intros UG i x0 y0 x1 y1 NB (FC0 & FC1 & FB & FD) h. destruct (AT _ _ _ _ _ NB) as (V0 & W0 & V1 & W1 & F0 & F1 & I). destruct NB as (E0 & E1 & E2 & E3). pose proof (UG i x0 x1 E0 E2) as G.
    split; [unfold cubic_of, cubic; ring|]. split; [apply end_value; assumption|]. split; [unfold curvature_of, cubic_curvature; ring|]. apply end_curvature; assumption.
  - intros UG i x0 y0 x1 y1 x2 y2 NB NB' (FC0 & FC1 & FB & FD) (_ & FC2 & FB' & FD') h h'.
    destruct (AT _ _ _ _ _ NB) as (V0 & W0 & V1 & W1 & F0 & F1 & I). destruct (AT _ _ _ _ _ NB') as (_ & _ & V2 & W2 & _ & F2 & I2). destruct NB as (E0 & E1 & E2 & E3). destruct NB' as (_ & _ & E4 & E5).
    pose proof (UG i x0 x1 E0 E2) as G. pose proof (UG (S i) x1 x2 E2 E4) as G'. destruct (factor_ok xs fy A F UG i ltac:(lia)) as [FM BM]. fold fx in FM, BM.
    assert (C1 : dsc fx fy n (S i) = dsub (snd (dmuz fx fy (S i))) (dmul (fst (dmuz fx fy (S i))) (dsc fx fy n (S (S i))))) by (apply coef_next; unfold n; lia).
    assert (C0 : dsc fx fy n i = dsub (snd (dmuz fx fy i)) (dmul (fst (dmuz fx fy i)) (dsc fx fy n (S i)))) by (apply coef_next; unfold n; lia).
    assert (Z : slope_of x1 y1 x2 y2 (dsc fx fy n (S i)) (dsc fx fy n (S (S i))) (B2R x1) = B2R (first_coef x1 y1 x2 y2 (dsc fx fy n (S i)) (dsc fx fy n (S (S i))))) by (unfold slope_of, cubic_slope; ring). rewrite Z. clear Z.
    revert FC0 FC1 FB FD FB' FD'. rewrite C0. generalize (dsc fx fy n (S (S i))) as c2, C1. clear C0 C1. intros c2 C1. revert C1. generalize (dsc fx fy n (S i)). intros c1 ->.
    cbn [dmuz]. destruct (dmuz fx fy i) as [m z]. cbn [fst snd] in *. unfold dsg, dsh. rewrite V0, V1, V2, W0, W1, W2.
    intros. unfold slope_of, first_coef, third_coef. apply (slopes x0 x1 x2 y0 y1 y2 m z c2); assumption.
Qed.
Print Assumptions C155_spline.

(** The function returned has a value for every finite number; without extrapolation it is
    0 out of the range of the points. *)
Theorem C155_total xs ys ex : good_points xs ys -> exists f, dspline_interpolate xs ys ex = Ok f /\
  forall x, is_finite x = true -> exists v, deval f x = Ok v /\ (ex = false -> out_of_range xs x -> v = d0).
Proof.
  intros GP. pose proof GP as (L & N & A & F). eexists. split; [apply spline_ok, GP|]. cbn [deval]. intros x FX.
  destruct (nth_error xs 0) as [first|] eqn:H0; [|apply nth_error_None in H0; lia]. destruct (nth_error xs (length xs - 1)) as [last_|] eqn:H1; [|apply nth_error_None in H1; lia].
  assert (NX : num x) by (apply dfinite_num, FX). assert (NF : num first) by (apply dfinite_num, (fin_at _ _ _ F H0)). assert (NL : num last_) by (apply dfinite_num, (fin_at _ _ _ F H1)).
  assert (D : (ex = true \/ (dle first x = true /\ dle x last_ = true)) \/ (ex = false /\ (dlt x first = true \/ dlt last_ x = true))).
  { destruct ex; [auto|]. destruct (dle first x) eqn:B1; [destruct (dle x last_) eqn:B2; [auto|]|]; right; split; auto.
    - right. apply dlt_iff; auto. apply dle_no in B2; auto.
    - left. apply dlt_iff; auto. apply dle_no in B1; auto. }
  destruct D as [IN|[-> O]].
  - destruct (interval_of xs x first last_ ex N A F NX H0 H1 IN) as (i & x0 & x1 & E0 & E1 & FI).
    assert (I : (S i < length xs)%nat) by (apply nth_error_Some; congruence).
    exists (dpoly (dspline_piece (fun i => nth i xs d0) (fun i => nth i ys d0) (length xs - 1) i) x). split; [apply (piece_value xs (pieces xs ys) ex i x0 x1); auto; [apply pieces_len; exact N|apply nth_pieces, I]|].
    intros -> (first' & last' & Q0 & Q1 & O). destruct IN as [C|[I1 I2]]; [discriminate|]. assert (first' = first) by congruence. assert (last' = last_) by congruence. subst first' last'.
    exfalso. destruct O as [O|O]; [apply dlt_iff in O; auto; apply dle_iff in I1; auto; lra|apply dlt_iff in O; auto; apply dle_iff in I2; auto; lra].
  - exists d0. split; [apply (outside xs (pieces xs ys) x first last_); assumption|auto].
Qed.
Print Assumptions C155_total.

(** The cubic is written with powers of x, not of the distance from the point. Far from
    the origin little is left: with (10^6, 0), (10^6 + 1, 1) and (10^6 + 2, 0) the values at
    the three points are -128, -256 and -128. *)
Theorem C155_points_refuted : exists xs ys f, good_points xs ys /\ usual_gaps xs /\ Forall (fun y => dle d0 y = true /\ dle y d1 = true) ys /\ dspline_interpolate xs ys false = Ok f /\
  map (fun x => omap B2SF (deval f x)) xs = map (fun z => Ok (B2SF (i2d z))) [-128; -256; -128]%Z.
Proof.
  set (xs := map i2d [1000000; 1000001; 1000002]%Z). set (ys := map i2d [0; 1; 0]%Z).
  assert (G : good_points xs ys) by (apply good_ints; vm_compute; try reflexivity; lia).
  exists xs, ys, (DPiece xs (pieces xs ys)). split; [exact G|]. split.
  { assert (VI : forall z, (Z.abs z <= 2 ^ 53)%Z -> B2R (i2d z) = IZR z) by (intros z H; apply d2_int; exact H).
    intros [|[|[|i]]] x0 x1 E0 E1; cbn [xs map nth_error] in E0, E1; try discriminate; apply some_inj in E0; apply some_inj in E1; rewrite <- E0, <- E1; unfold usual_gap; rewrite !VI by lia;
      (split; [apply Rle_trans with (bpow radix2 0); [apply bpow_le; lia|cbn; lra]|apply Rle_trans with (bpow radix2 0); [cbn; lra|apply bpow_le; lia]]). }
  split; [repeat constructor; vm_compute; reflexivity|]. split; [apply (spline_ok xs ys false G)|]. vm_compute. reflexivity.
Qed.
Print Assumptions C155_points_refuted.

(** (1, 1), (2, 2), (4, 0): the hypotheses hold and the numbers c_i are finite. *)
Example C155_case : let xs := map i2d [1; 2; 4]%Z in let ys := map i2d [1; 2; 0]%Z in
  good_points xs ys /\ usual_gaps xs /\ (exists f, dspline_interpolate xs ys false = Ok f /\ omap B2SF (deval f (i2d 1)) = Ok (B2SF (i2d 1)) /\ omap B2SF (deval f (i2d 5)) = Ok (B2SF d0)) /\
  (forall c0 c1 c2, c0 = d0 -> c1 = i2d (-1) -> c2 = d0 -> piece_finite (i2d 1) (i2d 1) (i2d 2) (i2d 2) c0 c1 /\ piece_finite (i2d 2) (i2d 2) (i2d 4) (i2d 0) c1 c2 /\
     map (fun i => B2SF (dsc (fun i => nth i xs d0) (fun i => nth i ys d0) 2 i)) [0; 1; 2]%nat = map B2SF [c0; c1; c2]).
Proof.
  cbv zeta. assert (G : good_points (map i2d [1; 2; 4]%Z) (map i2d [1; 2; 0]%Z)) by (apply good_ints; vm_compute; try reflexivity; lia).
  split; [exact G|]. split; [|split].
  - assert (VI : forall z, (Z.abs z <= 2 ^ 53)%Z -> B2R (i2d z) = IZR z) by (intros z H; apply d2_int; exact H).
    intros [|[|[|i]]] x0 x1 E0 E1; cbn [map nth_error] in E0, E1; try discriminate; apply some_inj in E0; apply some_inj in E1; rewrite <- E0, <- E1; unfold usual_gap; rewrite !VI by lia;
      (split; [apply Rle_trans with (bpow radix2 0); [apply bpow_le; lia|cbn; lra]|apply Rle_trans with (bpow radix2 1); [cbn; lra|apply bpow_le; lia]]).
  - eexists. split; [apply (spline_ok _ _ false G)|]. split; vm_compute; reflexivity.
  - intros c0 c1 c2 -> -> ->. repeat split; vm_compute; reflexivity.
Qed.
