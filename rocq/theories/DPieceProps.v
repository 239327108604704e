(** C157: integration of piecewise polynomials in double precision. *)
From Coq Require Import ZArith Reals List Bool Arith Lia Lra.
From Flocq Require Import Core IEEE754.BinarySingleNaN.
From Coquelicot Require Import Hierarchy RInt.
From Verif Require Import Common CumulModel FloatModel FloatProofs DoubleProofs DoubleProofs2 DInterpModel DInterpSpec DInterpProofs DInterpProps
  DSplineModel DSplineSpec DSplineProofs DSplineProofs3 DSplineProps DPieceModel DPieceSpec DPieceProofs DPieceProofs2.
Import ListNotations.
Local Open Scope R_scope.

(** The functions returned by interpolate for good points are piecewise polynomials with
    finite knots, as the theorems below expect. *)
Theorem C157_interpolated xs ys ex f : good_points xs ys -> dinterpolate xs ys ex = Ok f \/ dspline_interpolate xs ys ex = Ok f ->
  exists knots functions, f = DPiece knots functions /\ piecewise knots functions /\ ascending knots /\ Forall (fun k : double => is_finite k = true) knots.
Proof.
  intros G H. pose proof G as (L & N & A & F).
  assert (K : ascending (if ex then dreplace_ends xs else xs)) by (destruct ex; [apply replaced_ascending|]; assumption).
  assert (KF : Forall (fun k : double => is_finite k = true) (if ex then dreplace_ends xs else xs)).
  { destruct ex; [|exact F]. rewrite Forall_forall in *. intros k I. apply In_nth_error in I. destruct I as [j J]. rewrite nth_replaced in J by exact N.
    destruct (j =? 0)%nat; [apply some_inj in J; rewrite <- J; reflexivity|]. destruct (S j =? length xs)%nat; [apply some_inj in J; rewrite <- J; reflexivity|]. apply F. eapply nth_error_In. exact J. }
  assert (KL : length (if ex then dreplace_ends xs else xs) = length xs) by (destruct ex; [apply replaced_length|reflexivity]).
  assert (NF : not_falling (if ex then dreplace_ends xs else xs)) by (intros i a b HA HB; apply dlt_le; apply (K i); assumption).
  destruct H as [H|H].
  - rewrite interpolate_ok in H by exact G. apply ok_inj in H. rewrite <- H. eexists. eexists. split; [reflexivity|]. split; [|auto].
    assert (P : length xs = S (length (dlinear_pieces xs ys))) by (apply pieces_length; [exact L|destruct xs; [cbn in N; lia|discriminate]]). split; [lia|]. split; [lia|exact NF].
  - rewrite spline_ok in H by exact G. apply ok_inj in H. rewrite <- H. eexists. eexists. split; [reflexivity|]. split; [|auto].
    assert (P : length (pieces xs ys) = (length xs - 1)%nat) by (unfold pieces; rewrite map_length, seq_length; reflexivity). split; [lia|]. split; [lia|exact NF].
Qed.
Print Assumptions C157_interpolated.

(** The integral between two numbers, infinite ones included, is the sum in the order of the
    pieces of their own integrals, each over its part of the interval; pieces that do not
    meet the interval do not count. *)
Theorem C157_sum knots functions x1 x2 : piecewise knots functions -> dlt x1 x2 = true ->
  dintegrate (DPiece knots functions) x1 x2 = Ok (sum_of_pieces dpoly_integrate x1 x2 knots functions d0).
Proof. intros P LT. cbn [dintegrate]. rewrite integrate_sum by assumption. rewrite dmul_1_l. reflexivity. Qed.
Print Assumptions C157_sum.

(** Exchanging the bounds changes the sign and nothing else; equal bounds give 0. *)
Theorem C157_reversed knots functions x1 x2 : piecewise knots functions ->
  (dlt x1 x2 = true -> exists v, dintegrate (DPiece knots functions) x1 x2 = Ok v /\ dintegrate (DPiece knots functions) x2 x1 = Ok (Bopp v)) /\
  (deq x1 x2 = true -> dintegrate (DPiece knots functions) x1 x2 = Ok d0).
Proof.
  intros P. split.
  - intros LT. cbn [dintegrate]. eexists. split; [apply C157_sum; assumption|]. rewrite integrate_turned by assumption. rewrite dmul_m1. reflexivity.
  - intros E. cbn [dintegrate]. unfold dpieces_integrate. rewrite E. reflexivity.
Qed.
Print Assumptions C157_reversed.

(** Outside of the knots the function is 0: an interval before the first knot or after the
    last one gives 0, and otherwise the part outside of the knots does not count. *)
Theorem C157_outside knots functions x1 x2 first last_ : piecewise knots functions -> nth_error knots 0 = Some first -> nth_error knots (length functions) = Some last_ -> dlt x1 x2 = true ->
  (dle x2 first = true \/ dle last_ x1 = true -> dintegrate (DPiece knots functions) x1 x2 = Ok d0) /\
  (ascending knots -> dlt first x2 = true -> dlt x1 last_ = true ->
     dintegrate (DPiece knots functions) x1 x2 = dintegrate (DPiece knots functions) (later first x1) (earlier last_ x2)).
Proof.
  intros P H0 HL LT. destruct (dlt_nums _ _ LT) as [N1 N2]. split.
  - intros O. rewrite C157_sum by assumption. rewrite (outside knots functions x1 x2 first last_); auto.
  - intros AS O1 O2. rewrite C157_sum by assumption. rewrite (clipped knots functions x1 x2 first last_ P H0 HL AS N1 N2 O1 O2). symmetry. apply C157_sum; [exact P|].
    destruct P as (L & L1 & NF). assert (FL : dlt first last_ = true).
    { destruct (nth_error knots 1) as [k1|] eqn:K1; [|apply nth_error_None in K1; lia]. apply (dlt_le_trans _ k1); [apply (AS 0%nat); assumption|]. apply (falling_order knots NF ltac:(lia) 1 (length functions)); auto. }
    destruct (dlt_nums _ _ O1) as [NF' _]. destruct (dlt_nums _ _ O2) as [_ NL]. unfold later, earlier. destruct (dlt first x1); destruct (dlt x2 last_); assumption.
Qed.
Print Assumptions C157_outside.

(** A NaN as the first bound gives 0, whatever the function. As the second bound it is taken
    for infinity. *)
Theorem C157_nan knots functions x y : piecewise knots functions -> is_nan x = true ->
  dintegrate (DPiece knots functions) x y = Ok d0 /\
  (Forall (fun k : double => is_finite k = true) knots -> dintegrate (DPiece knots functions) y x = dintegrate (DPiece knots functions) y dinf).
Proof.
  intros (L & L1 & NF) N. assert (K : knots <> []) by (destruct knots; [cbn in L; lia|discriminate]). split; [apply nan_start; assumption|]. intros F. apply nan_end; assumption.
Qed.
Print Assumptions C157_nan.

(** The constant returned for a single point is not integrated. *)
Theorem C157_constant c x1 x2 : dintegrate (DConst c) x1 x2 = Throw.
Proof. reflexivity. Qed.
Print Assumptions C157_constant.

(** The error: when the result is finite and no term is tiny, it differs from the integral of
    the function that is the given polynomial between each pair of knots and 0 outside by at
    most (1 + 2^-53)^(3 + L + m) - 1 times the sizes of the terms, for m pieces of at most L
    coefficients. *)
Theorem C157_error knots functions (x1 x2 v : double) h I L : piecewise knots functions -> Forall (fun k : double => is_finite k = true) knots ->
  is_finite x1 = true -> is_finite x2 = true -> dlt x1 x2 = true -> dintegrate (DPiece knots functions) x1 x2 = Ok v -> is_finite v = true ->
  Forall (fun f : list double => (length f <= L)%nat) functions -> (Z.of_nat L <= 2 ^ 49)%Z ->
  (forall i a b f, nth_error knots i = Some a -> nth_error knots (S i) = Some b -> nth_error functions i = Some f -> dlt a x2 = true -> dlt x1 b = true ->
     coefs_not_tiny f /\ terms_not_tiny (dinteg f) (later a x1) /\ terms_not_tiny (dinteg f) (earlier b x2)) ->
  made_of (map B2R knots) (map (map B2R) functions) h -> is_RInt h (B2R x1) (B2R x2) I ->
  Rabs (B2R v - I) <= rounding (3 + L + length functions) * sizes_of_pieces x1 x2 knots functions.
Proof.
  intros P FK F1 F2 LT E FV LF LL SP MO D. rewrite C157_sum in E by assumption. apply ok_inj in E. rewrite <- E in *. pose proof P as (LEN & L1 & NF).
  assert (LE : B2R x1 <= B2R x2). { apply Rlt_le. apply finite_lt; assumption. }
  pose proof (sum_near x1 x2 L F1 F2 LE LL knots functions d0 0 0 (3 + L) ltac:(lia) FK NF LF) as S.
  assert (Z : B2R d0 = 0) by reflexivity.
  rewrite !Rplus_0_l in S. assert (EX : I = exact_sum (B2R x1) (B2R x2) (map B2R knots) (map (map B2R) functions)).
  { destruct knots as [|a r]; [discriminate LEN|]. cbn [map]. apply (exact_value h); auto; [rewrite !map_length; injection LEN as LEN; exact LEN|].
    intros i x y X Y. change (B2R a :: map B2R r) with (map (@B2R 53 1024) (a :: r)) in X, Y. apply nth_B2R in X. apply nth_B2R in Y. destruct X as (u & U & X). destruct Y as (w & W & Y). rewrite <- X, <- Y. pose proof (NF i u w U W) as H. rewrite Forall_forall in FK. assert (FU : is_finite u = true) by (apply FK; eapply nth_error_In; exact U). assert (FW : is_finite w = true) by (apply FK; eapply nth_error_In; exact W).
    apply dle_iff in H; auto using dfinite_num. rewrite !dext_finite in H by auto. exact H. }
  rewrite EX. apply S; auto.
  - intros i a b f A B C M. apply andb_prop in M. destruct M as [M1 M2]. apply (SP i a b f); assumption.
  - rewrite Rabs_R0. lra.
  - rewrite Z. apply near_refl. rewrite Rabs_R0. lra.
Qed.
Print Assumptions C157_error.

(** The integral of a positive function can be negative: through (96089330, 2) and
    (96089331, 8) it is 5, and the program returns -4. *)
Theorem C157_positive_refuted : exists xs ys f x1 x2 v, good_points xs ys /\ Forall (fun y => dlt d1 y = true) ys /\ dinterpolate xs ys false = Ok f /\
  nth_error xs 0 = Some x1 /\ nth_error xs 1 = Some x2 /\ dintegrate f x1 x2 = Ok v /\ v = i2d (-4).
Proof.
  set (xs := map i2d [96089330; 96089331]%Z). set (ys := map i2d [2; 8]%Z).
  assert (G : good_points xs ys) by (apply good_ints; vm_compute; try reflexivity; lia).
  exists xs, ys, (DPiece xs (dlinear_pieces xs ys)), (i2d 96089330), (i2d 96089331).
  exists (i2d (-4)). split; [exact G|]. split; [repeat constructor; vm_compute; reflexivity|]. split; [apply (interpolate_ok xs ys false G)|]. split; [reflexivity|]. split; [reflexivity|]. split; [|reflexivity].
  apply (oinj B2SF sf_inj). vm_compute. reflexivity.
Qed.
Print Assumptions C157_positive_refuted.

(** Integrals over neighbouring intervals do not add up to the integral over both. *)
Theorem C157_additive_refuted : exists knots functions a b c u v w, piecewise knots functions /\ dlt a b = true /\ dlt b c = true /\
  dintegrate (DPiece knots functions) a b = Ok u /\ dintegrate (DPiece knots functions) b c = Ok v /\ dintegrate (DPiece knots functions) a c = Ok w /\ deq (dadd u v) w = false.
Proof.
  set (a := d2 9 (-55)). exists (map i2d [0; 4]%Z), [[d1]], a, (i2d 1), (i2d 4), (d2 (2 ^ 52 - 1) (-52)), (i2d 3), (d2 (2 ^ 53 - 1) (-51)).
  split. { split; [reflexivity|]. split; [cbn; lia|]. intros [|[|i]] x y X Y; cbn in X, Y; try (destruct i); try discriminate; apply some_inj in X; apply some_inj in Y; rewrite <- X, <- Y; vm_compute; reflexivity. }
  split; [vm_compute; reflexivity|]. split; [vm_compute; reflexivity|].
  split; [apply (oinj B2SF sf_inj); vm_compute; reflexivity|]. split; [apply (oinj B2SF sf_inj); vm_compute; reflexivity|]. split; [apply (oinj B2SF sf_inj); vm_compute; reflexivity|]. vm_compute; reflexivity.
Qed.
Print Assumptions C157_additive_refuted.

(** 1 + 2 x between 0 and 1, then 5 up to 3, from -1 to 2: the hypotheses of C157_error hold
    and the result 7 is exact. *)
Example C157_example : let knots := map i2d [0; 1; 3]%Z in let functions := [map i2d [1; 2]%Z; map i2d [5]%Z] in
  piecewise knots functions /\ ascending knots /\ Forall (fun k : double => is_finite k = true) knots /\
  (forall i a b f, nth_error knots i = Some a -> nth_error knots (S i) = Some b -> nth_error functions i = Some f -> dlt a (i2d 2) = true -> dlt (i2d (-1)) b = true ->
     coefs_not_tiny f /\ terms_not_tiny (dinteg f) (later a (i2d (-1))) /\ terms_not_tiny (dinteg f) (earlier b (i2d 2))) /\
  (exists h, made_of (map B2R knots) (map (map B2R) functions) h) /\
  dintegrate (DPiece knots functions) (i2d (-1)) (i2d 2) = Ok (i2d 7).
Proof.
  cbv zeta. assert (VI : forall z, (Z.abs z <= 2 ^ 53)%Z -> B2R (i2d z) = IZR z) by (intros z H; apply d2_int; exact H).
  assert (AS : ascending (map i2d [0; 1; 3]%Z)).
  { intros [|[|[|i]]] x y X Y; cbn [map nth_error] in X, Y; try discriminate; apply some_inj in X; apply some_inj in Y; rewrite <- X, <- Y; vm_compute; reflexivity. }
  assert (NT : forall z, (0 <= z <= 100)%Z -> not_tiny (IZR z)).
  { intros z H. destruct (Z.eq_dec z 0) as [-> |]; [left; reflexivity|]. right. assert (1 <= IZR z) by (apply IZR_le; lia). rewrite Rabs_pos_eq by lra. apply Rle_trans with 1; [|lra]. change 1 with (bpow radix2 0). apply bpow_le. lia. }
  assert (CT : forall z, (0 <= z <= 100)%Z -> is_finite (i2d z) = true /\ (B2R (i2d z) = 0 \/ bpow radix2 (-900) <= Rabs (B2R (i2d z)))).
  { intros z H. split; [apply (d2_int z); lia|]. rewrite VI by lia. destruct (Z.eq_dec z 0) as [-> |]; [left; reflexivity|]. right. assert (1 <= IZR z) by (apply IZR_le; lia). rewrite Rabs_pos_eq by lra. apply Rle_trans with 1; [|lra]. change 1 with (bpow radix2 0). apply bpow_le. lia. }
  assert (E1 : dinteg (map i2d [1; 2]%Z) = map i2d [0; 1; 1]%Z) by (apply map_sf_inj; vm_compute; reflexivity).
  assert (E2 : dinteg (map i2d [5]%Z) = map i2d [0; 5]%Z) by (apply map_sf_inj; vm_compute; reflexivity).
  assert (TT : forall zs z, (forall c, In c zs -> (0 <= c <= 5)%Z) -> (0 <= z <= 2)%Z -> (length zs <= 3)%nat -> terms_not_tiny (map i2d zs) (i2d z)).
  { intros zs z HZ ZR ZL i c H. assert (IL : (i < 3)%nat). { assert (i < length (map i2d zs))%nat by (apply nth_error_Some; congruence). rewrite map_length in *. lia. }
    destruct (nth_error zs i) as [w|] eqn:W. 2: { apply nth_error_None in W. assert (i < length (map i2d zs))%nat by (apply nth_error_Some; congruence). rewrite map_length in *. lia. }
    apply (map_nth_error i2d) in W as W'. rewrite W' in H. apply some_inj in H. rewrite <- H. specialize (HZ w (nth_error_In _ _ W)). rewrite !VI by lia. rewrite pow_IZR, <- mult_IZR.
    destruct i as [|[|[|i]]]; [| | |lia]; cbn [Z.of_nat Pos.of_succ_nat Pos.succ]; split; apply NT; nia. }
  split. { split; [reflexivity|]. split; [cbn; lia|]. intros i a b A B. apply dlt_le. apply (AS i); assumption. }
  split; [exact AS|]. split; [repeat constructor|]. split.
  - intros [|[|[|i]]] a b f A B F _ _; cbn [map nth_error] in A, B, F; try discriminate; apply some_inj in A; apply some_inj in B; apply some_inj in F; rewrite <- A, <- B, <- F.
    + split; [repeat (constructor; [apply CT; lia|]); constructor|]. change [i2d 1; i2d 2] with (map i2d [1; 2]%Z). rewrite E1. assert (L1 : later (i2d 0) (i2d (-1)) = i2d 0) by (apply sf_inj; vm_compute; reflexivity). assert (L2 : earlier (i2d 1) (i2d 2) = i2d 1) by (apply sf_inj; vm_compute; reflexivity). rewrite L1, L2.
      split; (apply TT; [|lia|cbn; lia]); cbn [In]; intros c Hc; lia.
    + split; [repeat (constructor; [apply CT; lia|]); constructor|]. change [i2d 5] with (map i2d [5]%Z). rewrite E2. assert (L1 : later (i2d 1) (i2d (-1)) = i2d 1) by (apply sf_inj; vm_compute; reflexivity). assert (L2 : earlier (i2d 3) (i2d 2) = i2d 2) by (apply sf_inj; vm_compute; reflexivity). rewrite L1, L2.
      split; (apply TT; [|lia|cbn; lia]); cbn [In]; intros c Hc; lia.
  - split; [|apply (oinj B2SF sf_inj); vm_compute; reflexivity].
    exists (fun x => if Rlt_dec x 0 then 0 else if Rlt_dec x 1 then 1 + 2 * x else if Rlt_dec 3 x then 0 else 5). cbn [map]. rewrite !VI by lia. split; [|split].
    + intros [|[|[|i]]] a b p x A B P X; cbn [nth_error] in A, B, P; try discriminate; apply some_inj in A; apply some_inj in B; apply some_inj in P; rewrite <- P; cbn [poly_at]; repeat destruct Rlt_dec; lra.
    + intros a x A X. cbn [nth_error] in A. apply some_inj in A. repeat destruct Rlt_dec; lra.
    + intros b x B X. cbn [nth_error length Nat.sub] in B. apply some_inj in B. repeat destruct Rlt_dec; lra.
Qed.
