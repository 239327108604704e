(** Rounding errors of the pieces of a cubic spline in double precision. *)
From Coq Require Import ZArith Reals List Arith Bool Lia Lra Psatz.
From Flocq Require Import Core IEEE754.BinarySingleNaN.
From Verif Require Import Common FloatModel FloatProofs DoubleProofs DoubleProofs2 DInterpModel DInterpSpec DInterpProofs DInterpProofs2
  DSOMProofs DSOMProofs2 DSplineModel DSplineSpec DSplineProofs.
Import ListNotations.
Local Open Scope R_scope.

Definition low (e : Z) (r : R) : Prop := r = 0 \/ bpow radix2 e <= Rabs r.
Lemma low_weaken e f r : (f <= e)%Z -> low e r -> low f r.
Proof. intros H [->|L]; [left; reflexivity|right]. apply Rle_trans with (2 := L). apply bpow_le, H. Qed.
Lemma low_multiple e (a : double) : (-1000 <= e)%Z -> low e (B2R a) -> exists M, B2R a = IZR M * bpow radix2 (e - 52).
Proof.
  intros He [->|L]; [exists 0%Z; ring|].
  pose proof (generic_format_B2R 53 1024 a) as G. unfold generic_format, F2R in G. cbn [Fnum Fexp] in G.
  set (m := Ztrunc (scaled_mantissa radix2 (SpecFloat.fexp 53 1024) (B2R a))) in *.
  set (c := cexp radix2 (SpecFloat.fexp 53 1024) (B2R a)) in *.
  assert (C : (e - 52 <= c)%Z).
  { unfold c, cexp, SpecFloat.fexp, SpecFloat.emin. assert (e + 1 <= mag radix2 (B2R a))%Z by (apply mag_ge_bpow; replace (e + 1 - 1)%Z with e by lia; exact L). lia. }
  exists (m * 2 ^ (c - (e - 52)))%Z. rewrite G. rewrite mult_IZR, Rmult_assoc. f_equal.
  replace (IZR (2 ^ (c - (e - 52)))) with (bpow radix2 (c - (e - 52))) by (rewrite <- IZR_Zpower by lia; reflexivity).
  rewrite <- bpow_plus. f_equal. lia.
Qed.
Lemma low_add e (a b : double) : (-1000 <= e)%Z -> is_finite (dadd a b) = true -> low e (B2R a) -> low e (B2R b) -> low (e - 52) (B2R (dadd a b)).
Proof.
  intros He F LA LB. destruct (fin_add a b F) as (FA & FB). destruct (dadd_ext a b FA FB) as [_ E]. apply (finite_rnd _ _ F) in E.
  rewrite (dext_finite a FA), (dext_finite b FB) in E.
  destruct (low_multiple e a He LA) as (M & EM). destruct (low_multiple e b He LB) as (K & EK).
  assert (S : B2R a + B2R b = IZR (M + K) * bpow radix2 (e - 52)) by (rewrite EM, EK, plus_IZR; ring).
  destruct (Z.eq_dec (M + K) 0) as [Z|Z].
  - left. rewrite E, S, Z, Rmult_0_l. apply rnd_0.
  - right. rewrite E. apply abs_round_ge_generic; [apply fexp_correct; reflexivity|auto with typeclass_instances| |].
    + apply generic_format_bpow. unfold SpecFloat.fexp, SpecFloat.emin. lia.
    + rewrite S, Rabs_mult, (Rabs_pos_eq (bpow radix2 (e - 52))) by apply bpow_ge_0. rewrite <- (Rmult_1_l (bpow radix2 (e - 52))) at 1. apply Rmult_le_compat_r; [apply bpow_ge_0|].
      rewrite <- abs_IZR. apply IZR_le. lia.
Qed.
Lemma low_mul e f r s : low e r -> low f s -> low (e + f) (r * s).
Proof.
  intros [->|L] [->|M]; try (left; ring). right. rewrite Rabs_mult, bpow_plus. apply Rmult_le_compat; auto using bpow_ge_0.
Qed.
Lemma low_near e n r r' : (Z.of_nat n <= 2 ^ 51)%Z -> low e r -> near n (Rabs r) r r' -> low (e - 1) r'.
Proof.
  intros H [->|L] N; [left; apply (near_zero n), N|right].
  pose proof (near_below n r r' H N). apply Rle_trans with (bpow radix2 e / 2); [|lra].
  replace e with (e - 1 + 1)%Z at 2 by lia. rewrite half_pow. lra.
Qed.
Lemma B2R_opp (k : double) : B2R (Bopp k) = - B2R k. Proof. apply B2R_Bopp. Qed.
Lemma B2R_dtwo : B2R dtwo = 2. Proof. rewrite <- dext_finite by reflexivity. apply ext_dtwo. Qed.
Lemma B2R_dthree : B2R dthree = 3. Proof. apply (d2_int 3). lia. Qed.

Lemma mul_low_near e n m (a b : double) ra rb : is_finite (dmul a b) = true -> (Z.of_nat n <= 1000)%Z -> (Z.of_nat m <= 1000)%Z -> (-1000 <= e)%Z ->
  near n (Rabs ra) ra (B2R a) -> near m (Rabs rb) rb (B2R b) -> low e (ra * rb) ->
  near (S (n + m)) (Rabs (ra * rb)) (ra * rb) (B2R (dmul a b)) /\ low (e - 1) (B2R (dmul a b)).
Proof.
  intros F Hn Hm He NA NB L.
  assert (N : near (n + m) (Rabs (ra * rb)) (ra * rb) (B2R a * B2R b)) by (rewrite Rabs_mult; apply near_mul; auto; lra).
  assert (L2 : low (e - 1) (B2R a * B2R b)) by (apply (low_near e (n + m) (ra * rb)); [lia|exact L|exact N]).
  assert (R : near (S (n + m)) (Rabs (ra * rb)) (ra * rb) (B2R (dmul a b))).
  { rewrite Rabs_mult. apply mul_near; auto; [lra|lra|]. destruct L2 as [E|G]; [left; exact E|right]. apply Rle_trans with (2 := G). apply bpow_le. lia. }
  split; [exact R|]. apply (low_near e (S (n + m)) (ra * rb)); [lia|exact L|exact R].
Qed.

Section Piece.
  Variables a b c d k x : double.
  Hypothesis NT : cubic_not_tiny a b c d k x.
  Let A := B2R a. Let B := B2R b. Let C := B2R c. Let D := B2R d. Let K := B2R k.
  Lemma opp_near : near 0 (Rabs (- K)) (- K) (B2R (Bopp k)).
  Proof. rewrite B2R_opp. apply near_refl. apply Rle_refl. Qed.
  Lemma low_K i : (i <= 3)%nat -> low (-200) (K ^ i).
  Proof. intros H. destruct NT as (P & _). apply P, H. Qed.
  Lemma lowB i : (i <= 1)%nat -> low (-200) (B * K ^ i). Proof. intros H. destruct NT as (_ & _ & P & _). apply P, H. Qed.
  Lemma lowC i : (i <= 2)%nat -> low (-200) (C * K ^ i). Proof. intros H. destruct NT as (_ & _ & _ & P & _). apply P, H. Qed.
  Lemma lowD i : (i <= 3)%nat -> low (-200) (D * K ^ i). Proof. intros H. destruct NT as (_ & _ & _ & _ & P). apply P, H. Qed.
  Lemma lowA : low (-200) A. Proof. destruct NT as (_ & P & _). exact P. Qed.
  Lemma low_opp e r : low e r -> low e (- r).
  Proof. intros [->|H]; [left; ring|right; rewrite Rabs_Ropp; exact H]. Qed.
  Lemma low_scale e z r : (1 <= z)%Z -> low e r -> low e (IZR z * r).
  Proof.
    intros H [->|L]; [left; ring|right]. rewrite Rabs_mult, <- abs_IZR. replace (Z.abs z) with z by lia.
    apply IZR_le in H. pose proof (Rabs_pos r). pose proof (bpow_gt_0 radix2 e). nra.
  Qed.

  Let x1 := Bopp k. Let x2 := dmul x1 x1. Let x3 := dmul x1 x2.
  Lemma x2_near : is_finite x2 = true -> near 1 (Rabs (- K * - K)) (- K * - K) (B2R x2).
  Proof.
    intros F. apply (mul_low_near (-200) 0 0 x1 x1 (- K) (- K) F); [lia|lia|lia|apply opp_near|apply opp_near|].
    replace (- K * - K) with (K ^ 2) by ring. apply low_K. lia.
  Qed.
  Lemma x3_near : is_finite x3 = true -> near 2 (Rabs (- K * (- K * - K))) (- K * (- K * - K)) (B2R x3).
  Proof.
    intros F. pose proof (fin_mul _ _ F) as (F1 & F2).
    apply (mul_low_near (-200) 0 1 x1 x2 (- K) (- K * - K) F); [lia|lia|lia|apply opp_near|apply x2_near, F2|].
    replace (- K * (- K * - K)) with (- K ^ 3) by ring. apply low_opp, low_K. lia.
  Qed.
  Lemma bx_near : is_finite (dmul b x1) = true -> near 1 (Rabs (B * - K)) (B * - K) (B2R (dmul b x1)) /\ low (-201) (B2R (dmul b x1)).
  Proof.
    intros F. apply (mul_low_near (-200) 0 0 b x1 B (- K) F); [lia|lia|lia|apply near_refl; apply Rle_refl|apply opp_near|].
    replace (B * - K) with (- (B * K ^ 1)) by ring. apply low_opp, lowB. lia.
  Qed.
  Lemma cx_near : is_finite (dmul c x2) = true -> near 2 (Rabs (C * (- K * - K))) (C * (- K * - K)) (B2R (dmul c x2)) /\ low (-201) (B2R (dmul c x2)).
  Proof.
    intros F. pose proof (fin_mul _ _ F) as (F1 & F2). apply (mul_low_near (-200) 0 1 c x2 C (- K * - K) F); [lia|lia|lia|apply near_refl; apply Rle_refl|apply x2_near, F2|].
    replace (C * (- K * - K)) with (C * K ^ 2) by ring. apply lowC. lia.
  Qed.
  Lemma dx_near : is_finite (dmul d x3) = true -> near 3 (Rabs (D * (- K * (- K * - K)))) (D * (- K * (- K * - K))) (B2R (dmul d x3)) /\ low (-201) (B2R (dmul d x3)).
  Proof.
    intros F. pose proof (fin_mul _ _ F) as (F1 & F2). apply (mul_low_near (-200) 0 2 d x3 D (- K * (- K * - K)) F); [lia|lia|lia|apply near_refl; apply Rle_refl|apply x3_near, F2|].
    replace (D * (- K * (- K * - K))) with (- (D * K ^ 3)) by ring. apply low_opp, lowD. lia.
  Qed.
  Lemma two_c : is_finite (dmul dtwo c) = true -> near 1 (Rabs (2 * C)) (2 * C) (B2R (dmul dtwo c)).
  Proof.
    intros F. apply (mul_low_near (-200) 0 0 dtwo c 2 C F); [lia|lia|lia|rewrite B2R_dtwo; apply near_refl; apply Rle_refl|apply near_refl; apply Rle_refl|].
    apply (low_scale _ 2); [lia|]. replace C with (C * K ^ 0) by ring. apply lowC. lia.
  Qed.
  Lemma three_d : is_finite (dmul dthree d) = true -> near 1 (Rabs (3 * D)) (3 * D) (B2R (dmul dthree d)).
  Proof.
    intros F. apply (mul_low_near (-200) 0 0 dthree d 3 D F); [lia|lia|lia|rewrite B2R_dthree; apply near_refl; apply Rle_refl|apply near_refl; apply Rle_refl|].
    apply (low_scale _ 3); [lia|]. replace D with (D * K ^ 0) by ring. apply lowD. lia.
  Qed.
  Lemma cx1_near : is_finite (dmul (dmul dtwo c) x1) = true ->
    near 2 (Rabs (2 * C * - K)) (2 * C * - K) (B2R (dmul (dmul dtwo c) x1)) /\ low (-201) (B2R (dmul (dmul dtwo c) x1)).
  Proof.
    intros F. pose proof (fin_mul _ _ F) as (F1 & F2). apply (mul_low_near (-200) 1 0 _ x1 (2 * C) (- K) F); [lia|lia|lia|apply two_c, F1|apply opp_near|].
    replace (2 * C * - K) with (- (2 * (C * K ^ 1))) by ring. apply low_opp, (low_scale _ 2); [lia|]. apply lowC. lia.
  Qed.
  Lemma dx2_near : is_finite (dmul (dmul dthree d) x2) = true ->
    near 3 (Rabs (3 * D * (- K * - K))) (3 * D * (- K * - K)) (B2R (dmul (dmul dthree d) x2)) /\ low (-201) (B2R (dmul (dmul dthree d) x2)).
  Proof.
    intros F. pose proof (fin_mul _ _ F) as (F1 & F2). apply (mul_low_near (-200) 1 1 _ x2 (3 * D) (- K * - K) F); [lia|lia|lia|apply three_d, F1|apply x2_near, F2|].
    replace (3 * D * (- K * - K)) with (3 * (D * K ^ 2)) by ring. apply (low_scale _ 3); [lia|]. apply lowD. lia.
  Qed.
  Lemma dx1_near : is_finite (dmul (dmul dthree d) x1) = true ->
    near 2 (Rabs (3 * D * - K)) (3 * D * - K) (B2R (dmul (dmul dthree d) x1)) /\ low (-201) (B2R (dmul (dmul dthree d) x1)).
  Proof.
    intros F. pose proof (fin_mul _ _ F) as (F1 & F2). apply (mul_low_near (-200) 1 0 _ x1 (3 * D) (- K) F); [lia|lia|lia|apply three_d, F1|apply opp_near|].
    replace (3 * D * - K) with (- (3 * (D * K ^ 1))) by ring. apply low_opp, (low_scale _ 3); [lia|]. apply lowD. lia.
  Qed.

  (** The coefficients *)
  Lemma coef0_near : let s := dadd (dadd (dadd a (dmul b x1)) (dmul c x2)) (dmul d x3) in is_finite s = true ->
    near 4 (Rabs A + Rabs (B * - K) + Rabs (C * (- K * - K)) + Rabs (D * (- K * (- K * - K))))
           (A + B * - K + C * (- K * - K) + D * (- K * (- K * - K))) (B2R s) /\ low (-360) (B2R s).
  Proof.
    intros s F. unfold s in *. pose proof (fin_add _ _ F) as (F2 & Fd). pose proof (fin_add _ _ F2) as (F1 & Fc). pose proof (fin_add _ _ F1) as (Fa & Fb).
    destruct (bx_near Fb) as (NB & LB). destruct (cx_near Fc) as (NC & LC). destruct (dx_near Fd) as (ND & LD).
    pose proof (Rabs_pos (B * - K)). pose proof (Rabs_pos (C * (- K * - K))). pose proof (Rabs_pos A).
    pose proof (Rabs_triang A (B * - K)) as T1. pose proof (Rabs_triang (A + B * - K) (C * (- K * - K))) as T2.
    split.
    - apply add_near; [exact F|lra|apply Rle_refl| |exact ND].
      apply add_near; [exact F2|lra|apply Rle_refl| |exact NC].
      apply add_near; [exact F1|apply Rle_refl|apply Rle_refl|apply near_refl; apply Rle_refl|exact NB].
    - apply (low_weaken (-201 - 52 - 52 - 52)); [lia|]. apply low_add; [lia|exact F| |apply (low_weaken (-201)); [lia|exact LD]].
      apply low_add; [lia|exact F2| |apply (low_weaken (-201)); [lia|exact LC]]. apply low_add; [lia|exact F1| |exact LB].
      apply (low_weaken (-200)); [lia|apply lowA].
  Qed.
  Lemma coef1_near : let s := dadd (dadd b (dmul (dmul dtwo c) x1)) (dmul (dmul dthree d) x2) in is_finite s = true ->
    near 4 (Rabs B + Rabs (2 * C * - K) + Rabs (3 * D * (- K * - K)))
           (B + 2 * C * - K + 3 * D * (- K * - K)) (B2R s) /\ low (-360) (B2R s).
  Proof.
    intros s F. unfold s in *. pose proof (fin_add _ _ F) as (F1 & Fd). pose proof (fin_add _ _ F1) as (Fb & Fc).
    destruct (cx1_near Fc) as (NC & LC). destruct (dx2_near Fd) as (ND & LD).
    pose proof (Rabs_triang B (2 * C * - K)) as T1.
    split.
    - apply add_near; [exact F|lra|apply Rle_refl| |exact ND].
      apply add_near; [exact F1|apply Rle_refl|apply Rle_refl|apply near_refl; apply Rle_refl|exact NC].
    - apply (low_weaken (-201 - 52 - 52)); [lia|]. apply low_add; [lia|exact F| |apply (low_weaken (-201)); [lia|exact LD]].
      apply low_add; [lia|exact F1| |exact LC]. apply (low_weaken (-200)); [lia|]. fold B. replace B with (B * K ^ 0) by ring. apply lowB. lia.
  Qed.
  Lemma coef2_near : let s := dadd c (dmul (dmul dthree d) x1) in is_finite s = true ->
    near 4 (Rabs C + Rabs (3 * D * - K)) (C + 3 * D * - K) (B2R s) /\ low (-360) (B2R s).
  Proof.
    intros s F. unfold s in *. pose proof (fin_add _ _ F) as (Fc & Fd). destruct (dx1_near Fd) as (ND & LD).
    pose proof (Rabs_pos C). pose proof (Rabs_pos (3 * D * - K)).
    split.
    - apply (near_more 3); [lia|lra|]. apply add_near; [exact F|apply Rle_refl|apply Rle_refl|apply near_refl; apply Rle_refl|exact ND].
    - apply (low_weaken (-201 - 52)); [lia|]. apply low_add; [lia|exact F| |exact LD]. apply (low_weaken (-200)); [lia|]. fold C. replace C with (C * K ^ 0) by ring. apply lowC. lia.
  Qed.
End Piece.

Lemma loop_finite : forall l (a p y : double), is_finite (dpoly_loop a p l y) = true -> is_finite a = true.
Proof. induction l as [|c l IH]; intros a p y; cbn [dpoly_loop]; [auto|]. intros F. apply IH in F. apply fin_add in F. apply F. Qed.
Lemma loop_coefs : forall l (a p y : double), is_finite (dpoly_loop a p l y) = true -> Forall (fun c : double => is_finite c = true) l.
Proof.
  induction l as [|c l IH]; intros a p y F; [constructor|]. cbn [dpoly_loop] in F. constructor; [|apply (IH _ _ _ F)].
  apply loop_finite in F. apply fin_add in F. destruct F as (_ & F). apply fin_mul in F. apply F.
Qed.

Lemma shifted_error (a b c d k x : double) : cubic_not_tiny a b c d k x -> is_finite x = true -> is_finite (dpoly (dshifted a b c d k) x) = true ->
  Rabs (B2R (dpoly (dshifted a b c d k) x) - cubic (B2R a) (B2R b) (B2R c) (B2R d) (B2R k) (B2R x))
  <= gam 8 * cubic_size (B2R a) (B2R b) (B2R c) (B2R d) (B2R k) (B2R x).
Proof.
  intros NT FX F. pose proof (loop_coefs _ _ _ _ F) as FC. unfold dshifted in FC.
  inversion FC as [|? ? F0 FC1]; subst. inversion FC1 as [|? ? F1 FC2]; subst. inversion FC2 as [|? ? F2 FC3]; subst. inversion FC3 as [|? ? F3 _]; subst. clear FC FC1 FC2 FC3.
  destruct (coef0_near a b c d k x NT F0) as (N0 & L0). destruct (coef1_near a b c d k x NT F1) as (N1 & L1). destruct (coef2_near a b c d k x NT F2) as (N2 & L2).
  assert (T : terms_not_tiny (dshifted a b c d k) x).
  { assert (G : forall i r, (i <= 3)%nat -> low (-360) r -> not_tiny (B2R x ^ i) /\ not_tiny (r * B2R x ^ i)).
    { intros i r Hi Lr. destruct NT as (P & _). destruct (P i Hi) as (_ & Px). split.
      - destruct Px as [E|G]; [left; exact E|right]. apply Rle_trans with (2 := G). apply bpow_le. lia.
      - destruct (low_mul _ _ _ _ Lr Px) as [E|G]; [left; exact E|right]. apply Rle_trans with (2 := G). apply bpow_le. lia. }
    intros i e He. unfold dshifted in He. destruct i as [|[|[|[|i]]]]; cbn [nth_error] in He; try (destruct i; discriminate).
    - apply (f_equal (fun o => match o with Some v => v | None => d0 end)) in He. subst e. apply G; [lia|exact L0].
    - apply (f_equal (fun o => match o with Some v => v | None => d0 end)) in He. subst e. apply G; [lia|exact L1].
    - apply (f_equal (fun o => match o with Some v => v | None => d0 end)) in He. subst e. apply G; [lia|exact L2].
    - apply (f_equal (fun o => match o with Some v => v | None => d0 end)) in He. subst e. apply G; [lia|].
      apply (low_weaken (-200)); [lia|]. replace (B2R d) with (B2R d * B2R k ^ 0) by ring. apply lowD with (a := a) (b := b) (c := c) (x := x); [exact NT|lia]. }
  pose proof (dpoly_error (dshifted a b c d k) x ltac:(cbn; lia) T F FX) as E.
  set (v := B2R (dpoly (dshifted a b c d k) x)) in *. clearbody v.
  change (length (dshifted a b c d k)) with 4%nat in E. unfold dshifted in E. cbn [map] in E.
  set (c0 := B2R (dadd (dadd (dadd a _) _) _)) in *. set (c1 := B2R (dadd (dadd b _) _)) in *. set (c2 := B2R (dadd c _)) in *.
  clearbody c0 c1 c2. clear L0 L1 L2 T F F0 F1 F2 NT. unfold poly_size, near in E. cbn [map poly_at] in E.
  unfold cubic, cubic_size.
  set (A := B2R a) in *. set (B := B2R b) in *. set (C := B2R c) in *. set (D := B2R d) in *. set (K := B2R k) in *. set (X := B2R x) in *. clearbody A B C D K X.
  set (S0 := Rabs A + Rabs (B * - K) + Rabs (C * (- K * - K)) + Rabs (D * (- K * (- K * - K)))) in *.
  set (S1 := Rabs B + Rabs (2 * C * - K) + Rabs (3 * D * (- K * - K))) in *.
  set (S2 := Rabs C + Rabs (3 * D * - K)) in *.
  set (e0 := A + B * - K + C * (- K * - K) + D * (- K * (- K * - K))) in *.
  set (e1 := B + 2 * C * - K + 3 * D * (- K * - K)) in *. set (e2 := C + 3 * D * - K) in *.
  replace (A + B * (X - K) + C * (X - K) ^ 2 + D * (X - K) ^ 3) with (e0 + X * (e1 + X * (e2 + X * D))) by (unfold e0, e1, e2; ring).
  replace (Rabs A + Rabs B * (Rabs X + Rabs K) + Rabs C * (Rabs X + Rabs K) ^ 2 + Rabs D * (Rabs X + Rabs K) ^ 3)
    with (S0 + Rabs X * (S1 + Rabs X * (S2 + Rabs X * Rabs D)))
    by (unfold S0, S1, S2; rewrite !Rabs_mult, !Rabs_Ropp, (Rabs_pos_eq 2), (Rabs_pos_eq 3) by lra; ring).
  assert (B0 : Rabs e0 <= S0). { unfold e0, S0. pose proof (Rabs_triang A (B * - K)). pose proof (Rabs_triang (A + B * - K) (C * (- K * - K))). pose proof (Rabs_triang (A + B * - K + C * (- K * - K)) (D * (- K * (- K * - K)))). lra. }
  assert (B1 : Rabs e1 <= S1). { unfold e1, S1. pose proof (Rabs_triang B (2 * C * - K)). pose proof (Rabs_triang (B + 2 * C * - K) (3 * D * (- K * - K))). lra. }
  assert (B2 : Rabs e2 <= S2). { unfold e2, S2. apply Rabs_triang. }
  clearbody e0 e1 e2 S0 S1 S2.
  assert (M0 := near_abs _ _ _ _ B0 N0). assert (M1 := near_abs _ _ _ _ B1 N1). assert (M2 := near_abs _ _ _ _ B2 N2). unfold near in N0, N1, N2.
  change 8%nat with (4 + 4)%nat. rewrite <- gam_add. pose proof (gam_pos 4) as G. set (g := gam 4) in *. clearbody g.
  pose proof (Rabs_pos X) as PX. pose proof (Rabs_pos D) as PD. set (x' := Rabs X) in *.
  rewrite !Rmult_0_r, !Rplus_0_r in E.
  (* the sizes of the computed coefficients *)
  assert (SZ : Rabs c0 + x' * (Rabs c1 + x' * (Rabs c2 + x' * Rabs D)) <= (1 + g) * (S0 + x' * (S1 + x' * (S2 + x' * Rabs D)))).
  { assert (Q2 : Rabs c2 + x' * Rabs D <= (1 + g) * (S2 + x' * Rabs D)) by (assert (0 <= x' * Rabs D) by (apply Rmult_le_pos; assumption); nra).
    assert (Q1 : x' * (Rabs c2 + x' * Rabs D) <= x' * ((1 + g) * (S2 + x' * Rabs D))) by (apply Rmult_le_compat_l; assumption).
    assert (Q0 : x' * (Rabs c1 + x' * (Rabs c2 + x' * Rabs D)) <= x' * ((1 + g) * (S1 + x' * (S2 + x' * Rabs D)))) by (apply Rmult_le_compat_l; [assumption|lra]).
    lra. }
  assert (DV : Rabs (c0 + X * (c1 + X * (c2 + X * D)) - (e0 + X * (e1 + X * (e2 + X * D)))) <= g * (S0 + x' * (S1 + x' * (S2 + x' * Rabs D)))).
  { replace (c0 + X * (c1 + X * (c2 + X * D)) - (e0 + X * (e1 + X * (e2 + X * D)))) with ((c0 - e0) + (X * (c1 - e1) + X * (X * (c2 - e2)))) by ring.
    apply Rle_trans with (1 := Rabs_triang _ _). apply Rle_trans with (Rabs (c0 - e0) + (Rabs (X * (c1 - e1)) + Rabs (X * (X * (c2 - e2))))); [apply Rplus_le_compat_l, Rabs_triang|].
    rewrite !Rabs_mult. fold x'.
    assert (x' * Rabs (c1 - e1) <= x' * (g * S1)) by (apply Rmult_le_compat_l; assumption).
    assert (x' * (x' * Rabs (c2 - e2)) <= x' * (x' * (g * S2))) by (apply Rmult_le_compat_l; [assumption|]; apply Rmult_le_compat_l; assumption).
    assert (0 <= g * (x' * (x' * (x' * Rabs D)))) by (repeat apply Rmult_le_pos; assumption). lra. }
  set (TT := S0 + x' * (S1 + x' * (S2 + x' * Rabs D))) in *.
  replace (v - (e0 + X * (e1 + X * (e2 + X * D)))) with ((v - (c0 + X * (c1 + X * (c2 + X * D)))) + (c0 + X * (c1 + X * (c2 + X * D)) - (e0 + X * (e1 + X * (e2 + X * D))))) by ring.
  apply Rle_trans with (1 := Rabs_triang _ _).
  assert (g * (Rabs c0 + x' * (Rabs c1 + x' * (Rabs c2 + x' * Rabs D))) <= g * ((1 + g) * TT)) by (apply Rmult_le_compat_l; assumption).
  lra.
Qed.
