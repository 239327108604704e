(** Rounding errors of polynomials in double precision. *)
From Coq Require Import ZArith Reals List Arith Bool Lia Lra Psatz.
From Flocq Require Import Core IEEE754.BinarySingleNaN.
From Verif Require Import Common FloatModel FloatProofs DoubleProofs DoubleProofs2 DInterpModel DInterpSpec DInterpProofs DInterpProofs2
  DSOMProofs DSOMProofs2 DSplineModel DSplineSpec.
Import ListNotations.
Local Open Scope R_scope.

(** (1 + u)^n - 1 *)
Definition gam (n : nat) : R := (1 + uro) ^ n - 1.
Lemma gam_pos n : 0 <= gam n.
Proof. unfold gam. pose proof (pow_up n). lra. Qed.
Lemma gam_mono a b : (a <= b)%nat -> gam a <= gam b.
Proof. intros H. unfold gam. pose proof uro_pos. apply Rplus_le_compat_r. apply Rle_pow; [lra|exact H]. Qed.
Lemma gam_add a b : gam a + gam b + gam a * gam b = gam (a + b).
Proof. unfold gam. rewrite pow_add. ring. Qed.
Lemma gam_1 : gam 1 = uro. Proof. unfold gam. ring. Qed.
Lemma gam_0 : gam 0 = 0. Proof. unfold gam. ring. Qed.
Lemma gam_S n : gam (S n) = gam n + uro * (1 + gam n).
Proof. unfold gam. cbn [pow]. ring. Qed.

(** a' is a up to n roundings *)
Definition near (n : nat) (S a a' : R) : Prop := Rabs (a' - a) <= gam n * S.
Lemma near_more n m S a a' : (n <= m)%nat -> 0 <= S -> near n S a a' -> near m S a a'.
Proof. intros H P N. unfold near in *. pose proof (gam_mono n m H). pose proof (gam_pos n). nra. Qed.
Lemma near_wide n S T a a' : S <= T -> near n S a a' -> near n T a a'.
Proof. intros H N. unfold near in *. pose proof (gam_pos n). nra. Qed.
Lemma near_abs n S a a' : Rabs a <= S -> near n S a a' -> Rabs a' <= (1 + gam n) * S.
Proof. intros H N. unfold near in N. pose proof (Rabs_triang (a' - a) a). replace (a' - a + a) with a' in * by ring. lra. Qed.
Lemma near_add n S T a a' b b' : near n S a a' -> near n T b b' -> near n (S + T) (a + b) (a' + b').
Proof. intros A B. unfold near in *. replace (a' + b' - (a + b)) with ((a' - a) + (b' - b)) by ring. pose proof (Rabs_triang (a' - a) (b' - b)). lra. Qed.
Lemma near_mul n m S T a a' b b' : Rabs a <= S -> Rabs b <= T -> near n S a a' -> near m T b b' -> near (n + m) (S * T) (a * b) (a' * b').
Proof.
  intros A B NA NB. unfold near in *. rewrite <- gam_add.
  replace (a' * b' - a * b) with ((a' - a) * b + a * (b' - b) + (a' - a) * (b' - b)) by ring.
  pose proof (Rabs_triang ((a' - a) * b + a * (b' - b)) ((a' - a) * (b' - b))). pose proof (Rabs_triang ((a' - a) * b) (a * (b' - b))).
  rewrite !Rabs_mult in *. pose proof (gam_pos n). pose proof (gam_pos m).
  pose proof (Rabs_pos a). pose proof (Rabs_pos b). pose proof (Rabs_pos (a' - a)). pose proof (Rabs_pos (b' - b)).
  assert (Rabs (a' - a) * Rabs b <= gam n * S * T) by (apply Rmult_le_compat; assumption).
  assert (Rabs a * Rabs (b' - b) <= S * (gam m * T)) by (apply Rmult_le_compat; assumption).
  assert (Rabs (a' - a) * Rabs (b' - b) <= gam n * S * (gam m * T)) by (apply Rmult_le_compat; assumption).
  lra.
Qed.
Lemma near_round n S a a' e r : Rabs a <= S -> near n S a a' -> Rabs e <= uro -> r = a' * (1 + e) -> near (Datatypes.S n) S a r.
Proof.
  intros A N E ->. pose proof (near_abs n S a a' A N) as B. unfold near in *. rewrite gam_S.
  replace (a' * (1 + e) - a) with ((a' - a) + a' * e) by ring. pose proof (Rabs_triang (a' - a) (a' * e)). rewrite Rabs_mult in *.
  assert (Rabs a' * Rabs e <= (1 + gam n) * S * uro) by (apply Rmult_le_compat; auto using Rabs_pos). lra.
Qed.
Lemma near_refl n S a : Rabs a <= S -> near n S a a.
Proof. intros H. unfold near. replace (a - a) with 0 by ring. rewrite Rabs_R0. pose proof (gam_pos n). pose proof (Rabs_pos a). nra. Qed.

(** ** The operations *)
Lemma add_near n S T (a b : double) ra rb : is_finite (dadd a b) = true -> Rabs ra <= S -> Rabs rb <= T ->
  near n S ra (B2R a) -> near n T rb (B2R b) -> near (Datatypes.S n) (S + T) (ra + rb) (B2R (dadd a b)).
Proof.
  intros F A B NA NB. destruct (fin_add a b F) as (FA & FB). destruct (add_rel a b FA FB F) as (e & E & EQ).
  apply (near_round n (S + T) _ (B2R a + B2R b) e); [|apply near_add; assumption|exact E|exact EQ].
  apply Rle_trans with (1 := Rabs_triang _ _). lra.
Qed.
(** A product far above the smallest doubles, or zero *)
Lemma mul_near n m S T (a b : double) ra rb : is_finite (dmul a b) = true -> Rabs ra <= S -> Rabs rb <= T ->
  near n S ra (B2R a) -> near m T rb (B2R b) -> (B2R a * B2R b = 0 \/ bpow radix2 (-1022) <= Rabs (B2R a * B2R b)) ->
  near (Datatypes.S (n + m)) (S * T) (ra * rb) (B2R (dmul a b)).
Proof.
  intros F A B NA NB H. destruct (fin_mul a b F) as (FA & FB). destruct (dmul_ext a b FA FB) as [_ E].
  apply (finite_rnd _ _ F) in E. rewrite (dext_finite a FA), (dext_finite b FB) in E.
  assert (AB : Rabs (ra * rb) <= S * T) by (rewrite Rabs_mult; apply Rmult_le_compat; auto using Rabs_pos).
  assert (N : near (n + m) (S * T) (ra * rb) (B2R a * B2R b)) by (apply near_mul; assumption).
  destruct H as [H|H].
  - rewrite H in E. rewrite rnd_0 in E. rewrite E. rewrite H in N. apply (near_more (n + m)); [lia| |exact N]. pose proof (Rabs_pos (ra * rb)). lra.
  - destruct (rnd_rel _ H) as (e & B' & R). apply (near_round (n + m) (S * T) _ (B2R a * B2R b) e); [exact AB|exact N|exact B'|]. rewrite E. exact R.
Qed.

(** ** Bounds from below *)
Lemma gam_half n : (Z.of_nat n <= 2 ^ 51)%Z -> gam n <= / 2.
Proof.
  intros H. unfold gam. assert (G : forall k, INR k * uro <= / 4 -> (1 + uro) ^ k <= 1 + 2 * (INR k * uro)).
  { induction k as [|k IH]; intros K; [cbn [pow INR]; lra|]. rewrite S_INR in K. pose proof uro_pos. pose proof (pos_INR k). cbn [pow]. specialize (IH ltac:(lra)).
    rewrite S_INR. apply Rle_trans with ((1 + uro) * (1 + 2 * (INR k * uro))); [apply Rmult_le_compat_l; lra|]. nra. }
  assert (K : INR n * uro <= / 4).
  { rewrite INR_IZR_INZ. apply IZR_le in H. rewrite uro_val. change (IZR (2 ^ 51)) with 2251799813685248 in H. lra. }
  specialize (G n K). lra.
Qed.
Lemma near_below n r r' : (Z.of_nat n <= 2 ^ 51)%Z -> near n (Rabs r) r r' -> Rabs r / 2 <= Rabs r'.
Proof.
  intros H N. unfold near in N. pose proof (gam_half n H). pose proof (Rabs_pos r). pose proof (Rabs_triang r' (r - r')) as T.
  replace (r' + (r - r')) with r in T by ring. rewrite (Rabs_minus_sym r r') in T. nra.
Qed.
Lemma near_zero n r' : near n (Rabs 0) 0 r' -> r' = 0.
Proof. intros N. unfold near in N. rewrite Rabs_R0, Rmult_0_r, Rminus_0_r in N. destruct (Req_dec r' 0) as [E|E]; [exact E|]. apply Rabs_pos_lt in E. lra. Qed.

(** ** The value of a polynomial *)
Lemma size_nonneg coefs x : 0 <= poly_size coefs x.
Proof.
  unfold poly_size. induction coefs as [|c r IH]; cbn [map poly_at]; [lra|]. pose proof (Rabs_pos c). pose proof (Rabs_pos x). nra.
Qed.

Lemma dpoly_loop_error : forall coefs (res xp x : double) (A S X : R) q m,
  (Z.of_nat (q + length coefs) <= 2 ^ 50)%Z -> (q < m)%nat ->
  Rabs A <= S -> near m S A (B2R res) -> near q (Rabs X) X (B2R xp) ->
  (forall i c, nth_error coefs i = Some c -> not_tiny (X * B2R x ^ i) /\ not_tiny (B2R c * (X * B2R x ^ i))) ->
  is_finite (dpoly_loop res xp coefs x) = true ->
  near (m + length coefs) (S + Rabs X * poly_size (map B2R coefs) (B2R x)) (A + X * poly_at (map B2R coefs) (B2R x)) (B2R (dpoly_loop res xp coefs x)).
Proof.
  induction coefs as [|c r IH]; intros res xp x A S X q m L Q AS NR NX T F.
  - cbn [dpoly_loop map poly_at length] in *. unfold poly_size. cbn [map poly_at]. rewrite !Rmult_0_r, !Rplus_0_r, Nat.add_0_r. exact NR.
  - cbn [dpoly_loop] in F |- *.
    assert (Hfin : forall l a b y, is_finite (dpoly_loop a b l y) = true -> is_finite a = true).
    { clear. induction l as [|c l IH]; intros a b y; cbn [dpoly_loop]; [auto|]. intros F. apply IH in F. apply fin_add in F. apply F. }
    pose proof (Hfin _ _ _ _ F) as F1. pose proof (fin_add _ _ F1) as (FR & FC). pose proof (fin_mul _ _ FC) as (Fc & Fp).
    destruct (T 0%nat c eq_refl) as (T0 & T1). cbn [pow] in T0, T1. rewrite Rmult_1_r in T0, T1.
    (* the term *)
    assert (C : near (Datatypes.S q) (Rabs (B2R c) * Rabs X) (B2R c * X) (B2R (dmul c xp))).
    { change (Datatypes.S q) with (Datatypes.S (0 + q)). apply mul_near; [exact FC|lra|lra|apply near_refl; lra|exact NX|].
      destruct T1 as [T1|T1].
      - left. apply Rmult_integral in T1. destruct T1 as [-> | ->]; [ring|]. rewrite (near_zero _ _ NX). ring.
      - right. assert (NB : Rabs X / 2 <= Rabs (B2R xp)) by (apply (near_below q); [cbn [length] in L; lia|exact NX]).
        rewrite Rabs_mult in T1 |- *. pose proof (Rabs_pos (B2R c)). apply Rle_trans with (Rabs (B2R c) * (Rabs X / 2)); [|apply Rmult_le_compat_l; assumption].
        apply Rle_trans with (bpow radix2 (-1000) / 2); [|lra]. apply Rle_trans with (bpow radix2 (-1001)); [apply bpow_le; lia|].
        change (-1000)%Z with (-1001 + 1)%Z. rewrite half_pow. lra. }
    assert (CS : Rabs (B2R c * X) <= Rabs (B2R c) * Rabs X) by (rewrite Rabs_mult; lra).
    pose proof (Rabs_pos (B2R c)) as Pc. pose proof (Rabs_pos X) as PX.
    assert (R1 : near (Datatypes.S m) (S + Rabs (B2R c) * Rabs X) (A + B2R c * X) (B2R (dadd res (dmul c xp)))).
    { apply add_near; auto. apply (near_more (Datatypes.S q)); [lia| |exact C]. nra. }
    replace (A + X * poly_at (map B2R (c :: r)) (B2R x)) with ((A + B2R c * X) + (X * B2R x) * poly_at (map B2R r) (B2R x)) by (cbn [map poly_at]; ring).
    replace (S + Rabs X * poly_size (map B2R (c :: r)) (B2R x)) with ((S + Rabs (B2R c) * Rabs X) + Rabs (X * B2R x) * poly_size (map B2R r) (B2R x))
      by (unfold poly_size; cbn [map poly_at]; rewrite Rabs_mult; ring).
    replace (m + length (c :: r))%nat with (Datatypes.S m + length r)%nat by (cbn [length]; lia).
    destruct r as [|c' r'].
    { cbn [dpoly_loop map poly_at length]. unfold poly_size. cbn [map poly_at]. rewrite !Rmult_0_r, !Rplus_0_r, Nat.add_0_r. exact R1. }
    apply (IH _ _ x _ _ (X * B2R x) (Datatypes.S q)); [cbn [length] in *; lia|lia| |exact R1| |intros i d Hd|exact F].
    + apply Rle_trans with (1 := Rabs_triang _ _). lra.
    + destruct (T 1%nat c' eq_refl) as (T2 & _). cbn [pow] in T2. rewrite Rmult_1_r in T2. rewrite Rabs_mult.
      assert (FX : is_finite (dmul xp x) = true).
      { cbn [dpoly_loop] in F. apply Hfin in F. apply fin_add in F. destruct F as (_ & F). apply fin_mul in F. apply F. }
      replace (Datatypes.S q) with (Datatypes.S (q + 0)) by lia.
      apply mul_near; [exact FX|lra|lra|exact NX|apply near_refl; lra|].
      destruct T2 as [T2|T2].
      * left. apply Rmult_integral in T2. destruct T2 as [E| ->]; [|ring]. subst X. rewrite (near_zero _ _ NX). ring.
      * right. assert (NB : Rabs X / 2 <= Rabs (B2R xp)) by (apply (near_below q); [cbn [length] in L; lia|exact NX]).
        rewrite Rabs_mult in T2 |- *. pose proof (Rabs_pos (B2R x)). apply Rle_trans with (Rabs X / 2 * Rabs (B2R x)); [|apply Rmult_le_compat_r; assumption].
        apply Rle_trans with (bpow radix2 (-1000) / 2); [|lra]. apply Rle_trans with (bpow radix2 (-1001)); [apply bpow_le; lia|].
        change (-1000)%Z with (-1001 + 1)%Z. rewrite half_pow. lra.
    + destruct (T (Datatypes.S i) d Hd) as (Ta & Tb). cbn [pow] in Ta, Tb.
      rewrite (Rmult_assoc X). split; [exact Ta|exact Tb].
Qed.

Lemma dpoly_error coefs (x : double) : (Z.of_nat (length coefs) <= 2 ^ 50)%Z -> terms_not_tiny coefs x -> is_finite (dpoly coefs x) = true -> is_finite x = true ->
  near (length coefs) (poly_size (map B2R coefs) (B2R x)) (poly_at (map B2R coefs) (B2R x)) (B2R (dpoly coefs x)).
Proof.
  intros L T F FX. destruct coefs as [|c r].
  - unfold dpoly. cbn. unfold near. rewrite Rminus_0_r, Rabs_R0, gam_0. lra.
  - unfold dpoly in *. cbn [dpoly_loop] in F |- *. rewrite dmul_1_r, dmul_1_l in F |- *.
    assert (Hfin : forall l a b y, is_finite (dpoly_loop a b l y) = true -> is_finite a = true).
    { clear. induction l as [|c l IH]; intros a b y; cbn [dpoly_loop]; [auto|]. intros F. apply IH in F. apply fin_add in F. apply F. }
    pose proof (Hfin _ _ _ _ F) as F1. pose proof (fin_add _ _ F1) as (_ & Fc).
    assert (V : B2R (dadd d0 c) = B2R c).
    { destruct (dadd_ext d0 c eq_refl Fc) as [_ E]. apply (finite_rnd _ _ F1) in E. rewrite (dext_finite d0 eq_refl), (dext_finite c Fc), B2R_d0, Rplus_0_l, rnd_B2R in E. exact E. }
    replace (poly_at (map B2R (c :: r)) (B2R x)) with (B2R c + B2R x * poly_at (map B2R r) (B2R x)) by reflexivity.
    replace (poly_size (map B2R (c :: r)) (B2R x)) with (Rabs (B2R c) + Rabs (B2R x) * poly_size (map B2R r) (B2R x)) by reflexivity.
    replace (length (c :: r)) with (1 + length r)%nat by reflexivity.
    apply dpoly_loop_error with (q := 0%nat) (m := 1%nat); [refine (Z.le_trans _ _ _ _ L); cbn [length]; apply inj_le; cbn; apply Nat.le_succ_diag_r|lia|lra|rewrite V; apply near_refl; lra|apply near_refl; lra| |exact F].
    intros i d Hd. destruct (T (S i) d Hd) as (Ta & Tb). cbn [pow] in Ta, Tb. split; [exact Ta|exact Tb].
Qed.
