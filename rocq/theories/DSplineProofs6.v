(** Derivatives and integrals of polynomials in double precision. *)
From Coq Require Import ZArith Reals List Arith Bool Lia Lra Psatz.
From Flocq Require Import Core IEEE754.BinarySingleNaN.
From Coquelicot Require Import Hierarchy Derive RInt RInt_analysis Continuity.
From Verif Require Import Common FloatModel FloatProofs DoubleProofs DoubleProofs2 DInterpModel DInterpSpec DInterpProofs DInterpProofs2
  DSOMProofs DSOMProofs2 DSplineModel DSplineSpec DSplineProofs DSplineProofs2 DSplineProofs3.
Import ListNotations.
Local Open Scope R_scope.

(** ** Real polynomials *)
Fixpoint rd_from (i : nat) (cs : list R) : list R := match cs with [] => [] | c :: r => INR i * c :: rd_from (S i) r end.
Definition rd (cs : list R) : list R := match cs with [] => [] | _ :: r => rd_from 1 r end.
Fixpoint ri_from (i : nat) (cs : list R) : list R := match cs with [] => [] | c :: r => c / INR (S i) :: ri_from (S i) r end.
Definition ri (cs : list R) : list R := 0 :: ri_from 0 cs.

Lemma rd_next cs : forall i x, poly_at (rd_from (S i) cs) x = poly_at (rd_from i cs) x + poly_at cs x.
Proof. induction cs as [|c r IH]; intros i x; cbn [rd_from poly_at]; [ring|]. rewrite IH, S_INR. ring. Qed.
Lemma rd_derive cs x : is_derive (poly_at cs) x (poly_at (rd cs) x).
Proof.
  induction cs as [|c r IH]; cbn [rd]; [apply is_derive_Reals, (derivable_pt_lim_const 0)|].
  replace (poly_at (rd_from 1 r) x) with (0 + (1 * poly_at r x + x * poly_at (rd r) x)).
  - apply is_derive_Reals. apply is_derive_Reals in IH. apply (derivable_pt_lim_plus (fct_cte c) (mult_fct id (poly_at r))); [apply derivable_pt_lim_const|]. apply (derivable_pt_lim_mult id (poly_at r)); [apply derivable_pt_lim_id|exact IH].
  - rewrite rd_next. assert (E : poly_at (rd_from 0 r) x = x * poly_at (rd r) x) by (destruct r; cbn [rd_from rd poly_at INR]; [ring|ring]). rewrite E. ring.
Qed.
Lemma rd_ri_from cs : forall i, rd_from (S i) (ri_from i cs) = cs.
Proof.
  induction cs as [|c r IH]; intros i; cbn [ri_from rd_from]; [reflexivity|]. rewrite IH. f_equal. rewrite !S_INR. field. pose proof (pos_INR i). lra.
Qed.
Lemma rd_ri cs : rd (ri cs) = cs. Proof. apply rd_ri_from. Qed.
Lemma ri_integral cs a b : is_RInt (poly_at cs) a b (poly_at (ri cs) b - poly_at (ri cs) a).
Proof.
  apply (is_RInt_derive (V := R_CompleteNormedModule) (poly_at (ri cs)) (poly_at cs)).
  - intros x _. rewrite <- (rd_ri cs) at 2. apply rd_derive.
  - intros x _. apply (ex_derive_continuous (poly_at cs)). eexists. apply rd_derive.
Qed.
Lemma slope_size_poly cs : forall i x, (0 < i)%nat -> slope_size_from i cs x = Rabs x ^ (i - 1) * poly_size (rd_from i cs) x.
Proof.
  induction cs as [|c r IH]; intros i x H; unfold poly_size in *; cbn [slope_size_from rd_from map poly_at]; [ring|]. rewrite IH by lia. rewrite Rabs_mult, (Rabs_pos_eq (INR i)) by apply pos_INR.
  replace (S i - 1)%nat with (S (i - 1)) by lia. cbn [pow]. ring.
Qed.
Lemma slope_size_eq cs x : slope_size cs x = poly_size (rd cs) x.
Proof. unfold slope_size. destruct cs as [|c r]; unfold poly_size; cbn [slope_size_from rd map poly_at]; [reflexivity|]. rewrite slope_size_poly by lia. unfold poly_size. cbn. ring. Qed.
Lemma integral_size_poly cs : forall i x, integral_size_from i cs x = Rabs x ^ (S i) * poly_size (ri_from i cs) x.
Proof.
  induction cs as [|c r IH]; intros i x; unfold poly_size in *; cbn [integral_size_from ri_from map poly_at]; [ring|]. rewrite IH. unfold Rdiv. rewrite Rabs_mult, Rabs_inv, (Rabs_pos_eq (INR (S i))) by apply pos_INR.
  cbn [pow]. ring.
Qed.
Lemma integral_size_eq cs x : integral_size cs x = poly_size (ri cs) x.
Proof. unfold integral_size. rewrite integral_size_poly. unfold poly_size, ri. cbn [map poly_at pow]. rewrite Rabs_R0. ring. Qed.

(** ** Coefficients within one rounding *)
Lemma poly_of_near cs cs' x : Forall2 (fun c c' => near 1 (Rabs c) c c') cs cs' ->
  near 1 (poly_size cs x) (poly_at cs x) (poly_at cs' x) /\ poly_size cs' x <= (1 + uro) * poly_size cs x.
Proof.
  induction 1 as [|c c' r r' N _ [IH1 IH2]]; unfold poly_size in *; cbn [map poly_at]; [split; [apply near_refl; rewrite Rabs_R0; lra|lra]|].
  pose proof (near_abs 1 _ _ _ (Rle_refl _) N) as A. rewrite gam_1 in A. unfold near in *. rewrite gam_1 in *. pose proof (Rabs_pos x) as PX. split.
  - replace (c' + x * poly_at r' x - (c + x * poly_at r x)) with ((c' - c) + x * (poly_at r' x - poly_at r x)) by ring. apply Rle_trans with (1 := Rabs_triang _ _). rewrite Rabs_mult.
    assert (Rabs x * Rabs (poly_at r' x - poly_at r x) <= Rabs x * (uro * poly_at (map Rabs r) (Rabs x))) by (apply Rmult_le_compat_l; assumption). lra.
  - assert (Rabs x * poly_at (map Rabs r') (Rabs x) <= Rabs x * ((1 + uro) * poly_at (map Rabs r) (Rabs x))) by (apply Rmult_le_compat_l; assumption). lra.
Qed.
Lemma poly_abs cs x : Rabs (poly_at cs x) <= poly_size cs x.
Proof.
  unfold poly_size. induction cs as [|c r IH]; cbn [map poly_at]; [rewrite Rabs_R0; lra|]. apply Rle_trans with (1 := Rabs_triang _ _). rewrite Rabs_mult. apply Rplus_le_compat_l. apply Rmult_le_compat_l; [apply Rabs_pos|exact IH].
Qed.
(** The value of a polynomial whose coefficients are within one rounding *)
Lemma value_near cs (coefs : list double) (x : double) : (Z.of_nat (length coefs) <= 2 ^ 50)%Z -> Forall2 (fun c c' => near 1 (Rabs c) c c') cs (map B2R coefs) ->
  terms_not_tiny coefs x -> is_finite (dpoly coefs x) = true -> is_finite x = true ->
  near (S (length coefs)) (poly_size cs (B2R x)) (poly_at cs (B2R x)) (B2R (dpoly coefs x)).
Proof.
  intros L N T F FX. pose proof (dpoly_error coefs x L T F FX) as E. destruct (poly_of_near _ _ (B2R x) N) as [P S']. unfold near in *. rewrite gam_1 in P.
  replace (gam (S (length coefs))) with (gam (length coefs) * (1 + uro) + uro) by (rewrite gam_S; ring).
  replace (B2R (dpoly coefs x) - poly_at cs (B2R x)) with ((B2R (dpoly coefs x) - poly_at (map B2R coefs) (B2R x)) + (poly_at (map B2R coefs) (B2R x) - poly_at cs (B2R x))) by ring.
  apply Rle_trans with (1 := Rabs_triang _ _). rewrite Rmult_plus_distr_r. apply Rplus_le_compat; [|exact P]. apply Rle_trans with (1 := E). rewrite Rmult_assoc. apply Rmult_le_compat_l; [apply gam_pos|exact S'].
Qed.
Lemma size_exact n : (Z.of_nat n <= 2 ^ 53)%Z -> is_finite (dsize n) = true /\ B2R (dsize n) = INR n.
Proof.
  intros H. unfold dsize. destruct (size_value (Z.of_nat n)) as [F V]; [lia|]. split; [exact F|]. rewrite V, INR_IZR_INZ. apply rnd_format, int_format. lia.
Qed.
Lemma deriv_near coefs : forall i, (0 < i)%nat -> (Z.of_nat (i + length coefs) <= 2 ^ 51)%Z -> coefs_not_tiny coefs -> Forall (fun c : double => is_finite c = true) (dderiv_from i coefs) ->
  Forall2 (fun c c' => near 1 (Rabs c) c c') (rd_from i (map B2R coefs)) (map B2R (dderiv_from i coefs)).
Proof.
  induction coefs as [|c r IH]; intros i I L T F; cbn [map rd_from dderiv_from] in *; [constructor|]. inversion T as [|? ? [FC TC] T']; subst. inversion F as [|? ? F0 F']; subst. cbn [length] in L.
  constructor; [|apply IH; auto; lia]. destruct (size_exact i) as [FS VS]; [lia|]. assert (1 <= INR i) by (apply (le_INR 1); lia). rewrite Rabs_mult.
  apply (mul_near 0 0); auto; [apply Rle_refl|apply Rle_refl|rewrite VS; apply near_refl, Rle_refl|apply near_refl, Rle_refl|]. rewrite VS. destruct TC as [-> |TC]; [left; ring|right].
  rewrite Rabs_mult, (Rabs_pos_eq (INR i)) by lra. apply Rle_trans with (bpow radix2 (-900)); [apply bpow_le; lia|]. pose proof (Rabs_pos (B2R c)). nra.
Qed.
Lemma integ_near coefs : forall i, (Z.of_nat (i + length coefs) <= 2 ^ 51)%Z -> coefs_not_tiny coefs -> Forall (fun c : double => is_finite c = true) (dinteg_from i coefs) ->
  Forall2 (fun c c' => near 1 (Rabs c) c c') (ri_from i (map B2R coefs)) (map B2R (dinteg_from i coefs)).
Proof.
  induction coefs as [|c r IH]; intros i L T F; cbn [map ri_from dinteg_from] in *; [constructor|]. inversion T as [|? ? [FC TC] T']; subst. inversion F as [|? ? F0 F']; subst. cbn [length] in L.
  constructor; [|apply IH; auto; lia]. replace (i + 1)%nat with (S i) in * by lia. destruct (size_exact (S i)) as [FS VS]; [lia|]. assert (P : 1 <= INR (S i)) by (apply (le_INR 1); lia).
  assert (Q : INR (S i) <= bpow radix2 51). { rewrite INR_IZR_INZ. change (bpow radix2 51) with (IZR (2 ^ 51)). apply IZR_le. lia. }
  unfold Rdiv at 1. rewrite Rabs_mult, Rabs_inv. apply (div_near 0 0); auto; [lra|lia|apply Rle_refl|apply near_refl, Rle_refl|rewrite VS; apply near_refl, Rle_refl|].
  destruct TC as [-> |TC]; [left; reflexivity|right]. rewrite VS. unfold Rdiv. rewrite Rabs_mult, Rabs_inv, (Rabs_pos_eq (INR (S i))) by lra.
  apply Rle_trans with (bpow radix2 (-900) * bpow radix2 (-51)); [rewrite <- bpow_plus; apply bpow_le; lia|]. apply Rmult_le_compat; auto using bpow_ge_0. change (-51)%Z with (- (51))%Z. rewrite (bpow_opp radix2 51). apply Rinv_le; [lra|exact Q].
Qed.
Lemma dderiv_len coefs : length (dderiv coefs) = (length coefs - 1)%nat.
Proof. destruct coefs as [|c r]; [reflexivity|]. cbn [dderiv length]. rewrite Nat.sub_succ, Nat.sub_0_r. generalize 1%nat. induction r as [|d r IH]; intros i; cbn [dderiv_from length]; [reflexivity|]. rewrite IH. reflexivity. Qed.
Lemma dinteg_len coefs : length (dinteg coefs) = S (length coefs).
Proof. unfold dinteg. cbn [length]. f_equal. generalize 0%nat. induction coefs as [|d r IH]; intros i; cbn [dinteg_from length]; [reflexivity|]. rewrite IH. reflexivity. Qed.
Lemma derivative_value coefs (x : double) dP : (Z.of_nat (length coefs) <= 2 ^ 50)%Z -> coefs_not_tiny coefs -> terms_not_tiny (dderiv coefs) x -> is_finite (dpoly (dderiv coefs) x) = true -> is_finite x = true ->
  is_derive (poly_at (map B2R coefs)) (B2R x) dP -> Rabs (B2R (dpoly (dderiv coefs) x) - dP) <= gam (length coefs) * slope_size (map B2R coefs) (B2R x).
Proof.
  intros L T TT F FX D. pose proof (is_derive_unique _ _ _ D) as U1. pose proof (is_derive_unique _ _ _ (rd_derive (map B2R coefs) (B2R x))) as U2. rewrite <- U1, U2, slope_size_eq.
  destruct coefs as [|c r]; [cbn; unfold dpoly; cbn; rewrite Rminus_0_r, Rabs_R0; unfold poly_size; cbn; lra|].
  pose proof (value_near (rd (map B2R (c :: r))) (dderiv (c :: r)) x) as V. rewrite dderiv_len in V. cbn [length] in V. rewrite Nat.sub_succ, Nat.sub_0_r in V. cbn [length] in L |- *. apply V; auto; [lia|].
  cbn [map rd dderiv]. apply deriv_near; [lia|lia|inversion T; assumption|]. apply (loop_coefs _ _ _ _ F).
Qed.
Lemma integral_value coefs (x : double) : (Z.of_nat (length coefs) <= 2 ^ 49)%Z -> coefs_not_tiny coefs -> terms_not_tiny (dinteg coefs) x -> is_finite (dpoly (dinteg coefs) x) = true -> is_finite x = true ->
  near (S (S (length coefs))) (integral_size (map B2R coefs) (B2R x)) (poly_at (ri (map B2R coefs)) (B2R x)) (B2R (dpoly (dinteg coefs) x)).
Proof.
  intros L T TT F FX. rewrite integral_size_eq. pose proof (value_near (ri (map B2R coefs)) (dinteg coefs) x) as V. rewrite dinteg_len in V. apply V; auto; [lia|].
  unfold ri, dinteg. cbn [map]. constructor; [change (B2R d0) with 0; apply near_refl, Rle_refl|]. apply integ_near; auto; [lia|]. pose proof (loop_coefs _ _ _ _ F) as C. inversion C; assumption.
Qed.
Lemma integrate_value coefs (a b : double) I : (Z.of_nat (length coefs) <= 2 ^ 49)%Z -> coefs_not_tiny coefs -> terms_not_tiny (dinteg coefs) a -> terms_not_tiny (dinteg coefs) b ->
  is_finite (dpoly_integrate coefs a b) = true -> is_finite a = true -> is_finite b = true -> is_RInt (poly_at (map B2R coefs)) (B2R a) (B2R b) I ->
  Rabs (B2R (dpoly_integrate coefs a b) - I) <= gam (3 + length coefs) * (integral_size (map B2R coefs) (B2R a) + integral_size (map B2R coefs) (B2R b)).
Proof.
  intros L T TA TB F FA FB D. pose proof (is_RInt_unique _ _ _ _ D) as U1. pose proof (is_RInt_unique _ _ _ _ (ri_integral (map B2R coefs) (B2R a) (B2R b))) as U2. rewrite <- U1, U2.
  unfold dpoly_integrate in *. destruct (fin_sub _ _ F) as [F1 F2]. rewrite (Rplus_comm (integral_size _ _)). apply sub_near; auto; try (rewrite integral_size_eq; apply poly_abs); apply integral_value; auto.
Qed.
