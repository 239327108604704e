From Coq Require Import ZArith Reals List Arith Bool Lia Lra Psatz.
From Flocq Require Import Core IEEE754.BinarySingleNaN.
From Coquelicot Require Import Hierarchy RInt Continuity Derive.
From Verif Require Import Common FloatModel FloatProofs DoubleProofs DInterpModel DInterpProofs DInterpProofs2 DSplineModel DSplineSpec DSplineProofs DSplineProofs6 DPieceModel DPieceSpec DPieceProofs.
Import ListNotations.
Local Open Scope R_scope.

(** ** The exact integral *)
Fixpoint lastk (l : list R) (a : R) : R := match l with [] => a | b :: r => lastk r b end.
Lemma nth_last : forall (l : list R) a, nth_error (a :: l) (length l) = Some (lastk l a).
Proof. induction l as [|b r IH]; intros a; [reflexivity|]. exact (IH b). Qed.
Section Exact.
  Variable h : R -> R.
  Variables lo hi : R.
  Hypothesis LH : lo <= hi.
  Definition clamp (t : R) : R := Rmin hi (Rmax lo t).
  Lemma clamp_mono a b : a <= b -> clamp a <= clamp b.
  Proof. intros H. unfold clamp. apply Rle_min_compat_l. apply Rle_max_compat_l. exact H. Qed.
  Lemma clamp_range a : lo <= clamp a <= hi.
  Proof. unfold clamp. split; [apply Rmin_glb; [exact LH|apply Rmax_l]|apply Rmin_l]. Qed.
  Lemma clamp_between a b x : clamp a < x < clamp b -> a < x < b.
  Proof. unfold clamp, Rmin, Rmax. repeat destruct Rle_dec; lra. Qed.
  Fixpoint exact_sum (knots : list R) (ps : list (list R)) : R :=
    match knots, ps with
    | a :: ((b :: _) as r), p :: ps' => (poly_at (ri p) (clamp b) - poly_at (ri p) (clamp a)) + exact_sum r ps'
    | _, _ => 0
    end.
  Lemma piece_int p a b : a <= b -> (forall x, a < x < b -> h x = poly_at p x) -> is_RInt h (clamp a) (clamp b) (poly_at (ri p) (clamp b) - poly_at (ri p) (clamp a)).
  Proof.
    intros AB H. apply is_RInt_ext with (poly_at p); [|apply ri_integral]. intros x X. pose proof (clamp_mono a b AB). rewrite Rmin_left, Rmax_right in X by lra. symmetry. apply H. apply (clamp_between _ _ _ X).
  Qed.
  Lemma sum_int : forall ps knots a, length knots = length ps ->
    (forall i x y, nth_error (a :: knots) i = Some x -> nth_error (a :: knots) (S i) = Some y -> x <= y) ->
    (forall i x y p t, nth_error (a :: knots) i = Some x -> nth_error (a :: knots) (S i) = Some y -> nth_error ps i = Some p -> x < t < y -> h t = poly_at p t) ->
    is_RInt h (clamp a) (clamp (lastk knots a)) (exact_sum (a :: knots) ps).
  Proof.
    induction ps as [|p ps IH]; intros knots a L S0 H; destruct knots as [|b r]; try discriminate L.
    - cbn [lastk exact_sum]. apply (is_RInt_point (V := R_NormedModule)).
    - change (exact_sum (a :: b :: r) (p :: ps)) with ((poly_at (ri p) (clamp b) - poly_at (ri p) (clamp a)) + exact_sum (b :: r) ps).
      cbn [lastk]. apply (is_RInt_Chasles (V := R_NormedModule) h (clamp a) (clamp b)).
      + apply piece_int; [apply (S0 0%nat); reflexivity|]. intros x X. exact (H 0%nat a b p x eq_refl eq_refl eq_refl X).
      + apply IH; [cbn [length] in L; lia|intros i x y A B; exact (S0 (S i) x y A B)|intros i x y q t A B Q T; exact (H (S i) x y q t A B Q T)].
  Qed.
End Exact.

Lemma zero_int (h : R -> R) a b : a <= b -> (forall x, a < x < b -> h x = 0) -> is_RInt h a b 0.
Proof.
  intros AB H. apply is_RInt_ext with (fun _ => 0).
  - intros x X. rewrite Rmin_left, Rmax_right in X by lra. symmetry. apply H. exact X.
  - assert (E : scal (b - a) (0 : R_NormedModule) = 0) by (unfold scal; cbn; unfold mult; cbn; ring). pose proof (is_RInt_const (V := R_NormedModule) a b 0) as C. rewrite E in C. exact C.
Qed.

Lemma exact_value (h : R -> R) lo hi knots ps a I : lo <= hi -> length knots = length ps ->
  (forall i x y, nth_error (a :: knots) i = Some x -> nth_error (a :: knots) (S i) = Some y -> x <= y) ->
  made_of (a :: knots) ps h -> is_RInt h lo hi I -> I = exact_sum lo hi (a :: knots) ps.
Proof.
  intros LH L S0 (H1 & H2 & H3) D. pose proof (sum_int h lo hi LH ps knots a L S0 H1) as S1.
  assert (A : is_RInt h lo (clamp lo hi a) 0).
  { apply zero_int; [apply clamp_range, LH|]. intros x X. apply (H2 a); [reflexivity|]. unfold clamp, Rmin, Rmax in X. repeat destruct Rle_dec; lra. }
  assert (B : is_RInt h (clamp lo hi (lastk knots a)) hi 0).
  { apply zero_int; [apply clamp_range, LH|]. intros x X. apply (H3 (lastk knots a)); [cbn [length]; rewrite Nat.sub_succ, Nat.sub_0_r; apply nth_last|]. unfold clamp, Rmin, Rmax in X. repeat destruct Rle_dec; lra. }
  pose proof (is_RInt_Chasles (V := R_NormedModule) h _ _ _ _ _ A (is_RInt_Chasles (V := R_NormedModule) h _ _ _ _ _ S1 B)) as C.
  pose proof (is_RInt_unique _ _ _ _ D) as U1. pose proof (is_RInt_unique _ _ _ _ C) as U2. rewrite <- U1, U2. unfold plus. cbn. ring.
Qed.

(** ** The computed sum *)
Lemma later_val (a x : double) : is_finite a = true -> is_finite x = true -> is_finite (later a x) = true /\ B2R (later a x) = Rmax (B2R x) (B2R a).
Proof.
  intros FA FX. unfold later. destruct (dlt a x) eqn:E.
  - apply dlt_iff in E; auto using dfinite_num. rewrite !dext_finite in E by auto. rewrite Rmax_left by lra. auto.
  - apply dlt_no in E; auto using dfinite_num. rewrite !dext_finite in E by auto. rewrite Rmax_right by lra. auto.
Qed.
Lemma earlier_val (a x : double) : is_finite a = true -> is_finite x = true -> is_finite (earlier a x) = true /\ B2R (earlier a x) = Rmin (B2R x) (B2R a).
Proof.
  intros FA FX. unfold earlier. destruct (dlt x a) eqn:E.
  - apply dlt_iff in E; auto using dfinite_num. rewrite !dext_finite in E by auto. rewrite Rmin_left by lra. auto.
  - apply dlt_no in E; auto using dfinite_num. rewrite !dext_finite in E by auto. rewrite Rmin_right by lra. auto.
Qed.
Lemma finite_lt (a b : double) : is_finite a = true -> is_finite b = true -> dlt a b = true -> B2R a < B2R b.
Proof. intros A B H. apply dlt_iff in H; auto using dfinite_num. rewrite !dext_finite in H by auto. exact H. Qed.
Lemma finite_nlt (a b : double) : is_finite a = true -> is_finite b = true -> dlt a b = false -> B2R b <= B2R a.
Proof. intros A B H. apply dlt_no in H; auto using dfinite_num. rewrite !dext_finite in H by auto. exact H. Qed.
Lemma sum_finite integral lo hi : forall knots functions s, is_finite (sum_of_pieces integral lo hi knots functions s) = true -> is_finite s = true.
Proof.
  induction knots as [|a [|b r] IH]; intros functions s F; destruct functions as [|f fs]; try exact F. cbn [sum_of_pieces] in F. apply IH in F.
  destruct (meets lo hi a b); [|exact F]. apply (fin_add _ _ F).
Qed.
Lemma integral_abs f a b : Rabs (poly_at (ri f) b - poly_at (ri f) a) <= integral_size f a + integral_size f b.
Proof. rewrite !integral_size_eq. pose proof (poly_abs (ri f) a). pose proof (poly_abs (ri f) b). unfold Rminus. pose proof (Rabs_triang (poly_at (ri f) b) (- poly_at (ri f) a)). rewrite Rabs_Ropp in *. lra. Qed.
Definition sound_pieces (lo hi : double) (knots : list double) (functions : list (list double)) : Prop :=
  forall i a b f, nth_error knots i = Some a -> nth_error knots (S i) = Some b -> nth_error functions i = Some f -> meets lo hi a b = true ->
    coefs_not_tiny f /\ terms_not_tiny (dinteg f) (later a lo) /\ terms_not_tiny (dinteg f) (earlier b hi).
Lemma sum_near (lo hi : double) L : is_finite lo = true -> is_finite hi = true -> B2R lo <= B2R hi -> (Z.of_nat L <= 2 ^ 49)%Z -> forall knots functions (s : double) S0 r m, (3 + L <= m)%nat ->
  Forall (fun k : double => is_finite k = true) knots -> not_falling knots -> Forall (fun f : list double => (length f <= L)%nat) functions -> sound_pieces lo hi knots functions ->
  is_finite (sum_of_pieces dpoly_integrate lo hi knots functions s) = true -> Rabs r <= S0 -> near m S0 r (B2R s) ->
  near (m + length functions) (S0 + sizes_of_pieces lo hi knots functions) (r + exact_sum (B2R lo) (B2R hi) (map B2R knots) (map (map B2R) functions)) (B2R (sum_of_pieces dpoly_integrate lo hi knots functions s)).
Proof.
  intros FL FH LH LL. induction knots as [|a [|b r'] IH]; intros functions s S0 r m M FK NF LF SP F A B.
  - cbn [sum_of_pieces sizes_of_pieces exact_sum map]. rewrite !Rplus_0_r. apply (near_more m); [lia|pose proof (Rabs_pos r); lra|exact B].
  - cbn [map exact_sum]. replace (sizes_of_pieces lo hi [a] functions) with 0 by reflexivity. replace (sum_of_pieces dpoly_integrate lo hi [a] functions s) with s by reflexivity.
    rewrite !Rplus_0_r. apply (near_more m); [lia|pose proof (Rabs_pos r); lra|exact B].
  - destruct functions as [|f fs].
    + cbn [sum_of_pieces sizes_of_pieces exact_sum map length]. rewrite !Rplus_0_r, Nat.add_0_r. exact B.
    + inversion FK as [|? ? FA FK']; subst. inversion FK' as [|? ? FB _]; subst. inversion LF as [|? ? Lf LF']; subst.
      assert (SP' : sound_pieces lo hi (b :: r') fs) by (intros i x y g X Y G; exact (SP (S i) x y g X Y G)).
      assert (AB : B2R a <= B2R b). { pose proof (falling_head _ _ _ NF) as H. apply dle_iff in H; auto using dfinite_num. rewrite !dext_finite in H by auto. exact H. }
      change (sizes_of_pieces lo hi (a :: b :: r') (f :: fs)) with ((if meets lo hi a b then integral_size (map B2R f) (B2R (later a lo)) + integral_size (map B2R f) (B2R (earlier b hi)) else 0) + sizes_of_pieces lo hi (b :: r') fs).
      change (sum_of_pieces dpoly_integrate lo hi (a :: b :: r') (f :: fs) s) with (sum_of_pieces dpoly_integrate lo hi (b :: r') fs (if meets lo hi a b then dadd s (dpoly_integrate f (later a lo) (earlier b hi)) else s)) in *.
      change (exact_sum (B2R lo) (B2R hi) (map B2R (a :: b :: r')) (map (map B2R) (f :: fs))) with
        ((poly_at (ri (map B2R f)) (clamp (B2R lo) (B2R hi) (B2R b)) - poly_at (ri (map B2R f)) (clamp (B2R lo) (B2R hi) (B2R a))) + exact_sum (B2R lo) (B2R hi) (map B2R (b :: r')) (map (map B2R) fs)).
      rewrite <- !Rplus_assoc. cbn [length]. replace (m + S (length fs))%nat with (S m + length fs)%nat by lia.
      destruct (meets lo hi a b) eqn:ME.
      * destruct (SP 0%nat a b f eq_refl eq_refl eq_refl ME) as (C1 & C2 & C3). unfold meets in ME. apply andb_prop in ME. destruct ME as [M1 M2]. apply finite_lt in M1; auto. apply finite_lt in M2; auto.
        destruct (later_val a lo FA FL) as [FD VD]. destruct (earlier_val b hi FB FH) as [FU VU].
        assert (EA : clamp (B2R lo) (B2R hi) (B2R a) = B2R (later a lo)). { rewrite VD. unfold clamp. rewrite Rmin_right; [reflexivity|]. apply Rmax_lub; lra. }
        assert (EB : clamp (B2R lo) (B2R hi) (B2R b) = B2R (earlier b hi)). { rewrite VU. unfold clamp. rewrite (Rmax_right (B2R lo)); [reflexivity|lra]. }
        rewrite EA, EB. pose proof (sum_finite _ _ _ _ _ _ F) as F1. destruct (fin_add _ _ F1) as [_ F2].
        apply IH; auto; [apply (falling_tail _ _ NF)| |].
        -- pose proof (Rabs_triang r (poly_at (ri (map B2R f)) (B2R (earlier b hi)) - poly_at (ri (map B2R f)) (B2R (later a lo)))) as T. pose proof (integral_abs (map B2R f) (B2R (later a lo)) (B2R (earlier b hi))). lra.
        -- apply add_near; [exact F1|exact A|apply integral_abs|exact B|]. apply (near_more (3 + length f)); [lia| |].
           ++ rewrite !integral_size_eq. pose proof (size_nonneg (ri (map B2R f)) (B2R (later a lo))). pose proof (size_nonneg (ri (map B2R f)) (B2R (earlier b hi))). lra.
           ++ unfold near. apply integrate_value; auto; [lia|apply ri_integral].
      * assert (EQ : clamp (B2R lo) (B2R hi) (B2R a) = clamp (B2R lo) (B2R hi) (B2R b)).
        { unfold meets in ME. apply andb_false_iff in ME. destruct ME as [ME|ME]; apply finite_nlt in ME; auto; unfold clamp, Rmin, Rmax; repeat destruct Rle_dec; lra. }
        rewrite EQ, Rplus_0_r. replace (r + (poly_at (ri (map B2R f)) (clamp (B2R lo) (B2R hi) (B2R b)) - poly_at (ri (map B2R f)) (clamp (B2R lo) (B2R hi) (B2R b)))) with r by ring.
        apply IH; auto; [apply (falling_tail _ _ NF)|]. apply (near_more m); [lia|pose proof (Rabs_pos r); lra|exact B].
Qed.
Lemma nth_B2R : forall (l : list double) i x, nth_error (map (@B2R 53 1024) l) i = Some x -> exists u, nth_error l i = Some u /\ B2R u = x.
Proof. induction l as [|a l IH]; intros [|i] x H; cbn [map nth_error] in *; try discriminate; [exists a; split; congruence|apply IH; exact H]. Qed.
