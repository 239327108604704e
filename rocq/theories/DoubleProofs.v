(** Lemmas about doubles: FloatProofs for binary64, and sums of numbers that are not
    negative. *)
From Coq Require Import ZArith Reals List Bool Lia Lra.
From Flocq Require Import Core IEEE754.BinarySingleNaN Relative Plus_error.
From Verif Require Import Common FloatModel FloatProofs.
Import ListNotations.
Local Open Scope R_scope.

(** Rounding to the nearest double, with overflow. *)
Notation crd := (crnd 53 1024).
Notation MX := (bpow radix2 1024).

(** ** Constants *)
Lemma ext_d0 : ext d0 = 0. Proof. reflexivity. Qed.
Lemma ext_d1 : ext d1 = 1.
Proof. rewrite ext_finite by reflexivity. change (B2R d1) with (F2R (Float radix2 4503599627370496 (-52))). unfold F2R, Fnum, Fexp. change (bpow radix2 (-52)) with (/ IZR (Z.pow_pos 2 52)). change (Z.pow_pos 2 52) with 4503599627370496%Z. apply Rinv_r. lra. Qed.
Lemma ext_dhalf : ext dhalf = / 2.
Proof. rewrite ext_finite by reflexivity. change (B2R dhalf) with (F2R (Float radix2 4503599627370496 (-53))). unfold F2R, Fnum, Fexp. change (bpow radix2 (-53)) with (/ IZR (Z.pow_pos 2 53)). change (Z.pow_pos 2 53) with 9007199254740992%Z. field. Qed.
Lemma ext_dtwo : ext dtwo = 2.
Proof. rewrite ext_finite by reflexivity. change (B2R dtwo) with (F2R (Float radix2 4503599627370496 (-51))). unfold F2R, Fnum, Fexp. change (bpow radix2 (-51)) with (/ IZR (Z.pow_pos 2 51)). change (Z.pow_pos 2 51) with 2251799813685248%Z. field. Qed.
Lemma num_d0 : num d0. Proof. reflexivity. Qed.
Lemma num_d1 : num d1. Proof. reflexivity. Qed.
Lemma MX_big : 2 < MX.
Proof. change 2 with (bpow radix2 1). apply bpow_lt. lia. Qed.

(** ** Comparisons *)
Lemma dle_iff (x y : double) : num x -> num y -> (dle x y = true <-> ext x <= ext y).
Proof. apply le_ext. Qed.
Lemma dlt_iff (x y : double) : num x -> num y -> (dlt x y = true <-> ext x < ext y).
Proof. apply lt_ext. Qed.
Lemma dlt_no (x y : double) : num x -> num y -> (dlt x y = false <-> ext y <= ext x).
Proof. apply lt_false. Qed.
Lemma dle_no (x y : double) : num x -> num y -> (dle x y = false <-> ext y < ext x).
Proof. intros NX NY. unfold dle. rewrite le_lt by assumption. rewrite Bool.negb_false_iff. apply lt_ext; assumption. Qed.
Lemma deq_iff (x y : double) : num x -> num y -> (deq x y = true <-> ext x = ext y).
Proof. apply eq_ext. Qed.
Lemma dle_nums (x y : double) : dle x y = true -> num x /\ num y.
Proof. apply le_num. Qed.
Lemma dlt_nums (x y : double) : dlt x y = true -> num x /\ num y.
Proof. apply lt_num. Qed.
Lemma le0 (x : double) : dle d0 x = true -> num x /\ 0 <= ext x.
Proof. intros H. destruct (dle_nums _ _ H) as [_ N]. split; [exact N|]. apply (dle_iff d0 x num_d0 N) in H. rewrite ext_d0 in H. exact H. Qed.

(** ** The values *)
Lemma dext_finite (x : double) : is_finite x = true -> ext x = B2R x.
Proof. apply ext_finite. Qed.
Lemma dext_lt (x : double) : is_finite x = true -> - MX < ext x < MX.
Proof. apply ext_lt. Qed.
Lemma dext_le (x : double) : - MX <= ext x <= MX.
Proof. apply ext_le. Qed.
Lemma dfinite_iff (x : double) : num x -> (is_finite x = true <-> - MX < ext x < MX).
Proof. apply ext_finite_iff. Qed.
Lemma dfinite_num (x : double) : is_finite x = true -> num x.
Proof. apply finite_num. Qed.
Lemma crd_mono a b : a <= b -> crd a <= crd b.
Proof. apply crnd_mono. typeclasses eauto. Qed.
Lemma crd_ext (x : double) : crd (ext x) = ext x.
Proof. apply crnd_ext; typeclasses eauto. Qed.
Lemma crd_0 : crd 0 = 0.
Proof. apply crnd_0. Qed.
Lemma crd_nonneg r : 0 <= r -> 0 <= crd r.
Proof. apply crnd_nonneg. typeclasses eauto. Qed.
Lemma crd_1 : crd 1 = 1.
Proof. rewrite <- ext_d1. apply crd_ext. Qed.
Lemma dadd_ext (x y : double) : is_finite x = true -> is_finite y = true -> num (dadd x y) /\ ext (dadd x y) = crd (ext x + ext y).
Proof. apply plus_ext. Qed.
Lemma dsub_ext (x y : double) : is_finite x = true -> is_finite y = true -> num (dsub x y) /\ ext (dsub x y) = crd (ext x - ext y).
Proof. apply minus_ext. Qed.
Lemma dmul_ext (x y : double) : is_finite x = true -> is_finite y = true -> num (dmul x y) /\ ext (dmul x y) = crd (ext x * ext y).
Proof. apply mult_ext. Qed.
Lemma ddiv_ext (x y : double) : is_finite x = true -> is_finite y = true -> ext y <> 0 -> num (ddiv x y) /\ ext (ddiv x y) = crd (ext x / ext y).
Proof. intros FX FY NY. apply div_ext; auto. rewrite <- dext_finite by exact FY. exact NY. Qed.
(** A double is determined by its value, up to the sign of zero. *)
Lemma inf_of (x : double) : num x -> 0 <= ext x -> is_finite x = false -> x = B754_infinity false.
Proof. pose proof MX_big. destruct x as [s|[|]| |s m e H']; cbn; intros N P F; try discriminate; [lra|reflexivity]. Qed.

(** ** Sums of numbers that are not negative *)
Lemma add_nonneg (x y : double) : num x -> num y -> 0 <= ext x -> 0 <= ext y -> num (dadd x y) /\ ext x <= ext (dadd x y) /\ ext y <= ext (dadd x y).
Proof.
  intros NX NY PX PY. pose proof MX_big as BIG. destruct (is_finite x) eqn:FX.
  - destruct (is_finite y) eqn:FY.
    + destruct (dadd_ext x y FX FY) as [N E]. split; [exact N|]. rewrite E. split.
      * rewrite <- (crd_ext x) at 1. apply crd_mono. lra.
      * rewrite <- (crd_ext y) at 1. apply crd_mono. lra.
    + rewrite (inf_of y NY PY FY). pose proof (dext_le x) as L. assert (E : dadd x (B754_infinity false) = B754_infinity false) by (destruct x as [s|[|]| |s m e H']; try discriminate FX; reflexivity).
      rewrite E. split; [reflexivity|]. cbn [ext]. lra.
  - rewrite (inf_of x NX PX FX). pose proof (dext_le y) as L. assert (E : dadd (B754_infinity false) y = B754_infinity false).
    { destruct y as [s|[|]| |s m e H']; try discriminate NY; try reflexivity. cbn [ext] in PY. lra. }
    rewrite E. split; [reflexivity|]. cbn [ext]. lra.
Qed.
Definition uro : R := bpow radix2 (-53).
Lemma add_error (x y : double) : is_finite x = true -> is_finite y = true -> 0 <= B2R x -> 0 <= B2R y -> is_finite (dadd x y) = true ->
  Rabs (B2R (dadd x y) - (B2R x + B2R y)) <= uro * (B2R x + B2R y).
Proof.
  intros FX FY PX PY F.
  pose proof (Bplus_correct 53 1024 prec53 emax53 mode_NE x y FX FY) as C.
  destruct (Rlt_bool _ _) eqn:O; [|destruct C as [C _]; unfold dadd in F; unfold binary_overflow in C; cbn [overflow_to_inf] in C; apply B2SF_inf in C; unfold double in *; rewrite C in F; discriminate F].
  destruct C as (C & _). unfold dadd. rewrite C. cbn [round_mode].
  destruct (FLT_plus_error_N_ex radix2 (SpecFloat.emin 53 1024) 53 (fun n => negb (Z.even n)) (B2R x) (B2R y)) as (eps & B & R).
  { apply generic_format_B2R. } { apply generic_format_B2R. }
  change (SpecFloat.fexp 53 1024) with (FLT_exp (SpecFloat.emin 53 1024) 53). change ZnearestE with (Znearest (fun n => negb (Z.even n))). rewrite R.
  replace ((B2R x + B2R y) * (1 + eps) - (B2R x + B2R y)) with (eps * (B2R x + B2R y)) by ring.
  rewrite Rabs_mult, (Rabs_pos_eq (B2R x + B2R y)) by lra. apply Rmult_le_compat_r; [lra|]. apply Rle_trans with (1 := B).
  assert (U : u_ro radix2 53 = uro) by (unfold u_ro, uro; change (/ 2) with (bpow radix2 (-1)); rewrite <- bpow_plus; reflexivity).
  rewrite U. assert (0 < uro) by apply bpow_gt_0. apply Rmult_le_reg_r with (1 + uro); [lra|]. unfold Rdiv. rewrite Rmult_assoc, Rinv_l by lra. nra.
Qed.
Lemma add_finite_l (x y : double) : num x -> num y -> 0 <= ext x -> 0 <= ext y -> is_finite (dadd x y) = true -> is_finite x = true /\ is_finite y = true.
Proof.
  intros NX NY PX PY F. destruct (add_nonneg x y NX NY PX PY) as (N & G1 & G2). pose proof (dext_lt (dadd x y) F). pose proof MX_big.
  split; apply dfinite_iff; auto; lra.
Qed.
Lemma B2R_nonneg (p : double) : dle d0 p = true -> 0 <= B2R p.
Proof. intros H. destruct (le0 p H) as [N P]. destruct (is_finite p) eqn:F; [rewrite ext_finite in P; auto|]. rewrite (inf_of p N P F). cbn. lra. Qed.

(** ** Equality by computation *)
Definition omap {A B} (f : A -> B) (o : outcome A) : outcome B :=
  match o with Ok a => Ok (f a) | Throw => Throw | UB => UB | Diverge => Diverge end.
Lemma oinj {A B} (f : A -> B) : (forall x y, f x = f y -> x = y) -> forall a b, omap f a = omap f b -> a = b.
Proof. intros I [x| | |] [y| | |] H; cbn in H; try discriminate H; try reflexivity. f_equal. apply I. congruence. Qed.
Lemma sf_inj (x y : double) : B2SF x = B2SF y -> x = y.
Proof. apply B2SF_inj. Qed.
Lemma map_sf_inj (l m : list double) : map B2SF l = map B2SF m -> l = m.
Proof. revert m. induction l as [|x l IH]; intros [|y m] H; try discriminate H; [reflexivity|]. cbn in H. f_equal; [apply sf_inj; congruence|apply IH; congruence]. Qed.
Definition sf_pair (p : double * double) := (B2SF (fst p), B2SF (snd p)).
Lemma pair_sf_inj (p q : double * double) : sf_pair p = sf_pair q -> p = q.
Proof. destruct p, q. unfold sf_pair. cbn. intros H. f_equal; apply sf_inj; congruence. Qed.
