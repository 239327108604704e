(** More lemmas about doubles: relative errors, integers, conversions. *)
From Coq Require Import ZArith Reals List Bool Arith Lia Lra.
From Flocq Require Import Core IEEE754.BinarySingleNaN Relative Plus_error.
From Verif Require Import Common FloatModel FloatProofs DoubleProofs.
Import ListNotations.
Local Open Scope R_scope.

Notation rnd53 := (round radix2 (SpecFloat.fexp 53 1024) ZnearestE).
Lemma u_uro : u_ro radix2 53 = uro.
Proof. unfold u_ro, uro. change (/ 2) with (bpow radix2 (-1)). rewrite <- bpow_plus. reflexivity. Qed.
Lemma uro_pos : 0 < uro. Proof. apply bpow_gt_0. Qed.
Lemma uro_val : uro = / 9007199254740992.
Proof. reflexivity. Qed.
Lemma uro_small : uro <= / 1024.
Proof. rewrite uro_val. apply Rinv_le; lra. Qed.
Lemma rel_weaken eps : Rabs eps <= u_ro radix2 53 / (1 + u_ro radix2 53) -> Rabs eps <= uro.
Proof.
  intros B. apply Rle_trans with (1 := B). rewrite u_uro. pose proof uro_pos. apply Rmult_le_reg_r with (1 + uro); [lra|]. unfold Rdiv. rewrite Rmult_assoc, Rinv_l by lra. nra.
Qed.
Lemma finite_rnd (z : double) r : is_finite z = true -> ext z = crd r -> B2R z = rnd53 r.
Proof.
  intros F E. rewrite dext_finite in E by exact F. pose proof (dext_lt z F) as B. rewrite dext_finite in B by exact F. rewrite E in *.
  unfold crnd, Rmax, Rmin in *. repeat destruct (Rle_dec _ _); lra.
Qed.
Lemma rnd_finite (z : double) r : num z -> ext z = crd r -> Rabs (rnd53 r) < MX -> is_finite z = true.
Proof. intros N E B. apply dfinite_iff; [exact N|]. rewrite E, crnd_small by exact B. apply Rabs_lt_inv, B. Qed.
Lemma add_rel (x y : double) : is_finite x = true -> is_finite y = true -> is_finite (dadd x y) = true ->
  exists d, Rabs d <= uro /\ B2R (dadd x y) = (B2R x + B2R y) * (1 + d).
Proof.
  intros FX FY F. destruct (dadd_ext x y FX FY) as [N E]. apply (finite_rnd _ _ F) in E. rewrite (dext_finite x FX), (dext_finite y FY) in E.
  destruct (FLT_plus_error_N_ex radix2 (SpecFloat.emin 53 1024) 53 (fun n => negb (Z.even n)) (B2R x) (B2R y)) as (eps & B & R).
  { apply generic_format_B2R. } { apply generic_format_B2R. }
  exists eps. split; [apply rel_weaken, B|]. rewrite E. exact R.
Qed.
Lemma sub_rel (x y : double) : is_finite x = true -> is_finite y = true -> is_finite (dsub x y) = true ->
  exists d, Rabs d <= uro /\ B2R (dsub x y) = (B2R x - B2R y) * (1 + d).
Proof.
  intros FX FY F. destruct (dsub_ext x y FX FY) as [N E]. apply (finite_rnd _ _ F) in E. rewrite (dext_finite x FX), (dext_finite y FY) in E.
  destruct (FLT_plus_error_N_ex radix2 (SpecFloat.emin 53 1024) 53 (fun n => negb (Z.even n)) (B2R x) (- B2R y)) as (eps & B & R).
  { apply generic_format_B2R. } { apply generic_format_opp, generic_format_B2R. }
  exists eps. split; [apply rel_weaken, B|]. rewrite E. exact R.
Qed.
(** Rounding a number that is not too small. *)
Lemma rnd_rel r : bpow radix2 (-1022) <= Rabs r -> exists d, Rabs d <= uro /\ rnd53 r = r * (1 + d).
Proof.
  intros H. destruct (relative_error_N_FLT_ex radix2 (SpecFloat.emin 53 1024) 53 eq_refl (fun n => negb (Z.even n)) r) as (eps & B & R); [exact H|].
  exists eps. split; [|exact R]. apply Rle_trans with (1 := B). change (- (53) + 1)%Z with (-52)%Z. unfold uro. change (/ 2) with (bpow radix2 (-1)). rewrite <- bpow_plus. apply Rle_refl.
Qed.
(** An upper bound of a rounded number that is not negative. *)
Lemma rnd_le r b : r <= b -> bpow radix2 (-1022) <= b -> rnd53 r <= b * (1 + uro).
Proof.
  intros H B. assert (0 < b) by (pose proof (bpow_gt_0 radix2 (-1022)); lra). destruct (rnd_rel b) as (d & D & E); [rewrite Rabs_pos_eq; lra|].
  apply Rle_trans with (rnd53 b); [apply round_le; auto with typeclass_instances; apply fexp_correct; reflexivity|].
  rewrite E. apply Rabs_le_inv in D. apply Rmult_le_compat_l; lra.
Qed.

(** ** Integers *)
Lemma int_format z : (Z.abs z <= 2 ^ 53)%Z -> generic_format radix2 (SpecFloat.fexp 53 1024) (IZR z).
Proof.
  intros H. destruct (Z.eq_dec (Z.abs z) (2 ^ 53)) as [E|E].
  - assert (generic_format radix2 (SpecFloat.fexp 53 1024) (IZR (2 ^ 53))).
    { change (IZR (2 ^ 53)) with (bpow radix2 53). apply generic_format_bpow. cbn. lia. }
    destruct (Z.abs_eq_or_opp z) as [A|A]; rewrite A in E; [rewrite E; exact H0|]. replace z with (- 2 ^ 53)%Z by lia. rewrite opp_IZR. apply generic_format_opp, H0.
  - apply generic_format_FLT. exists (Float radix2 z 0); [unfold F2R; cbn; ring|cbn; lia|cbn; lia].
Qed.
(** Half integers. *)
Lemma half_format z : (Z.abs z < 2 ^ 53)%Z -> generic_format radix2 (SpecFloat.fexp 53 1024) (IZR z / 2).
Proof. intros H. apply generic_format_FLT. exists (Float radix2 z (-1)); [unfold F2R; cbn; field|cbn; lia|cbn; lia]. Qed.
Lemma rnd_format r : generic_format radix2 (SpecFloat.fexp 53 1024) r -> rnd53 r = r.
Proof. apply round_generic. auto with typeclass_instances. Qed.
Lemma rnd_mono a b : a <= b -> rnd53 a <= rnd53 b.
Proof. intros. apply round_le; auto with typeclass_instances. apply fexp_correct. reflexivity. Qed.
Lemma big53 : IZR (2 ^ 53) < MX.
Proof. change (IZR (2 ^ 53)) with (bpow radix2 53). apply bpow_lt. lia. Qed.
Lemma d2_exact m e : generic_format radix2 (SpecFloat.fexp 53 1024) (F2R (Float radix2 m e)) -> Rabs (F2R (Float radix2 m e)) < MX ->
  is_finite (d2 m e) = true /\ B2R (d2 m e) = F2R (Float radix2 m e).
Proof.
  intros G B. pose proof (binary_normalize_correct 53 1024 prec53 emax53 mode_NE m e false) as C. cbn [round_mode] in C.
  rewrite (rnd_format _ G) in C. rewrite Rlt_bool_true in C by exact B. destruct C as (A1 & A2 & _). split; [exact A2|exact A1].
Qed.
Lemma d2_int z : (Z.abs z <= 2 ^ 53)%Z -> is_finite (d2 z 0) = true /\ B2R (d2 z 0) = IZR z.
Proof.
  intros H. assert (E : F2R (Float radix2 z 0) = IZR z) by (unfold F2R; cbn; ring). rewrite <- E. apply d2_exact; rewrite E; [apply int_format, H|].
  rewrite <- abs_IZR. apply Rle_lt_trans with (IZR (2 ^ 53)); [apply IZR_le, H|apply big53].
Qed.

(** ** Truncation *)
Lemma btrunc (x : double) : Btrunc x = Ztrunc (B2R x).
Proof.
  apply eq_IZR. rewrite Btrunc_correct by reflexivity. unfold round, F2R, scaled_mantissa, cexp, FIX_exp. cbn. rewrite !Rmult_1_r. reflexivity.
Qed.
