(** Lemmas about IEEE 754 numbers: comparisons and operators in terms of real numbers. *)
From Coq Require Import ZArith Reals Bool Lia Lra.
From Flocq Require Import Core IEEE754.BinarySingleNaN.
Local Open Scope R_scope.

Section Ext.
  Variable prec emax : Z.
  Context (prec_gt_0_ : Prec_gt_0 prec) (prec_lt_emax_ : Prec_lt_emax prec emax).
  Notation fl := (binary_float prec emax).
  Notation fexp := (SpecFloat.fexp prec emax).
  Notation M := (bpow radix2 emax).
  Notation rnd := (round radix2 fexp ZnearestE).
  Local Instance valid_fexp : Valid_exp fexp := fexp_correct prec emax prec_gt_0_.

  (** The value, with 2^emax for infinity. *)
  Definition ext (x : fl) : R :=
    match x with B754_infinity true => - M | B754_infinity false => M | _ => B2R x end.
  Definition num (x : fl) : Prop := is_nan x = false.

  Lemma M_pos : 0 < M. Proof. apply bpow_gt_0. Qed.
  Lemma finite_num (x : fl) : is_finite x = true -> num x.
  Proof. destruct x; cbn; unfold num; cbn; congruence. Qed.
  Lemma ext_finite (x : fl) : is_finite x = true -> ext x = B2R x.
  Proof. destruct x as [s|[|]| |s m e H]; cbn; try discriminate; reflexivity. Qed.
  Lemma ext_lt (x : fl) : is_finite x = true -> - M < ext x < M.
  Proof. intros F. rewrite ext_finite by exact F. apply Rabs_lt_inv. apply abs_B2R_lt_emax. Qed.
  Lemma ext_le (x : fl) : - M <= ext x <= M.
  Proof. pose proof M_pos. destruct x as [s|[|]| |s m e H']; cbn [ext]; try lra; try (cbn; lra). pose proof (ext_lt (B754_finite s m e H') eq_refl). cbn [ext] in H0. lra. Qed.
  Lemma ext_finite_iff (x : fl) : num x -> (is_finite x = true <-> - M < ext x < M).
  Proof. intros N. split; [apply ext_lt|]. destruct x as [s|[|]| |s m e H]; cbn; try lra; try reflexivity. unfold num in N. discriminate N. Qed.

  Lemma lt_ext (x y : fl) : num x -> num y -> (Bltb x y = true <-> ext x < ext y).
  Proof.
    intros NX NY. destruct (is_finite x) eqn:FX.
    - destruct (is_finite y) eqn:FY.
      + rewrite Bltb_correct by assumption. rewrite !ext_finite by assumption. case Rlt_bool_spec; intros; split; try lra; congruence.
      + pose proof (ext_lt x FX). destruct y as [s|[|]| |s m e H']; try discriminate FY; try (unfold num in NY; discriminate NY); destruct x as [s'|[|]| |[|] m' e' H'']; try discriminate FX; cbn [ext] in *; unfold Bltb, SpecFloat.SFltb; cbn [B2SF SpecFloat.SFcompare]; split; intros; try reflexivity; try discriminate; lra.
    - destruct (is_finite y) eqn:FY.
      + pose proof (ext_lt y FY). destruct x as [s|[|]| |s m e H']; try discriminate FX; try (unfold num in NX; discriminate NX); destruct y as [s'|[|]| |[|] m' e' H'']; try discriminate FY; cbn [ext] in *; unfold Bltb, SpecFloat.SFltb; cbn [B2SF SpecFloat.SFcompare]; split; intros; try reflexivity; try discriminate; lra.
      + pose proof M_pos. destruct x as [s|[|]| |s m e H']; try discriminate FX; try (unfold num in NX; discriminate NX); destruct y as [s'|[|]| |s' m' e' H'']; try discriminate FY; try (unfold num in NY; discriminate NY); unfold Bltb, SpecFloat.SFltb; cbn [ext B2SF SpecFloat.SFcompare]; split; intros; try reflexivity; try discriminate; lra.
  Qed.
  Lemma le_lt (x y : fl) : num x -> num y -> Bleb x y = negb (Bltb y x).
  Proof.
    intros NX NY. unfold num in *. pose proof (Bcompare_swap prec emax x y) as SW. unfold Bleb, Bltb, SpecFloat.SFleb, SpecFloat.SFltb. unfold Bcompare in SW. rewrite SW.
    assert (C : SpecFloat.SFcompare (B2SF x) (B2SF y) <> None) by (destruct x as [?|[|]| |[|] ? ? ?], y as [?|[|]| |[|] ? ? ?]; cbn in *; congruence).
    destruct (SpecFloat.SFcompare (B2SF x) (B2SF y)) as [[| |]|]; cbn; try reflexivity. congruence.
  Qed.
  Lemma le_ext (x y : fl) : num x -> num y -> (Bleb x y = true <-> ext x <= ext y).
  Proof.
    intros NX NY. rewrite le_lt by assumption. pose proof (lt_ext y x NY NX) as L. destruct (Bltb y x); cbn; split; intros H; try discriminate.
    - pose proof (proj1 L eq_refl). lra.
    - destruct (Rle_dec (ext x) (ext y)) as [K|K]; [exact K|]. exfalso. assert (ext y < ext x) by lra. apply L in H0. discriminate.
    - reflexivity.
  Qed.
  Lemma lt_false (x y : fl) : num x -> num y -> (Bltb x y = false <-> ext y <= ext x).
  Proof. intros NX NY. pose proof (lt_ext x y NX NY) as L. destruct (Bltb x y); split; intros H; try discriminate; try reflexivity; [pose proof (proj1 L eq_refl); lra|]. destruct (Rle_dec (ext y) (ext x)) as [K|K]; [exact K|]. assert (ext x < ext y) by lra. apply L in H0. discriminate. Qed.
  Lemma eq_ext (x y : fl) : num x -> num y -> (Beqb x y = true <-> ext x = ext y).
  Proof.
    intros NX NY. assert (E : Beqb x y = Bleb x y && Bleb y x).
    { pose proof (Bcompare_swap prec emax x y) as SW. unfold Bleb, Beqb, SpecFloat.SFleb, SpecFloat.SFeqb. unfold Bcompare in SW. rewrite SW. destruct (SpecFloat.SFcompare (B2SF x) (B2SF y)) as [[| |]|]; reflexivity. }
    rewrite E, andb_true_iff, !le_ext by assumption. split; intros H; lra.
  Qed.
  Lemma lt_nan_l (x y : fl) : is_nan x = true -> Bltb x y = false.
  Proof. destruct x; try discriminate. destruct y; reflexivity. Qed.
  Lemma lt_nan_r (x y : fl) : is_nan y = true -> Bltb x y = false.
  Proof. destruct y; try discriminate. destruct x as [s|[|]| |[|] m e H]; reflexivity. Qed.
  Lemma le_num (x y : fl) : Bleb x y = true -> num x /\ num y.
  Proof. destruct x as [s|[|]| |[|] m e H], y as [s'|[|]| |[|] m' e' H']; cbn; unfold num; cbn; intros; split; congruence. Qed.
  Lemma lt_num (x y : fl) : Bltb x y = true -> num x /\ num y.
  Proof. destruct x as [s|[|]| |[|] m e H], y as [s'|[|]| |[|] m' e' H']; cbn; unfold num; cbn; intros; split; congruence. Qed.

  (** Rounding, with overflow to infinity. *)
  Definition crnd (r : R) : R := Rmax (- M) (Rmin M (rnd r)).
  Lemma crnd_mono a b : a <= b -> crnd a <= crnd b.
  Proof.
    intros H. assert (rnd a <= rnd b) by (apply round_le; auto with typeclass_instances).
    unfold crnd, Rmax, Rmin. repeat destruct (Rle_dec _ _); lra.
  Qed.
  Lemma crnd_id r : generic_format radix2 fexp r -> - M <= r <= M -> crnd r = r.
  Proof. intros F B. unfold crnd. rewrite round_generic by auto with typeclass_instances. rewrite Rmin_right, Rmax_right; lra. Qed.
  Lemma M_format : generic_format radix2 fexp M.
  Proof.
    apply generic_format_bpow. unfold SpecFloat.fexp, SpecFloat.emin. pose proof prec_gt_0_ as A. pose proof prec_lt_emax_ as B. unfold Prec_gt_0, Prec_lt_emax in *. lia.
  Qed.
  Lemma ext_format (x : fl) : generic_format radix2 fexp (ext x).
  Proof.
    destruct x as [s|[|]| |s m e H]; cbn [ext]; try apply generic_format_B2R; [apply generic_format_opp|]; apply M_format.
  Qed.
  Lemma crnd_ext (x : fl) : crnd (ext x) = ext x.
  Proof. apply crnd_id; [apply ext_format|apply ext_le]. Qed.
  Lemma crnd_0 : crnd 0 = 0.
  Proof. pose proof M_pos. apply crnd_id; [apply generic_format_0|lra]. Qed.
  Lemma crnd_small r : Rabs (rnd r) < M -> crnd r = rnd r.
  Proof. intros H. apply Rabs_lt_inv in H. unfold crnd. rewrite Rmin_right, Rmax_right; lra. Qed.
  Lemma crnd_opp r : crnd (- r) = - crnd r.
  Proof.
    unfold crnd. rewrite round_NE_opp. pose proof M_pos. generalize (rnd r). intros q. unfold Rmax, Rmin. repeat destruct (Rle_dec _ _); lra.
  Qed.
  Lemma crnd_nonneg r : 0 <= r -> 0 <= crnd r.
  Proof. intros H. rewrite <- crnd_0. apply crnd_mono, H. Qed.

  Lemma B2SF_inf (x : fl) s : B2SF x = SpecFloat.S754_infinity s -> x = B754_infinity s.
  Proof. destruct x; cbn; intros H; try discriminate H. congruence. Qed.
  Lemma sign_nonneg (x : fl) : is_finite x = true -> Bsign x = false -> 0 <= B2R x.
  Proof. destruct x as [s|s| |s m e H]; try discriminate; cbn [Bsign B2R]; intros _ E; [lra|]. subst. apply F2R_ge_0. cbn. lia. Qed.
  Lemma sign_nonpos (x : fl) : is_finite x = true -> Bsign x = true -> B2R x <= 0.
  Proof. destruct x as [s|s| |s m e H]; try discriminate; cbn [Bsign B2R]; intros _ E; [lra|]. subst. apply F2R_le_0. cbn. lia. Qed.

  Lemma overflow_ext (z : fl) r : Rlt_bool (Rabs (rnd r)) M = false -> B2SF z = binary_overflow prec emax mode_NE (Rlt_bool r 0) -> num z /\ ext z = crnd r.
  Proof.
    intros O E. unfold binary_overflow in E. cbn [overflow_to_inf] in E. apply B2SF_inf in E. subst z. split; [reflexivity|].
    revert O. case Rlt_bool_spec; [discriminate|]. intros O _. pose proof M_pos. cbn [ext]. revert O. case (Rlt_bool_spec r 0); intros S O.
    - assert (rnd r <= 0) by (rewrite <- (round_0 radix2 fexp ZnearestE); apply round_le; [auto with typeclass_instances|auto with typeclass_instances|lra]).
      rewrite Rabs_left1 in O by assumption. unfold crnd. rewrite Rmax_left; [reflexivity|]. apply Rle_trans with (rnd r); [apply Rmin_r|lra].
    - assert (0 <= rnd r) by (rewrite <- (round_0 radix2 fexp ZnearestE); apply round_le; [auto with typeclass_instances|auto with typeclass_instances|lra]).
      rewrite Rabs_pos_eq in O by assumption. unfold crnd. rewrite Rmin_left by exact O. rewrite Rmax_right; lra.
  Qed.

  Lemma round_big_sign r : M <= Rabs (rnd r) -> r <> 0.
  Proof. intros H ->. rewrite round_0, Rabs_R0 in H by auto with typeclass_instances. pose proof M_pos. lra. Qed.

  Lemma plus_ext (x y : fl) : is_finite x = true -> is_finite y = true -> num (Bplus mode_NE x y) /\ ext (Bplus mode_NE x y) = crnd (ext x + ext y).
  Proof.
    intros FX FY. pose proof (Bplus_correct prec emax _ _ mode_NE x y FX FY) as C. rewrite (ext_finite x), (ext_finite y) by assumption.
    destruct (Rlt_bool (Rabs (round radix2 fexp (round_mode mode_NE) (B2R x + B2R y))) M) eqn:O.
    - destruct C as (E & F & _). split; [apply finite_num, F|]. rewrite ext_finite by exact F. rewrite E. symmetry. apply crnd_small. revert O. case Rlt_bool_spec; [auto|discriminate].
    - destruct C as (E & S). apply overflow_ext; [exact O|]. rewrite E. f_equal. symmetry. destruct (Bsign x) eqn:SX.
      + apply Rlt_bool_true. pose proof (sign_nonpos x FX SX). pose proof (sign_nonpos y FY (eq_sym S)).
        revert O. case Rlt_bool_spec; [discriminate|]. intros O _. apply round_big_sign in O. lra.
      + apply Rlt_bool_false. pose proof (sign_nonneg x FX SX). pose proof (sign_nonneg y FY (eq_sym S)). lra.
  Qed.
  Lemma minus_ext (x y : fl) : is_finite x = true -> is_finite y = true -> num (Bminus mode_NE x y) /\ ext (Bminus mode_NE x y) = crnd (ext x - ext y).
  Proof.
    intros FX FY. pose proof (Bminus_correct prec emax _ _ mode_NE x y FX FY) as C. rewrite (ext_finite x), (ext_finite y) by assumption.
    destruct (Rlt_bool (Rabs (round radix2 fexp (round_mode mode_NE) (B2R x - B2R y))) M) eqn:O.
    - destruct C as (E & F & _). split; [apply finite_num, F|]. rewrite ext_finite by exact F. rewrite E. symmetry. apply crnd_small. revert O. case Rlt_bool_spec; [auto|discriminate].
    - destruct C as (E & S). apply overflow_ext; [exact O|]. rewrite E. f_equal. symmetry. destruct (Bsign x) eqn:SX.
      + apply Rlt_bool_true. pose proof (sign_nonpos x FX SX). assert (SY : Bsign y = false) by (destruct (Bsign y); cbn in S; congruence). pose proof (sign_nonneg y FY SY).
        revert O. case Rlt_bool_spec; [discriminate|]. intros O _. apply round_big_sign in O. lra.
      + apply Rlt_bool_false. pose proof (sign_nonneg x FX SX). assert (SY : Bsign y = true) by (destruct (Bsign y); cbn in S; congruence). pose proof (sign_nonpos y FY SY). lra.
  Qed.
  Lemma mult_ext (x y : fl) : is_finite x = true -> is_finite y = true -> num (Bmult mode_NE x y) /\ ext (Bmult mode_NE x y) = crnd (ext x * ext y).
  Proof.
    intros FX FY. pose proof (Bmult_correct prec emax _ _ mode_NE x y) as C. rewrite (ext_finite x), (ext_finite y) by assumption.
    destruct (Rlt_bool (Rabs (round radix2 fexp (round_mode mode_NE) (B2R x * B2R y))) M) eqn:O.
    - destruct C as (E & F & _). rewrite FX, FY in F. cbn in F. split; [apply finite_num, F|]. rewrite ext_finite by exact F. rewrite E. symmetry. apply crnd_small. revert O. case Rlt_bool_spec; [auto|discriminate].
    - apply overflow_ext; [exact O|]. rewrite C. f_equal. symmetry.
      assert (NZ : B2R x * B2R y <> 0) by (revert O; case Rlt_bool_spec; [discriminate|]; intros O _; apply round_big_sign in O; exact O).
      destruct (Bsign x) eqn:SX, (Bsign y) eqn:SY; cbn [xorb].
      + apply Rlt_bool_false. pose proof (sign_nonpos x FX SX). pose proof (sign_nonpos y FY SY). nra.
      + apply Rlt_bool_true. pose proof (sign_nonpos x FX SX). pose proof (sign_nonneg y FY SY). assert (B2R x * B2R y <= 0) by nra. lra.
      + apply Rlt_bool_true. pose proof (sign_nonneg x FX SX). pose proof (sign_nonpos y FY SY). assert (B2R x * B2R y <= 0) by nra. lra.
      + apply Rlt_bool_false. pose proof (sign_nonneg x FX SX). pose proof (sign_nonneg y FY SY). nra.
  Qed.
  Lemma div_sign a b : b <> 0 -> 0 <= a * b -> 0 <= a / b.
  Proof. intros N H. replace (a / b) with (a * b * (/ b * / b)) by (field; exact N). apply Rmult_le_pos; [exact H|]. apply Rle_0_sqr. Qed.
  Lemma div_ext (x y : fl) : is_finite x = true -> is_finite y = true -> B2R y <> 0 -> num (Bdiv mode_NE x y) /\ ext (Bdiv mode_NE x y) = crnd (ext x / ext y).
  Proof.
    intros FX FY NY. pose proof (Bdiv_correct prec emax _ _ mode_NE x y NY) as C. rewrite (ext_finite x), (ext_finite y) by assumption.
    destruct (Rlt_bool (Rabs (round radix2 fexp (round_mode mode_NE) (B2R x / B2R y))) M) eqn:O.
    - destruct C as (E & F & _). rewrite FX in F. split; [apply finite_num, F|]. rewrite ext_finite by exact F. rewrite E. symmetry. apply crnd_small. revert O. case Rlt_bool_spec; [auto|discriminate].
    - apply overflow_ext; [exact O|]. rewrite C. f_equal. symmetry.
      assert (NZ : B2R x / B2R y <> 0) by (revert O; case Rlt_bool_spec; [discriminate|]; intros O _; apply round_big_sign in O; exact O).
      assert (NEG : B2R x * - B2R y >= 0 -> B2R x / B2R y < 0).
      { intros H. assert (0 <= B2R x / - B2R y) by (apply div_sign; lra). replace (B2R x / - B2R y) with (- (B2R x / B2R y)) in H0 by (field; exact NY). lra. }
      destruct (Bsign x) eqn:SX, (Bsign y) eqn:SY; cbn [xorb].
      + apply Rlt_bool_false. pose proof (sign_nonpos x FX SX). pose proof (sign_nonpos y FY SY). apply div_sign; [exact NY|nra].
      + apply Rlt_bool_true. pose proof (sign_nonpos x FX SX). pose proof (sign_nonneg y FY SY). apply NEG. nra.
      + apply Rlt_bool_true. pose proof (sign_nonneg x FX SX). pose proof (sign_nonpos y FY SY). apply NEG. nra.
      + apply Rlt_bool_false. pose proof (sign_nonneg x FX SX). pose proof (sign_nonneg y FY SY). apply div_sign; [exact NY|nra].
  Qed.
End Ext.
Arguments ext {prec emax}. Arguments num {prec emax}.
