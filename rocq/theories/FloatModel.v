(** IEEE 754 numbers for the models of numerical code.

    A double is an element of Flocq's [binary_float 53 1024] (one NaN), a float one of
    [binary_float 24 128]; the operators round to the nearest, ties to even. *)
From Coq Require Import ZArith Reals.
From Flocq Require Import Core IEEE754.BinarySingleNaN.

Definition double : Type := binary_float 53 1024.
#[global] Instance prec53 : Prec_gt_0 53. Proof. reflexivity. Qed.
#[global] Instance emax53 : Prec_lt_emax 53 1024. Proof. reflexivity. Qed.
Definition dadd : double -> double -> double := Bplus mode_NE.
Definition dsub : double -> double -> double := Bminus mode_NE.
Definition dmul : double -> double -> double := Bmult mode_NE.
Definition ddiv : double -> double -> double := Bdiv mode_NE.
Definition dsqrt : double -> double := Bsqrt mode_NE.
Definition dlt : double -> double -> bool := Bltb.
Definition dle : double -> double -> bool := Bleb.
Definition deq : double -> double -> bool := Beqb.
(** The double nearest to m * 2^e. *)
Definition d2 (m e : Z) : double := binary_normalize 53 1024 _ _ mode_NE m e false.
Definition dinf : double := B754_infinity false.
Definition dnan : double := B754_nan.

Definition float : Type := binary_float 24 128.
#[global] Instance prec24 : Prec_gt_0 24. Proof. reflexivity. Qed.
#[global] Instance emax24 : Prec_lt_emax 24 128. Proof. reflexivity. Qed.
Definition fadd : float -> float -> float := Bplus mode_NE.
Definition f2 (m e : Z) : float := binary_normalize 24 128 _ _ mode_NE m e false.

(** The literals 0, 1, 0.5 and 2. *)
Definition d0 : double := d2 0 0.
Definition d1 : double := d2 1 0.
Definition dhalf : double := d2 1 (-1).
Definition dtwo : double := d2 1 1.
