(** What a numerical derivative means, for numbers in double precision. *)
From Coq Require Import ZArith Reals.
From Flocq Require Import Core IEEE754.BinarySingleNaN.
From Verif Require Import FloatModel.
Local Open Scope R_scope.

(** The largest finite double. *)
Definition largest_double : double := d2 (2 ^ 53 - 1) 971.
(** The program f computes the real function F up to delta for the doubles from lo to hi. *)
Definition computes (f : double -> double) (F : R -> R) (delta lo hi : R) : Prop :=
  forall t, is_finite t = true -> lo <= B2R t <= hi -> is_finite (f t) = true /\ Rabs (B2R (f t) - F (B2R t)) <= delta.
(** F' is the derivative of F from lo to hi. *)
Definition derivative_on (F F' : R -> R) (lo hi : R) : Prop := forall r, lo <= r <= hi -> derivable_pt_lim F r (F' r).
(** From lo to hi the values of G are within w of its value at r. *)
Definition varies_within (G : R -> R) (w r lo hi : R) : Prop := forall s, lo <= s <= hi -> Rabs (G s - G r) <= w.
(** How far from r the function is looked at, for the first and the second derivative. *)
Definition reach1 (r : R) : R := bpow radix2 (-23) + bpow radix2 (-50) * Rabs r.
Definition reach2 (r : R) : R := bpow radix2 (-10) + bpow radix2 (-50) * Rabs r.
