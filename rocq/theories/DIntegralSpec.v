(** What it means for a program to compute a function of real numbers, and for that function to be well behaved. *)
From Coq Require Import ZArith Reals.
From Flocq Require Import Core IEEE754.BinarySingleNaN.
From Verif Require Import FloatModel DQuadSpec.
Local Open Scope R_scope.

(** Between two numbers, in one order or the other. *)
Definition among (a b x : R) : Prop := Rmin a b <= x <= Rmax a b.
(** F changes by at most [slope] per unit. *)
Definition slope_within (F : R -> R) (a b slope : R) : Prop :=
  forall x y, among a b x -> among a b y -> Rabs (F x - F y) <= slope * Rabs (x - y).
(** F is at most [size], up to its sign. *)
Definition size_within (F : R -> R) (a b size : R) : Prop := forall x, among a b x -> Rabs (F x) <= size.
(** At each double of the range f is finite, and F up to [error]. *)
Definition computes (f : double -> double) (F : R -> R) (a b : double) (error : R) : Prop :=
  forall x, lies_between a b x -> is_finite (f x) = true /\ Rabs (B2R (f x) - F (B2R x)) <= error.
(** The error of the values, with the one of the places where the function is evaluated. *)
Definition value_error (slope error : R) (a b : double) : R :=
  error + slope * (5 * bpow radix2 (-53) * (Rabs (B2R a) + Rabs (B2R b))).
(** Error of an estimate with N parts of an integral over a range of this length: of the values, and of the roundings. *)
Definition estimate_error (slope size error : R) (a b : double) (N : nat) : R :=
  let length := Rabs (B2R b - B2R a) in
  3 * (length * value_error slope error a b + roundings (N + 1) * (length * (size + error) + (length + 1) * bpow radix2 (-298))).
