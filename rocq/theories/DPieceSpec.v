(** Integrals of piecewise polynomials with real coefficients, for the properties of their
    computation in double precision. *)
From Coq Require Import ZArith Reals List Arith Bool.
From Flocq Require Import Core IEEE754.BinarySingleNaN.
From Verif Require Import Common FloatModel DSplineSpec.
Import ListNotations.
Local Open Scope R_scope.

(** No knot is above the next one, and none is a NaN. *)
Definition not_falling (knots : list double) : Prop :=
  forall i a b, nth_error knots i = Some a -> nth_error knots (S i) = Some b -> dle a b = true.
(** Knots and functions of a piecewise function. *)
Definition piecewise (knots : list double) (functions : list (list double)) : Prop :=
  length knots = S (length functions) /\ (1 <= length functions)%nat /\ not_falling knots.
(** h is the polynomial i between the knots i and i + 1, and 0 outside of the knots. *)
Definition made_of (knots : list R) (polynomials : list (list R)) (h : R -> R) : Prop :=
  (forall i a b p x, nth_error knots i = Some a -> nth_error knots (S i) = Some b -> nth_error polynomials i = Some p -> a < x < b -> h x = poly_at p x) /\
  (forall a x, nth_error knots 0 = Some a -> x < a -> h x = 0) /\
  (forall b x, nth_error knots (length knots - 1) = Some b -> b < x -> h x = 0).
(** The greater and the smaller of two numbers. *)
Definition later (a b : double) : double := if dlt a b then b else a.
Definition earlier (a b : double) : double := if dlt b a then b else a.
(** The piece between the knots a and b meets the interval from lo to hi. *)
Definition meets (lo hi a b : double) : bool := dlt a hi && dlt lo b.
(** The sum, from the first piece to the last one and rounded at each addition, of what
    [integral] gives for the pieces that meet the interval from lo to hi, each between the
    ends of its part of the interval. *)
Fixpoint sum_of_pieces (integral : list double -> double -> double -> double) (lo hi : double) (knots : list double) (functions : list (list double)) (sum : double) : double :=
  match knots, functions with
  | a :: ((b :: _) as r), f :: fs =>
      sum_of_pieces integral lo hi r fs (if meets lo hi a b then dadd sum (integral f (later a lo) (earlier b hi)) else sum)
  | _, _ => sum
  end.
(** The sizes of the terms in the integrals of the pieces that meet the interval. *)
Fixpoint sizes_of_pieces (lo hi : double) (knots : list double) (functions : list (list double)) : R :=
  match knots, functions with
  | a :: ((b :: _) as r), f :: fs =>
      (if meets lo hi a b then integral_size (map B2R f) (B2R (later a lo)) + integral_size (map B2R f) (B2R (earlier b hi)) else 0) + sizes_of_pieces lo hi r fs
  | _, _ => 0
  end.
