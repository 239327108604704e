(** What the inverse of a cumulative means, for numbers in double precision. *)
From Coq Require Import ZArith Reals List Arith.
From Flocq Require Import Core IEEE754.BinarySingleNaN.
From Verif Require Import FloatModel InterpSpec InvCumulSpec.
Import ListNotations.
Local Open Scope R_scope.

(** Zero or of a size between 2^-100 and 2^100. *)
Definition ordinary (v : double) : Prop :=
  is_finite v = true /\ (B2R v = 0 \/ bpow radix2 (-100) <= Rabs (B2R v) <= bpow radix2 100).
(** A density sampled at knots: no knot above the next one, no negative value, at least two knots. *)
Definition sampled_density (knots pdf : list double) : Prop :=
  length knots = length pdf /\ (2 <= length knots)%nat /\ (Z.of_nat (length knots) <= 2 ^ 40)%Z /\
  Forall ordinary knots /\ Forall ordinary pdf /\ (forall p, In p pdf -> 0 <= B2R p) /\
  forall i, (S i < length knots)%nat -> el (map B2R knots) i <= el (map B2R knots) (S i).
(** The slope of the density on segment i, its greater end and the greater distance of its knots from 0. *)
Definition slope (knots pdf : list R) (i : nat) : R := Rabs ((el pdf (S i) - el pdf i) / (el knots (S i) - el knots i)).
Definition height (pdf : list R) (i : nat) : R := Rmax (el pdf i) (el pdf (S i)).
Definition distance (knots : list R) (i : nat) : R := Rmax (Rabs (el knots i)) (Rabs (el knots (S i))).
(** How badly the quadratic formula is conditioned on segment i: the square of the density
    extrapolated to twice the distance, over the slope; for a flat density its value times the distance. *)
Definition condition (knots pdf : list R) (i : nat) : R :=
  if Req_EM_T (el pdf i) (el pdf (S i)) then height pdf i * distance knots i
  else (height pdf i + slope knots pdf i * distance knots i) ^ 2 / slope knots pdf i.
