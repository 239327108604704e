(** Vocabulary of the properties of the inverse cumulative. *)
From Coq Require Import Reals List Arith.
From Verif Require Import Common CumulModel FunModel FunSpec InterpSpec.
Import ListNotations.
Local Open Scope R_scope.

(** The area below the first [n] segments of the polygon through the points. *)
Fixpoint area (knots pdf : list R) (n : nat) : R :=
  match n with
  | O => 0
  | S i => area knots pdf i + (el knots (S i) - el knots i) * (el pdf i + el pdf (S i)) / 2
  end.
(** The density at x on segment i: the line through its two points. *)
Definition density (knots pdf : list R) (i : nat) (x : R) : R := line (el knots i) (el pdf i) (el knots (S i)) (el pdf (S i)) x.
(** The area up to the point [q] of segment [i]. *)
Definition area_to (knots pdf : list R) (i : nat) (q : R) : R := area knots pdf i + (q - el knots i) * (el pdf i + density knots pdf i q) / 2.
(** q has the fraction p of the area at its left. *)
Definition quantile (knots pdf : list R) (p q : R) : Prop :=
  exists i, (S i < length knots)%nat /\ el knots i <= q <= el knots (S i) /\ area_to knots pdf i q = p * area knots pdf (length knots - 1).
