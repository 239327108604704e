(** Model of the distances between the points of a self-organizing map (SOM/SOM/Distance.h).

    An array<double, ND> is a list of ND real numbers. Quotients by zero are those of
    IEEE 754: a sum is a number, infinite or not a number. *)
From Coq Require Import Reals List Arith.
From Verif Require Import Common.
Import ListNotations.
Local Open Scope R_scope.

Inductive num : Type := Real (x : R) | Inf | Nan.
(** The sum and the quotient of non-negative numbers, and the square root. *)
Definition num_add (a b : num) : num :=
  match a, b with
  | Nan, _ | _, Nan => Nan
  | Inf, _ | _, Inf => Inf
  | Real x, Real y => Real (x + y)
  end.
Definition num_div (up down : R) : num :=
  if Req_EM_T down 0 then (if Req_EM_T up 0 then Nan else Inf) else Real (up / down).
Definition num_sqrt (a : num) : num := match a with Real x => Real (sqrt x) | _ => a end.

(** left[i] with i < ND. *)
Definition item (l : list R) (i : nat) : R := nth i l 0.

(** Distance.h:55-61: the distance of L2 without uncertainties. *)
Fixpoint l2_loop (n i : nat) (left right : list R) (result : R) : R :=
  match n with
  | O => result
  | S n' => l2_loop n' (S i) left right (result + (item left i - item right i) * (item left i - item right i))
  end.
Definition l2 (nd : nat) (left right : list R) : R := sqrt (l2_loop nd 0 left right 0).

(** Distance.h:63-72: with uncertainties. *)
Fixpoint l2u_loop (n i : nat) (left right uncertainties : list R) (result : num) : num :=
  match n with
  | O => result
  | S n' =>
      let up := (item left i - item right i) * (item left i - item right i) in
      let down := item uncertainties i * item uncertainties i in
      l2u_loop n' (S i) left right uncertainties (num_add result (num_div up down))
  end.
Definition l2u (nd : nat) (left right uncertainties : list R) : num := num_sqrt (l2u_loop nd 0 left right uncertainties (Real 0)).

(** A distance: what an object of a class derived from Interface does. The member with
    uncertainties is optional; Interface's own (Distance.h:43-46) throws. *)
Record dist_class : Type := mkDist {
  two_points : list R -> list R -> R;
  own_uncertain : option (list R -> list R -> list R -> num) }.
Definition distance (d : dist_class) (left right : list R) : outcome R := Ok (two_points d left right).
Definition distance_uncertain (d : dist_class) (left right uncertainties : list R) : outcome num :=
  match own_uncertain d with Some f => Ok (f left right uncertainties) | None => Throw end.
(** Distance.h:50-73. *)
Definition L2 (nd : nat) : dist_class := mkDist (l2 nd) (Some (l2u nd)).
