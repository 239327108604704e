(** Vocabulary of the properties of the interpolation of N-dimensional arrays. *)
From Coq Require Import Reals List Arith.
From Verif Require Import Common CumulModel FunModel FunSpec InterpModel InterpSpec.
Import ListNotations.
Local Open Scope R_scope.

(** The value of the multilinear interpolation, axis by axis: the first axis runs along
    the first coordinate of the array. Between two knots: on the line through the values
    at these knots; outside of the knots zero or, extrapolated, on the line through the
    two nearest knots; a single knot: its value. *)
Inductive nd_value (extrapolate : bool) : list (list R) -> (list nat -> R) -> list R -> R -> Prop :=
| NEnd values : nd_value extrapolate [] values [] (values [])
| NCell ks i x grid values args y1 y2 :
    (S i < length ks)%nat ->
    el ks i <= x <= el ks (S i) \/ extrapolate = true /\ (i = 0%nat /\ x < el ks 0 \/ i = (length ks - 2)%nat /\ el ks (length ks - 1) < x) ->
    nd_value extrapolate grid (fun c => values (i :: c)) args y1 -> nd_value extrapolate grid (fun c => values (S i :: c)) args y2 ->
    nd_value extrapolate (ks :: grid) values (x :: args) (line (el ks i) y1 (el ks (S i)) y2 x)
| NOnly k x grid values args y :
    extrapolate = true \/ x = k -> nd_value extrapolate grid (fun c => values (0%nat :: c)) args y ->
    nd_value extrapolate ([k] :: grid) values (x :: args) y
| NOutside ks x grid values args :
    extrapolate = false -> x < el ks 0 \/ el ks (length ks - 1) < x -> length args = length grid ->
    nd_value extrapolate (ks :: grid) values (x :: args) 0.
