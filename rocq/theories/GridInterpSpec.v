(** Vocabulary of the properties of the interpolation on a grid. *)
From Coq Require Import Reals List Arith ZArith.
From Verif Require Import Common CumulModel FunModel FunSpec InterpModel InterpSpec GridInterpModel.
Import ListNotations.
Local Open Scope R_scope.

(** The coordinate is of the kind of the axis, which is not empty; on a discrete
    axis it is one of the values. *)
Definition suits (a : axis) (c : coord) : Prop := match a, c with Cont ks, Num _ => ks <> [] | Disc ks, Key k => In k ks | _, _ => False end.

(** The value of the multilinear interpolation. The first axis of the grid runs
    along the last coordinate of the values. [Num x] on a continuous axis: on the
    line through the values at the two knots around x; outside of the knots zero
    or, extrapolated, the line through the two nearest knots; a single knot: its
    value. [Key k] on a discrete axis: the value at k. *)
Inductive grid_value (extrapolate : bool) : list axis -> (list nat -> R) -> list coord -> R -> Prop :=
| GEnd values : grid_value extrapolate [] values [] (values [])
| GKey ks i k grid values args y :
    nth_error ks i = Some k -> grid_value extrapolate grid (fun c => values (c ++ [i])) args y ->
    grid_value extrapolate (Disc ks :: grid) values (Key k :: args) y
| GCell ks i x grid values args y1 y2 :
    (S i < length ks)%nat ->
    el ks i <= x <= el ks (S i) \/ extrapolate = true /\ (i = 0%nat /\ x < el ks 0 \/ i = (length ks - 2)%nat /\ el ks (length ks - 1) < x) ->
    grid_value extrapolate grid (fun c => values (c ++ [i])) args y1 -> grid_value extrapolate grid (fun c => values (c ++ [S i])) args y2 ->
    grid_value extrapolate (Cont ks :: grid) values (Num x :: args) (line (el ks i) y1 (el ks (S i)) y2 x)
| GOnly k x grid values args y :
    extrapolate = true \/ x = k -> grid_value extrapolate grid (fun c => values (c ++ [0%nat])) args y ->
    grid_value extrapolate (Cont [k] :: grid) values (Num x :: args) y
| GOutside ks x grid values args :
    extrapolate = false -> (0 < length ks)%nat -> x < el ks 0 \/ el ks (length ks - 1) < x -> Forall2 suits grid args ->
    grid_value extrapolate (Cont ks :: grid) values (Num x :: args) 0.

(** Knots in ascending order, or distinct discrete values. *)
Definition proper (a : axis) : Prop := match a with Cont ks => strictly_sorted ks | Disc ks => NoDup ks end.
(** Coordinate c is knot i of the axis. *)
Definition at_knot (a : axis) (i : nat) (c : coord) : Prop := match a, c with Cont ks, Num x => nth_error ks i = Some x | Disc ks, Key k => nth_error ks i = Some k | _, _ => False end.
(** Within the knots of a continuous axis. *)
Definition within (a : axis) (c : coord) : Prop := match a, c with Cont ks, Num x => el ks 0 <= x <= el ks (length ks - 1) | _, _ => True end.
