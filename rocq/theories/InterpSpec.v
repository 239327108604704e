(** Vocabulary of the properties of interpolation. *)
From Coq Require Import Reals List Arith.
From Coquelicot Require Import Coquelicot.
From Verif Require Import Common CumulModel FunModel FunSpec.
Import ListNotations.
Local Open Scope R_scope.

(** Element i of a list. *)
Definition el (l : list R) (i : nat) : R := nth i l 0.
(** The line through two points. *)
Definition line (x0 y0 x1 y1 x : R) : R := y0 + (y1 - y0) * ((x - x0) / (x1 - x0)).

(** The pieces [p 0], ..., [p (n-1)] of the natural cubic spline through the
    points: cubics through neighbouring points, whose first and second
    derivatives agree at the inner points, with no curvature at the ends. *)
Definition natural_spline (xs ys : list R) (p : nat -> R -> R) : Prop :=
  let n := (length xs - 1)%nat in
  exists p1 p2 : nat -> R -> R, exists p3 : nat -> R,
    (forall i x, (i < n)%nat -> is_derive (p i) x (p1 i x) /\ is_derive (p1 i) x (p2 i x) /\ is_derive (p2 i) x (p3 i)) /\
    (forall i, (i < n)%nat -> p i (el xs i) = el ys i /\ p i (el xs (S i)) = el ys (S i)) /\
    (forall i, (S i < n)%nat -> p1 i (el xs (S i)) = p1 (S i) (el xs (S i)) /\ p2 i (el xs (S i)) = p2 (S i) (el xs (S i))) /\
    p2 0%nat (el xs 0) = 0 /\ p2 (n - 1)%nat (el xs n) = 0.
