(** Vocabulary of the properties of the distances. *)
From Coq Require Import Reals List.
Import ListNotations.
Local Open Scope R_scope.

(** The sum of the squares of the differences of two points of the same dimension. *)
Fixpoint squares (left right : list R) : R :=
  match left, right with
  | a :: l, b :: r => (a - b) ^ 2 + squares l r
  | _, _ => 0
  end.
(** The sum of the squares of the differences in units of the uncertainties. *)
Fixpoint chi2 (left right uncertainties : list R) : R :=
  match left, right, uncertainties with
  | a :: l, b :: r, s :: u => ((a - b) / s) ^ 2 + chi2 l r u
  | _, _, _ => 0
  end.
