(** Vocabulary of the properties of functions of one variable. *)
From Coq Require Import Reals List Arith.
From Verif Require Import Common CumulModel FunModel.
Import ListNotations.
Local Open Scope R_scope.

(** c_i x^i + c_(i+1) x^(i+1) + ... *)
Fixpoint powers (i : nat) (coef : list R) (x : R) : R :=
  match coef with
  | [] => 0
  | c :: r => c * x ^ i + powers (S i) r x
  end.

(** No knot is above a later one; every knot is below the later ones. *)
Definition sorted (l : list R) : Prop :=
  forall i j a b, (i < j)%nat -> nth_error l i = Some a -> nth_error l j = Some b -> a <= b.
Definition strictly_sorted (l : list R) : Prop :=
  forall i j a b, (i < j)%nat -> nth_error l i = Some a -> nth_error l j = Some b -> a < b.

(** Functions that can be evaluated: piecewise functions have sorted knots, one
    more than functions, and at least one function. *)
Inductive usable : func -> Prop :=
| UPoly c : usable (Poly c)
| UOther h : usable (Other h)
| UTimes f g : usable f -> usable g -> usable (Times f g)
| UPiece ks fs : length ks = S (length fs) -> fs <> [] -> sorted ks -> (forall f, In f fs -> usable f) -> usable (Piece ks fs).
(** Functions made of polynomials only. *)
Inductive polynomial_pieces : func -> Prop :=
| PPoly c : polynomial_pieces (Poly c)
| PPiece ks fs : length ks = S (length fs) -> fs <> [] -> sorted ks -> (forall f, In f fs -> polynomial_pieces f) -> polynomial_pieces (Piece ks fs).

(** The value of a usable function. *)
Definition value (f : func) (x : R) : R := match eval f x with Ok v => v | _ => 0 end.

(** A usable function that is not a piecewise function itself, nor the empty polynomial. *)
Definition simple (f : func) : Prop :=
  usable f /\ match f with Piece _ _ => False | Poly c => c <> [] | _ => True end.
(** A piecewise function with simple pieces and strictly rising knots. *)
Definition simple_pieces (ks : list R) (fs : list func) : Prop :=
  length ks = S (length fs) /\ fs <> [] /\ strictly_sorted ks /\ forall f, In f fs -> simple f.
