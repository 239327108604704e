(** Values of type double for the modules where NaN and the infinities decide
    branches. Finite values are rationals; every operation on them is exact
    (no rounding). [lt], [le] and [eq] are the IEEE comparisons: any comparison
    with NaN is false. *)
From Coq Require Import QArith Bool.
Local Open Scope Q_scope.

Inductive dbl : Type := Fin (q : Q) | PInf | NInf | NaN.

Definition Qlt_b (a b : Q) : bool := negb (Qle_bool b a).

Definition dlt (a b : dbl) : bool :=
  match a, b with
  | NaN, _ | _, NaN => false
  | Fin x, Fin y => Qlt_b x y
  | NInf, NInf => false
  | NInf, _ => true
  | _, NInf => false
  | PInf, _ => false
  | _, PInf => true
  end.
Definition deq (a b : dbl) : bool :=
  match a, b with
  | Fin x, Fin y => Qeq_bool x y
  | PInf, PInf | NInf, NInf => true
  | _, _ => false
  end.
Definition dle (a b : dbl) : bool := dlt a b || deq a b.
Definition is_nan (a : dbl) : bool := match a with NaN => true | _ => false end.
