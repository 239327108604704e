(** Model of the interpolation of N-dimensional arrays
    (MathUtils/interpolation/_impl/interpolation.icpp).

    As in GridInterpModel, doubles are real numbers and the array is given by its shape
    and its elements as a function of their coordinates. *)
From Coq Require Import Reals List Arith Bool.
From Verif Require Import Common CumulModel FunModel InterpModel GridInterpModel.
Import ListNotations.
Local Open Scope R_scope.

(** interpolation.icpp:29-34 (the constructor of InterpNAdapter) with 52-56 (interpn):
    InterpN gets the axes from the last to the first; the kind of interpolation is looked
    at afterwards. *)
Definition interpn (grid : list (list R)) (shape : list nat) (values : list nat -> R) (type : kind) (extrapolate : bool) : outcome interp :=
  do t <- build (rev (map Cont grid)) shape values extrapolate;
  match type with Linear => Ok t | CubicSpline => Throw end.
(** interpolation.icpp:36-39: the call operator, with the arguments in reverse order. *)
Definition interpn_call (t : interp) (args : list R) : outcome R := call t (rev (map Num args)).
