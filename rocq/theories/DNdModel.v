(** Model of the interpolation of N-dimensional arrays
    (MathUtils/MathUtils/interpolation/_impl/interpolation.icpp) in double precision:
    NdInterpModel with the arithmetic of DGridModel. *)
From Coq Require Import List.
From Verif Require Import Common FloatModel InterpModel GridInterpModel DGridModel.
Import ListNotations.

(** interpolation.icpp:29-34 (the constructor of InterpNAdapter) with 52-56 (interpn):
    InterpN gets the axes from the last to the first; the kind of interpolation is looked
    at afterwards. *)
Definition dinterpn (grid : list (list double)) (shape : list nat) (values : list nat -> double) (type : kind) (extrapolate : bool) : outcome dinterp :=
  do t <- dbuild (rev (map DCont grid)) shape values extrapolate;
  match type with Linear => Ok t | CubicSpline => Throw end.
(** interpolation.icpp:36-39: the call operator, with the arguments in reverse order. *)
Definition dinterpn_call (t : dinterp) (args : list double) : outcome double := dcall t (rev (map DNum args)).
