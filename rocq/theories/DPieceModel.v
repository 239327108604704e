(** Model of the integration of piecewise polynomials (MathUtils/src/lib/function/Piecewise.cpp)
    in double precision.

    FunModel describes the same code with real numbers and with pieces of any kind. Here the
    pieces are polynomials, as in the functions returned by the interpolation; every operation
    rounds as the processor does, and the program is taken to be compiled without contraction
    of a product and a sum into one operation. *)
From Coq Require Import ZArith List Arith Bool.
From Verif Require Import Common CumulModel FloatModel DInterpModel DSplineModel.
Import ListNotations.

(** Piecewise.cpp:114-125: [prev] is the knot before the current one, [knots] and
    [functions] are those left. Reading a function after the last one is undefined. *)
Fixpoint dpieces_loop (min max prev : double) (knots : list double) (functions : list (list double)) (result : double) : outcome double :=
  match knots with
  | [] => Ok result
  | knot :: r =>
      if dle max prev then Ok result
      else
        do result <-
          (if dlt min knot then
             let down := if dlt prev min then min else prev in
             let up := if dlt max knot then max else knot in
             do f <- of_option (nth_error functions 0);
             Ok (dadd result (dpoly_integrate f down up))
           else Ok result);
        dpieces_loop min max knot r (tl functions) result
  end.
(** Piecewise.cpp:96-127. std::upper_bound on sorted knots is the number of knots that min
    is not below; with a NaN for min these are all the knots. *)
Definition dpieces_integrate (knots : list double) (functions : list (list double)) (x1 x2 : double) : outcome double :=
  if deq x1 x2 then Ok d0
  else
    let turned := dlt x2 x1 in
    let min := if turned then x2 else x1 in
    let max := if turned then x1 else x2 in
    let i := (count_while (fun k => negb (dlt min k)) knots - 1)%nat in
    match skipn i knots with
    | [] => UB
    | prev :: r =>
        do result <- dpieces_loop min max prev r (skipn i functions) d0;
        Ok (dmul (if turned then d2 (-1) 0 else d1) result)
    end.
(** function_tools.cpp:33-46 for a function returned by the interpolation, without a
    numerical scheme (the default argument): the constant returned for one point
    (interpolation.cpp:50) is no Integrable. *)
Definition dintegrate (f : dfunc) (x1 x2 : double) : outcome double :=
  match f with
  | DConst _ => Throw
  | DPiece knots functions => dpieces_integrate knots functions x1 x2
  end.
