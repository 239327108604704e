(** MathUtils/src/lib/numericalDifferentiation/FiniteDifference.cpp in double precision.

    A Function is taken to be deterministic and to return a double for every double. *)
From Coq Require Import ZArith Reals Bool.
From Flocq Require Import Core IEEE754.BinarySingleNaN.
From Verif Require Import FloatModel.

(** std::numeric_limits<double>::max() (FiniteDifference.cpp:36). *)
Definition dmaximum : double := d2 (2 ^ 53 - 1) 971.
(** std::nextafter(x, std::numeric_limits<double>::max()) (FiniteDifference.cpp:36): the neighbour of x
    in the direction of the largest double. *)
Definition dnextafter_max (x : double) : double :=
  if deq x dmaximum then dmaximum else if dlt x dmaximum then Bsucc x else Bpred x.
(** FiniteDifference.cpp:32-39: guess_h. The volatile variables are rounded to double. *)
Definition dguess_h (initial_h x : double) : double :=
  let xh := dadd x initial_h in
  let h := dsub xh x in
  if deq h d0 then dsub (dnextafter_max x) x else h.
(** std::numeric_limits<double>::epsilon() (FiniteDifference.cpp:42, 51). *)
Definition depsilon : double := d2 1 (-52).
(** FiniteDifference.cpp:41-48: derivative. *)
Definition dderivative (f : double -> double) (x : double) : double :=
  let h := dguess_h (dmul (dsqrt depsilon) dtwo) x in
  let yh := f (dadd x h) in
  let y0 := f x in
  ddiv (dsub yh y0) h.
(** FiniteDifference.cpp:50-59: derivative2nd. *)
Definition dderivative2nd (f : double -> double) (x : double) : double :=
  let h := dguess_h (dmul (dsqrt (dsqrt depsilon)) dtwo) x in
  let ymh := f (dsub x h) in
  let y := f x in
  let yph := f (dadd x h) in
  ddiv (dadd (dsub yph (dmul dtwo y)) ymh) (dmul h h).
