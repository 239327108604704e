(** Model of the numerical integration and differentiation
    (MathUtils/src/lib/numericalIntegration, MathUtils/numericalIntegration,
    MathUtils/src/lib/numericalDifferentiation).

    Doubles are real numbers; a function is known by its values. *)
From Coq Require Import Reals List Arith Bool ZArith.
From Verif Require Import Common CumulModel FunModel.
Import ListNotations.
Local Open Scope R_scope.

(** for (int i = ...; ...; ++i) sum += g(i): [n] terms from position [i]. *)
Fixpoint sum_loop (g : nat -> R) (i n : nat) (sum : R) : R :=
  match n with
  | O => sum
  | S n' => sum_loop g (S i) n' (sum + g i)
  end.

(** int N = pow(2, order): the conversion of a value above INT_MAX is undefined. *)
Definition points (order : Z) : outcome nat := if (30 <? order)%Z then UB else Ok (2 ^ Z.to_nat order)%nat.

(** SimpsonsRule.cpp:32-50. *)
Definition simpson (f : R -> R) (min max : R) (order : Z) : outcome R :=
  if (order <? 3)%Z then Throw
  else
    do N <- points order;
    let h := (max - min) / INR N in
    let s := sum_loop (fun i => f (min + INR i * h)) 3 (N - 5) 0 in
    let s := s + 375 / 1000 * (f min + f max) in
    let s := s + 7 * (f (min + h) + f (max - h)) / 6 in
    let s := s + 23 * (f (min + 2 * h) + f (max - 2 * h)) / 24 in
    Ok (s * h).

(** SimpsonsRule.cpp:52-71. *)
Definition simpson_next (f : R -> R) (min max previous_value : R) (order : Z) : outcome R :=
  if (order <? 4)%Z then Throw
  else
    do N <- points order;
    let h := (max - min) / INR N in
    let s := sum_loop (fun j => f (min + INR (2 * j + 1) * h)) 1 (N / 2 - 2) 0 in
    let s := s + 7 * (f (min + h) + f (max - h)) / 6 in
    let s := s - 5 * (f (min + 2 * h) + f (max - 2 * h)) / 24 in
    let s := s + (f (min + 4 * h) + f (max - 4 * h)) / 24 in
    Ok (s * h + previous_value / 2).

(** AdaptativeIntegration.icpp:43: abs(diff / value) > precision. 0/0 is not a
    number and compares false, other quotients by zero are infinite. *)
Definition goes_on (precision value next : R) : bool :=
  let diff := next - value in
  if req value 0 then negb (req diff 0) else rlt precision (Rabs (diff / value)).

(** AdaptativeIntegration.icpp:38-43. The order never exceeds 31, so that the
    fuel given below is enough (SimpsonProofs.v: refine_defined). *)
Fixpoint refine (fuel : nat) (f : R -> R) (min max precision : R) (m : Z) (value : R) : outcome R :=
  match fuel with
  | O => Diverge
  | S fuel' =>
      let m := (m + 1)%Z in
      do next <- simpson_next f min max value m;
      if goes_on precision value next then refine fuel' f min max precision m next else Ok next
  end.
(** AdaptativeIntegration.icpp:33-46 with the Simpson rule. *)
Definition adaptive (f : R -> R) (min max precision : R) (initial_order : Z) : outcome R :=
  do value <- simpson f min max initial_order;
  refine 40 f min max precision initial_order value.

(** function_tools.cpp:33-46 with a numerical scheme. Piecewise::integrate
    (Piecewise.cpp:96-127) has no scheme to hand to its pieces. *)
Definition integrate_with (scheme : (R -> R) -> R -> R -> outcome R) (f : func) (min max : R) : outcome R :=
  match f with
  | Poly _ | Piece _ _ => integrate f min max
  | Other h => scheme h min max
  | Times _ _ => scheme (fun x => match eval f x with Ok v => v | _ => 0 end) min max
  end.

(** FiniteDifference.cpp:41-48; [h] is the step chosen in 42-43. *)
Definition derivative (h : R) (f : R -> R) (x : R) : R := (f (x + h) - f x) / h.
(** FiniteDifference.cpp:50-59; [h] is the step chosen in 51-52. *)
Definition derivative2nd (h : R) (f : R -> R) (x : R) : R := (f (x + h) - 2 * f x + f (x - h)) / (h * h).
