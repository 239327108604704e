(** Model of the numerical integration (MathUtils/src/lib/numericalIntegration,
    MathUtils/numericalIntegration) in double precision.

    SimpsonModel describes the same code with real numbers. Here every operation rounds as
    the processor does; the program is taken to be compiled without contraction of a product
    and a sum into one operation. The integrated function is known by its values: a function
    that throws is not modelled. *)
From Coq Require Import ZArith List Arith Bool.
From Flocq Require Import IEEE754.BinarySingleNaN.
From Verif Require Import Common FloatModel.
Import ListNotations.

(** The conversion of an int to double (exact up to 2^53). *)
Definition dint (n : nat) : double := d2 (Z.of_nat n) 0.
(** for (int i = ...; ...; ++i) sum += g(i): [n] terms from position [i]. *)
Fixpoint dsum_loop (g : nat -> double) (i n : nat) (sum : double) : double :=
  match n with
  | O => sum
  | S n' => dsum_loop g (S i) n' (dadd sum (g i))
  end.
(** int N = pow(2, order) (SimpsonsRule.cpp:37 and 57): the conversion of a value above
    INT_MAX is undefined. *)
Definition dsteps (order : Z) : outcome nat := if (30 <? order)%Z then UB else Ok (2 ^ Z.to_nat order)%nat.

(** SimpsonsRule.cpp:32-50. *)
Definition dsimpson (f : double -> double) (min max : double) (order : Z) : outcome double :=
  if (order <? 3)%Z then Throw
  else
    do N <- dsteps order;
    let h := ddiv (dsub max min) (dint N) in
    let s := dsum_loop (fun i => f (dadd min (dmul (dint i) h))) 3 (N - 5) d0 in
    let s := dadd s (dmul (d2 3 (-3)) (dadd (f min) (f max))) in
    let s := dadd s (ddiv (dmul (dint 7) (dadd (f (dadd min h)) (f (dsub max h)))) (dint 6)) in
    let s := dadd s (ddiv (dmul (dint 23) (dadd (f (dadd min (dmul (dint 2) h))) (f (dsub max (dmul (dint 2) h))))) (dint 24)) in
    Ok (dmul s h).

(** SimpsonsRule.cpp:52-71. *)
Definition dsimpson_next (f : double -> double) (min max previous_value : double) (order : Z) : outcome double :=
  if (order <? 4)%Z then Throw
  else
    do N <- dsteps order;
    let h := ddiv (dsub max min) (dint N) in
    let s := dsum_loop (fun j => f (dadd min (dmul (dint (2 * j + 1)) h))) 1 (N / 2 - 2) d0 in
    let s := dadd s (ddiv (dmul (dint 7) (dadd (f (dadd min h)) (f (dsub max h)))) (dint 6)) in
    let s := dsub s (ddiv (dmul (dint 5) (dadd (f (dadd min (dmul (dint 2) h))) (f (dsub max (dmul (dint 2) h))))) (dint 24)) in
    let s := dadd s (ddiv (dadd (f (dadd min (dmul (dint 4) h))) (f (dsub max (dmul (dint 4) h)))) (dint 24)) in
    Ok (dadd (dmul s h) (ddiv previous_value (dint 2))).

(** AdaptativeIntegration.icpp:42-43: abs(diff / value) > precision. *)
Definition dgoes_on (precision value next : double) : bool :=
  let diff := dsub next value in dlt precision (Babs (ddiv diff value)).
(** AdaptativeIntegration.icpp:38-43. The order never exceeds 31, so that the fuel given
    below is enough (DQuadProps.v: C156_outcomes). *)
Fixpoint drefine (fuel : nat) (f : double -> double) (min max precision : double) (m : Z) (value : double) : outcome double :=
  match fuel with
  | O => Diverge
  | S fuel' =>
      let m := (m + 1)%Z in
      do next <- dsimpson_next f min max value m;
      if dgoes_on precision value next then drefine fuel' f min max precision m next else Ok next
  end.
(** AdaptativeIntegration.icpp:33-46 with the Simpson rule. *)
Definition dadaptive (f : double -> double) (min max precision : double) (initial_order : Z) : outcome double :=
  do value <- dsimpson f min max initial_order;
  drefine 40 f min max precision initial_order value.
