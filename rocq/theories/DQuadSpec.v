(** What numerical integration means, for numbers in double precision. *)
From Coq Require Import ZArith Reals List Arith Bool.
From Flocq Require Import Core IEEE754.BinarySingleNaN.
From Verif Require Import Common FloatModel DQuadModel.
Import ListNotations.
Local Open Scope R_scope.

(** x lies between a and b, in one direction or the other. *)
Definition lies_between (a b x : double) : Prop :=
  (dle a x = true /\ dle x b = true) \/ (dle b x = true /\ dle x a = true).
(** Two finite ends, whose difference is a double, and is zero or far above the smallest ones. *)
Definition usual_range (a b : double) : Prop :=
  is_finite a = true /\ is_finite b = true /\ is_finite (dsub b a) = true /\
  (B2R a = B2R b \/ bpow radix2 (-990) <= Rabs (B2R b - B2R a)).
(** The i-th of the N + 1 points that cut the range from a to b into N equal parts. *)
Definition mesh (a b : R) (N i : nat) : R := a + INR i * ((b - a) / INR N).
(** A double within the range, at the place of the i-th point up to the rounding. *)
Definition mesh_double (a b : double) (N i : nat) (x : double) : Prop :=
  lies_between a b x /\ Rabs (B2R x - mesh (B2R a) (B2R b) N i) <= 5 * bpow radix2 (-53) * (Rabs (B2R a) + Rabs (B2R b)).
(** The weights of the rule (Numerical Recipes, third edition, equation 4.1.14). *)
Definition simpson_weight (N i : nat) : R :=
  if (i =? 0)%nat || (i =? N)%nat then 3 / 8
  else if (i =? 1)%nat || (i =? N - 1)%nat then 7 / 6
  else if (i =? 2)%nat || (i =? N - 2)%nat then 23 / 24
  else 1.
(** Sum of the terms 0 to N. *)
Definition total (N : nat) (g : nat -> R) : R := fold_right Rplus 0 (map g (seq 0 (S N))).
(** The relative error of n roundings. *)
Definition roundings (n : nat) : R := (1 + bpow radix2 (-53)) ^ n - 1.
(** What is added to half of the value for N / 2 parts to have the value for N parts: the
    values at the new points, and corrections for the weights near the ends. *)
Definition refinement_sum (N : nat) (F : nat -> R) : R :=
  fold_right Rplus 0 (map (fun j => F (2 * j + 1)%nat) (seq 1 (N / 2 - 2)))
  + 7 / 6 * (F 1%nat + F (N - 1)%nat) - 5 / 24 * (F 2%nat + F (N - 2)%nat) + 1 / 24 * (F 4%nat + F (N - 4)%nat).
(** The same with all the signs positive. *)
Definition refinement_size (N : nat) (F : nat -> R) : R :=
  fold_right Rplus 0 (map (fun j => Rabs (F (2 * j + 1)%nat)) (seq 1 (N / 2 - 2)))
  + 7 / 6 * (Rabs (F 1%nat) + Rabs (F (N - 1)%nat)) + 5 / 24 * (Rabs (F 2%nat) + Rabs (F (N - 2)%nat)) + 1 / 24 * (Rabs (F 4%nat) + Rabs (F (N - 4)%nat)).
(** The estimates of an integral: the rule with 2^initial parts, then one refinement after
    another, each of twice as many parts. *)
Inductive estimate (f : double -> double) (a b : double) (initial : Z) : Z -> double -> Prop :=
| estimate_first v : dsimpson f a b initial = Ok v -> estimate f a b initial initial v
| estimate_next m u v : estimate f a b initial m u -> dsimpson_next f a b u (m + 1) = Ok v -> estimate f a b initial (m + 1) v.
(** The relative change from u to v, computed in double precision, is not above the
    precision (a change that is not a number is not). *)
Definition settled (precision u v : double) : Prop :=
  dlt precision (Babs (ddiv (dsub v u) u)) = false.
Definition zero_double (x : double) : Prop := exists s, x = B754_zero s.
