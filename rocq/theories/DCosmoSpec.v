(** What the expansion rate is, and which parameters are of a usual size. *)
From Coq Require Import ZArith Reals.
From Flocq Require Import Core IEEE754.BinarySingleNaN.
From Verif Require Import FloatModel.
Local Open Scope R_scope.

(** The rate at redshift z over the one of today, for densities m of matter, k of curvature and l of dark energy. *)
Definition rate (m k l z : R) : R := sqrt (m * (1 + z) ^ 3 + k * (1 + z) ^ 2 + l).
(** Finite, not huge, and zero or not tiny. *)
Definition sensible (x : double) : Prop :=
  is_finite x = true /\ Rabs (B2R x) <= bpow radix2 100 /\ (B2R x = 0 \/ bpow radix2 (-800) <= Rabs (B2R x)).
(** A redshift of the past. *)
Definition redshift (z : double) : Prop := is_finite z = true /\ 0 <= B2R z <= bpow radix2 100.
(** A space that is closed is not so by much: the curvature takes away at most half of the rest. *)
Definition not_too_closed (m k l z : R) : Prop := 0 <= k \/ - k * (1 + z) ^ 2 <= (m * (1 + z) ^ 3 + l) / 2.
