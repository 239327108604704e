(** Vocabulary of the interpolation of N-dimensional arrays in double precision. The exact value is
    NdInterpSpec.nd_value for the real numbers that the doubles are. *)
From Coq Require Import ZArith Reals List Arith.
From Flocq Require Import Core IEEE754.BinarySingleNaN.
From Verif Require Import Common FloatModel DInterpSpec.
Import ListNotations.
Local Open Scope R_scope.

(** Finite knots in ascending order, one at least. *)
Definition good_knots (ks : list double) : Prop := ks <> [] /\ ascending ks /\ Forall (fun x => is_finite x = true) ks.
(** No knot is smaller than the one before. *)
Definition never_down (ks : list double) : Prop := forall i a b, nth_error ks i = Some a -> nth_error ks (S i) = Some b -> dlt b a = false.
(** (i, j, ...) is the position of an element of an array with the dimensions of the axes. *)
Definition is_position (grid : list (list double)) (c : list nat) : Prop := Forall2 (fun ks i => (i < length ks)%nat) grid c.
Definition reals (l : list double) : list R := map (fun x : double => B2R x) l.

(** The knots are at most X in size, and neighbours are at least X / kappa apart. *)
Definition spread (ks : list double) (s : R * R) : Prop :=
  0 <= fst s /\ 0 <= snd s /\
  (forall i x0, nth_error ks i = Some x0 -> Rabs (B2R x0) <= snd s) /\
  (forall i x0 x1, nth_error ks i = Some x0 -> nth_error ks (S i) = Some x1 -> snd s <= fst s * (B2R x1 - B2R x0) /\ B2R x1 - B2R x0 < bpow radix2 1023).
(** What rounding may add up to, for values that are at most M in size: from the first axis to the last,
    every axis adds a few units in the last place of (1 + 4 kappa) M. *)
Definition nd_budget (scales : list (R * R)) (M : R) : R :=
  fold_left (fun E s => E + 9 * bpow radix2 (-53) * (1 + 4 * fst s) * (M + E) + 3 * bpow radix2 (-1075) * (2 * snd s + 1)) scales 0.
(** Knots of a usual size, not too close to each other. *)
Definition usual_knots (ks : list double) : Prop :=
  (forall i x0, nth_error ks i = Some x0 -> Rabs (B2R x0) <= bpow radix2 100) /\
  (forall i x0 x1, nth_error ks i = Some x0 -> nth_error ks (S i) = Some x1 -> bpow radix2 (-400) <= B2R x1 - B2R x0).
(** A finite number or NaN. *)
Definition not_infinite (x : double) : Prop := is_finite x = true \/ is_nan x = true.
