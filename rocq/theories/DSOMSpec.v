(** Vocabulary for self-organizing maps in double precision. *)
From Coq Require Import ZArith Reals List Arith Bool.
From Flocq Require Import Core IEEE754.BinarySingleNaN.
From Verif Require Import Common FloatModel.
Import ListNotations.
Local Open Scope R_scope.

Definition all_finite (l : list double) : Prop := Forall (fun x => is_finite x = true) l.
(** The square of the Euclidean distance of two arrays. *)
Fixpoint sum_sq (l r : list double) : R :=
  match l, r with
  | a :: l', b :: r' => (B2R a - B2R b) * (B2R a - B2R b) + sum_sq l' r'
  | _, _ => 0
  end.
(** No square of a difference is too small: the differences are 0 or at least 2^-500. *)
Definition not_too_close (l r : list double) : Prop :=
  forall i a b, nth_error l i = Some a -> nth_error r i = Some b -> B2R a = B2R b \/ bpow radix2 (-500) <= Rabs (B2R a - B2R b).
(** A factor between 0 and 1. *)
Definition unit_double (f : double) : Prop := dle d0 f = true /\ dle f d1 = true.
(** A finite number in an interval of real numbers. *)
Definition finite_in (lo hi : R) (x : double) : Prop := is_finite x = true /\ lo <= B2R x <= hi.
(** An uncertainty that is neither too small nor too large for its square. *)
Definition sensible (u : double) : Prop :=
  is_finite u = true /\ bpow radix2 (-500) <= Rabs (B2R u) /\ Rabs (B2R u) <= bpow radix2 500.
(** The [k]-th component of an array. *)
Definition dcomp (k : nat) (w : list double) : double := nth k w d0.
