(** Polynomials with real coefficients, for the properties of polynomials and cubic
    splines in double precision. *)
From Coq Require Import ZArith Reals List Arith Bool.
From Flocq Require Import Core IEEE754.BinarySingleNaN.
From Verif Require Import Common FloatModel.
Import ListNotations.
Local Open Scope R_scope.

(** c0 + c1 x + c2 x^2 + ... *)
Fixpoint poly_at (coefs : list R) (x : R) : R :=
  match coefs with
  | [] => 0
  | c :: r => c + x * poly_at r x
  end.
(** The same sum for the absolute values: |c0| + |c1| |x| + |c2| |x|^2 + ... *)
Definition poly_size (coefs : list R) (x : R) : R := poly_at (map Rabs coefs) (Rabs x).

(** Zero, or far above the smallest doubles. *)
Definition not_tiny (r : R) : Prop := r = 0 \/ bpow radix2 (-1000) <= Rabs r.
(** The powers of x and the terms of the polynomial are zero or far above the smallest doubles. *)
Definition terms_not_tiny (coefs : list double) (x : double) : Prop :=
  forall i c, nth_error coefs i = Some c -> not_tiny (B2R x ^ i) /\ not_tiny (B2R c * B2R x ^ i).
(** The same for a cubic a + b (x - k) + c (x - k)^2 + d (x - k)^3 and all the products
    needed to write it with powers of x. *)
Definition plain_size (r : R) : Prop := r = 0 \/ bpow radix2 (-200) <= Rabs r.
Definition cubic_not_tiny (a b c d k x : double) : Prop :=
  (forall i, (i <= 3)%nat -> plain_size (B2R k ^ i) /\ plain_size (B2R x ^ i)) /\
  plain_size (B2R a) /\
  (forall i, (i <= 1)%nat -> plain_size (B2R b * B2R k ^ i)) /\
  (forall i, (i <= 2)%nat -> plain_size (B2R c * B2R k ^ i)) /\
  (forall i, (i <= 3)%nat -> plain_size (B2R d * B2R k ^ i)).
(** The cubic and the sum of the sizes of its parts. *)
Definition cubic (a b c d k x : R) : R := a + b * (x - k) + c * (x - k) ^ 2 + d * (x - k) ^ 3.
Definition cubic_size (a b c d k x : R) : R :=
  Rabs a + Rabs b * (Rabs x + Rabs k) + Rabs c * (Rabs x + Rabs k) ^ 2 + Rabs d * (Rabs x + Rabs k) ^ 3.
(** Its slope and the double of its curvature. *)
Definition cubic_slope (b c d k x : R) : R := b + 2 * c * (x - k) + 3 * d * (x - k) ^ 2.
Definition cubic_curvature (c d k x : R) : R := 2 * c + 6 * d * (x - k).
(** The relative error of n roundings. *)
Definition rounding (n : nat) : R := (1 + bpow radix2 (-53)) ^ n - 1.
(** The size of a number, where very small numbers count as 2^-300. *)
Definition sz (r : R) : R := Rabs r + bpow radix2 (-300).
(** The distance between x0 and x1 is neither very small nor very large. *)
Definition usual_gap (x0 x1 : double) : Prop := bpow radix2 (-200) <= B2R x1 - B2R x0 <= bpow radix2 200.
(** |c_i| i |x|^(i-1) + ... for the coefficients c_i, c_(i+1), ... *)
Fixpoint slope_size_from (i : nat) (coefs : list R) (x : R) : R :=
  match coefs with
  | [] => 0
  | c :: r => INR i * Rabs c * Rabs x ^ (i - 1) + slope_size_from (S i) r x
  end.
Definition slope_size (coefs : list R) (x : R) : R := slope_size_from 0 coefs x.
(** |c_i| |x|^(i+1) / (i+1) + ... for the coefficients c_i, c_(i+1), ... *)
Fixpoint integral_size_from (i : nat) (coefs : list R) (x : R) : R :=
  match coefs with
  | [] => 0
  | c :: r => Rabs c * Rabs x ^ (S i) / INR (S i) + integral_size_from (S i) r x
  end.
Definition integral_size (coefs : list R) (x : R) : R := integral_size_from 0 coefs x.
(** Coefficients that are zero or far above the smallest doubles. *)
Definition coefs_not_tiny (coefs : list double) : Prop :=
  Forall (fun c : double => is_finite c = true /\ (B2R c = 0 \/ bpow radix2 (-900) <= Rabs (B2R c))) coefs.
(** All distances between neighbours. *)
Definition usual_gaps (xs : list double) : Prop :=
  forall i x0 x1, nth_error xs i = Some x0 -> nth_error xs (S i) = Some x1 -> usual_gap x0 x1.
