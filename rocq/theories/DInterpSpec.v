(** What linear interpolation means, for numbers in double precision. *)
From Coq Require Import ZArith Reals List Arith Bool.
From Flocq Require Import Core IEEE754.BinarySingleNaN.
From Verif Require Import Common FloatModel.
Import ListNotations.
Local Open Scope R_scope.

(** Each abscissa is below the next one. *)
Definition ascending (xs : list double) : Prop :=
  forall i a b, nth_error xs i = Some a -> nth_error xs (S i) = Some b -> dlt a b = true.
(** At least two points, with finite abscissae in ascending order. *)
Definition good_points (xs ys : list double) : Prop :=
  length xs = length ys /\ (2 <= length xs)%nat /\ ascending xs /\ Forall (fun x => is_finite x = true) xs.
(** The points at the positions i and i + 1. *)
Definition neighbours (xs ys : list double) (i : nat) (x0 y0 x1 y1 : double) : Prop :=
  nth_error xs i = Some x0 /\ nth_error ys i = Some y0 /\ nth_error xs (S i) = Some x1 /\ nth_error ys (S i) = Some y1.
(** x is after x0 and not after x1. The first interval holds its left end; with
    extrapolation it holds everything before, and the last one everything after. *)
Definition falls_in (extrapolate : bool) (n i : nat) (x0 x1 x : double) : Prop :=
  (dlt x0 x = true \/ (i = O /\ (extrapolate = true \/ deq x x0 = true))) /\
  (dle x x1 = true \/ (extrapolate = true /\ S (S i) = n)).
(** x is not before x0, and before x1; the last interval holds its right end. *)
Definition falls_right (extrapolate : bool) (n i : nat) (x0 x1 x : double) : Prop :=
  (dle x0 x = true \/ (i = O /\ extrapolate = true)) /\
  (dlt x x1 = true \/ (S (S i) = n /\ (extrapolate = true \/ deq x x1 = true))).
(** The same number, zeros of either sign being equal, or both not a number. *)
Definition same_value (a b : double) : Prop := deq a b = true \/ (is_nan a = true /\ is_nan b = true).

(** The line through (x0, y0) and (x1, y1), computed step by step. *)
Definition slope (x0 y0 x1 y1 : double) : double := ddiv (dsub y1 y0) (dsub x1 x0).
Definition computed_line (x0 y0 x1 y1 x : double) : double :=
  dadd (dsub y0 (dmul (slope x0 y0 x1 y1) x0)) (dmul (slope x0 y0 x1 y1) x).
(** The line through (x0, y0) and (x1, y1). *)
Definition line (x0 y0 x1 y1 x : R) : R := y0 + (y1 - y0) / (x1 - x0) * (x - x0).

(** x is in the closed interval from x0 to x1; with extrapolation the first interval has no
    left end and the last one no right end. *)
Definition covers (extrapolate : bool) (n i : nat) (x0 x1 x : double) : Prop :=
  (dle x0 x = true \/ (i = O /\ extrapolate = true)) /\ (dle x x1 = true \/ (S (S i) = n /\ extrapolate = true)).
(** x is not before the first abscissa and not after the last one. *)
Definition in_range (xs : list double) (x : double) : Prop :=
  exists first last_, nth_error xs 0 = Some first /\ nth_error xs (length xs - 1) = Some last_ /\ dle first x = true /\ dle x last_ = true.
(** x is before the first abscissa or after the last one. *)
Definition out_of_range (xs : list double) (x : double) : Prop :=
  exists first last_, nth_error xs 0 = Some first /\ nth_error xs (length xs - 1) = Some last_ /\ (dlt x first = true \/ dlt last_ x = true).
(** The double that is the integer z. *)
Definition stands_for (d : double) (z : Z) : Prop := is_finite d = true /\ B2R d = IZR z.
