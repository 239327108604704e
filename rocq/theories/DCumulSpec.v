(** Vocabulary of the properties of cumulatives in double precision. *)
From Coq Require Import ZArith Reals List Bool Arith.
From Flocq Require Import Core IEEE754.BinarySingleNaN.
From Verif Require Import Common FloatModel DCumulModel.
Import ListNotations.
Local Open Scope nat_scope.

(** No element is above a later one. *)
Definition drising (l : list double) : Prop :=
  forall i j a b, i < j -> nth_error l i = Some a -> nth_error l j = Some b -> dle a b = true.
(** A sampled cumulative: as many abscissae as values, the values rising and not negative
    (infinite is possible, NaN is not), [total] the last one. *)
Definition is_dcumulative (c : dcumul) (total : double) : Prop :=
  length (d_x c) = length (d_y c) /\ drising (d_y c) /\
  (forall y, In y (d_y c) -> dle d0 y = true) /\ nth_error (d_y c) (length (d_y c) - 1) = Some total.

(** [k] is the first sample with a value of at least [v]. *)
Definition dfirst_reaching (ys : list double) (v : double) (k : nat) : Prop :=
  (exists y, nth_error ys k = Some y /\ dle v y = true) /\
  forall i y, i < k -> nth_error ys i = Some y -> dlt y v = true.
(** [m] is the last sample with the value of the sample [k]. *)
Definition dplateau_end (ys : list double) (k m : nat) : Prop :=
  exists y z, nth_error ys k = Some y /\ nth_error ys m = Some z /\ k <= m /\ deq y z = true /\
    forall i w, m < i -> nth_error ys i = Some w -> dlt y w = true.

(** The probability between the samples i < j as the code computes it: the increase of the
    cumulative, with the first value added for the first sample. *)
Definition dholds (c : dcumul) (i j : nat) (p : double) : Prop :=
  exists yi yj y0, nth_error (d_y c) i = Some yi /\ nth_error (d_y c) j = Some yj /\ nth_error (d_y c) 0 = Some y0 /\
    dle p (dadd (dsub yj yi) (if Nat.eqb i 0 then y0 else d0)) = true.

(** The exact sum of doubles. *)
Definition exact_sum (l : list double) : R := fold_right (fun x s => (B2R x + s)%R) 0%R l.
(** The sum of doubles from left to right, each addition rounded. *)
Definition dtotal (l : list double) : double := match l with [] => d0 | p :: r => fold_left dadd r p end.
