(** Vocabulary of the properties of cumulatives. *)
From Coq Require Import QArith List ZArith Bool Arith.
From Verif Require Import Common DblModel CumulModel.
Import ListNotations.
Local Open Scope nat_scope.

(** No element is above a later one. *)
Definition rising (l : list Q) : Prop :=
  forall i j a b, i < j -> nth_error l i = Some a -> nth_error l j = Some b -> (a <= b)%Q.
(** Every element is below the later ones. *)
Definition strictly_rising (l : list Q) : Prop :=
  forall i j a b, i < j -> nth_error l i = Some a -> nth_error l j = Some b -> (a < b)%Q.

(** A sampled cumulative: as many abscissae as values, both rising, values not
    negative, [total] the last one. *)
Definition is_cumulative (c : cumul) (total : Q) : Prop :=
  length (c_x c) = length (c_y c) /\ rising (c_x c) /\ rising (c_y c) /\
  (forall y, In y (c_y c) -> (0 <= y)%Q) /\ nth_error (c_y c) (length (c_y c) - 1) = Some total.

(** [k] is the first sample with a value of at least [v]. *)
Definition first_reaching (ys : list Q) (v : Q) (k : nat) : Prop :=
  (exists y, nth_error ys k = Some y /\ (v <= y)%Q) /\
  forall i y, i < k -> nth_error ys i = Some y -> (y < v)%Q.
(** [m] is the last sample with the value of the sample [k]. *)
Definition plateau_end (ys : list Q) (k m : nat) : Prop :=
  exists y z, nth_error ys k = Some y /\ nth_error ys m = Some z /\ k <= m /\ (y == z)%Q /\
    forall i w, m < i -> nth_error ys i = Some w -> (y < w)%Q.

(** The probability between the samples i < j: the increase of the cumulative,
    with the first value added for the first sample. *)
Definition holds (c : cumul) (i j : nat) (p : Q) : Prop :=
  exists yi yj y0, nth_error (c_y c) i = Some yi /\ nth_error (c_y c) j = Some yj /\ nth_error (c_y c) 0 = Some y0 /\
    (p <= yj - yi + (if Nat.eqb i 0 then y0 else 0))%Q.

Definition total_of (l : list Q) : Q := fold_right Qplus 0%Q l.
