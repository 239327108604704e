(** Vocabulary of the properties of the KdTree in double precision. *)
From Coq Require Import List Arith Bool ZArith Reals Permutation Sorted.
From Flocq Require Import Core IEEE754.BinarySingleNaN.
From Verif Require Import Common FloatModel.
Import ListNotations.

(** What std::sort promises for the comparison of coordinates that are not NaN. *)
Definition dsorts {T} (coord : T -> nat -> double) (sort : nat -> list T -> list T) : Prop :=
  forall axis l, Permutation (sort axis l) l /\
    ((forall e, In e l -> is_nan (coord e axis) = false) -> StronglySorted (fun x y => dle (coord x axis) (coord y axis) = true) (sort axis l)).
(** The square of the distance as a loop over the axes computes it in doubles. *)
Definition computed_square {T} (coord : T -> nat -> double) (e : T) (c : nat -> double) (n : nat) : double :=
  fold_left (fun acc i => dadd acc (dmul (dsub (coord e i) (c i)) (dsub (coord e i) (c i)))) (seq 0 n) d0.
(** The square of the distance. *)
Definition exact_square {T} (coord : T -> nat -> double) (e : T) (c : nat -> double) (n : nat) : R :=
  fold_right (fun i s => ((B2R (coord e i) - B2R (c i)) ^ 2 + s)%R) 0%R (seq 0 n).
(** The first [n] coordinates are finite and smaller than 2^1023 in magnitude. *)
Definition moderate {T} (coord : T -> nat -> double) (n : nat) (e : T) : Prop :=
  forall i, i < n -> is_finite (coord e i) = true /\ (Rabs (B2R (coord e i)) < bpow radix2 1023)%R.
