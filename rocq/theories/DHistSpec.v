(** Vocabulary of the properties of histograms in double precision. *)
From Coq Require Import ZArith Reals List Bool Arith.
From Flocq Require Import Core IEEE754.BinarySingleNaN.
From Verif Require Import Common HistModel FloatModel.
Import ListNotations.

(** The weights of the values whose index is [i], in order. *)
Definition weights_at {V} (b : binning V) (i : Z) (data : list V) (weights : list float) : list float :=
  map snd (filter (fun p => match b_index b (fst p) with Ok z => Z.eqb z i | _ => false end) (combine data weights)).
(** The number of values whose index is [i]. *)
Definition number_at {V} (b : binning V) (i : Z) (data : list V) : nat :=
  length (filter (fun v => match b_index b v with Ok z => Z.eqb z i | _ => false end) data).
(** The exact sum of floats. *)
Definition fexact (l : list float) : R := fold_right (fun x s => (B2R x + s)%R) 0%R l.
(** A float that is an integer and not negative. *)
Definition fwhole (w : float) : Prop := is_finite w = true /\ exists n : nat, B2R w = INR n.
(** A float that is finite and not negative. *)
Definition fpositive (w : float) : Prop := is_finite w = true /\ (0 <= B2R w)%R.
(** [lo] is the least and [hi] the largest of the data. *)
Definition extremes (data : list double) (lo hi : double) : Prop :=
  In lo data /\ In hi data /\ forall v, In v data -> dle lo v = true /\ dle v hi = true.
(** The difference of [lo] and [hi] does not overflow, and their distance is [n] times
    2^-1021 at least: the width of [n] bins does not underflow. *)
Definition spread (n : nat) (lo hi : double) : Prop :=
  is_finite (dsub hi lo) = true /\ (INR n * bpow radix2 (-1021) <= B2R hi - B2R lo)%R.
(** The width of each of [n] equal bins from [lo] to [hi], a real number. *)
Definition width (n : nat) (lo hi : double) : R := ((B2R hi - B2R lo) / INR n)%R.
(** [v] is in the bin [k] of [n] equal bins from [lo] to [hi], except for a relative error
    of 2^-50 of its distance to [lo]. *)
Definition near_bin (n : nat) (lo hi : double) (k : Z) (v : double) : Prop :=
  (IZR k * width n lo hi * (1 - bpow radix2 (-50)) <= B2R v - B2R lo < (IZR k + 1) * width n lo hi * (1 + bpow radix2 (-50)))%R.
