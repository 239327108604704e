(** Vocabulary of the properties of the extraction of modes in double precision. *)
From Coq Require Import ZArith Reals List Arith Bool.
From Flocq Require Import Core IEEE754.BinarySingleNaN.
From Verif Require Import Common FloatModel DSplineSpec DModeModel.
Import ListNotations.
Local Open Scope nat_scope.

Definition dval (l : list double) (i : nat) : double := nth i l d0.
Definition is_zero (v : double) : Prop := deq v d0 = true.

(** A pdf sampled at rising finite abscissae, with values from 0 to infinity. *)
Definition is_dpdf (xs ys : list double) : Prop :=
  length xs = length ys /\ 3 <= length xs /\ (forall x, In x xs -> is_finite x = true) /\
  (forall i j, i < j -> j < length xs -> dlt (dval xs i) (dval xs j) = true) /\ forall y, In y ys -> dle d0 y = true.

(** [c] is the first of the highest samples. *)
Definition dhighest (ys : list double) (c : nat) : Prop :=
  c < length ys /\ (forall i, i < length ys -> dle (dval ys i) (dval ys c) = true) /\ forall i, i < c -> dlt (dval ys i) (dval ys c) = true.

(** Going away from the peak the values are below the threshold at [i] and do not
    fall any more. *)
Definition dvalley_left (ys : list double) (thr : double) (i : nat) : Prop := dlt (dval ys i) thr = true /\ dle (dval ys i) (dval ys (i - 1)) = true.
Definition dvalley_right (ys : list double) (thr : double) (i : nat) : Prop := dlt (dval ys i) thr = true /\ dle (dval ys i) (dval ys (i + 1)) = true.
(** Where the peak of [c] starts: at the border only if the peak is there;
    otherwise at the first valley, after the first zero, or at position 1. *)
Definition dleft_end (ys : list double) (thr : double) (c lo : nat) : Prop :=
  (c = 0 /\ lo = 0) \/
  (1 <= lo <= c /\ (forall i, lo <= i <= c -> ~ is_zero (dval ys i)) /\ (forall i, lo < i <= c -> ~ dvalley_left ys thr i) /\
   (lo = 1 \/ is_zero (dval ys (lo - 1)) \/ dvalley_left ys thr lo)).
Definition dright_end (ys : list double) (thr : double) (c hi : nat) : Prop :=
  (c = length ys - 1 /\ hi = length ys - 1) \/
  (c <= hi /\ hi + 2 <= length ys /\ (forall i, c <= i <= hi -> ~ is_zero (dval ys i)) /\
   (forall i, c <= i < hi -> ~ dvalley_right ys thr i) /\
   (hi + 2 = length ys \/ is_zero (dval ys (hi + 1)) \/ dvalley_right ys thr hi)).
(** The samples lo..hi are those of the mode with its peak at [c], for a threshold rounded
    twice; everything when only zeros are left. *)
Definition dmode_range (ys : list double) (merge_ratio : double) (c lo hi : nat) : Prop :=
  (is_zero (dval ys c) /\ lo = 0 /\ hi = length ys - 1) \/
  (~ is_zero (dval ys c) /\ dleft_end ys (dmul (dsub (d2 1 0) merge_ratio) (dval ys c)) c lo /\ dright_end ys (dmul (dsub (d2 1 0) merge_ratio) (dval ys c)) c hi).

(** The width of the cell of a sample: up to the middle of the neighbours, the
    whole step at both ends. *)
Definition dcell (xs : list double) (i : nat) : double :=
  if Nat.eqb i 0 then dsub (dval xs 1) (dval xs 0)
  else if Nat.eqb i (length xs - 1) then dsub (dval xs i) (dval xs (i - 1))
  else ddiv (dsub (dval xs (i + 1)) (dval xs (i - 1))) (d2 1 1).
(** The sum from the first to the last term, starting at 0, rounded at each addition. *)
Definition dtotal (l : list double) : double := fold_left dadd l (d2 0 0).
Definition darea_between (xs ys : list double) (lo hi : nat) : double :=
  dtotal (map (fun i => dmul (dval ys i) (dcell xs i)) (seq lo (hi + 1 - lo))).
Definition dmoment_between (xs ys : list double) (lo hi : nat) : double :=
  dtotal (map (fun i => dmul (dmul (dval xs i) (dval ys i)) (dcell xs i)) (seq lo (hi + 1 - lo))).

(** The same with real numbers: the width of the cell, the sum of value times width and of
    position times value times width, and the last one for the sizes of the positions. *)
Definition width (xs : list double) (i : nat) : R :=
  if Nat.eqb i 0 then (B2R (dval xs 1) - B2R (dval xs 0))%R
  else if Nat.eqb i (length xs - 1) then (B2R (dval xs i) - B2R (dval xs (i - 1)))%R
  else ((B2R (dval xs (i + 1)) - B2R (dval xs (i - 1))) / 2)%R.
Definition rtotal (l : list R) : R := fold_right Rplus 0%R l.
Definition true_area (xs ys : list double) (lo hi : nat) : R :=
  rtotal (map (fun i => B2R (dval ys i) * width xs i)%R (seq lo (hi + 1 - lo))).
Definition true_moment (xs ys : list double) (lo hi : nat) : R :=
  rtotal (map (fun i => B2R (dval xs i) * B2R (dval ys i) * width xs i)%R (seq lo (hi + 1 - lo))).
Definition moment_size (xs ys : list double) (lo hi : nat) : R :=
  rtotal (map (fun i => Rabs (B2R (dval xs i)) * B2R (dval ys i) * width xs i)%R (seq lo (hi + 1 - lo))).
(** Widths and products are zero or far above the smallest doubles. *)
Definition area_not_tiny (xs ys : list double) (lo hi : nat) : Prop :=
  forall i, lo <= i <= hi -> not_tiny (width xs i) /\ not_tiny (B2R (dval ys i) * width xs i).
Definition moment_not_tiny (xs ys : list double) (lo hi : nat) : Prop :=
  forall i, lo <= i <= hi -> not_tiny (B2R (dval xs i) * B2R (dval ys i)) /\ not_tiny (B2R (dval xs i) * B2R (dval ys i) * width xs i).

(** [m] describes the samples lo..hi with the peak at [c]. *)
Definition ddescribes (xs ys : list double) (c lo hi : nat) (m : dmode) : Prop :=
  dm_sample m = dval xs c /\ dm_area m = darea_between xs ys lo hi /\
  dm_mean m = ddiv (dmoment_between xs ys lo hi) (darea_between xs ys lo hi) /\
  (is_nan (dm_interp m) = true \/ dle (dval xs 0) (dm_interp m) = true /\ dle (dm_interp m) (dval xs (length xs - 1)) = true).
(** [ys'] is [ys] with zeros at lo..hi. *)
Definition dzeroed (ys : list double) (lo hi : nat) (ys' : list double) : Prop :=
  length ys' = length ys /\
  forall i, i < length ys -> dval ys' i = if (lo <=? i) && (i <=? hi) then d2 0 0 else dval ys i.

(** No mode has a smaller area than a later one. *)
Definition dby_area (l : list dmode) : Prop :=
  forall i j a b, i < j -> nth_error l i = Some a -> nth_error l j = Some b -> dlt (dm_area a) (dm_area b) = false.
