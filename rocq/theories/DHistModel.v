(** Model of the histograms of doubles in double precision, with counts of the default
    weight type float (Histogram/Histogram/Histogram.h, Binning/Sqrt.h, Binning/Scott.h and
    _impl/ComputationImpl.icpp): HistModel with IEEE 754 arithmetic. *)
From Coq Require Import ZArith List Bool Arith.
From Flocq Require Import Core IEEE754.BinarySingleNaN.
From Verif Require Import Common HistModel FloatModel.
Import ListNotations.

(** Conversion of a size_t to double. *)
Definition dnat (n : nat) : double := d2 (Z.of_nat n) 0.
(** Conversion of a double to ssize_t: towards zero, undefined for NaN, infinities and
    values that do not fit. *)
Definition to_ssize (x : double) : outcome Z :=
  if is_finite x then
    let z := Btrunc x in
    if ((- 2 ^ 63 <=? z) && (z <? 2 ^ 63))%Z then Ok z else UB
  else UB.
(** Conversion of a double to size_t. *)
Definition to_size (x : double) : outcome nat :=
  if is_finite x then
    let z := Btrunc x in
    if ((0 <=? z) && (z <? 2 ^ 64))%Z then Ok (Z.to_nat z) else UB
  else UB.

(** Sqrt.h:54-58, Scott.h:85-89: getBinIndex. *)
Definition dstep_index (n : nat) (start step stop v : double) : outcome Z :=
  if deq v stop then Ok (Z.of_nat n - 1)%Z else to_ssize (ddiv (dsub v start) step).
(** Sqrt.h:60-66, Scott.h:91-97: getEdge, getBinEdges. *)
Definition dstep_edge (start step : double) (i : nat) : double := dadd (dmul (dnat i) step) start.
Definition dstep_binning (n : nat) (start step stop : double) : binning double :=
  mkBinning n (dstep_index n start step stop) (fun i => Ok (dstep_edge start step i)).

(** std::minmax_element (Sqrt.h:48): the first of the smallest and the last of the largest.
    The values are not NaN. *)
Fixpoint dmin_of (m : double) (l : list double) : double :=
  match l with [] => m | x :: r => dmin_of (if dlt x m then x else m) r end.
Fixpoint dmax_of (m : double) (l : list double) : double :=
  match l with [] => m | x :: r => dmax_of (if dlt x m then m else x) r end.
(** Sqrt.h:45-52. *)
Definition dsqrt_compute (data : list double) : outcome (binning double) :=
  match data with
  | [] => UB
  | x :: r =>
      let n := ceil_sqrt (length data) in
      let lo := dmin_of x r in let hi := dmax_of x r in
      Ok (dstep_binning n lo (ddiv (dsub hi lo) (dnat n)) hi)
  end.

(** std::ceil. *)
Definition dceil (x : double) : double := Bnearbyint mode_UP x.
(** Scott.h:56-83. [sigma] and [h] are the standard deviation of the data and the width
    3.5 sigma / n^(1/3) (65-66), which the library functions give. With no value it is not
    modelled (UB). *)
Definition dscott_compute (sigma h : list double -> double) (data : list double) : outcome (binning double) :=
  match data with
  | [] => UB
  | x :: r =>
      let lo := dmin_of x r in let hi := dmax_of x r in
      let flat := deq (sigma data) d0 in
      let hi := if flat then dadd hi dhalf else hi in
      let lo := if flat then dsub lo dhalf else lo in
      let h := if flat then d1 else h data in
      let range := dsub hi lo in
      do n <- to_size (dceil (ddiv range h));
      Ok (dstep_binning n lo (ddiv range (dnat n)) hi)
  end.

(** ** Counts of type float *)
Definition f0 : float := f2 0 0.
Definition f1 : float := f2 1 0.
(** counts[bin] += w for a valid index (ComputationImpl.icpp:116). *)
Fixpoint fadd_at (l : list float) (k : nat) (w : float) : list float :=
  match l, k with
  | [], _ => []
  | c :: r, O => fadd c w :: r
  | c :: r, S k' => c :: fadd_at r k' w
  end.
(** ComputationImpl.icpp:113-118. *)
Fixpoint ffill {V} (index : V -> outcome Z) (data : list V) (weights counts : list float) : outcome (list float) :=
  match data with
  | [] => Ok counts
  | v :: r =>
      do bin <- index v;
      match weights with
      | [] => UB
      | w :: ws =>
          ffill index r ws
            (if ((0 <=? bin) && (bin <? Z.of_nat (length counts)))%Z then fadd_at counts (Z.to_nat bin) w else counts)
      end
  end.
(** Histogram.h:186-191 and ComputationImpl.icpp:101-119: the counts. *)
Definition fcounts {V} (b : binning V) (data : list V) (weights : list float) : outcome (list float) :=
  ffill (b_index b) data weights (repeat f0 (b_count b)).
(** Histogram.h:157-161, 297-305: every weight is 1. *)
Definition fcounts_plain {V} (b : binning V) (data : list V) : outcome (list float) :=
  fcounts b data (repeat f1 (length data)).
