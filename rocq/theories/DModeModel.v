(** Model of the extraction of the modes of a pdf
    (MathUtils/src/lib/PDF/PdfModeExtraction.cpp) in double precision.

    ModeModel describes the same code with rational numbers. Here every operation rounds as
    the processor does; the program is taken to be compiled without contraction of a product
    and a sum into one operation. Sizes are unbounded (at most SIZE_MAX in the program). *)
From Coq Require Import List ZArith Bool Arith.
From Verif Require Import Common CumulModel FloatModel.
Import ListNotations.
Local Open Scope nat_scope.

(** PdfModeExtraction.h:46-72. *)
Record dmode : Type := mkDMode { dm_sample : double; dm_mean : double; dm_interp : double; dm_area : double }.

(** PdfModeExtraction.cpp:50-63: the loop from position [index]. *)
Fixpoint dmax_index_from (pdf : list double) (index : nat) (max : double) (max_index : nat) : nat :=
  match pdf with
  | [] => max_index
  | v :: r => if dlt max v then dmax_index_from r (S index) v index else dmax_index_from r (S index) max max_index
  end.
Definition dfind_maximum_index (pdf : list double) : nat := dmax_index_from pdf 0 (d2 (-1) 0) 0.

(** PdfModeExtraction.cpp:72-82: [position] goes down; [min_x] is the value so far. *)
Fixpoint dcatch_left (pdf : list double) (threshold : double) (position min_x : nat) : outcome nat :=
  match position with
  | O => Ok min_x
  | S below =>
      do v <- at_ pdf position;
      if deq v d0 then Ok min_x
      else
        do w <- at_ pdf below;
        if dlt v threshold && dle v w then Ok position
        else dcatch_left pdf threshold below position
  end.
(** PdfModeExtraction.cpp:84-93: [todo] positions left up to the last one, at
    which the loop stops. *)
Fixpoint dcatch_right (pdf : list double) (threshold : double) (todo position max_x : nat) : outcome nat :=
  match todo with
  | O => Ok max_x
  | S t =>
      do v <- at_ pdf position;
      if deq v d0 then Ok max_x
      else
        do w <- at_ pdf (S position);
        if dlt v threshold && dle v w then Ok position
        else dcatch_right pdf threshold t (S position) position
  end.
(** PdfModeExtraction.cpp:65-96. *)
Definition dcatch_peak (pdf : list double) (center : nat) (merge_ratio : double) : outcome (nat * nat) :=
  do peak <- at_ pdf center;
  let threshold := dmul (dsub d1 merge_ratio) peak in
  do lo <- dcatch_left pdf threshold center 0;
  do hi <- dcatch_right pdf threshold (length pdf - 1 - center) center (length pdf - 1);
  Ok (lo, hi).

(** PdfModeExtraction.cpp:104-111. *)
Definition ddelta_x (xs : list double) (index : nat) : outcome double :=
  if Nat.eqb index 0 then do b <- at_ xs (index + 1); do a <- at_ xs index; Ok (dsub b a)
  else if Nat.eqb index (length xs - 1) then do b <- at_ xs index; do a <- at_ xs (index - 1); Ok (dsub b a)
  else do b <- at_ xs (index + 1); do a <- at_ xs (index - 1); Ok (ddiv (dsub b a) dtwo).
(** PdfModeExtraction.cpp:103-115: [n] positions from [index]. *)
Fixpoint darea_loop (xs ys : list double) (n index : nat) (num area : double) : outcome (double * double) :=
  match n with
  | O => Ok (num, area)
  | S n' =>
      do dx <- ddelta_x xs index;
      do x <- at_ xs index; do y <- at_ ys index;
      darea_loop xs ys n' (S index) (dadd num (dmul (dmul x y) dx)) (dadd area (dmul y dx))
  end.
(** PdfModeExtraction.cpp:99-118. *)
Definition davg_area (xs ys : list double) (min_x max_x : nat) : outcome (double * double) :=
  do s <- darea_loop xs ys (max_x + 1 - min_x) min_x d0 d0;
  Ok (ddiv (fst s) (snd s), snd s).

(** PdfModeExtraction.cpp:120-164. x_index - 1 below zero is undefined. *)
Definition dinterpolation_around (xs ys : list double) (x_index : nat) : outcome double :=
  if length xs <=? x_index then Throw
  else
    let i := if Nat.eqb x_index 0 then x_index + 1
             else if Nat.eqb (x_index + 1) (length xs) then x_index - 1 else x_index in
    if Nat.eqb i 0 then UB
    else
      do x0 <- at_ xs (i - 1); do y0 <- at_ ys (i - 1);
      do x1 <- at_ xs i; do y1 <- at_ ys i;
      do x2 <- at_ xs (i + 1); do y2 <- at_ ys (i + 1);
      let denom := dmul dtwo (dadd (dsub (dmul (dsub x1 x0) y2) (dmul (dsub x2 x0) y1)) (dmul (dsub x2 x1) y0)) in
      let num := dadd (dsub (dmul (dsub (dmul x1 x1) (dmul x0 x0)) y2) (dmul (dsub (dmul x2 x2) (dmul x0 x0)) y1)) (dmul (dsub (dmul x2 x2) (dmul x1 x1)) y0) in
      let x_max := if deq denom d0 then x1 else ddiv num denom in
      do f <- front xs; do b <- back xs;
      Ok (if dlt x_max f then f else if dlt b x_max then b else x_max).

(** PdfModeExtraction.cpp:166-173: [n] positions from [min_x] set to [value]. *)
Fixpoint dset_range (l : list double) (min_x n : nat) (value : double) : outcome (list double) :=
  match n with
  | O => Ok l
  | S n' =>
      match l, min_x with
      | [], _ => UB
      | _ :: r, O => do t <- dset_range r 0 n' value; Ok (value :: t)
      | a :: r, S k => do t <- dset_range r k n value; Ok (a :: t)
      end
  end.
Definition dflattern_peak (ys : list double) (min_x max_x : nat) (value : double) : outcome (list double) :=
  dset_range ys min_x (max_x + 1 - min_x) value.

(** One round of both extractions (PdfModeExtraction.cpp:181-187, 208-213 and
    231): the mode of the highest sample and the pdf without it. *)
Definition dnext_mode (xs ys : list double) (merge_ratio : double) : outcome (dmode * list double) :=
  let peak := dfind_maximum_index ys in
  do r <- dcatch_peak ys peak merge_ratio;
  do ma <- davg_area xs ys (fst r) (snd r);
  do inter <- dinterpolation_around xs ys peak;
  do x <- at_ xs peak;
  do ys' <- dflattern_peak ys (fst r) (snd r) d0;
  Ok (mkDMode x (fst ma) inter (snd ma), ys').

(** PdfModeExtraction.cpp:175-190. *)
Fixpoint dhighest_modes (xs ys : list double) (merge_ratio : double) (n : nat) : outcome (list dmode) :=
  match n with
  | O => Ok []
  | S n' =>
      do m <- dnext_mode xs ys merge_ratio;
      do r <- dhighest_modes xs (snd m) merge_ratio n';
      Ok (fst m :: r)
  end.

(** PdfModeExtraction.cpp:215-227: insertion before the first mode of smaller
    area; at the end only if there are less than [n] modes, [size] being their number. *)
Fixpoint dinsert_mode (m : dmode) (l : list dmode) (size n : nat) : list dmode :=
  match l with
  | [] => if size <? n then [m] else []
  | a :: r => if dlt (dm_area a) (dm_area m) then m :: l else a :: dinsert_mode m r size n
  end.
(** PdfModeExtraction.cpp:206-233. [fuel] bounds the rounds; running out of it
    is [Diverge] (DModeProps.v: it does not happen with 3n+2). *)
Fixpoint dbiggest_loop (fuel : nat) (xs ys : list double) (merge_ratio : double) (n loop : nat) (total : double) (result : list dmode) : outcome (list dmode) :=
  match fuel with
  | O => Diverge
  | S fuel' =>
      do m <- dnext_mode xs ys merge_ratio;
      let result := dinsert_mode (fst m) result (length result) n in
      let total := dsub total (dm_area (fst m)) in
      if n <=? length result then
        do b <- back result;
        if dlt total (dm_area b) || (3 * n <? loop) then Ok result
        else dbiggest_loop fuel' xs (snd m) merge_ratio n (S loop) total result
      else dbiggest_loop fuel' xs (snd m) merge_ratio n (S loop) total result
  end.
(** PdfModeExtraction.cpp:197-236. x_sampling.size() - 1 wraps when it is empty. *)
Definition dbiggest_modes (fuel : nat) (xs ys : list double) (merge_ratio : double) (n : nat) : outcome (list dmode) :=
  match xs with
  | [] => UB
  | _ => do t <- davg_area xs ys 0 (length xs - 1); dbiggest_loop fuel xs ys merge_ratio n 0 (snd t) []
  end.
