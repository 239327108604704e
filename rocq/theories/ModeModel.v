(** Model of the extraction of the modes of a pdf
    (MathUtils/src/lib/PDF/PdfModeExtraction.cpp). Doubles are rationals with
    exact arithmetic. *)
From Coq Require Import QArith List ZArith Bool Arith.
From Verif Require Import Common DblModel CumulModel.
Import ListNotations.
Local Open Scope nat_scope.

(** PdfModeExtraction.h:46-72. The mean is a quotient by the area: None when the
    area is 0 (NaN or infinite). *)
Record mode : Type := mkMode { m_sample : Q; m_mean : option Q; m_interp : Q; m_area : Q }.

(** PdfModeExtraction.cpp:50-63: the loop from position [index]. *)
Fixpoint max_index_from (pdf : list Q) (index : nat) (max : Q) (max_index : nat) : nat :=
  match pdf with
  | [] => max_index
  | v :: r => if Qlt_b max v then max_index_from r (S index) v index else max_index_from r (S index) max max_index
  end.
Definition find_maximum_index (pdf : list Q) : nat := max_index_from pdf 0 (-1)%Q 0.

(** PdfModeExtraction.cpp:72-82: [position] goes down; [min_x] is the value so far. *)
Fixpoint catch_left (pdf : list Q) (threshold : Q) (position min_x : nat) : outcome nat :=
  match position with
  | O => Ok min_x
  | S below =>
      do v <- at_ pdf position;
      if Qeq_bool v 0 then Ok min_x
      else
        do w <- at_ pdf below;
        if Qlt_b v threshold && Qle_bool v w then Ok position
        else catch_left pdf threshold below position
  end.
(** PdfModeExtraction.cpp:84-93: [todo] positions left up to the last one, at
    which the loop stops. *)
Fixpoint catch_right (pdf : list Q) (threshold : Q) (todo position max_x : nat) : outcome nat :=
  match todo with
  | O => Ok max_x
  | S t =>
      do v <- at_ pdf position;
      if Qeq_bool v 0 then Ok max_x
      else
        do w <- at_ pdf (S position);
        if Qlt_b v threshold && Qle_bool v w then Ok position
        else catch_right pdf threshold t (S position) position
  end.
(** PdfModeExtraction.cpp:65-96. *)
Definition catch_peak (pdf : list Q) (center : nat) (merge_ratio : Q) : outcome (nat * nat) :=
  do peak <- at_ pdf center;
  let threshold := ((1 - merge_ratio) * peak)%Q in
  do lo <- catch_left pdf threshold center 0;
  do hi <- catch_right pdf threshold (length pdf - 1 - center) center (length pdf - 1);
  Ok (lo, hi).

(** PdfModeExtraction.cpp:104-111. *)
Definition delta_x (xs : list Q) (index : nat) : outcome Q :=
  if Nat.eqb index 0 then do b <- at_ xs (index + 1); do a <- at_ xs index; Ok (b - a)%Q
  else if Nat.eqb index (length xs - 1) then do b <- at_ xs index; do a <- at_ xs (index - 1); Ok (b - a)%Q
  else do b <- at_ xs (index + 1); do a <- at_ xs (index - 1); Ok ((b - a) / 2)%Q.
(** PdfModeExtraction.cpp:103-115: [n] positions from [index]. *)
Fixpoint area_loop (xs ys : list Q) (n index : nat) (num area : Q) : outcome (Q * Q) :=
  match n with
  | O => Ok (num, area)
  | S n' =>
      do dx <- delta_x xs index;
      do x <- at_ xs index; do y <- at_ ys index;
      area_loop xs ys n' (S index) (num + x * y * dx)%Q (area + y * dx)%Q
  end.
(** PdfModeExtraction.cpp:99-118. *)
Definition avg_area (xs ys : list Q) (min_x max_x : nat) : outcome (option Q * Q) :=
  do s <- area_loop xs ys (max_x + 1 - min_x) min_x 0%Q 0%Q;
  Ok (if Qeq_bool (snd s) 0 then None else Some (fst s / snd s)%Q, snd s).

(** PdfModeExtraction.cpp:120-164. x_index - 1 below zero is undefined. *)
Definition interpolation_around (xs ys : list Q) (x_index : nat) : outcome Q :=
  if length xs <=? x_index then Throw
  else
    let i := if Nat.eqb x_index 0 then x_index + 1
             else if Nat.eqb (x_index + 1) (length xs) then x_index - 1 else x_index in
    if Nat.eqb i 0 then UB
    else
      do x0 <- at_ xs (i - 1); do y0 <- at_ ys (i - 1);
      do x1 <- at_ xs i; do y1 <- at_ ys i;
      do x2 <- at_ xs (i + 1); do y2 <- at_ ys (i + 1);
      let denom := (2 * ((x1 - x0) * y2 - (x2 - x0) * y1 + (x2 - x1) * y0))%Q in
      let num := ((x1 * x1 - x0 * x0) * y2 - (x2 * x2 - x0 * x0) * y1 + (x2 * x2 - x1 * x1) * y0)%Q in
      let x_max := if Qeq_bool denom 0 then x1 else (num / denom)%Q in
      do f <- front xs; do b <- back xs;
      Ok (if Qlt_b x_max f then f else if Qlt_b b x_max then b else x_max).

(** PdfModeExtraction.cpp:166-173: [n] positions from [min_x] set to [value]. *)
Fixpoint set_range (l : list Q) (min_x n : nat) (value : Q) : outcome (list Q) :=
  match n with
  | O => Ok l
  | S n' =>
      match l, min_x with
      | [], _ => UB
      | _ :: r, O => do t <- set_range r 0 n' value; Ok (value :: t)
      | a :: r, S k => do t <- set_range r k n value; Ok (a :: t)
      end
  end.
Definition flattern_peak (ys : list Q) (min_x max_x : nat) (value : Q) : outcome (list Q) :=
  set_range ys min_x (max_x + 1 - min_x) value.

(** One round of both extractions (PdfModeExtraction.cpp:181-187, 208-213 and
    231): the mode of the highest sample and the pdf without it. *)
Definition next_mode (xs ys : list Q) (merge_ratio : Q) : outcome (mode * list Q) :=
  let peak := find_maximum_index ys in
  do r <- catch_peak ys peak merge_ratio;
  do ma <- avg_area xs ys (fst r) (snd r);
  do inter <- interpolation_around xs ys peak;
  do x <- at_ xs peak;
  do ys' <- flattern_peak ys (fst r) (snd r) 0%Q;
  Ok (mkMode x (fst ma) inter (snd ma), ys').

(** PdfModeExtraction.cpp:175-190. *)
Fixpoint highest_modes (xs ys : list Q) (merge_ratio : Q) (n : nat) : outcome (list mode) :=
  match n with
  | O => Ok []
  | S n' =>
      do m <- next_mode xs ys merge_ratio;
      do r <- highest_modes xs (snd m) merge_ratio n';
      Ok (fst m :: r)
  end.

(** PdfModeExtraction.cpp:215-227: insertion before the first mode of smaller
    area; at the end only if there are less than [n] modes, [size] being their number. *)
Fixpoint insert_mode (m : mode) (l : list mode) (size n : nat) : list mode :=
  match l with
  | [] => if size <? n then [m] else []
  | a :: r => if Qlt_b (m_area a) (m_area m) then m :: l else a :: insert_mode m r size n
  end.
(** PdfModeExtraction.cpp:206-233. [fuel] bounds the rounds; running out of it
    is [Diverge] (ModeProofs.v: it does not happen with 3n+2). *)
Fixpoint biggest_loop (fuel : nat) (xs ys : list Q) (merge_ratio : Q) (n loop : nat) (total : Q) (result : list mode) : outcome (list mode) :=
  match fuel with
  | O => Diverge
  | S fuel' =>
      do m <- next_mode xs ys merge_ratio;
      let result := insert_mode (fst m) result (length result) n in
      let total := (total - m_area (fst m))%Q in
      if n <=? length result then
        do b <- back result;
        if Qlt_b total (m_area b) || (3 * n <? loop) then Ok result
        else biggest_loop fuel' xs (snd m) merge_ratio n (S loop) total result
      else biggest_loop fuel' xs (snd m) merge_ratio n (S loop) total result
  end.
(** PdfModeExtraction.cpp:197-236. x_sampling.size() - 1 wraps when it is empty. *)
Definition biggest_modes (fuel : nat) (xs ys : list Q) (merge_ratio : Q) (n : nat) : outcome (list mode) :=
  match xs with
  | [] => UB
  | _ => do t <- avg_area xs ys 0 (length xs - 1); biggest_loop fuel xs ys merge_ratio n 0 (snd t) []
  end.
