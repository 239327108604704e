(** Model of the sampled cumulatives (MathUtils/src/lib/PDF/Cumulative.cpp) and of the
    discrete inverse cumulative (MathUtils/MathUtils/helpers/_impl/InverseCumulative.icpp)
    in double precision: CumulModel with IEEE 754 arithmetic instead of rationals. *)
From Coq Require Import ZArith List Bool Arith.
From Verif Require Import Common CumulModel FloatModel.
Import ListNotations.

(** Cumulative.h: m_x_sampling and m_y_sampling. *)
Record dcumul : Type := mkD { d_x : list double; d_y : list double }.

(** Cumulative.cpp:50-55. *)
Definition dnew (xs ys : list double) : outcome dcumul :=
  if Nat.eqb (length xs) (length ys) then Ok (mkD xs ys) else Throw.
(** Cumulative.cpp:83-87. *)
Fixpoint drunning (total : double) (l : list double) : list double :=
  match l with
  | [] => []
  | p :: r => dadd total p :: drunning (dadd total p) r
  end.
(** Cumulative.cpp:78-90. *)
Definition dfrom_pdf (xs pdf : list double) : outcome dcumul := dnew xs (drunning d0 pdf).

(** Cumulative.cpp:92-102. *)
Definition dnormalize (c : dcumul) : outcome dcumul :=
  do total <- back (d_y c); Ok (mkD (d_x c) (map (fun y => ddiv y total) (d_y c))).

(** Cumulative.cpp:104-138. Decrementing an iterator at the beginning is undefined. *)
Definition dfind_value (c : dcumul) (ratio : double) (position : tray) : outcome double :=
  if dlt d1 ratio || dlt ratio d0 then Throw
  else
    do total <- back (d_y c);
    let value := dmul total ratio in
    let k := count_while (fun y => dlt y value) (d_y c) in
    do begin_value <- at_ (d_x c) k;
    do t <- at_ (d_y c) k;
    let m := (k + count_while (fun y => deq y t) (skipn k (d_y c)))%nat in
    match m with
    | O => UB
    | S m' =>
        do end_value <- at_ (d_x c) m';
        Ok (match position with
            | TrayBegin => begin_value
            | TrayMiddle => dmul dhalf (dadd begin_value end_value)
            | TrayEnd => end_value
            end)
    end.

(** Cumulative.cpp:156-171, as CumulModel.min_loop. *)
Fixpoint dmin_loop (xs ys : list double) (rate : double) (todo i j : nat) (correction : double) (bi bj : nat) : outcome (nat * nat) :=
  match todo with
  | O => Ok (bi, bj)
  | S t =>
      do yi <- at_ ys i;
      let j := (j + count_while (fun y => dlt (dadd (dsub y yi) correction) rate) (skipn j ys))%nat in
      if Nat.eqb j (length xs) then Ok (bi, bj)
      else
        do xi <- at_ xs i; do xj <- at_ xs j;
        do lo <- at_ xs bi; do hi <- at_ xs bj;
        if dle (dsub xj xi) (dsub hi lo)
        then dmin_loop xs ys rate t (S i) j d0 i j
        else dmin_loop xs ys rate t (S i) j d0 bi bj
  end.
(** Cumulative.cpp:140-174. *)
Definition dfind_min_interval (c : dcumul) (rate : double) : outcome (double * double) :=
  if dlt d1 rate || dle rate d0 then Throw
  else
    do total <- back (d_y c);
    do first <- front (d_y c);
    do b <- dmin_loop (d_x c) (d_y c) (dmul rate total) (length (d_x c)) 0 1 first 0 (length (d_x c) - 1);
    do lo <- at_ (d_x c) (fst b); do hi <- at_ (d_x c) (snd b);
    Ok (lo, hi).

(** Cumulative.cpp:176-188. *)
Definition dfind_centered_interval (c : dcumul) (rate : double) : outcome (double * double) :=
  if dlt d1 rate || dle rate d0 then Throw
  else
    do lo <- dfind_value c (dsub dhalf (ddiv rate dtwo)) TrayEnd;
    do hi <- dfind_value c (dadd dhalf (ddiv rate dtwo)) TrayBegin;
    Ok (lo, hi).

(** InverseCumulative.icpp:137-139: each element plus the sum before it. *)
Definition dsums (pdf : list double) : list double :=
  match pdf with [] => [] | p :: r => p :: drunning p r end.
(** InverseCumulative.icpp:135-143: the partial sums, each divided by the last one (the
    loop divides the last one last). *)
Definition dinverse_cdf (pdf : list double) : list double :=
  match dsums pdf with
  | [] => []
  | s :: r => map (fun v => ddiv v (last (s :: r) s)) (s :: r)
  end.
(** InverseCumulative.icpp:145-151, as CumulModel.sample_discrete. *)
Definition dsample_discrete {K} (knots : list K) (cdf : list double) (p : double) : outcome K :=
  if dlt p d0 || dlt d1 p then Throw
  else at_ knots (count_while (fun v => dlt v p) cdf).
