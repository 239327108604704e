(** Model of the sampled cumulatives (MathUtils/src/lib/PDF/Cumulative.cpp) and
    of the discrete inverse cumulative
    (MathUtils/MathUtils/helpers/_impl/InverseCumulative.icpp:129-156).

    Doubles are rationals with exact arithmetic. *)
From Coq Require Import QArith List ZArith Bool Arith.
From Verif Require Import Common DblModel.
Import ListNotations.
Local Open Scope nat_scope.

(** Cumulative.h: m_x_sampling and m_y_sampling. *)
Record cumul : Type := mkCumul { c_x : list Q; c_y : list Q }.

(** Cumulative.cpp:50-55. *)
Definition new_cumul (xs ys : list Q) : outcome cumul :=
  if Nat.eqb (length xs) (length ys) then Ok (mkCumul xs ys) else Throw.
(** Cumulative.cpp:57-64. *)
Definition cumul_of_dataset (d : list (Q * Q)) : cumul := mkCumul (map fst d) (map snd d).

(** Cumulative.cpp:83-87. *)
Fixpoint running (total : Q) (l : list Q) : list Q :=
  match l with
  | [] => []
  | p :: r => (total + p)%Q :: running (total + p)%Q r
  end.
(** Cumulative.cpp:78-90. *)
Definition from_pdf (xs pdf : list Q) : outcome cumul := new_cumul xs (running 0%Q pdf).
(** Cumulative.cpp:66-76. *)
Definition from_pdf_dataset (d : list (Q * Q)) : outcome cumul := from_pdf (map fst d) (map snd d).

(** back() of a vector: undefined when it is empty. *)
Definition back {A} (l : list A) : outcome A :=
  match l with [] => UB | a :: _ => Ok (last l a) end.
(** front() of a vector. *)
Definition front {A} (l : list A) : outcome A := match l with [] => UB | a :: _ => Ok a end.
(** Dereferencing an iterator at position [i]. *)
Definition at_ {A} (l : list A) (i : nat) : outcome A := of_option (nth_error l i).

(** Cumulative.cpp:92-102; None: the total is 0 and the values become NaN or infinite. *)
Definition normalize (c : cumul) : outcome (option cumul) :=
  do total <- back (c_y c);
  Ok (if Qeq_bool total 0 then None else Some (mkCumul (c_x c) (map (fun y => y / total)%Q (c_y c)))).

(** Number of elements a loop "while not at the end and p" goes over. *)
Fixpoint count_while {A} (p : A -> bool) (l : list A) : nat :=
  match l with
  | [] => O
  | a :: r => if p a then S (count_while p r) else O
  end.

(** Cumulative.h:51. *)
Inductive tray : Type := TrayBegin | TrayMiddle | TrayEnd.

(** Cumulative.cpp:104-138. *)
Definition find_value (c : cumul) (ratio : Q) (position : tray) : outcome Q :=
  if Qlt_b 1 ratio || Qlt_b ratio 0 then Throw
  else
    do total <- back (c_y c);
    let value := (total * ratio)%Q in
    let k := count_while (fun y => Qlt_b y value) (c_y c) in
    do begin_value <- at_ (c_x c) k;
    do t <- at_ (c_y c) k;
    let m := k + count_while (fun y => Qeq_bool y t) (skipn k (c_y c)) in
    do end_value <- at_ (c_x c) (m - 1);
    Ok (match position with
        | TrayBegin => begin_value
        | TrayMiddle => ((1 # 2) * (begin_value + end_value))%Q
        | TrayEnd => end_value
        end).

(** Cumulative.cpp:156-171: [i] and [j] are the positions of iter_1 and iter_2,
    [bi] and [bj] those of min_x and max_x, [todo] the number of positions of
    iter_1 left. *)
Fixpoint min_loop (xs ys : list Q) (rate : Q) (todo i j : nat) (correction : Q) (bi bj : nat) : outcome (nat * nat) :=
  match todo with
  | O => Ok (bi, bj)
  | S t =>
      do yi <- at_ ys i;
      let j := j + count_while (fun y => Qlt_b (y - yi + correction)%Q rate) (skipn j ys) in
      if Nat.eqb j (length xs) then Ok (bi, bj)
      else
        do xi <- at_ xs i; do xj <- at_ xs j;
        do lo <- at_ xs bi; do hi <- at_ xs bj;
        if Qle_bool (xj - xi) (hi - lo)
        then min_loop xs ys rate t (S i) j 0%Q i j
        else min_loop xs ys rate t (S i) j 0%Q bi bj
  end.
(** Cumulative.cpp:140-174. *)
Definition find_min_interval (c : cumul) (rate : Q) : outcome (Q * Q) :=
  if Qlt_b 1 rate || Qle_bool rate 0 then Throw
  else
    do total <- back (c_y c);
    do first <- front (c_y c);
    do b <- min_loop (c_x c) (c_y c) (rate * total)%Q (length (c_x c)) 0 1 first 0 (length (c_x c) - 1);
    do lo <- at_ (c_x c) (fst b); do hi <- at_ (c_x c) (snd b);
    Ok (lo, hi).

(** Cumulative.cpp:176-188. *)
Definition find_centered_interval (c : cumul) (rate : Q) : outcome (Q * Q) :=
  if Qlt_b 1 rate || Qle_bool rate 0 then Throw
  else
    do lo <- find_value c ((1 # 2) - rate / 2)%Q TrayEnd;
    do hi <- find_value c ((1 # 2) + rate / 2)%Q TrayBegin;
    Ok (lo, hi).

(** ** Discrete inverse cumulative *)

(** InverseCumulative.icpp:135-143: partial sums, each divided by the last one
    (the loop divides the last one last). None: the total is 0. *)
Definition inverse_cdf (pdf : list Q) : option (list Q) :=
  let sums := running 0%Q pdf in
  match sums with
  | [] => Some []
  | s :: _ => if Qeq_bool (last sums s) 0 then None else Some (map (fun v => v / last sums s)%Q sums)
  end.
(** InverseCumulative.icpp:145-151. lower_bound of the cdf, which the caller has
    to give in increasing order (non-negative pdf): the number of leading
    elements below p. The access to m_knots is not checked. *)
Definition sample_discrete {K} (knots : list K) (cdf : list Q) (p : Q) : outcome K :=
  if Qlt_b p 0 || Qlt_b 1 p then Throw
  else at_ knots (count_while (fun v => Qlt_b v p) cdf).
