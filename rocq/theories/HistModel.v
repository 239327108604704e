(** Model of the histograms (Histogram/Histogram/Histogram.h,
    _impl/ComputationImpl.icpp and Binning/*.h).

    Values of the variable are of type [dbl] for the edge vector binning, which
    only compares them, and rationals with exact arithmetic for the binnings of
    constant width and for the statistics. Weights and counts are rationals. *)
From Coq Require Import QArith List ZArith Bool Arith.
From Verif Require Import Common DblModel.
Import ListNotations.
Local Open Scope nat_scope.

(** Histogram.h:48-127 BinStrategy: the number of bins (66-68), the index of a
    value (78) and the edges (108). ssize_t is Z. *)
Record binning (V : Type) : Type := mkBinning {
  b_count : nat;
  b_index : V -> outcome Z;
  b_edge : nat -> outcome V
}.
Arguments mkBinning {V}. Arguments b_count {V}. Arguments b_index {V}. Arguments b_edge {V}.

(** std::generate with getEdge(i++) or getBin(i++) (Histogram.h:86-91, 246-251). *)
Fixpoint generate {A} (f : nat -> outcome A) (k n : nat) : outcome (list A) :=
  match n with
  | O => Ok []
  | S n' => do a <- f k; do r <- generate f (S k) n'; Ok (a :: r)
  end.
(** Histogram.h:86-91 getEdges. *)
Definition b_edges {V} (b : binning V) : outcome (list V) := generate (b_edge b) 0 (b_count b + 1).
(** Histogram.h:100-102 getBinEdges (and the overrides, which agree with it). *)
Definition b_bin_edges {V} (b : binning V) (i : nat) : outcome (V * V) :=
  do l <- b_edge b i; do r <- b_edge b (i + 1); Ok (l, r).
(** Histogram.h:120-123 getBin. *)
Definition b_center (b : binning Q) (i : nat) : outcome Q :=
  do e <- b_bin_edges b i; Ok ((snd e + fst e) / 2)%Q.

(** ** Edge vectors (Binning/EdgeVector.h) *)

(** EdgeVector.h:63: position of the first edge above [v], the length if none. *)
Fixpoint find_above (v : dbl) (l : list dbl) : nat :=
  match l with
  | [] => O
  | e :: r => if dlt v e then O else S (find_above v r)
  end.
(** EdgeVector.h:60-67; front() and back() of an empty vector are undefined. *)
Definition edge_index (edges : list dbl) (v : dbl) : outcome Z :=
  match edges with
  | [] => UB
  | front :: _ =>
      if dlt v front || dlt (last edges front) v then Ok (-1)%Z
      else
        let p := find_above v edges in
        let p := if Nat.eqb p (length edges) then p - 1 else p in
        Ok (Z.of_nat p - 1)%Z
  end.
(** EdgeVector.h:53-56, 73-75. With no edge m_nbins would be SIZE_MAX; here it
    is 0, and every use of such a binning is undefined anyway. *)
Definition edge_binning (edges : list dbl) : binning dbl :=
  mkBinning (length edges - 1) (edge_index edges) (fun i => of_option (nth_error edges i)).

(** ** Bins of constant width (Binning/Sqrt.h, Binning/Scott.h) *)

(** Conversion of a quotient to ssize_t: towards zero. *)
Definition trunc (q : Q) : Z := Z.quot (Qnum q) (Zpos (Qden q)).
(** Sqrt.h:54-58, Scott.h:85-89. The conversion of an infinity or NaN to an
    integer is undefined. *)
Definition step_index (n : nat) (start step stop v : Q) : outcome Z :=
  if Qeq_bool v stop then Ok (Z.of_nat n - 1)%Z
  else if Qeq_bool step 0 then UB
  else Ok (trunc ((v - start) / step)%Q).
(** Sqrt.h:60-66, Scott.h:91-97. *)
Definition step_edge (start step : Q) (i : nat) : Q := (inject_Z (Z.of_nat i) * step + start)%Q.
Definition step_binning (n : nat) (start step stop : Q) : binning Q :=
  mkBinning n (step_index n start step stop) (fun i => Ok (step_edge start step i)).

(** std::minmax_element (Sqrt.h:48) and the min and max of the accumulator (Scott.h:67-68). *)
Fixpoint min_of (m : Q) (l : list Q) : Q :=
  match l with [] => m | x :: r => min_of (if Qlt_b x m then x else m) r end.
Fixpoint max_of (m : Q) (l : list Q) : Q :=
  match l with [] => m | x :: r => max_of (if Qlt_b m x then x else m) r end.
(** ceil(sqrt(n)) (Sqrt.h:47). *)
Definition ceil_sqrt (n : nat) : nat := let s := Nat.sqrt n in if Nat.eqb (s * s) n then s else S s.
Definition qnat (n : nat) : Q := inject_Z (Z.of_nat n).

(** Sqrt.h:45-52: dereferencing the end iterator when there is no value. *)
Definition sqrt_compute (data : list Q) : outcome (binning Q) :=
  match data with
  | [] => UB
  | x :: r =>
      let n := ceil_sqrt (length data) in
      let lo := min_of x r in let hi := max_of x r in
      Ok (step_binning n lo ((hi - lo) / qnat n)%Q hi)
  end.

(** ceil of a quotient (Scott.h:78). *)
Definition ceil_div (a b : Q) : Z := (- ((Qnum (- a / b)%Q) / (Zpos (Qden (- a / b)%Q))))%Z.
(** Scott.h:56-83. [sigma] and [h] are the standard deviation of the data and
    the width 3.5 sigma / n^(1/3) (65-66), which the library functions give.
    With no value the minimum and maximum are those of the accumulator's
    initial state and the width is not a number: not modelled (UB). *)
Definition scott_compute (sigma h : list Q -> Q) (data : list Q) : outcome (binning Q) :=
  match data with
  | [] => UB
  | x :: r =>
      let lo := min_of x r in let hi := max_of x r in
      let flat := Qeq_bool (sigma data) 0 in
      let hi := if flat then (hi + (1 # 2))%Q else hi in
      let lo := if flat then (lo - (1 # 2))%Q else lo in
      let h := if flat then 1%Q else h data in
      let range := (hi - lo)%Q in
      if Qeq_bool h 0 then UB
      else
        let n := Z.to_nat (ceil_div range h) in
        Ok (step_binning n lo (range / qnat n)%Q hi)
  end.

(** ** The histogram *)

(** Histogram.h:316-317, 346. *)
Record hist (V : Type) : Type := mkHist {
  h_binning : binning V;
  h_counts : list Q;
  h_left : Z;
  h_right : Z
}.
Arguments mkHist {V}. Arguments h_binning {V}. Arguments h_counts {V}. Arguments h_left {V}. Arguments h_right {V}.

(** counts[bin] += w for a valid index (ComputationImpl.icpp:116). *)
Fixpoint add_at (l : list Q) (k : nat) (w : Q) : list Q :=
  match l, k with
  | [], _ => []
  | c :: r, O => (c + w)%Q :: r
  | c :: r, S k' => c :: add_at r k' w
  end.
(** ComputationImpl.icpp:113-118; reading past the weights is undefined. *)
Fixpoint fill_counts {V} (index : V -> outcome Z) (data : list V) (weights counts : list Q) : outcome (list Q) :=
  match data with
  | [] => Ok counts
  | v :: r =>
      do bin <- index v;
      match weights with
      | [] => UB
      | w :: ws =>
          fill_counts index r ws
            (if ((0 <=? bin) && (bin <? Z.of_nat (length counts)))%Z then add_at counts (Z.to_nat bin) w else counts)
      end
  end.
(** Histogram.h:186-191 and ComputationImpl.icpp:101-119, for a binning whose
    computeBins (if any) was already run on the data. *)
Definition new_hist {V} (b : binning V) (data : list V) (weights : list Q) : outcome (hist V) :=
  do c <- fill_counts (b_index b) data weights (repeat 0%Q (b_count b));
  Ok (mkHist b c 0%Z (Z.of_nat (b_count b) - 1)%Z).
(** Histogram.h:157-161, 297-305: every weight is 1. *)
Definition new_hist_plain {V} (b : binning V) (data : list V) : outcome (hist V) :=
  new_hist b data (repeat 1%Q (length data)).

(** Histogram.h:323-325. *)
Definition hist_size {V} (h : hist V) : Z := (h_right h - h_left h + 1)%Z.
(** Histogram.h:227-230. *)
Definition get_counts {V} (h : hist V) : list Q :=
  firstn (Z.to_nat (h_right h + 1 - h_left h)) (skipn (Z.to_nat (h_left h)) (h_counts h)).
(** Histogram.h:238-240. *)
Definition get_edges {V} (h : hist V) : outcome (list V) := b_edges (h_binning h).
(** Histogram.h:246-251. *)
Definition get_bins (h : hist Q) : outcome (list Q) := generate (b_center (h_binning h)) 0 (length (h_counts h)).

(** ComputationImpl.icpp:6-18; [gt] is operator> of the type of the values. *)
Definition clip {V} (gt : V -> V -> bool) (h : hist V) (min max : V) : outcome (hist V) :=
  if gt min max then Throw
  else
    do min_bin <- b_index (h_binning h) min;
    let l := if ((h_left h <? min_bin) && (min_bin <=? h_right h))%Z then min_bin else h_left h in
    do max_bin <- b_index (h_binning h) max;
    let r := if ((l <=? max_bin) && (max_bin <? h_right h))%Z then max_bin else h_right h in
    Ok (mkHist (h_binning h) (h_counts h) l r).

(** ** Statistics *)

(** Unchecked access to m_counts with an index of type ssize_t. *)
Definition count_at (counts : list Q) (i : Z) : outcome Q :=
  if (i <? 0)%Z then UB else of_option (nth_error counts (Z.to_nat i)).
(** A division by zero gives NaN or an infinity: None. *)
Definition quotient (a b : Q) : option Q := if Qeq_bool b 0 then None else Some (a / b)%Q.

(** ComputationImpl.icpp:27-32: the sums of count*center, count and
    count*center*center over the [n] bins from [i] on. *)
Fixpoint moments (b : binning Q) (counts : list Q) (i n : nat) (acc : Q * Q * Q) : outcome (Q * Q * Q) :=
  match n with
  | O => Ok acc
  | S n' =>
      do center <- b_center b i;
      do c <- of_option (nth_error counts i);
      let '(total, count, sigma) := acc in
      moments b counts (S i) n' (total + c * center, count + c, sigma + c * center * center)%Q
  end.
(** ComputationImpl.icpp:44-50. Each round removes one bin from [low_i..high_i],
    so [fuel] = number of bins is enough (proved in HistProofs.v). *)
Fixpoint balance (counts : list Q) (fuel : nat) (low_i high_i : Z) (low high : Q) : outcome (Z * Z * Q * Q) :=
  match fuel with
  | O => Ok (low_i, high_i, low, high)
  | S k =>
      if (low_i <=? high_i)%Z then
        if Qlt_b low high
        then do c <- count_at counts low_i; balance counts k (low_i + 1)%Z high_i (low + c)%Q high
        else do c <- count_at counts high_i; balance counts k low_i (high_i - 1)%Z low (high + c)%Q
      else Ok (low_i, high_i, low, high)
  end.
(** ComputationImpl.icpp:54-62. std::max(a, b) is b when a < b, else a. *)
Definition median_of (b : binning Q) (counts : list Q) (low_i high_i : Z) (low high : Q) : outcome (option Q) :=
  if (0 <=? high_i)%Z then
    do e <- b_bin_edges b (Z.to_nat (high_i + 1));
    let width := (snd e - fst e)%Q in
    do cl <- count_at counts low_i;
    do ch <- count_at counts high_i;
    let m := if Qlt_b cl ch then ch else cl in
    Ok (match quotient (width * (high - low)) (2 * m) with None => None | Some q => Some (fst e + q)%Q end)
  else do c <- b_center b 0; Ok (Some c).
(** ComputationImpl.icpp:22-65: mean, median and sigma; None when a division
    by zero makes the value NaN or infinite. sigma is then 0: the comparison of
    line 36 is false (NaN, or minus infinity). [root] is std::sqrt. *)
Definition get_stats (root : Q -> Q) (h : hist Q) : outcome (option Q * option Q * Q) :=
  let n := Z.to_nat (hist_size h) in
  do m <- moments (h_binning h) (h_counts h) (Z.to_nat (h_left h)) n (0, 0, 0)%Q;
  let '(total, count, square) := m in
  let mean := quotient total count in
  let sigma := match mean, quotient square count with
               | Some mu, Some s => let v := (s - mu * mu)%Q in if Qlt_b 0 v then root v else 0%Q
               | _, _ => 0%Q
               end in
  do s <- balance (h_counts h) n (h_left h) (h_right h) 0%Q 0%Q;
  let '(low_i, high_i, low, high) := s in
  do median <- median_of (h_binning h) (h_counts h) low_i high_i low high;
  Ok (mean, median, sigma).
