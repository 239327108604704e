(** Model of NdArray (NdArray/NdArray/NdArray.h, _impl/NdArray.icpp,
    _impl/Operations.icpp, NdArray/src/Operations.cpp in /repo).

    Simplifications, valid for the whole file:
    - the shared containers live in a heap, a list of element lists; an array
      holds the position of its container ([shared_ptr] with no release);
    - the element type [T] is one type, the container is a std::vector (the
      NpyMmap container is modelled in NpyModel.v);
    - [size_t] coordinates, offsets and strides are [nat] (no 64-bit overflow),
      but the element counts, which the code computes with a 32-bit
      accumulator, are computed with that wrap-around. *)
From Coq Require Import List Arith NArith ZArith Bool String.
From Verif Require Import Common.
Import ListNotations.
Local Notation length := List.length.

(** std::accumulate(begin, end, 1u, std::multiplies<size_t>()): the
    accumulator has the type of [1u], so each product is reduced mod 2^32.
    NdArray.icpp:154, 164, 177, 190, 203; NdArray.h:524. *)
Definition u32_product (shape : list nat) : nat :=
  N.to_nat (fold_left (fun acc n => (acc * N.of_nat n) mod 2 ^ 32)%N shape 1%N).

(** std::accumulate(begin, end, 1, std::multiplies<size_t>()): the accumulator
    is an [int]; each 64-bit product is narrowed to [int] (two's complement),
    and the result is converted to size_t with sign extension.
    NdArray.icpp:33, 226, 356. *)
Definition to_int (z : Z) : Z := ((z + 2 ^ 31) mod 2 ^ 32 - 2 ^ 31)%Z.
Definition int_product (shape : list nat) : nat :=
  Z.to_nat ((fold_left (fun acc n => to_int (acc * Z.of_nat n)) shape 1) mod 2 ^ 64)%Z.

(** NdArray.h:464-467 and 545: the members. *)
Record ndarray : Type := mkNd {
  nd_container : nat;
  nd_offset : nat;
  nd_shape : list nat;
  nd_strides : list nat;
  nd_attrs : list string;
  nd_size : nat
}.

Definition heap (T : Type) : Type := list (list T).

(** NdArray.icpp:436-445 update_strides: from the last axis to the first. *)
Fixpoint strides_acc (shape : list nat) : list nat * nat :=
  match shape with
  | [] => ([], 1)
  | n :: r => let (s, acc) := strides_acc r in (acc :: s, acc * n)
  end.
Definition update_strides (shape : list nat) : list nat := fst (strides_acc shape).

(** NdArray.icpp:150-157: zero-initialised array of a shape ([zero] is T{}). *)
Definition nd_new {T} (h : heap T) (zero : T) (shape : list nat) : heap T * ndarray :=
  let size := u32_product shape in
  (h ++ [repeat zero size],
   mkNd (length h) 0 shape (update_strides shape) [] size).

(** NdArray.icpp:159-196: array from a shape and data. *)
Definition nd_from_data {T} (h : heap T) (shape : list nat) (data : list T)
  : outcome (heap T * ndarray) :=
  let size := u32_product shape in
  if negb (Nat.eqb size (length data)) then Throw
  else Ok (h ++ [data], mkNd (length h) 0 shape (update_strides shape) [] size).

(** NdArray.icpp:208-212 appendAttrShape. *)
Definition append_attr_shape (shape : list nat) (append : nat) : list nat :=
  if Nat.eqb append 0 then shape else shape ++ [append].

(** NdArray.icpp:214-219: constructor with attribute names, with data. *)
Definition nd_from_data_attrs {T} (h : heap T) (shape : list nat) (attrs : list string)
    (data : list T) : outcome (heap T * ndarray) :=
  do p <- nd_from_data h (append_attr_shape shape (length attrs)) data;
  let (h', a) := p : heap T * ndarray in
  Ok (h', mkNd (nd_container a) (nd_offset a) (nd_shape a) (nd_strides a) attrs (nd_size a)).

(** NdArray.h:286-288 copy() and NdArray.icpp:198-206: the whole container is
    copied, the offset is 0 and the strides are recomputed from the shape. *)
Definition nd_copy {T} (h : heap T) (a : ndarray) : outcome (heap T * ndarray) :=
  do c <- of_option (nth_error h (nd_container a));
  Ok (h ++ [c],
      mkNd (length h) 0 (nd_shape a) (update_strides (nd_shape a)) (nd_attrs a)
           (u32_product (nd_shape a))).

(** NdArray.icpp:221-233 reshape (a method returning *this: the new value of
    the object). *)
Definition nd_reshape (a : ndarray) (new_shape : list nat) : outcome ndarray :=
  match nd_attrs a with
  | _ :: _ => Throw
  | [] =>
      if negb (Nat.eqb (int_product new_shape) (nd_size a)) then Throw
      else Ok (mkNd (nd_container a) (nd_offset a) new_shape (update_strides new_shape)
                    (nd_attrs a) (nd_size a))
  end.

(** NdArray.icpp:415-420: the loop of get_offset; [None] is out_of_range. *)
Fixpoint offset_loop (offset : nat) (coords shape strides : list nat) : outcome nat :=
  match coords, shape, strides with
  | [], _, _ => Ok offset
  | c :: cr, n :: nr, s :: sr =>
      if Nat.leb n c then Throw else offset_loop (offset + c * s) cr nr sr
  | _ :: _, _, _ => UB
  end.

(** NdArray.icpp:407-424 get_offset (the assert is compiled out). *)
Definition get_offset (a : ndarray) (coords : list nat) : outcome nat :=
  if negb (Nat.eqb (length coords) (length (nd_shape a))) then Throw
  else offset_loop (nd_offset a) coords (nd_shape a) (nd_strides a).

(** std::find over the attribute names. *)
Fixpoint attr_index (attrs : list string) (attr : string) : option nat :=
  match attrs with
  | [] => None
  | x :: r => if String.eqb x attr then Some 0
              else match attr_index r attr with Some i => Some (S i) | None => None end
  end.

(** NdArray.icpp:426-434 get_offset with an attribute name. *)
Definition get_offset_attr (a : ndarray) (coords : list nat) (attr : string) : outcome nat :=
  match attr_index (nd_attrs a) attr with
  | None => Throw
  | Some i => get_offset a (coords ++ [i])
  end.

(** NdArray.h:477-484 ContainerInterface::at: an unchecked access. *)
Definition container_get {T} (h : heap T) (c pos : nat) : outcome T :=
  do l <- of_option (nth_error h c); of_option (nth_error l pos).

Fixpoint set_nth {A} (l : list A) (i : nat) (x : A) : option (list A) :=
  match l, i with
  | [], _ => None
  | _ :: r, O => Some (x :: r)
  | y :: r, S i' => match set_nth r i' x with Some r' => Some (y :: r') | None => None end
  end.

Definition container_set {T} (h : heap T) (c pos : nat) (x : T) : outcome (heap T) :=
  do l <- of_option (nth_error h c);
  do l' <- of_option (set_nth l pos x);
  of_option (set_nth h c l').

(** NdArray.icpp:242-278 at(): reading and writing through the reference. *)
Definition nd_at {T} (h : heap T) (a : ndarray) (coords : list nat) : outcome T :=
  do o <- get_offset a coords; container_get h (nd_container a) o.
Definition nd_write {T} (h : heap T) (a : ndarray) (coords : list nat) (x : T) : outcome (heap T) :=
  do o <- get_offset a coords; container_set h (nd_container a) o x.
Definition nd_at_attr {T} (h : heap T) (a : ndarray) (coords : list nat) (attr : string) : outcome T :=
  do o <- get_offset_attr a coords attr; container_get h (nd_container a) o.
Definition nd_write_attr {T} (h : heap T) (a : ndarray) (coords : list nat) (attr : string) (x : T)
  : outcome (heap T) :=
  do o <- get_offset_attr a coords attr; container_set h (nd_container a) o x.

(** NdArray.icpp:359-376 slice. *)
Definition nd_slice (a : ndarray) (i : nat) : outcome ndarray :=
  match nd_shape a, nd_strides a with
  | n :: m :: r, s :: strides_ =>
      if Nat.leb n i then Throw
      else Ok (mkNd (nd_container a) (nd_offset a + i * s) (m :: r) strides_
                    (tl (nd_attrs a)) (int_product (m :: r)))
  | _ :: _ :: _, [] => UB
  | _, _ => Throw
  end.

(** NdArray.icpp:383-400 rslice. *)
Definition nd_rslice (a : ndarray) (i : nat) : outcome ndarray :=
  match nd_shape a with
  | _ :: _ :: _ =>
      match nd_strides a with
      | [] => UB
      | _ :: _ =>
          if Nat.leb (last (nd_shape a) 0) i then Throw
          else Ok (mkNd (nd_container a) (nd_offset a + i * last (nd_strides a) 0)
                        (removelast (nd_shape a)) (removelast (nd_strides a))
                        (removelast (nd_attrs a)) (int_product (removelast (nd_shape a))))
      end
  | _ => Throw
  end.

(** * Iterators *)

(** NdArray.h:64-66. The container pointer is the position in the heap. *)
Record nditer : Type := mkNdIter {
  ni_container : nat; ni_offset : nat; ni_row_size : nat; ni_stride : nat; ni_i : nat
}.

(** NdArray.icpp:27-35 and 280-298 begin() / end(); strides.back() of an array
    without dimensions is UB. *)
Definition nd_iter (a : ndarray) (start : nat) : outcome nditer :=
  match nd_strides a with
  | [] => UB
  | _ :: _ => Ok (mkNdIter (nd_container a) (nd_offset a) (int_product (nd_shape a))
                           (last (nd_strides a) 0) start)
  end.
Definition nd_begin (a : ndarray) : outcome nditer := nd_iter a 0.
Definition nd_end (a : ndarray) : outcome nditer := nd_iter a (nd_size a).

(** NdArray.icpp:52-57 operator++(). *)
Definition ni_incr (it : nditer) : nditer :=
  mkNdIter (ni_container it) (ni_offset it) (ni_row_size it) (ni_stride it) (S (ni_i it)).
(** NdArray.icpp:59-63 operator++(int): the value of the expression and the
    object afterwards. *)
Definition ni_post_incr (it : nditer) : nditer * nditer := (ni_incr it, it).
(** NdArray.icpp:96-122: + n, - n (assert compiled out: wraps below 0,
    modelled as UB) and the distance of two iterators. *)
Definition ni_plus (it : nditer) (n : nat) : nditer :=
  mkNdIter (ni_container it) (ni_offset it) (ni_row_size it) (ni_stride it) (ni_i it + n).
Definition ni_minus (it : nditer) (n : nat) : outcome nditer :=
  if Nat.ltb (ni_i it) n then UB
  else Ok (mkNdIter (ni_container it) (ni_offset it) (ni_row_size it) (ni_stride it) (ni_i it - n)).
Definition ni_distance (a b : nditer) : Z := (Z.of_nat (ni_i a) - Z.of_nat (ni_i b))%Z.
(** NdArray.icpp:65-69 operator==: memcmp of the members. *)
Definition ni_eqb (a b : nditer) : bool :=
  Nat.eqb (ni_container a) (ni_container b) && Nat.eqb (ni_offset a) (ni_offset b)
  && Nat.eqb (ni_row_size a) (ni_row_size b) && Nat.eqb (ni_stride a) (ni_stride b)
  && Nat.eqb (ni_i a) (ni_i b).
(** NdArray.icpp:124-134 operator[] and 77-87 operator*. *)
Definition ni_get {T} (h : heap T) (it : nditer) (i : nat) : outcome T :=
  container_get h (ni_container it) (ni_offset it + (ni_i it + i) * ni_stride it).

(** The loop [for (it = begin(); it != end(); ++it) out.push_back( *it )]. *)
Fixpoint iterate {T} (h : heap T) (fuel : nat) (it last_ : nditer) : outcome (list T) :=
  match fuel with
  | O => Diverge
  | S fuel' =>
      if ni_eqb it last_ then Ok []
      else
        do x <- ni_get h it 0;
        do rest <- iterate h fuel' (ni_incr it) last_;
        Ok (x :: rest)
  end.
Definition nd_elements {T} (h : heap T) (a : ndarray) : outcome (list T) :=
  do b <- nd_begin a; do e <- nd_end a; iterate h (S (nd_size a)) b e.

(** NdArray.icpp:305-314 operator==; [neqb] is [ *ai != *bi ]. *)
Fixpoint eq_loop {T} (neqb : T -> T -> bool) (h : heap T) (fuel : nat) (ai ae bi be : nditer)
  : outcome bool :=
  match fuel with
  | O => Diverge
  | S fuel' =>
      if ni_eqb ai ae || ni_eqb bi be then Ok true
      else
        do x <- ni_get h ai 0;
        do y <- ni_get h bi 0;
        if neqb x y then Ok false
        else eq_loop neqb h fuel' (ni_incr ai) ae (ni_incr bi) be
  end.
Fixpoint list_nat_eqb (a b : list nat) : bool :=
  match a, b with
  | [], [] => true
  | x :: r, y :: s => Nat.eqb x y && list_nat_eqb r s
  | _, _ => false
  end.
Definition nd_eq {T} (neqb : T -> T -> bool) (h : heap T) (a b : ndarray) : outcome bool :=
  if negb (list_nat_eqb (nd_shape a) (nd_shape b)) then Ok false
  else
    do ai <- nd_begin a; do ae <- nd_end a; do bi <- nd_begin b; do be <- nd_end b;
    eq_loop neqb h (S (nd_size a)) ai ae bi be.

(** * concatenate *)

(** std::vector::resize: truncation or extension with T{}. *)
Definition resize_vector {T} (zero : T) (l : list T) (n : nat) : list T :=
  firstn n l ++ repeat zero (n - length l).

(** std::copy into m_data_ptr + pos: writing outside of the vector is UB. *)
Fixpoint copy_into {T} (l : list T) (pos : nat) (data : list T) : outcome (list T) :=
  match data with
  | [] => Ok l
  | x :: r => do l' <- of_option (set_nth l pos x); copy_into l' (S pos) r
  end.

(** NdArray.icpp:326-350 concatenate; the loop over the axes from 1. The
    source elements are read before the destination is written: they differ
    (positions from old_size on are not elements of [other]). *)
Definition nd_concatenate {T} (zero : T) (h : heap T) (a other : ndarray)
  : outcome (heap T * ndarray) :=
  if negb (Nat.eqb (length (nd_shape a)) (length (nd_shape other))) then Throw
  else if negb (list_nat_eqb (tl (nd_shape a)) (tl (nd_shape other))) then Throw
  else
    match nd_shape a, nd_shape other with
    | n :: r, m :: _ =>
        do c <- of_option (nth_error h (nd_container a));
        let new_shape := (n + m) :: r in
        do h1 <- of_option (set_nth h (nd_container a) (resize_vector zero c (u32_product new_shape)));
        do data <- nd_elements h1 other;
        do c1 <- of_option (nth_error h1 (nd_container a));
        do c2 <- copy_into c1 (length c) data;
        do h2 <- of_option (set_nth h1 (nd_container a) c2);
        Ok (h2, mkNd (nd_container a) (nd_offset a) new_shape (nd_strides a) (nd_attrs a) (nd_size a))
    | _, _ => UB
    end.

(** * Operations *)

(** src/Operations.cpp:24-37 unravel_index: from the last axis to the first;
    an empty shape makes [--i] wrap and read out of range (UB), a zero axis
    divides by zero (UB). *)
Fixpoint unravel_loop (index : nat) (shape : list nat) : outcome (list nat * nat) :=
  match shape with
  | [] => Ok ([], index)
  | n :: r =>
      do p <- unravel_loop index r;
      if Nat.eqb n 0 then UB
      else Ok ((snd p mod n) :: fst p, snd p / n)
  end.
Definition unravel_index (index : nat) (shape : list nat) : outcome (list nat) :=
  match shape with
  | [] => UB
  | _ :: _ =>
      do p <- unravel_loop index shape;
      if Nat.ltb 0 (snd p) then Throw else Ok (fst p)
  end.

(** Operations.icpp:24-27 sum: std::accumulate from T{}. *)
Definition nd_sum {T} (zero : T) (add : T -> T -> T) (h : heap T) (a : ndarray) : outcome T :=
  do l <- nd_elements h a; Ok (fold_left add l zero).

(** Operations.icpp:31-37 and 68-74: resolution of a negative axis; an axis
    below -ndim stays negative, and static_cast makes it huge: it throws. *)
Definition resolve_axis (ndim : nat) (axis : Z) : outcome nat :=
  let ax := if (axis <? 0)%Z then (Z.of_nat ndim + axis)%Z else axis in
  if (ax <? 0)%Z then Throw
  else if (Z.of_nat ndim <=? ax)%Z then Throw
  else Ok (Z.to_nat ax).

Definition remove_nth {A} (i : nat) (l : list A) : list A := firstn i l ++ skipn (S i) l.
Definition insert_nth {A} (i : nat) (x : A) (l : list A) : list A := firstn i l ++ x :: skipn i l.

(** Operations.icpp:57-60: the inner loop of sum over an axis. *)
Fixpoint sum_axis_loop {T} (add : T -> T -> T) (h : heap T) (a : ndarray) (axis : nat)
    (out_coords : list nat) (todo i : nat) (acc : T) : outcome T :=
  match todo with
  | O => Ok acc
  | S todo' =>
      do x <- nd_at h a (insert_nth axis i out_coords);
      sum_axis_loop add h a axis out_coords todo' (S i) (add acc x)
  end.

(** The outer loop over the cells of the output, which is written cell by
    cell through at(): the output elements in order. *)
Fixpoint map_outcome {A B} (f : A -> outcome B) (l : list A) : outcome (list B) :=
  match l with
  | [] => Ok []
  | x :: r => do y <- f x; do ys <- map_outcome f r; Ok (y :: ys)
  end.

(** Operations.icpp:29-64 sum over an axis: the shape and the elements of the
    output (a new array, whose cell out_i is at unravel_index(out_i)). *)
Definition nd_sum_axis {T} (zero : T) (add : T -> T -> T) (h : heap T) (a : ndarray) (axis : Z)
  : outcome (list nat * list T) :=
  do ax <- resolve_axis (length (nd_shape a)) axis;
  if Nat.eqb (length (nd_shape a)) 1 then
    do s <- nd_sum zero add h a; Ok ([1], [s])
  else
    let output_shape := remove_nth ax (nd_shape a) in
    let axis_size := nth ax (nd_shape a) 0 in
    do out <- map_outcome
      (fun out_i =>
         do oc <- unravel_index out_i output_shape;
         sum_axis_loop add h a ax oc axis_size 0 zero)
      (seq 0 (u32_product output_shape));
    Ok (output_shape, out).

(** Operations.icpp:99-109: the inner loop of trapz; [area a b dx] is
    ((a + b) * dx) / 2 and [ks] the knots from ki - 1 on. *)
Fixpoint trapz_loop {T K} (add : T -> T -> T) (area : T -> T -> K -> K -> T) (h : heap T)
    (a : ndarray) (coords_at : nat -> list nat) (ks : list K) (i : nat) (acc : T) : outcome T :=
  match ks with
  | k0 :: ((k1 :: _) as ks') =>
      do b <- nd_at h a (coords_at (S i));
      do a0 <- nd_at h a (coords_at i);
      trapz_loop add area h a coords_at ks' (S i) (add acc (area a0 b k0 k1))
  | _ => Ok acc
  end.

(** Operations.icpp:66-112 trapz. *)
Definition nd_trapz {T K} (zero : T) (add : T -> T -> T) (area : T -> T -> K -> K -> T) (h : heap T)
    (a : ndarray) (knots : list K) (axis : Z) : outcome (list nat * list T) :=
  do ax <- resolve_axis (length (nd_shape a)) axis;
  let axis_size := nth ax (nd_shape a) 0 in
  if negb (Nat.eqb (length knots) axis_size) then Throw
  else
    let scalar := Nat.eqb (length (nd_shape a)) 1 in
    let output_shape := if scalar then [1] else remove_nth ax (nd_shape a) in
    do out <- map_outcome
      (fun out_i =>
         do oc <- unravel_index out_i output_shape;
         trapz_loop add area h a
           (fun i => if scalar then [i] else insert_nth ax i oc) knots 0 zero)
      (seq 0 (u32_product output_shape));
    Ok (output_shape, out).

(** std::max_element with operator<: the first largest element (position). *)
Fixpoint max_element_loop {T} (ltb : T -> T -> bool) (l : list T) (i best_i : nat) (best : T) : nat :=
  match l with
  | [] => best_i
  | x :: r => if ltb best x then max_element_loop ltb r (S i) i x
              else max_element_loop ltb r (S i) best_i best
  end.
Definition max_element {T} (ltb : T -> T -> bool) (l : list T) : nat :=
  match l with [] => 0 | x :: r => max_element_loop ltb r 1 0 x end.
(** std::min_element: the first smallest element. *)
Definition min_element {T} (ltb : T -> T -> bool) (l : list T) : nat :=
  max_element (fun a b => ltb b a) l.

(** Operations.icpp:114-127 argmax / argmin. For an empty array the iterator
    is end() and the position is 0. *)
Definition nd_argmax {T} (ltb : T -> T -> bool) (h : heap T) (a : ndarray) : outcome (list nat) :=
  do l <- nd_elements h a; unravel_index (max_element ltb l) (nd_shape a).
Definition nd_argmin {T} (ltb : T -> T -> bool) (h : heap T) (a : ndarray) : outcome (list nat) :=
  do l <- nd_elements h a; unravel_index (min_element ltb l) (nd_shape a).

(** A chain of views a.slice(i).rslice(j)... *)
Inductive view_op : Type := Slice (i : nat) | RSlice (i : nat).
Definition apply_view (a : ndarray) (op : view_op) : outcome ndarray :=
  match op with Slice i => nd_slice a i | RSlice i => nd_rslice a i end.
Fixpoint apply_views (a : ndarray) (ops : list view_op) : outcome ndarray :=
  match ops with
  | [] => Ok a
  | op :: r => do b <- apply_view a op; apply_views b r
  end.
