(** Model of the KdTree module in double precision (KdTree/KdTree/KdTree.h,
    KdTree/KdTree/_impl/KdTree.icpp): KdTreeModel with IEEE 754 arithmetic. [coord] is the
    user's traits function (KdTree.h:27-30); [sort] stands for std::sort with the comparison of
    KdTree.icpp:57-59. *)
From Coq Require Import List Arith Bool ZArith.
From Verif Require Import Common FloatModel.
Import ListNotations.

Section DKd.
  Context {T : Type}.
  Variable coord : T -> nat -> double.
  Variable sort : nat -> list T -> list T.
  Variable N S_ : nat.   (* template arguments: dimensions and leaf size *)

  (** KdTree.icpp:20-110: the two kinds of nodes. *)
  Inductive dnode : Type :=
  | DLeaf (data : list T)
  | DSplit (axis : nat) (split_value : double) (left right : dnode).

  (** KdTree.icpp:36-40, the loop over the dimensions [i .. i + todo - 1]. *)
  Fixpoint dsquare_dist (e : T) (c : nat -> double) (todo i : nat) (acc : double) : double :=
    match todo with
    | O => acc
    | S k => let delta := dsub (coord e i) (c i) in
             dsquare_dist e c k (S i) (dadd acc (dmul delta delta))
    end.

  (** KdTree.icpp:41. *)
  Definition dclose_to (c : nat -> double) (radius : double) (e : T) : bool :=
    dlt (dsquare_dist e c N 0 d0) (dmul radius radius).

  (** KdTree.icpp:33-46 (leaf) and 86-102 (split). *)
  Fixpoint dfind_points (t : dnode) (c : nat -> double) (radius : double) : list T :=
    match t with
    | DLeaf data => filter (dclose_to c radius) data
    | DSplit axis v l r =>
        if dlt (dadd (c axis) radius) v then dfind_points l c radius
        else if dlt v (dsub (c axis) radius) then dfind_points r c radius
        else dfind_points l c radius ++ dfind_points r c radius
    end.

  (** KdTree.icpp:61-69: the split value; [at] throws when out of range. *)
  Definition dsplit_value (axis : nat) (sorted : list T) : outcome double :=
    match Nat.div (length sorted) 2 with
    | O => Throw
    | S k =>
        match nth_error sorted k, nth_error sorted (S k) with
        | Some x, Some y =>
            let a := coord x axis in let b := coord y axis in
            if deq a b then Ok a else Ok (ddiv (dadd a b) dtwo)
        | _, _ => Throw
        end
    end.

  (** KdTree.icpp:56-84: constructor of Split; 74-83 and 113-120 choose between
      Split and Leaf. The recursion is bounded by fuel ([Diverge] when it is
      exhausted; [dkd_build] gives one unit per element). *)
  Fixpoint dbuild (fuel : nat) (axis : nat) (data : list T) : outcome dnode :=
    if Nat.ltb S_ (length data) then
      match fuel with
      | O => Diverge
      | S fuel' =>
          let sorted := sort axis data in
          do v <- dsplit_value axis sorted;
          let h := Nat.div (length sorted) 2 in
          do l <- dbuild fuel' (Nat.modulo (axis + 1) N) (firstn h sorted);
          do r <- dbuild fuel' (Nat.modulo (axis + 1) N) (skipn h sorted);
          Ok (DSplit axis v l r)
      end
    else Ok (DLeaf data).

  (** KdTree.icpp:112-120. *)
  Definition dkd_build (data : list T) : outcome dnode := dbuild (length data) 0 data.

  (** KdTree.icpp:122-125. *)
  Definition dkd_find (data : list T) (c : nat -> double) (radius : double) : outcome (list T) :=
    do t <- dkd_build data; Ok (dfind_points t c radius).
End DKd.
