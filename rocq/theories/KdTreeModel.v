(** Model of the KdTree module (KdTree/KdTree/KdTree.h, KdTree/KdTree/_impl/KdTree.icpp).

    Doubles are modelled by rationals together with a rounding function [rnd]
    that is applied after every arithmetic operation, exactly where the C++
    code rounds. NaN and infinities are not modelled. [coord] is the user's
    traits function (KdTree.h:27-30). [sort] stands for std::sort with the
    comparison of lines 57-59: a function from the axis and the data to the
    reordered data. *)
From Coq Require Import List Arith QArith Bool.
From Verif Require Import Common.
Import ListNotations.

Definition Qltb (x y : Q) : bool := negb (Qle_bool y x).

Section Kd.
  Context {T : Type}.
  Variable coord : T -> nat -> Q.
  Variable rnd : Q -> Q.
  Variable sort : nat -> list T -> list T.
  Variable N S_ : nat.   (* template arguments: dimensions and leaf size *)

  (** KdTree.icpp:20-110: the two kinds of nodes. *)
  Inductive node : Type :=
  | Leaf (data : list T)
  | Split (axis : nat) (split_value : Q) (left right : node).

  (** KdTree.icpp:36-40, the loop over the dimensions [i .. i + todo - 1]. *)
  Fixpoint square_dist (e : T) (c : nat -> Q) (todo i : nat) (acc : Q) : Q :=
    match todo with
    | O => acc
    | S k => let delta := rnd (coord e i - c i) in
             square_dist e c k (S i) (rnd (acc + rnd (delta * delta)))
    end.

  (** KdTree.icpp:41. *)
  Definition close_to (c : nat -> Q) (radius : Q) (e : T) : bool :=
    Qltb (square_dist e c N 0 0) (rnd (radius * radius)).

  (** KdTree.icpp:33-46 (leaf) and 86-102 (split). *)
  Fixpoint find_points (t : node) (c : nat -> Q) (radius : Q) : list T :=
    match t with
    | Leaf data => filter (close_to c radius) data
    | Split axis v l r =>
        if Qltb (rnd (c axis + radius)) v then find_points l c radius
        else if Qltb v (rnd (c axis - radius)) then find_points r c radius
        else find_points l c radius ++ find_points r c radius
    end.

  (** KdTree.icpp:61-69: the split value; [at] throws when out of range. *)
  Definition split_value (axis : nat) (sorted : list T) : outcome Q :=
    match Nat.div (length sorted) 2 with
    | O => Throw
    | S k =>
        match nth_error sorted k, nth_error sorted (S k) with
        | Some x, Some y =>
            let a := coord x axis in let b := coord y axis in
            if Qeq_bool a b then Ok a else Ok (rnd (rnd (a + b) / 2))
        | _, _ => Throw
        end
    end.

  (** KdTree.icpp:56-84: constructor of Split; 74-83 and 113-120 choose between
      Split and Leaf. The recursion is bounded by fuel ([Diverge] when it is
      exhausted; [kd_build] gives one unit per element). *)
  Fixpoint build (fuel : nat) (axis : nat) (data : list T) : outcome node :=
    if Nat.ltb S_ (length data) then
      match fuel with
      | O => Diverge
      | S fuel' =>
          let sorted := sort axis data in
          do v <- split_value axis sorted;
          let h := Nat.div (length sorted) 2 in
          do l <- build fuel' (Nat.modulo (axis + 1) N) (firstn h sorted);
          do r <- build fuel' (Nat.modulo (axis + 1) N) (skipn h sorted);
          Ok (Split axis v l r)
      end
    else Ok (Leaf data).

  (** KdTree.icpp:112-120. *)
  Definition kd_build (data : list T) : outcome node := build (length data) 0 data.

  (** KdTree.icpp:122-125. *)
  Definition kd_find (data : list T) (c : nat -> Q) (radius : Q) : outcome (list T) :=
    do t <- kd_build data; Ok (find_points t c radius).

  (** All the data of the leaves, and the sizes of the leaves (used by the statements). *)
  Fixpoint leaves (t : node) : list (list T) :=
    match t with
    | Leaf data => [data]
    | Split _ _ l r => leaves l ++ leaves r
    end.
End Kd.
