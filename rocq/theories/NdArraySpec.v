(** Vocabulary of the NdArray statements: what a row-major array is. *)
From Coq Require Import List Arith NArith String Lia.
From Verif Require Import Common NdArrayModel.
Import ListNotations.
Local Notation length := List.length.

(** Number of elements of a shape. *)
Fixpoint prod (shape : list nat) : nat :=
  match shape with [] => 1 | n :: r => n * prod r end.

(** All coordinates, last axis fastest. *)
Fixpoint row_major (shape : list nat) : list (list nat) :=
  match shape with
  | [] => [[]]
  | n :: r => flat_map (fun i => map (cons i) (row_major r)) (seq 0 n)
  end.

(** One coordinate per axis, each below the size of the axis. *)
Definition in_range (shape coords : list nat) : Prop := Forall2 (fun c n => c < n) coords shape.

(** Element counts representable in the accumulators of the code. *)
Definition below_2_32 (n : nat) : Prop := (N.of_nat n < 2 ^ 32)%N.
Definition below_2_31 (n : nat) : Prop := (N.of_nat n < 2 ^ 31)%N.

(** [a] is an array made by one of the constructors taking a shape, and has
    the shape [shape] (attribute names add a last axis). *)
Inductive built (T : Type) : ndarray -> list nat -> list string -> Prop :=
| built_new (h : heap T) zero shape h' a :
    nd_new h zero shape = (h', a) -> built T a shape []
| built_data (h : heap T) shape data h' a :
    nd_from_data h shape data = Ok (h', a) -> built T a shape []
| built_attrs (h : heap T) shape attrs data h' a :
    nd_from_data_attrs h shape attrs data = Ok (h', a) ->
    built T a (append_attr_shape shape (length attrs)) attrs.

(** The container of [a] currently holds [data]. *)
Definition holds {T} (h : heap T) (a : ndarray) (data : list T) : Prop :=
  nth_error h (nd_container a) = Some data.

(** Coordinates in the parent of the element with coordinates [coords] in the
    view parent.op1.op2... *)
Fixpoint embed (ops : list view_op) (coords : list nat) : list nat :=
  match ops with
  | [] => coords
  | Slice i :: r => i :: embed r coords
  | RSlice i :: r => embed r coords ++ [i]
  end.

Definition is_slice (op : view_op) : Prop := match op with Slice _ => True | RSlice _ => False end.
