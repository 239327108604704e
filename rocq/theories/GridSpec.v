(** Independent vocabulary for the grid properties: what a grid is, without
    factors, positions or iterators. *)
From Coq Require Import List Arith.
Import ListNotations.

(** All coordinate tuples of a grid with the given axis sizes, the first axis
    changing fastest. *)
Fixpoint all_coords (sizes : list nat) : list (list nat) :=
  match sizes with
  | [] => [[]]
  | n :: r => flat_map (fun tl => map (fun c => c :: tl) (seq 0 n)) (all_coords r)
  end.

(** Coordinates inside the grid: one per axis, each below the axis size. *)
Definition in_range (sizes coords : list nat) : Prop := Forall2 (fun c n => c < n) coords sizes.

(** Every axis has at least one knot. *)
Definition positive (sizes : list nat) : Prop := Forall (fun n => 0 < n) sizes.

(** Number of cells. *)
Definition cell_count (sizes : list nat) : nat := fold_right Nat.mul 1 sizes.

(** A slice is described by the list of its fixed axes: (axis, index). *)
Definition matches (fixed : list (nat * nat)) (coords : list nat) : Prop :=
  forall ax k, In (ax, k) fixed -> nth_error coords ax = Some k.

Definition matchesb (fixed : list (nat * nat)) (coords : list nat) : bool :=
  forallb (fun p => match nth_error coords (fst p) with
                    | Some c => Nat.eqb c (snd p) | None => false end) fixed.

(** The fixed axes are axes of the grid, each fixed once, to a valid index. *)
Definition valid_fixed (sizes : list nat) (fixed : list (nat * nat)) : Prop :=
  NoDup (map fst fixed) /\
  forall ax k, In (ax, k) fixed -> exists n, nth_error sizes ax = Some n /\ k < n.

(** The content of a grid: each coordinate tuple with its cell, in storage
    order. [cells] is the cell storage of the grid. *)
Definition content {C : Type} (sizes : list nat) (cells : list C) : list (list nat * C) :=
  combine (all_coords sizes) cells.

(** [full] are the coordinates, in the unsliced grid, of the cell a slice
    addresses with [coords]: the fixed index on fixed axes, the given one
    elsewhere. *)
Definition addresses (fixed : list (nat * nat)) (coords full : list nat) : Prop :=
  length full = length coords /\
  (forall ax k, In (ax, k) fixed -> nth_error full ax = Some k) /\
  (forall ax, ~ In ax (map fst fixed) -> nth_error full ax = nth_error coords ax).

(** The coordinates a slice accepts: in range, and zero on the fixed axes. *)
Definition accepted (sizes : list nat) (fixed : list (nat * nat)) (coords : list nat) : Prop :=
  in_range sizes coords /\ forall ax k, In (ax, k) fixed -> nth_error coords ax = Some 0.

(** The knot values at the given coordinates ([vals] lists the knots of every
    axis). *)
Fixpoint knot_values {V : Type} (vals : list (list V)) (coords : list nat) : list V :=
  match vals, coords with
  | v :: vr, c :: cr =>
      match nth_error v c with
      | Some x => x :: knot_values vr cr
      | None => knot_values vr cr
      end
  | _, _ => []
  end.
