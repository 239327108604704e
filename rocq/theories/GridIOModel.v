(** Model of the grid to table conversion and of the grid serialization. *)
From Coq Require Import List Arith Bool String Ascii.
From Verif Require Import Common GridModel.
Import ListNotations.

(** * gridContainerToTable *)

(** GridContainerToTable.icpp:47 boost::replace_all(name, " ", "_"). *)
Fixpoint underscore (s : string) : string :=
  match s with
  | EmptyString => EmptyString
  | String c r => String (if Ascii.eqb c " "%char then "_"%char else c) (underscore r)
  end.

(** GridContainerToTable.icpp:42-51 and 95 addColumnDescriptions, names only:
    axes I-1, ..., 0. *)
Fixpoint column_names {V} (axes : list (axis V)) (i : nat) : list string :=
  match i with
  | O => []
  | S i' => match nth_error axes i' with
            | Some a => underscore (ax_name a) :: column_names axes i'
            | None => column_names axes i'
            end
  end.

(** A row: the knot columns (in column order) and the cell.
    GridContainerToTable.icpp:66-84 (loops over axis I-1) and 100-112 (the row;
    [acc] is the parameter pack [axes...], innermost axis first, reversed
    into the row). Cell columns are kept as the cell itself. *)
Section Unfold.
  Context {V C : Type}.
  Variable v : view V.
  Variable cells : list C.

  Fixpoint unfold_loop (body : nat -> V -> outcome (list (list V * C))) (i : nat) (knots : list V)
    : outcome (list (list V * C)) :=
    match knots with
    | [] => Ok []
    | x :: r => do rows <- body i x; do rest <- unfold_loop body (S i) r; Ok (rows ++ rest)
    end.

  Fixpoint unfold_rows (i : nat) (acc : list (nat * V)) : outcome (list (list V * C)) :=
    match i with
    | O => do c <- at_read v cells (map fst acc); Ok [(rev (map snd acc), c)]
    | S i' =>
        match get_axis v i' with
        | None => UB
        | Some a => unfold_loop (fun k x => unfold_rows i' ((k, x) :: acc)) 0 (ax_values a)
        end
    end.
End Unfold.

(** GridContainerToTable.icpp:119-138: [*grid.begin()] is dereferenced for the
    cell columns (UB on a grid without cells); an empty table throws
    (Table.cpp:31-46). Construction of the rows against the column types is not
    modelled here. *)
Definition grid_to_table {V C} (v : view V) (cells : list C)
  : outcome (list string * list (list V * C)) :=
  do it <- view_begin v;
  do _ <- of_option (nth_error cells (it_pos it));
  do rows <- unfold_rows v cells (List.length (v_axes_fixed v)) [];
  match rows with
  | [] => Throw
  | _ => Ok (column_names (v_axes_fixed v) (List.length (v_axes_fixed v)), rows)
  end.

(** * Serialization *)

(** The archive is a list of saved items. Boost's class headers and pointer
    tracking are not modelled. *)
Inductive token (V C : Type) : Type :=
| TName (s : string)
| TSize (n : nat)
| TKnot (x : V)
| TCell (c : C).
Arguments TName {V C}.
Arguments TSize {V C}.
Arguments TKnot {V C}.
Arguments TCell {V C}.

(** serialization/GridAxis.h:68-77 save_construct_data. *)
Definition save_axis {V C} (a : axis V) : list (token V C) :=
  TName (ax_name a) :: TSize (ax_size a) :: map TKnot (ax_values a).

(** serialization/tuple.h:39-76: elements N-1, ..., 0. *)
Fixpoint save_axes {V C} (axes : list (axis V)) (i : nat) : list (token V C) :=
  match i with
  | O => []
  | S i' => match nth_error axes i' with
            | Some a => save_axis a ++ save_axes axes i'
            | None => save_axes axes i'
            end
  end.

(** serialization/GridContainer.h:108-113 (axes: getAxesTuple, i.e. the fixed
    axes) and 41-64 (cells in iteration order). *)
Definition save_grid {V C} (v : view V) (cells : list C) (fuel : nat) : outcome (list (token V C)) :=
  do visited <- visit v cells fuel;
  Ok (save_axes (v_axes_fixed v) (List.length (v_axes_fixed v))
      ++ map (fun p => TCell (snd p)) visited).

(** serialization/GridAxis.h:117-120: the loop reading [n] knots. A wrong item
    or the end of the archive makes the archive throw. *)
Fixpoint load_knots {V C} (n : nat) (ts : list (token V C)) : outcome (list V * list (token V C)) :=
  match n with
  | O => Ok ([], ts)
  | S n' => match ts with
            | TKnot x :: r => do p <- load_knots n' r; Ok (x :: fst p, snd p)
            | _ => Throw
            end
  end.

(** serialization/GridAxis.h:110-122 load_construct_data. *)
Definition load_axis {V C} (ts : list (token V C)) : outcome (axis V * list (token V C)) :=
  match ts with
  | TName s :: TSize n :: r => do p <- load_knots n r; Ok (mkAxis s (fst p), snd p)
  | _ => Throw
  end.

(** serialization/tuple.h:82-123: elements N-1, ..., 0 of a tuple of [i]
    elements; the axes read first go last in the tuple. *)
Fixpoint load_axes {V C} (i : nat) (ts : list (token V C)) (tail : list (axis V))
  : outcome (list (axis V) * list (token V C)) :=
  match i with
  | O => Ok (tail, ts)
  | S i' => do p <- load_axis ts; load_axes i' (snd p) (fst p :: tail)
  end.

(** serialization/GridContainer.h:66-90: reads every cell of the new grid. *)
Fixpoint load_cells {V C} (n : nat) (ts : list (token V C)) : outcome (list C * list (token V C)) :=
  match n with
  | O => Ok ([], ts)
  | S n' => match ts with
            | TCell c :: r => do p <- load_cells n' r; Ok (c :: fst p, snd p)
            | _ => Throw
            end
  end.

(** serialization/GridContainer.h:127-135 and 66-90: a grid type with [i] axes;
    returns the view, its cells and the rest of the archive. *)
Definition load_grid {V C} (i : nat) (ts : list (token V C))
  : outcome (view V * list C * list (token V C)) :=
  do p <- load_axes i ts [];
  let v := new_view (fst p) in
  do q <- load_cells (alloc_size v) (snd p);
  Ok (v, fst q, snd q).
