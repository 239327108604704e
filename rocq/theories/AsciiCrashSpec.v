(** Vocabulary for the statements about ASCII tables left by an interrupted write. *)
From Coq Require Import List Arith Ascii String Bool.
From Verif Require Import Common TextModel DblModel TableModel TableSpec AsciiModel.
Import ListNotations.
Local Notation length := List.length.

(** The lines, each with its line feed. *)
Definition text_of_lines (lines : list text) : text := flat_map (fun l => l ++ [ascii_of_nat 10]) lines.
(** Of a file made of a preamble and lines, [k] characters contain exactly the first
    [complete] lines with their line feeds. *)
Definition complete_lines (preamble : text) (lines : list text) (k complete : nat) : Prop :=
  complete <= length lines /\
  length (preamble ++ text_of_lines (firstn complete lines)) <= k /\
  (complete = length lines \/ k < length (preamble ++ text_of_lines (firstn (S complete) lines))).
(** A table with these columns and these rows. *)
Definition holds_rows (t : table) (columns : colinfo) (rows : list (list cell)) : Prop :=
  columns_of (t_info t) = columns_of columns /\ map r_values (t_rows t) = rows.
