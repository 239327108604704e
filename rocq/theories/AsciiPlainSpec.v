(** Vocabulary for ASCII tables written without the descriptions of their columns. *)
From Coq Require Import ZArith List Arith Ascii String Bool.
From Verif Require Import Common TextModel DblModel TableModel TableSpec AsciiModel AsciiSpec.
Import ListNotations.

(** Writing comments, then tables, after showColumnInfo(false). *)
Definition write_plain (ff fd : dbl -> text) (ind : text) (cs : list text) (ts : list table) : outcome text :=
  do w0 <- aw_set_comment new_awriter ind;
  do w1 <- aw_show_info w0 false;
  do w2 <- add_comments w1 cs;
  do w3 <- add_tables ff fd w2 ts;
  Ok (aw_out w3).
(** A column without unit and description. *)
Definition bare_column (d : coldesc) (ty : ctype) : coldesc := mkDesc (cd_name d) ty [] [].
