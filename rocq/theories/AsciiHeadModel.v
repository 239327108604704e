(** Model of AsciiReader::fixColumnNames and fixColumnTypes with their effect on the
    reader when they throw (Table/src/lib/AsciiReader.cpp in /repo); AsciiModel.v has the
    calls that succeed. *)
From Coq Require Import List Arith ZArith Ascii String Bool.
From Verif Require Import Common TextModel DblModel TableModel AsciiModel.
Import ListNotations.
Local Notation length := List.length.

(** AsciiReader.cpp:70-97: the names are stored (line 76) before they are checked. *)
Definition fix_names_call (a : areader) (names : list text) : outcome unit * areader :=
  if ar_started a then (Throw, a)
  else
    let a1 := mkAr (ar_ind a) names (ar_types a) (ar_started a) (ar_info a) (ar_lines a) in
    (if negb (forallb not_empty names) then Throw
     else if existsb has_vertical names then Throw
     else if negb (no_duplicates [] names) then Throw
     else if sizes_differ names (ar_types a) then Throw
     else Ok tt, a1).
(** AsciiReader.cpp:99-112: the types are stored (line 105) before they are checked. *)
Definition fix_types_call (a : areader) (types : list ctype) : outcome unit * areader :=
  if ar_started a then (Throw, a)
  else
    let a1 := mkAr (ar_ind a) (ar_names a) types (ar_started a) (ar_info a) (ar_lines a) in
    (if sizes_differ (ar_names a) types then Throw else Ok tt, a1).
