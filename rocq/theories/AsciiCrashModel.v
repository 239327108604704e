(** Model of ASCII tables left behind by a program killed while it writes
    (Table/src/lib/AsciiWriter.cpp, TableWriter.cpp in /repo).

    Simplifications, valid for the whole file: the characters reach the file in the order
    in which the program writes them, and what has been written when the program is killed
    is in the file, as the operating system guarantees for a process (not for a power
    failure). Since the stream may keep characters in a buffer, the number of characters in
    the file is arbitrary. See also AsciiModel.v. *)
From Coq Require Import List Arith ZArith Ascii String Bool.
From Verif Require Import Common TextModel DblModel TableModel AsciiModel.
Import ListNotations.
Local Notation length := List.length.

(** AsciiWriter.cpp:99-146 (init and append) on a fresh writer: the comments, the
    tables and their rows are only ever appended to the stream; the file when the program is
    killed after [k] characters of the [written] ones. *)
Definition killed_after (k : nat) (written : outcome text) : outcome text :=
  do file <- written; Ok (firstn k file).
