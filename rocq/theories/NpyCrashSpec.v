(** Vocabulary of the statements about interrupted writes of npy files. *)
From Coq Require Import List Arith NArith ZArith Ascii String Bool.
From Verif Require Import Common TextModel NdArrayModel NdArraySpec AsciiModel NpyModel NpySpec.
Import ListNotations.
Local Notation length := List.length.
Local Open Scope nat_scope.

(** What is left of the elements when [q] bytes of them are in the file: the bytes that
    are missing are zeros. In particular the elements whose bytes are all in the file are
    unchanged, and those of which no byte is in the file are zero. *)
Definition left_of (ty : npy_type) (q : nat) (elements found : list text) : Prop :=
  length found = length elements /\
  forall i x, nth_error elements i = Some x ->
    nth_error found i =
      Some (firstn (q - i * item_bytes ty) x ++ repeat zero_byte (item_bytes ty - (q - i * item_bytes ty))).

(** The number of bytes before the end of the shape in the header: a magic sequence,
    version and length of 12 bytes, and the dictionary without its last brace. *)
Definition shape_end (ty : npy_type) (shape : list nat) (names : list text) : nat :=
  12 + length (file_dict ty shape names) - 1.

(** Element [i] of the file, as a memory-mapped array gives it. *)
Definition gives (m : mmap) (elements : list text) : Prop :=
  mm_n m = length elements /\ forall i x, nth_error elements i = Some x -> mm_get m i = Ok x.
