(** Model of npy files left behind by a program killed while it writes
    (NdArray/NdArray/io/_impl/NpyCommon.h, NpyWriter.icpp, NpyMmap.icpp in /repo).

    Simplifications, valid for the whole file: the bytes reach the file in the order in
    which the program writes them, and what has been written when the program is killed
    is in the file, as the operating system guarantees for a process (not for a power
    failure); see also NpyModel.v. *)
From Coq Require Import List Arith NArith ZArith Ascii String Bool.
From Verif Require Import Common TextModel NdArrayModel AsciiModel NpyModel.
Import ListNotations.
Local Notation length := List.length.
Local Open Scope nat_scope.

(** NpyWriter.icpp:38-45 writeNpy: the file when the program is killed after [k] bytes
    (NpyCommon.h:305-314 writes the magic, version, length and dictionary, then the
    elements follow one by one). *)
Definition write_npy_killed (ty : npy_type) (h : heap text) (a : ndarray) (k : nat) : outcome text :=
  do file <- write_npy ty h a; Ok (firstn k file).

(** NpyMmap.icpp:61-91 createMmapNpy: boost creates the file with its final size
    (lines 78-84), the header is copied to it afterwards (line 87); the file when the
    program is killed after [k] bytes of this copy. *)
Definition create_mmap_killed (ty : npy_type) (shape : list nat) (attrs : list text) (k : nat) : outcome text :=
  do header <- write_npy_header ty (append_attr_shape shape (length attrs)) attrs;
  let n := match attrs with [] => int_product shape | _ :: _ => int_product shape * length attrs end in
  let total_size := length header + n * type_size ty in
  put_bytes (repeat zero_byte total_size) 0 (firstn k header).

(** NpyCommon.h:344-363 MappedContainer::resize: the size of the file is changed first
    (line 361), the header is copied over the old one afterwards (line 362); the file
    when the program is killed after [k] bytes of this copy. *)
Definition resize_killed (m : mmap) (shape : list nat) (k : nat) : outcome text :=
  do header <- write_npy_header (mm_type m) shape (mm_attrs m);
  if negb (Nat.eqb (length header) (mm_offset m)) then Throw
  else
    let new_size := length header + type_size (mm_type m) * u32_product shape in
    if Nat.ltb (mm_max m) new_size then Throw
    else put_bytes (resize_file (mm_file m) new_size) 0 (firstn k header).
