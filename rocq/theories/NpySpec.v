(** Vocabulary of the statements about npy files. *)
From Coq Require Import List Arith NArith ZArith Ascii String Bool.
From Verif Require Import Common TextModel NdArrayModel NdArraySpec AsciiModel NpyModel.
Import ListNotations.
Local Notation length := List.length.
Local Open Scope nat_scope.

Definition contains (needle s : text) : Prop := exists l r, s = l ++ needle ++ r.

(** Attribute names that do not interfere with the text of the header. *)
Definition good_name (a : text) : Prop :=
  ~ In quote a /\ ~ In "]"%char a /\
  ~ contains (txt "shape") a /\ ~ contains (txt "fortran_order") a.

(** A view that can be written: its attribute names, if any, name the elements of
    its last axis, which is not the only one. *)
Definition names_last_axis (a : ndarray) : Prop :=
  nd_attrs a = [] \/
  (nd_attrs a <> [] /\ length (nd_attrs a) = last (nd_shape a) 0 /\ 2 <= length (nd_shape a)).

(** The number of bytes of a value of the type, and numpy's name of the type (the kind
    and the number of bytes). *)
Definition item_bytes (ty : npy_type) : nat :=
  match ty with
  | I8 | U8 => 1 | I16 | U16 => 2 | I32 | U32 | F32 => 4 | I64 | U64 | F64 => 8
  end.
Definition item_kind (ty : npy_type) : ascii :=
  match ty with
  | I8 | I16 | I32 | I64 => "i" | U8 | U16 | U32 | U64 => "u" | F32 | F64 => "f"
  end%char.
Definition numpy_type (ty : npy_type) : text := item_kind ty :: digits (Z.of_nat (item_bytes ty)).

(** The name of the type in the files of the library: numpy's, but for the types of one
    byte its short names b and B. *)
Definition file_type (ty : npy_type) : text :=
  match ty with I8 => txt "b" | U8 => txt "B" | _ => numpy_type ty end.
(** The dictionary of a file of the library: little endian, C order, one length per axis,
    each followed by a comma; with names a structured type, one field per name, and the
    shape without the last axis. *)
Definition file_dict (ty : npy_type) (shape : list nat) (names : list text) : text :=
  txt "{'descr': " ++
  match names with
  | [] => txt "'<" ++ file_type ty ++ txt "'"
  | _ => txt "[" ++ List.concat (map (fun n => txt "('" ++ n ++ txt "', '<" ++ file_type ty ++ txt "'), ") names) ++ txt "]"
  end ++
  txt ", 'fortran_order': False, 'shape': (" ++
  List.concat (map (fun n => digits (Z.of_nat n) ++ txt ",") match names with [] => shape | _ => removelast shape end) ++ txt ")}".

(** The elements are of the type. *)
Definition typed (ty : npy_type) (data : list text) : Prop :=
  Forall (fun x => length x = item_bytes ty) data.

(** Two arrays agree: same shape, same names, same element (or exception) at all
    coordinates, same sequence. *)
Definition same_array (h1 : heap text) (a : ndarray) (h2 : heap text) (b : ndarray) : Prop :=
  nd_shape a = nd_shape b /\ nd_attrs a = nd_attrs b /\
  (forall coords, nd_at h1 a coords = nd_at h2 b coords) /\
  nd_elements h1 a = nd_elements h2 b.

(** The files of numpy.save (numpy/lib/format.py): version 1.0, a 16-bit header
    length, a dictionary with the sorted keys, ", " between the elements of a tuple
    and a trailing comma in a tuple of one element; any padding, which ends with
    a newline. *)
Fixpoint tuple_items (shape : list nat) : text :=
  match shape with
  | [] => []
  | [n] => digits (Z.of_nat n)
  | n :: r => digits (Z.of_nat n) ++ txt ", " ++ tuple_items r
  end.
Definition python_tuple (shape : list nat) : text :=
  match shape with
  | [n] => txt "(" ++ digits (Z.of_nat n) ++ txt ",)"
  | _ => txt "(" ++ tuple_items shape ++ txt ")"
  end.
Definition numpy_dict (byte_order type : text) (fortran : bool) (shape : list nat) : text :=
  txt "{'descr': '" ++ byte_order ++ type ++ txt "', 'fortran_order': " ++
  (if fortran then txt "True" else txt "False") ++ txt ", 'shape': " ++ python_tuple shape ++ txt ", }".
Definition numpy_file (dict padding data : text) : text :=
  npy_magic ++ [ascii_of_nat 1; ascii_of_nat 0] ++
  le_bytes 2 (N.of_nat (length (dict ++ padding))) ++ dict ++ padding ++ data.

(** ** Memory-mapped files *)

(** The file is byte for byte what writeNpy writes for an array of the type with
    this shape (which includes the axis of the attribute names), these names and
    these elements. *)
Definition file_of (ty : npy_type) (shape : list nat) (attrs : list string) (elements : list text)
    (file : text) : Prop :=
  exists h a, built text a shape attrs /\ holds h a elements /\ length elements = prod shape /\
    typed ty elements /\ write_npy ty h a = Ok file.

(** The container gives access to the elements of such a file. *)
Definition represents (m : mmap) (shape : list nat) (attrs : list string) (elements : list text) : Prop :=
  file_of (mm_type m) shape attrs elements (mm_file m) /\
  mm_attrs m = attr_texts attrs /\ mm_n m = length elements /\
  (forall i, mm_get m i = of_option (nth_error elements i)).

(** Headers whose length fits its field. *)
Definition short_header (file : text) (elements : list text) : Prop :=
  exists header, file = header ++ List.concat elements /\ below_2_32 (length header).
(** Files that can be opened again. *)
Definition readable (shape : list nat) (attrs : list string) (elements : list text) (file : text) : Prop :=
  (attrs = [] \/ 2 <= length shape) /\ Forall good_name (attr_texts attrs) /\
  0 < prod shape /\ short_header file elements.
Definition zero_element (ty : npy_type) : text := repeat zero_byte (item_bytes ty).

(** What a sequence of operations on a memory-mapped array amounts to. *)
Inductive history : mmap -> list nat -> list string -> list text -> Prop :=
| h_create ty shape attrs max_size m :
    shape <> [] -> below_2_31 (prod (append_attr_shape shape (length attrs))) ->
    create_mmap ty shape (attr_texts attrs) max_size = Ok m ->
    history m (append_attr_shape shape (length attrs)) attrs
      (repeat (zero_element ty) (prod (append_attr_shape shape (length attrs))))
| h_open ty shape attrs elements file max_size shape' m :
    file_of ty shape attrs elements file -> shape <> [] -> below_2_31 (prod shape) ->
    readable shape attrs elements file -> max_size = 0 \/ length file <= max_size ->
    open_mmap ty file max_size = Ok (shape', m) ->
    history m shape attrs elements
| h_set m shape attrs elements i x m' elements' :
    history m shape attrs elements -> length x = item_bytes (mm_type m) ->
    set_nth elements i x = Some elements' -> mm_set m i x = Ok m' ->
    history m' shape attrs elements'
| h_resize m shape attrs elements shape' m' :
    history m shape attrs elements -> shape' <> [] -> below_2_31 (prod shape') ->
    mm_resize m shape' = (Ok tt, m') ->
    history m' shape' attrs (resize_vector (zero_element (mm_type m)) elements (prod shape')).
