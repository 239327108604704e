(** Vocabulary of the statements about FITS tables. *)
From Coq Require Import QArith ZArith List Arith Ascii String Bool.
From Verif Require Import Common TextModel DblModel TableModel TableSpec AsciiModel AsciiSpec FitsModel.
Import ListNotations.
Local Open Scope nat_scope.
Local Notation length := List.length.

(** The shapes of the entries of a column that a binary table can carry: single
    values, texts up to a width, vectors of one length, arrays of one shape. *)
Inductive layout : Type := Single | Chars (width : nat) | Vector (n : nat) | Array (shape : list Z).

Definition has_layout (lay : layout) (c : cell) : Prop :=
  match lay, c with
  | Single, (CBool _ | CInt _ | CLong _ | CFloat _ | CDouble _) => True
  | Chars w, CString s => length s <= w /\ (forall r, s <> r ++ [" "%char])
  | Vector n, (CVInt l | CVLong l) => length l = n
  | Vector n, (CVFloat l | CVDouble l) => length l = n
  | Array sh, (CNInt sh' l | CNLong sh' l) => sh' = sh /\ Z.of_nat (length l) = z_product sh
  | Array sh, (CNFloat sh' l | CNDouble sh' l) => sh' = sh /\ Z.of_nat (length l) = z_product sh
  | _, _ => False
  end.
(** At least two elements, and sizes that fit an int. *)
Definition good_layout (lay : layout) : Prop :=
  match lay with
  | Single => True
  | Chars n | Vector n => 2 <= n /\ (Z.of_nat n <= 2 ^ 31 - 1)%Z
  | Array sh => Forall (fun z => 0 <= z < 2 ^ 64)%Z sh /\ (2 <= z_product sh <= 2 ^ 31 - 1)%Z
  end.

(** The cells of a column. *)
Definition column (k : nat) (t : table) : list cell :=
  map (fun r => nth k (r_values r) (CBool false)) (t_rows t).
(** The tables can be written in one file: every column has a layout, and the
    width of the texts is reached in the first table. *)
Definition fits_binary (t0 : table) (ts : list table) : Prop :=
  forall k, k < length (t_info t0) ->
    exists lay, good_layout lay /\
      Forall (has_layout lay) (flat_map (column k) (t0 :: ts)) /\
      match lay with Chars w => exists s, In (CString s) (column k t0) /\ length s = w | _ => True end.

(** The rows of the tables, one after the other. *)
Definition all_values (ts : list table) : list (list cell) := map r_values (flat_map t_rows ts).
(** Tables that can be built with the public constructors, all with the columns of
    the first, and that a binary FITS table can carry. *)
Definition writable (t0 : table) (ts : list table) : Prop :=
  Forall built_table (t0 :: ts) /\
  Forall (fun t => columns_of (t_info t) = columns_of (t_info t0)) ts /\
  fits_binary t0 ts.

Fixpoint fw_add_all (w : fwriter) (ts : list table) : outcome fwriter :=
  match ts with
  | [] => Ok w
  | t :: r => do w' <- fw_add w t; fw_add_all w' r
  end.
Definition new_fwriter : fwriter := mkFw None [].

(** The reader has consumed [n] rows. *)
Inductive consumed (h : hdu) : nat -> freader -> Prop :=
| consumed_none : consumed h 0 (new_freader h)
| consumed_read n r rows t r' : consumed h n r -> fr_read r rows = Ok (t, r') -> consumed h (n + length (t_rows t)) r'
| consumed_skip n r k r' : consumed h n r -> fr_skip r (Z.of_nat k) = Ok r' -> consumed h (n + k) r'
| consumed_more n r b r' : consumed h n r -> fr_has_more r = Ok (b, r') -> consumed h n r'
| consumed_left n r k r' : consumed h n r -> fr_rows_left r = Ok (k, r') -> consumed h n r'.

(** The type of the elements of vectors and arrays. *)
Definition element_type (ty : ctype) : ctype :=
  match ty with
  | TVBool => TBool
  | TVInt | TNInt => TInt
  | TVLong | TNLong => TLong
  | TVFloat | TNFloat => TFloat
  | TVDouble | TNDouble => TDouble
  | _ => ty
  end.

(** Reading with the given sizes while there are rows. *)
Fixpoint fr_read_all (r : freader) (ks : list Z) : outcome (list (list cell)) :=
  match ks with
  | [] => Ok []
  | k :: rest =>
      do p <- fr_has_more r;
      if fst p then do q <- fr_read (snd p) k; do l <- fr_read_all (snd q) rest; Ok (map r_values (t_rows (fst q)) ++ l)
      else Ok []
  end.

(** What is printed for a cell of a column of single values in an ASCII table. *)
Definition printed (sci : dbl -> text) (c : cell) : text :=
  match c with
  | CInt z | CLong z => int_text z
  | CFloat d | CDouble d => sci d
  | CString s => s
  | _ => []
  end.
(** The letter of the format of such a column. *)
Definition ascii_letter (ty : ctype) : ascii :=
  match ty with TInt | TLong => "I"%char | TFloat | TDouble => "E"%char | _ => "A"%char end.
(** [w] is the length of the longest of the texts. *)
Definition longest_of (w : nat) (l : list text) : Prop :=
  Forall (fun s => length s <= w) l /\ (l <> [] -> Exists (fun s => length s = w) l).
