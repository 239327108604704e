(** Model of the Table module: column descriptions, column info, rows, tables,
    the cast visitors and the appending check of the writers.

    Simplifications. Finite floating point cells are rationals and the
    conversions from integers to floating point types are exact (no rounding).
    NdArray cells are a shape and a flat list of values. *)
From Coq Require Import QArith ZArith List Arith Ascii String Bool.
From Verif Require Import Common TextModel DblModel.
Import ListNotations.
Local Open Scope nat_scope.
Local Notation length := List.length.

(** Row.h:68-71 (cell_type, the variant) and the std::type_index of each alternative. *)
Inductive ctype : Type :=
| TBool | TInt | TLong | TFloat | TDouble | TString
| TVBool | TVInt | TVLong | TVFloat | TVDouble
| TNInt | TNLong | TNFloat | TNDouble.

Inductive cell : Type :=
| CBool (b : bool) | CInt (z : Z) | CLong (z : Z) | CFloat (d : dbl) | CDouble (d : dbl)
| CString (s : text)
| CVBool (l : list bool) | CVInt (l : list Z) | CVLong (l : list Z)
| CVFloat (l : list dbl) | CVDouble (l : list dbl)
| CNInt (sh : list Z) (l : list Z) | CNLong (sh : list Z) (l : list Z)
| CNFloat (sh : list Z) (l : list dbl) | CNDouble (sh : list Z) (l : list dbl).

(** boost::variant::type(). *)
Definition type_of (c : cell) : ctype :=
  match c with
  | CBool _ => TBool | CInt _ => TInt | CLong _ => TLong | CFloat _ => TFloat
  | CDouble _ => TDouble | CString _ => TString | CVBool _ => TVBool | CVInt _ => TVInt
  | CVLong _ => TVLong | CVFloat _ => TVFloat | CVDouble _ => TVDouble | CNInt _ _ => TNInt
  | CNLong _ _ => TNLong | CNFloat _ _ => TNFloat | CNDouble _ _ => TNDouble
  end.

Definition ctype_eqb (a b : ctype) : bool :=
  match a, b with
  | TBool, TBool | TInt, TInt | TLong, TLong | TFloat, TFloat | TDouble, TDouble
  | TString, TString | TVBool, TVBool | TVInt, TVInt | TVLong, TVLong | TVFloat, TVFloat
  | TVDouble, TVDouble | TNInt, TNInt | TNLong, TNLong | TNFloat, TNFloat
  | TNDouble, TNDouble => true
  | _, _ => false
  end.

(** The regular expression ".*\\v.*" (ColumnDescription.cpp:45, Row.cpp:86,
    AsciiReader.cpp:79): the text has a line feed, vertical tab, form feed or
    carriage return. *)
Definition is_vertical (c : ascii) : bool := Nat.leb 10 (byte c) && Nat.leb (byte c) 13.
Definition has_vertical (s : text) : bool := existsb is_vertical s.

(** ColumnDescription.h:80-83. *)
Record coldesc : Type := mkDesc { cd_name : text; cd_type : ctype; cd_unit : text; cd_desc : text }.

(** ColumnDescription.cpp:39-49 (constructor). *)
Definition new_desc (name : text) (ty : ctype) (unit desc : text) : outcome coldesc :=
  match name with
  | [] => Throw
  | _ => if has_vertical name then Throw else Ok (mkDesc name ty unit desc)
  end.

(** ColumnDescription.h:76-78 (operator==): the description text is ignored. *)
Definition desc_eqb (a b : coldesc) : bool :=
  text_eqb (cd_name a) (cd_name b) && ctype_eqb (cd_type a) (cd_type b) &&
  text_eqb (cd_unit a) (cd_unit b).

(** ColumnInfo.h (m_info_list). *)
Definition colinfo : Type := list coldesc.

(** ColumnInfo.cpp:37-43: every name is inserted in a set. *)
Fixpoint insert_names (seen : list text) (l : list coldesc) : outcome unit :=
  match l with
  | [] => Ok tt
  | d :: r =>
      if existsb (text_eqb (cd_name d)) seen then Throw else insert_names (cd_name d :: seen) r
  end.
(** ColumnInfo.cpp:33-44 (constructor). *)
Definition new_info (l : list coldesc) : outcome colinfo :=
  match l with
  | [] => Throw
  | _ => do _ <- insert_names [] l; Ok l
  end.

(** ColumnInfo.cpp:46-51 (operator==). *)
Fixpoint all_eqb (a b : list coldesc) : bool :=
  match a, b with
  | [], _ => true
  | x :: r, y :: s => desc_eqb x y && all_eqb r s
  | _ :: _, [] => false
  end.
Definition info_eqb (a b : colinfo) : bool :=
  if negb (Nat.eqb (length a) (length b)) then false else all_eqb a b.

(** ColumnInfo.cpp:61-66 (getDescription by index). *)
Definition get_desc (i : colinfo) (k : nat) : outcome coldesc :=
  if Nat.leb (length i) k then Throw else of_option (nth_error i k).
(** ColumnInfo.cpp:76-85 (find). *)
Fixpoint find_col (i : colinfo) (name : text) : option nat :=
  match i with
  | [] => None
  | d :: r => if text_eqb (cd_name d) name then Some 0 else option_map S (find_col r name)
  end.
(** ColumnInfo.cpp:68-74 (getDescription by name). *)
Definition get_desc_by_name (i : colinfo) (name : text) : outcome coldesc :=
  match find_col i name with
  | None => Throw
  | Some k => of_option (nth_error i k)
  end.

(** Row.h:157-158. *)
Record row : Type := mkRow { r_values : list cell; r_info : colinfo }.

(** Row.cpp:77-85: the type of each cell against its column. *)
Fixpoint check_types (info : colinfo) (k : nat) (l : list cell) : outcome unit :=
  match l with
  | [] => Ok tt
  | c :: r =>
      do d <- get_desc info k;
      if ctype_eqb (type_of c) (cd_type d) then check_types info (S k) r else Throw
  end.
(** Row.cpp:87-98: the texts of the string cells. *)
Fixpoint check_texts (l : list cell) : outcome unit :=
  match l with
  | [] => Ok tt
  | CString s :: r =>
      match s with
      | [] => Throw
      | _ => if has_vertical s then Throw else check_texts r
      end
  | _ :: r => check_texts r
  end.
(** Row.cpp:69-99 (constructor); [None] is the null pointer. *)
Definition new_row (values : list cell) (info : option colinfo) : outcome row :=
  match info with
  | None => Throw
  | Some i =>
      if negb (Nat.eqb (length values) (length i)) then Throw
      else do _ <- check_types i 0 values;
           do _ <- check_texts values;
           Ok (mkRow values i)
  end.

(** Row.cpp:109-114 (operator[] by index). *)
Definition row_at (r : row) (k : nat) : outcome cell :=
  if Nat.leb (length (r_values r)) k then Throw else of_option (nth_error (r_values r) k).
(** Row.cpp:116-122 (operator[] by column name). *)
Definition row_named (r : row) (name : text) : outcome cell :=
  match find_col (r_info r) name with
  | None => Throw
  | Some k => of_option (nth_error (r_values r) k)
  end.

(** Table.h (m_row_list, m_column_info). *)
Record table : Type := mkTable { t_rows : list row; t_info : colinfo }.

(** Table.cpp:31-46 (constructor). *)
Definition new_table (rows : list row) : outcome table :=
  match rows with
  | [] => Throw
  | r0 :: _ =>
      if forallb (fun r => info_eqb (r_info r) (r_info r0)) rows
      then Ok (mkTable rows (r_info r0)) else Throw
  end.

(** Table.cpp:56-61 (operator[]). *)
Definition table_at (t : table) (k : nat) : outcome row :=
  if Nat.leb (length (t_rows t)) k then Throw else of_option (nth_error (t_rows t) k).

(** TableWriter.cpp:31-40 (addData): [w] is m_column_info and the rows appended
    so far. The concrete writers are modelled elsewhere. *)
Record twriter : Type := mkWriter { w_info : option colinfo; w_rows : list row }.
Definition add_data (w : twriter) (t : table) : outcome twriter :=
  match w_info w with
  | None => Ok (mkWriter (Some (t_info t)) (w_rows w ++ t_rows t))
  | Some i =>
      if negb (info_eqb i (t_info t)) then Throw
      else Ok (mkWriter (Some i) (w_rows w ++ t_rows t))
  end.

(** ** CastVisitor *)

(** std::strtoll(s, &end, 10): leading white space, a sign, digits; saturates
    at the bounds of int64_t. [None]: nothing was parsed (end == s). *)
Definition digit_val (c : ascii) : option Z :=
  if Nat.leb 48 (byte c) && Nat.leb (byte c) 57 then Some (Z.of_nat (byte c - 48)) else None.
Fixpoint leading_digits (acc : Z) (s : text) : Z :=
  match s with
  | c :: r => match digit_val c with Some d => leading_digits (10 * acc + d) r | None => acc end
  | [] => acc
  end.
Definition starts_with_digit (s : text) : bool :=
  match s with c :: _ => match digit_val c with Some _ => true | None => false end | [] => false end.
Definition int64_min : Z := (- 2 ^ 63)%Z.
Definition int64_max : Z := (2 ^ 63 - 1)%Z.
Definition int32_min : Z := (- 2 ^ 31)%Z.
Definition int32_max : Z := (2 ^ 31 - 1)%Z.
Definition clamp64 (z : Z) : Z := Z.max int64_min (Z.min int64_max z).
Definition strtoll (s : text) : option Z :=
  let s1 := drop_while is_space s in
  match s1 with
  | "-"%char :: r => if starts_with_digit r then Some (clamp64 (- leading_digits 0 r)) else None
  | "+"%char :: r => if starts_with_digit r then Some (clamp64 (leading_digits 0 r)) else None
  | _ => if starts_with_digit s1 then Some (clamp64 (leading_digits 0 s1)) else None
  end.

Definition of_bool (b : bool) : Z := if b then 1%Z else 0%Z.
Definition dbl_of_Z (z : Z) : dbl := Fin (inject_Z z).
Definition is_infinite (d : dbl) : bool := match d with PInf | NInf => true | _ => false end.

Section Casts.
(** std::strtod and std::strtof: [None] when nothing was parsed. *)
Variable strtod : text -> option dbl.

(** CastVisitor.h:86-96 (string to double) and, with strtof, 119-129. *)
Definition dbl_of_text (s : text) : outcome dbl :=
  match strtod s with
  | None => Throw
  | Some d => if is_infinite d then Throw else Ok d
  end.

(** CastVisitor.h:67-97 (CastVisitor<double>). *)
Definition cast_double (c : cell) : outcome dbl :=
  match c with
  | CBool b => Ok (dbl_of_Z (of_bool b))
  | CInt z | CLong z => Ok (dbl_of_Z z)
  | CFloat d | CDouble d => Ok d
  | CString s => dbl_of_text s
  | _ => Throw
  end.
(** CastVisitor.h:99-130 (CastVisitor<float>); [strtod] stands for strtof. *)
Definition cast_float (c : cell) : outcome dbl :=
  match c with
  | CBool b => Ok (dbl_of_Z (of_bool b))
  | CInt z | CLong z => Ok (dbl_of_Z z)
  | CFloat d => Ok d
  | CString s => dbl_of_text s
  | _ => Throw
  end.

(** boost::tokenizer with char_separator{","}: empty tokens are dropped. *)
Definition is_comma (c : ascii) : bool := Ascii.eqb c ","%char.
Definition comma_tokens (s : text) : list text :=
  filter (fun t => match t with [] => false | _ => true end) (split_on is_comma s).

Fixpoint map_o {A B : Type} (f : A -> outcome B) (l : list A) : outcome (list B) :=
  match l with
  | [] => Ok []
  | x :: r => do y <- f x; do ys <- map_o f r; Ok (y :: ys)
  end.

(** CastVisitor.h:194-228 (CastVisitor<std::vector<double>>). *)
Definition cast_vdouble (c : cell) : outcome (list dbl) :=
  match c with
  | CString s => map_o dbl_of_text (comma_tokens s)
  | CVBool l => map_o (fun b => cast_double (CBool b)) l
  | CVInt l => map_o (fun z => cast_double (CInt z)) l
  | CVLong l => map_o (fun z => cast_double (CLong z)) l
  | CVFloat l => map_o (fun d => cast_double (CFloat d)) l
  | CVDouble l => Ok l
  | _ => do d <- cast_double c; Ok [d]
  end.
End Casts.

(** CastVisitor.h:132-159 (CastVisitor<int64_t>). *)
Definition cast_long (c : cell) : outcome Z :=
  match c with
  | CBool b => Ok (of_bool b)
  | CInt z | CLong z => Ok z
  | CString s => match strtoll s with None => Throw | Some z => Ok z end
  | _ => Throw
  end.
(** CastVisitor.h:161-192 (CastVisitor<int32_t>). *)
Definition cast_int (c : cell) : outcome Z :=
  match c with
  | CBool b => Ok (of_bool b)
  | CInt z => Ok z
  | CString s =>
      match strtoll s with
      | None => Throw
      | Some z => if Z.ltb int32_max z || Z.ltb z int32_min then Throw else Ok z
      end
  | _ => Throw
  end.
(** CastVisitor.h:40-53 (the generic CastVisitor, here for bool). *)
Definition cast_bool (c : cell) : outcome bool :=
  match c with CBool b => Ok b | _ => Throw end.
