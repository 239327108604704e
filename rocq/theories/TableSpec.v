(** Vocabulary for the statements about tables. *)
From Coq Require Import List Arith ZArith Ascii String Bool.
From Verif Require Import Common TextModel DblModel TableModel.
Import ListNotations.

(** Line feed, vertical tab, form feed and carriage return. *)
Definition line_breaks : list ascii :=
  [ascii_of_nat 10; ascii_of_nat 11; ascii_of_nat 12; ascii_of_nat 13].
Definition one_line (s : text) : Prop := forall c, In c line_breaks -> ~ In c s.

Definition names_of (i : list coldesc) : list text := map cd_name i.
(** What two columns must share to be the same column. *)
Definition columns_of (i : list coldesc) : list (text * ctype * text) :=
  map (fun d => (cd_name d, cd_type d, cd_unit d)) i.

(** A list of cells that fits the columns. *)
Definition fits (values : list cell) (i : colinfo) : Prop :=
  map type_of values = map cd_type i /\
  forall s, In (CString s) values -> s <> [] /\ one_line s.

Definition is_int32 (z : Z) : Prop := (- 2 ^ 31 <= z <= 2 ^ 31 - 1)%Z.
Definition is_int64 (z : Z) : Prop := (- 2 ^ 63 <= z <= 2 ^ 63 - 1)%Z.
(** The integers of a cell are in the range of their C++ type. *)
Definition cell_ok (c : cell) : Prop :=
  match c with
  | CInt z => is_int32 z
  | CLong z => is_int64 z
  | CVInt l | CNInt _ l => Forall is_int32 l
  | CVLong l | CNLong _ l => Forall is_int64 l
  | _ => True
  end.

(** The value of a sequence of decimal digits. *)
Definition ten_digits : text := txt "0123456789".
Inductive decimal : text -> Z -> Prop :=
| decimal_nil : decimal [] 0
| decimal_snoc ds v c d : decimal ds v -> nth_error ten_digits d = Some c -> decimal (ds ++ [c]) (10 * v + Z.of_nat d).
(** The text starts with the integer: white space, a sign, and all the digits up to the
    first other character. *)
Definition white_space : list ascii := map ascii_of_nat [9; 10; 11; 12; 13; 32]%nat.
Definition starts_with_integer (s : text) (v : Z) : Prop :=
  exists blanks sign ds rest w, s = blanks ++ sign ++ ds ++ rest /\
    Forall (fun c => In c white_space) blanks /\ ds <> [] /\ decimal ds w /\
    (forall c r, rest = c :: r -> ~ In c ten_digits) /\
    ((sign = [] \/ sign = txt "+") /\ v = w \/ sign = txt "-" /\ v = (- w)%Z).

(** Appending tables one after the other. *)
Fixpoint add_all (w : twriter) (ts : list table) : outcome twriter :=
  match ts with
  | [] => Ok w
  | t :: r => do w1 <- add_data w t; add_all w1 r
  end.
Definition empty_writer : twriter := mkWriter None [].
