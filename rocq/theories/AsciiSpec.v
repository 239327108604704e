(** Vocabulary for the statements about ASCII tables. *)
From Coq Require Import ZArith List Arith Ascii String Bool.
From Verif Require Import Common TextModel DblModel TableModel TableSpec AsciiModel.
Import ListNotations.
Local Notation length := List.length.

(** A text that is read as one token by both extractors: no white space, no quote. *)
Definition word (s : text) : Prop := s <> [] /\ forall c, In c s -> is_space c = false /\ c <> dq.

(** A comment indicator that can be told from the layout: it has no white space and its
    first character is not one of the characters the writer itself uses. *)
Definition layout_chars : text :=
  txt "Column: -()[]+<>,0123456789abcdefghijklmnopqrstuvwxyz" ++ [dq; bs].
Definition good_indicator (ind : text) : Prop :=
  (exists c0 r, ind = c0 :: r /\ ~ In c0 layout_chars) /\
  forall c, In c ind -> is_space c = false.
(** A text without the first character of the indicator. *)
Definition avoids (ind s : text) : Prop := forall c0 r, ind = c0 :: r -> ~ In c0 s.

Section Floats.
Variables ff fd : dbl -> text.
Variables pf pd : text -> option dbl.

(** A floating point value whose printed text is read back as the value. *)
Definition printable (f : dbl -> text) (p : text -> option dbl) (d : dbl) : Prop :=
  p (f d) = Some d /\ word (f d) /\ ~ In ","%char (f d).
Definition array_ok {A} (sh : list Z) (l : list A) : Prop :=
  l <> [] /\ sh <> [] /\ Forall (fun z => 0 <= z <= 2 ^ 31 - 1)%Z sh /\
  z_product sh = Z.of_nat (length l) /\ (Z.of_nat (length l) < 2 ^ 32)%Z.
(** The cells the format can carry. *)
Definition carried (c : cell) : Prop :=
  match c with
  | CBool _ | CString _ => True
  | CInt z => is_int32 z
  | CLong z => is_int64 z
  | CFloat d => printable ff pf d
  | CDouble d => printable fd pd d
  | CVBool l => l <> []
  | CVInt l => l <> [] /\ Forall is_int32 l
  | CVLong l => l <> [] /\ Forall is_int64 l
  | CVFloat l => l <> [] /\ Forall (printable ff pf) l
  | CVDouble l => l <> [] /\ Forall (printable fd pd) l
  | CNInt sh l => array_ok sh l /\ Forall is_int32 l
  | CNLong sh l => array_ok sh l /\ Forall is_int64 l
  | CNFloat sh l => array_ok sh l /\ Forall (printable ff pf) l
  | CNDouble sh l => array_ok sh l /\ Forall (printable fd pd) l
  end.
(** The first cell of a row is not a text that needs quotes. *)
Definition first_plain (l : list cell) : Prop :=
  match l with CString s :: _ => word s | _ => True end.

(** A row the format can carry, with comment indicator [ind]. *)
Definition carried_row (ind : text) (r : row) : Prop :=
  first_plain (r_values r) /\
  forall c, In c (r_values r) -> carried c /\ forall t, cell_text ff fd c = Ok t -> avoids ind t.
(** A column the format can carry. *)
Definition carried_column (ind : text) (d : coldesc) : Prop :=
  avoids ind (cd_name d) /\ avoids ind (cd_unit d) /\ avoids ind (cd_desc d) /\
  (forall c, In c (cd_unit d) -> is_space c = false) /\ ~ In nl (cd_desc d).
(** The first column is not called "Column:..." (its line would be taken for a description). *)
Definition first_name_ok (i : colinfo) : Prop :=
  match i with d :: _ => starts_with (cd_name d) (txt "Column:") = false | [] => True end.
(** A description text made of words separated by single blanks. *)
Definition plain_description (d : coldesc) : Prop :=
  exists ws, Forall word ws /\ cd_desc d = join sp ws.

(** An object obtained from the constructors. *)
Definition built_table (t : table) : Prop :=
  new_info (t_info t) = Ok (t_info t) /\
  Forall (fun d => new_desc (cd_name d) (cd_type d) (cd_unit d) (cd_desc d) = Ok d) (t_info t) /\
  new_table (t_rows t) = Ok t /\
  Forall (fun r => new_row (r_values r) (Some (r_info r)) = Ok r) (t_rows t).

(** A comment that is not taken for the description of a column. *)
Definition harmless_comment (ind message : text) : Prop :=
  avoids ind message /\
  Forall (fun l => starts_with (trim l) (txt "Column:") = false) (lines_of message).

(** Writing comments, then tables, with a given indicator. *)
Fixpoint add_comments (w : awriter) (cs : list text) : outcome awriter :=
  match cs with
  | [] => Ok w
  | c :: r => do w1 <- aw_comment w c; add_comments w1 r
  end.
Fixpoint add_tables (w : awriter) (ts : list table) : outcome awriter :=
  match ts with
  | [] => Ok w
  | t :: r => do w1 <- aw_add ff fd w t; add_tables w1 r
  end.
Definition write_file (ind : text) (cs : list text) (ts : list table) : outcome text :=
  do w0 <- aw_set_comment new_awriter ind;
  do w1 <- add_comments w0 cs;
  do w2 <- add_tables w1 ts;
  Ok (aw_out w2).
Definition open_reader (ind s : text) : outcome areader := ar_set_comment (new_areader s) ind.

(** ** Reading in chunks *)

(** The lines of data ahead of the reader. *)
Definition data_lines (a : areader) : list text :=
  filter not_empty (map (clean (ar_ind a)) (ar_lines a)).
(** How many lines read(n) asks for. *)
Definition asked (n : Z) (available : nat) : nat :=
  if Z.ltb n 0 then available else Nat.min (Z.to_nat n) available.
(** The reads of a sequence of calls, stopping at the first that does not succeed. *)
Fixpoint read_chunks (a : areader) (ns : list Z) : list (outcome table) * areader :=
  match ns with
  | [] => ([], a)
  | n :: r =>
      let (o, a1) := ar_read pf pd a n in
      let (os, a2) := read_chunks a1 r in (o :: os, a2)
  end.
End Floats.
