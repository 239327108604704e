(** Vocabulary for several ASCII tables in one stream. *)
From Coq Require Import ZArith List Ascii String Bool.
From Verif Require Import Common TextModel DblModel TableModel TableSpec AsciiModel AsciiSpec AsciiCrashSpec AsciiStreamModel.
Import ListNotations.
Local Notation length := List.length.

(** What one writer adds to the stream: comments, then tables with the same columns. *)
Record part : Type := mkPart { p_ind : text; p_comments : list text; p_first : table; p_more : list table }.
Definition p_tables (p : part) : list table := p_first p :: p_more p.
Definition p_rows (p : part) : list (list cell) := map r_values (flat_map t_rows (p_tables p)).

Section Floats.
Variables ff fd : dbl -> text.
Variables pf pd : text -> option dbl.
(** A part that the format can carry, as in C48. *)
Definition good_part (p : part) : Prop :=
  good_indicator (p_ind p) /\ Forall (harmless_comment (p_ind p)) (p_comments p) /\ Forall built_table (p_tables p) /\
  (forall x, In x (p_more p) -> columns_of (t_info x) = columns_of (t_info (p_first p))) /\
  Forall (carried_column (p_ind p)) (t_info (p_first p)) /\ first_name_ok (t_info (p_first p)) /\
  (forall x r, In x (p_tables p) -> In r (t_rows x) -> carried_row ff fd pf pd (p_ind p) r).

(** One writer after the other on a stream. *)
Fixpoint write_parts (stream : text) (ps : list part) : outcome text :=
  match ps with
  | [] => Ok stream
  | p :: r => do s <- use_writer ff fd stream (p_ind p) (p_comments p) (p_tables p); write_parts s r
  end.
(** One reader after the other, each with the comment indicator of its part and asked for as many rows as were
    written: the results, and the lines left. *)
Fixpoint read_parts (lines : list text) (ps : list part) : list (outcome table) * list text :=
  match ps with
  | [] => ([], lines)
  | p :: r =>
      let (o, rest) := use_reader pf pd lines (p_ind p) (Z.of_nat (length (p_rows p))) in
      let (os, left) := read_parts rest r in (o :: os, left)
  end.

(** One writer with a stream of its own: the calls that throw are passed over. *)
Fixpoint own_stream (w : awriter) (calls : list wcall) : outcome awriter :=
  match calls with
  | [] => Ok w
  | c :: r =>
      match (match c with SetIndicator ind => aw_set_comment w ind | ShowInfo b => aw_show_info w b | AddComment m => aw_comment w m | AddData t => aw_add ff fd w t end)
      with Ok w1 => own_stream w1 r | Throw => own_stream w r | UB => UB | Diverge => Diverge end
  end.
End Floats.
(** The entries of one writer in a list. *)
Definition of_writer {A} (k : nat) (l : list (nat * A)) : list A := map snd (filter (fun p => Nat.eqb (fst p) k) l).
(** What is in the stream, and what one writer put into it. *)
Definition stream_text (l : list (nat * text)) : text := flat_map snd l.
Definition text_of_writer (k : nat) (l : list (nat * text)) : text := flat_map (fun s => s) (of_writer k l).
