(** Model of several ASCII tables in one stream: writers and readers that hold a reference to the stream of the
    caller (AlexandriaKernel/_impl/InstOrRefHolder.icpp:44-54 and 66-69, Table/src/lib/AsciiWriter.cpp:35-37,
    AsciiReader.cpp:51-53 in /repo). See AsciiModel.v for the writer and the reader.

    A writer appends to the stream; a reader leaves the stream where it stops to read. The stream can be
    repositioned, as the reader needs (ReaderHelper.h). *)
From Coq Require Import ZArith List Ascii String Bool.
From Verif Require Import Common TextModel DblModel TableModel AsciiModel.
Import ListNotations.

Section Floats.
Variables ff fd : dbl -> text.
Variables pf pd : text -> option dbl.

(** AsciiWriter.cpp:35: a new writer on the stream, setCommentIndicator, the calls of addComment and addData. The
    result is the stream afterwards. *)
Fixpoint writer_comments (w : awriter) (cs : list text) : outcome awriter :=
  match cs with [] => Ok w | c :: r => do w1 <- aw_comment w c; writer_comments w1 r end.
Fixpoint writer_tables (w : awriter) (ts : list table) : outcome awriter :=
  match ts with [] => Ok w | t :: r => do w1 <- aw_add ff fd w t; writer_tables w1 r end.
Definition use_writer (stream ind : text) (comments : list text) (tables : list table) : outcome text :=
  do w0 <- aw_set_comment new_awriter ind;
  do w1 <- writer_comments w0 comments;
  do w2 <- writer_tables w1 tables;
  Ok (stream ++ aw_out w2).

(** AsciiReader.cpp:51: a new reader on the stream, here the [lines] ahead, setCommentIndicator and one call
    read(rows), and the lines it leaves to the next user of the stream. *)
Definition use_reader (lines : list text) (ind : text) (rows : Z) : outcome table * list text :=
  match ar_set_comment (mkAr (txt "#") [] [] false None lines) ind with
  | Ok a => let (o, a1) := ar_read pf pd a rows in (o, ar_lines a1)
  | Throw => (Throw, lines)
  | UB => (UB, lines)
  | Diverge => (Diverge, lines)
  end.

(** The calls of a writer (AsciiWriter.h: setCommentIndicator, showColumnInfo, addComment, addData). *)
Inductive wcall : Type :=
| SetIndicator (ind : text) | ShowInfo (show : bool) | AddComment (message : text) | AddData (t : table).
Definition do_call (w : awriter) (c : wcall) : outcome awriter :=
  match c with
  | SetIndicator ind => aw_set_comment w ind
  | ShowInfo b => aw_show_info w b
  | AddComment m => aw_comment w m
  | AddData t => aw_add ff fd w t
  end.
(** Several writers on one stream, known by their numbers. The stream is the list of what the calls put into it, with
    the number of the writer. An exception leaves the writer and the stream as they are (AsciiWriter.cpp:43-97 and
    TableWriter.cpp check before they write) and the program goes on. *)
Definition writers : Type := nat -> awriter.
Definition set_writer (ws : writers) (k : nat) (w : awriter) : writers := fun j => if Nat.eqb j k then w else ws j.
Definition shared_call (ws : writers) (stream : list (nat * text)) (k : nat) (c : wcall) : outcome (writers * list (nat * text)) :=
  match do_call (ws k) c with
  | Ok w => Ok (set_writer ws k w, stream ++ [(k, skipn (List.length (aw_out (ws k))) (aw_out w))])
  | Throw => Ok (ws, stream)
  | UB => UB
  | Diverge => Diverge
  end.
Fixpoint shared_calls (ws : writers) (stream : list (nat * text)) (calls : list (nat * wcall)) : outcome (writers * list (nat * text)) :=
  match calls with
  | [] => Ok (ws, stream)
  | (k, c) :: r => do p <- shared_call ws stream k c; shared_calls (fst p) (snd p) r
  end.
End Floats.
