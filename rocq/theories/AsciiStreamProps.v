(** Several ASCII tables in one stream. *)
From Coq Require Import ZArith List Arith Ascii String Bool Lia.
From Verif Require Import Common TextModel DblModel TableModel TableSpec AsciiModel AsciiSpec AsciiProofs3 AsciiCrashSpec AsciiProps AsciiStreamModel AsciiStreamSpec AsciiStreamProofs.
Import ListNotations.
Local Notation length := List.length.

(** ** C167: tables that follow each other in one stream *)

(** Whatever is in the stream after what the writers added, readers that take turns on it, each asked for the number of
    rows of its part, get the tables back one after the other, each with its own columns, and leave the stream just
    after the last row. *)
Theorem C167_several_tables : forall ff fd pf pd ps, Forall (good_part ff fd pf pd) ps ->
  exists out, (forall stream, write_parts ff fd stream ps = Ok (stream ++ out)) /\
    forall after, exists ts, read_parts pf pd (lines_of (out ++ after)) ps = (map Ok ts, lines_of after) /\
      Forall2 (fun t p => holds_rows t (t_info (p_first p)) (p_rows p)) ts ps.
Proof.
  intros ff fd pf pd ps G. destruct (all_parts ff fd pf pd ps G) as (L & N & W & R). exists (flat L). split; [exact W|].
  intros after. rewrite lines_flat by exact N. apply R.
Qed.
Print Assumptions C167_several_tables.

(** Together the writers add to the stream what each of them would write to a file of its own, comments included. *)
Theorem C167_writers : forall ff fd ps outs, Forall2 (fun p out => write_file ff fd (p_ind p) (p_comments p) (p_tables p) = Ok out) ps outs ->
  forall stream, write_parts ff fd stream ps = Ok (stream ++ flat_map (fun out => out) outs).
Proof.
  intros ff fd ps outs F. induction F as [|p out ps outs H F IH]; intros stream; cbn [write_parts flat_map]; [rewrite app_nil_r; reflexivity|].
  rewrite (use_writer_file ff fd stream _ _ _ out H). cbn [bind]. rewrite IH, app_assoc. reflexivity.
Qed.
Print Assumptions C167_writers.

(** Writers that take turns on a stream call by call, in any order and also with calls that throw: of the stream, each
    writer has put there, piece by piece, exactly what it would have written to a stream of its own. *)
Theorem C167_turns : forall ff fd calls ws stream, shared_calls ff fd (fun _ => new_awriter) [] calls = Ok (ws, stream) ->
  forall k, exists w, own_stream ff fd new_awriter (of_writer k calls) = Ok w /\ text_of_writer k stream = aw_out w.
Proof.
  intros ff fd calls ws stream H k. destruct (shared_alone ff fd calls _ _ _ _ H k) as (A & s & T & O). exists (ws k). split; [exact A|].
  rewrite T, O. reflexivity.
Qed.
Print Assumptions C167_turns.

(** The first reader must be told the number of rows: asked for everything it takes the rows of the next table too,
    under its own columns, and the next reader finds nothing. *)
Definition lengths : table := one_table [col "length" TInt "m" ""] [[CInt 1]; [CInt 2]].
Definition masses : table := one_table [col "mass" TInt "kg" ""] [[CInt 30]].
Definition two_parts : list part := [mkPart (txt "#") [] lengths []; mkPart (txt "#") [txt "second"] masses []].
Definition stream_of (o : outcome text) : text := match o with Ok s => s | _ => [] end.
Definition two_text : text := stream_of (write_parts no_text no_text [] two_parts).
Theorem C167_read_all_refuted : exists t rest,
  use_reader no_read no_read (lines_of two_text) (txt "#") (-1) = (Ok t, rest) /\
  map cd_name (t_info t) = [txt "length"] /\ map r_values (t_rows t) = [[CInt 1]; [CInt 2]; [CInt 30]] /\
  fst (use_reader no_read no_read rest (txt "#") (-1)) = Throw.
Proof.
  set (r := use_reader no_read no_read (lines_of two_text) (txt "#") (-1)).
  exists (match fst r with Ok t => t | _ => lengths end), (snd r). split; [vm_compute; reflexivity|]. unfold r. do 2 (split; [vm_compute; reflexivity|]). vm_compute. reflexivity.
Qed.
Print Assumptions C167_read_all_refuted.
(** A reader that stops before the last row of a part leaves the rest to the next one, which takes the row for the
    beginning of a table without names. *)
Theorem C167_stop_early_refuted : exists t rest t2 rest2,
  use_reader no_read no_read (lines_of two_text) (txt "#") 1 = (Ok t, rest) /\ map r_values (t_rows t) = [[CInt 1]] /\
  use_reader no_read no_read rest (txt "#") 1 = (Ok t2, rest2) /\ map cd_name (t_info t2) = [txt "col1"] /\
  map r_values (t_rows t2) = [[CString (txt "2")]].
Proof.
  set (r := use_reader no_read no_read (lines_of two_text) (txt "#") 1). set (r2 := use_reader no_read no_read (snd r) (txt "#") 1).
  exists (match fst r with Ok t => t | _ => lengths end), (snd r), (match fst r2 with Ok t => t | _ => lengths end), (snd r2).
  unfold r2, r. do 4 (split; [vm_compute; reflexivity|]). vm_compute. reflexivity.
Qed.
Print Assumptions C167_stop_early_refuted.

(** The two tables above, read in turns. *)
Example C167_example : match read_parts no_read no_read (lines_of (two_text ++ txt "end")) two_parts with
  | ([Ok t; Ok u], rest) => map cd_name (t_info t) = [txt "length"] /\ map r_values (t_rows t) = [[CInt 1]; [CInt 2]] /\
      map cd_name (t_info u) = [txt "mass"] /\ map r_values (t_rows u) = [[CInt 30]] /\ rest = [txt "end"]
  | _ => False
  end.
Proof. vm_compute. repeat split; reflexivity. Qed.

(** The hypothesis holds of parts that are not trivial: the table of C48, twice. *)
Example C167_hypotheses : Forall (good_part no_text no_text no_read no_read) (repeat (mkPart (txt "#") [txt "Made by hand"] example_table []) 2).
Proof.
  destruct C48_case_hypotheses as (H1 & H2 & H3 & H4 & H5 & _ & H7).
  assert (G : good_part no_text no_text no_read no_read (mkPart (txt "#") [txt "Made by hand"] example_table [])).
  { unfold good_part, p_tables. cbn [p_ind p_comments p_first p_more]. split; [exact H1|]. split; [exact H2|]. split; [constructor; [exact H3|constructor]|].
    split; [intros x []|]. split; [exact H4|]. split; [exact H5|]. intros x r [<- |[]] I. exact (H7 r I). }
  cbn [repeat]. constructor; [exact G|]. constructor; [exact G|constructor].
Qed.

(** A writer that is used while another one is not finished: the second header stands between the rows of the first
    table, and a second addComment of the first writer throws. *)
Definition turns : list (nat * wcall) :=
  [(0, AddData lengths); (1, SetIndicator (txt "%")); (1, AddData masses); (0, AddComment (txt "late")); (0, AddData lengths)].
Example C167_turns_example : match shared_calls no_text no_text (fun _ => new_awriter) [] turns with
  | Ok (_, stream) => map fst stream = [0; 1; 1; 0] /\ length (lines_of (stream_text stream)) = 14 /\
      last (lines_of (text_of_writer 0 stream)) (txt "x") = [] /\ length (lines_of (text_of_writer 1 stream)) = 6
  | _ => False
  end.
Proof. vm_compute. repeat split; reflexivity. Qed.
