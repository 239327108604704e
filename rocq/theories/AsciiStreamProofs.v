(** Proofs about several ASCII tables in one stream. *)
From Coq Require Import ZArith List Arith Ascii String Bool Lia.
From Verif Require Import Common TextModel TextProofs DblModel TableModel TableSpec TableProofs AsciiModel AsciiSpec AsciiProofs AsciiProofs2 AsciiProofs3 AsciiCrashModel AsciiCrashSpec AsciiCrashProofs.
From Verif Require Import AsciiStreamModel AsciiStreamSpec.
Import ListNotations.
Local Notation length := List.length.

Lemma lines_flat L s : Forall (fun x => ~ In nl x) L -> lines_of (flat L ++ s) = L ++ lines_of s.
Proof.
  intros F. assert (NS : forall x, ~ In nl x -> split_on is_nl x = [x]).
  { intros x H. apply split_no_sep. apply Forall_forall. intros c I. unfold is_nl. apply ascii_eqb_neq. intros ->. contradiction. }
  unfold lines_of. induction F as [|x L H F IH]; [reflexivity|].
  rewrite flat_cons. rewrite <- !app_assoc. cbn [app]. rewrite split_app by reflexivity. rewrite IH, NS by exact H. reflexivity.
Qed.

Section Floats.
Variables ff fd : dbl -> text.
Variables pf pd : text -> option dbl.

Lemma use_writer_file stream ind cs ts out : write_file ff fd ind cs ts = Ok out -> use_writer ff fd stream ind cs ts = Ok (stream ++ out).
Proof.
  unfold write_file, use_writer. destruct (aw_set_comment new_awriter ind) as [w0| | |]; cbn [bind]; try discriminate.
  change (writer_comments w0 cs) with (add_comments w0 cs). destruct (add_comments w0 cs) as [w1| | |]; cbn [bind]; try discriminate.
  change (writer_tables ff fd w1 ts) with (add_tables ff fd w1 ts). destruct (add_tables ff fd w1 ts) as [w2| | |]; cbn [bind]; try discriminate. intros H. injection H as <-. reflexivity.
Qed.

Lemma loop_head ind i n h rest : n <> 0%Z -> Forall (silent ind) h -> read_loop pf pd ind i n (h ++ rest) = read_loop pf pd ind i n rest.
Proof.
  intros N F. induction F as [|x h H F IH]; [reflexivity|]. cbn [app read_loop]. destruct (Z.eqb_spec n 0) as [E|_]; [contradiction|].
  unfold silent in H. rewrite H. exact IH.
Qed.
Lemma loop_lines ind (i i2 : colinfo) lines rows rest :
  Forall2 (fun x r => clean ind x <> [] /\ length (tokens (clean ind x)) = length i /\
     read_line pf pd i2 (clean ind x) = Ok (row_with i2 r) /\ trim x <> [] /\ starts_with (trim x) ind = false) lines rows ->
  read_loop pf pd ind i2 (Z.of_nat (length lines)) (lines ++ rest) = (Ok (map (row_with i2) rows), rest).
Proof.
  intros F. induction F as [|x r lines rows [H1 [_ [H2 _]]] F IH].
  - cbn [length app map]. destruct rest; reflexivity.
  - cbn [app read_loop map]. destruct (Z.eqb_spec (Z.of_nat (length (x :: lines))) 0) as [E|_]; [cbn [length] in E; lia|].
    destruct (clean ind x) as [|c q] eqn:E; [congruence|]. rewrite H2.
    replace (Z.of_nat (length (x :: lines)) - 1)%Z with (Z.of_nat (length lines)) by (cbn [length]; lia). rewrite IH. reflexivity.
Qed.

(** A reader on the lines of a part, whatever follows them. *)
Lemma read_part ind cs t ts l lines rest : good_indicator ind -> Forall (harmless_comment ind) cs ->
  built_table t -> Forall (carried_column ind) (t_info t) -> first_name_ok (t_info t) -> name_items (t_info t) l ->
  Forall2 (fun line r => line_of_row pf pd ind (t_info t) (r_values r) line /\ fits (r_values r) (t_info t)) lines (flat_map t_rows (t :: ts)) ->
  let i2 := map read_back (t_info t) in
  use_reader pf pd (head_lines ind cs (t_info t) (laid l) ++ lines ++ rest) ind (Z.of_nat (length lines)) =
    (Ok (mkTable (map (row_with i2) (flat_map t_rows (t :: ts))) i2), rest).
Proof.
  intros GI HC B1 C FN E F i2. pose proof (ind_nonempty ind GI) as NI.
  pose proof (good_lines pf pd ind (t_info t) lines _ NI F) as GL. fold i2 in GL.
  assert (NR : exists r rs, t_rows t = r :: rs).
  { destruct B1 as [_ [_ [B _]]]. destruct (t_rows t) as [|r rs]; [discriminate|eauto]. }
  destruct NR as (r0 & rs0 & NR).
  assert (NE : exists r rs, flat_map t_rows (t :: ts) = r :: rs) by (cbn [flat_map]; rewrite NR; cbn; eauto).
  destruct NE as (r & rs & NE). rewrite NE in *.
  destruct lines as [|x lines']; [inversion GL|]. pose proof GL as GL0.
  inversion GL as [|? ? ? ? [Q1 [Q2 [Q3 [Q4 Q5]]]] GL2]; subst.
  unfold use_reader, ar_set_comment. cbn [ar_started ar_names ar_types ar_info ar_lines].
  replace (match ind with [] => Throw | _ => _ end) with (Ok (mkAr ind [] [] false None (head_lines ind cs (t_info t) (laid l) ++ (x :: lines') ++ rest)))
    by (destruct ind; [congruence | reflexivity]).
  unfold ar_read, read_info. cbn [ar_info ar_ind ar_names ar_types ar_lines]. cbn [app] in *.
  rewrite (detect_written pf pd) by assumption. cbn [ar_ind ar_lines].
  rewrite loop_head; [|cbn [length]; lia|apply head_silent; exact NI].
  change (x :: lines' ++ rest) with ((x :: lines') ++ rest). fold i2. rewrite (loop_lines ind (t_info t) i2 _ _ rest GL0). cbn [bind map].
  unfold set_lines. cbn [ar_lines]. f_equal.
  apply (table_of_lines pf pd i2 (map (clean ind) (x :: lines'))); [|discriminate]. exact (map_o_rows pf pd ind (t_info t) i2 _ _ GL0).
Qed.

Lemma part_written p : good_part ff fd pf pd p -> exists L, Forall (fun s => ~ In nl s) L /\
  (forall stream, use_writer ff fd stream (p_ind p) (p_comments p) (p_tables p) = Ok (stream ++ flat L)) /\
  forall rest, exists t', use_reader pf pd (L ++ rest) (p_ind p) (Z.of_nat (length (p_rows p))) = (Ok t', rest) /\
    holds_rows t' (t_info (p_first p)) (p_rows p).
Proof.
  intros (GI & HC & B & CO & C & FN & R). unfold p_rows, p_tables in *. destruct p as [ind cs t ts]. cbn [p_ind p_comments p_first p_more] in *.
  destruct (write_file_lines ff fd pf pd ind cs t ts GI B CO R) as [l [lines [E [W F]]]].
  inversion B as [|? ? B1 B2]; subst. pose proof (built_good ind t B1 C) as G.
  assert (NH : Forall (fun s => ~ In nl s) (head_lines ind cs (t_info t) (laid l))) by (apply (head_no_nl pf pd); assumption).
  assert (NL : Forall (fun s => ~ In nl s) lines).
  { clear -F. induction F as [|x y l r H F IH]; constructor; [|exact IH]. destruct H as [[l0 [toks [_ [_ [_ [_ [H _]]]]]]] _]. exact H. }
  exists (head_lines ind cs (t_info t) (laid l) ++ lines). split; [apply Forall_app; split; assumption|]. split.
  - intros stream. apply use_writer_file, W.
  - intros rest. rewrite map_length. rewrite <- (Forall2_length' _ _ _ F). rewrite <- app_assoc.
    eexists. split; [exact (read_part ind cs t ts l lines rest GI HC B1 C FN E F)|]. split; cbn [t_info t_rows]; [apply columns_read_back|]. rewrite map_map. reflexivity.
Qed.

Lemma all_parts ps : Forall (good_part ff fd pf pd) ps -> exists L, Forall (fun s => ~ In nl s) L /\
  (forall stream, write_parts ff fd stream ps = Ok (stream ++ flat L)) /\
  forall rest, exists ts, read_parts pf pd (L ++ rest) ps = (map Ok ts, rest) /\
    Forall2 (fun t p => holds_rows t (t_info (p_first p)) (p_rows p)) ts ps.
Proof.
  intros F. induction F as [|p ps G F IH].
  - exists []. split; [constructor|]. split; [intros; cbn; rewrite app_nil_r; reflexivity|]. intros rest. exists []. split; [reflexivity|constructor].
  - destruct IH as (L & N & W & R). destruct (part_written p G) as (L0 & N0 & W0 & R0). exists (L0 ++ L). split; [apply Forall_app; split; assumption|]. split.
    + intros stream. cbn [write_parts]. rewrite W0. cbn [bind]. rewrite W, flat_app, app_assoc. reflexivity.
    + intros rest. rewrite <- app_assoc. destruct (R0 (L ++ rest)) as (t & E & H). destruct (R rest) as (ts & E2 & H2). exists (t :: ts).
      cbn [read_parts]. rewrite E, E2. split; [reflexivity|]. constructor; assumption.
Qed.

(** ** Several writers in turns *)
Lemma call_extends w c w1 : do_call ff fd w c = Ok w1 -> exists s, aw_out w1 = aw_out w ++ s.
Proof.
  destruct c as [ind|b|m|t]; cbn [do_call].
  - unfold aw_set_comment. destruct (aw_started w); [discriminate|]. destruct ind; [discriminate|]. intros H. injection H as <-. exists []. cbn [aw_out]. rewrite app_nil_r. reflexivity.
  - unfold aw_show_info. destruct (aw_started w); [discriminate|]. intros H. injection H as <-. exists []. cbn [aw_out]. rewrite app_nil_r. reflexivity.
  - unfold aw_comment. destruct (aw_init w); [discriminate|]. intros H. injection H as <-. eexists. reflexivity.
  - unfold aw_add. cbv zeta. destruct (match aw_info w with Some i => _ | None => _ end); [discriminate|].
    destruct (map_o _ _) as [texts| | |]; cbn [bind]; try discriminate.
    destruct (match aw_info w with Some _ => _ | None => _ end) as [head| | |]; cbn [bind]; try discriminate.
    destruct (rows_text _ _) as [body| | |]; cbn [bind]; try discriminate. intros H. injection H as <-. eexists. reflexivity.
Qed.
Lemma of_writer_app {A} k (l m : list (nat * A)) : of_writer k (l ++ m) = of_writer k l ++ of_writer k m.
Proof. unfold of_writer. rewrite filter_app, map_app. reflexivity. Qed.
Lemma shared_alone calls : forall ws stream ws1 stream1,
  shared_calls ff fd ws stream calls = Ok (ws1, stream1) ->
  forall k, own_stream ff fd (ws k) (of_writer k calls) = Ok (ws1 k) /\
    exists s, text_of_writer k stream1 = text_of_writer k stream ++ s /\ aw_out (ws1 k) = aw_out (ws k) ++ s.
Proof.
  induction calls as [|[j c] calls IH]; intros ws stream ws1 stream1 H k.
  - cbn in H. injection H as <- <-. split; [reflexivity|]. exists []. rewrite !app_nil_r. split; reflexivity.
  - cbn [shared_calls] in H. unfold shared_call in H. destruct (do_call ff fd (ws j) c) as [w| | |] eqn:E; cbn [bind fst snd] in H; try discriminate.
    + destruct (IH _ _ _ _ H k) as (A & s & T & O). destruct (call_extends _ _ _ E) as (u & U).
      rewrite U, skipn_app, skipn_all, Nat.sub_diag in T. cbn [skipn app] in T.
      unfold text_of_writer in T |- *. rewrite of_writer_app in T. rewrite flat_map_app in T. unfold set_writer in A, O.
      unfold of_writer at 1. cbn [filter fst]. unfold of_writer in T at 3. cbn [filter fst] in T. rewrite (Nat.eqb_sym k j) in A, O.
      destruct (Nat.eqb_spec j k) as [-> | N].
      * cbn [map snd own_stream]. fold (do_call ff fd (ws k) c). rewrite E. split; [exact A|]. exists (u ++ s). cbn [map snd flat_map] in T. rewrite app_nil_r in T. rewrite T, O, U, !app_assoc. split; reflexivity.
      * split; [exact A|]. exists s. cbn [map snd flat_map] in T. rewrite app_nil_r in T. split; assumption.
    + destruct (IH _ _ _ _ H k) as (A & s & T & O). unfold of_writer at 1. cbn [filter fst].
      destruct (Nat.eqb_spec j k) as [-> | N]; [cbn [map snd own_stream]; fold (do_call ff fd (ws k) c); rewrite E|]; (split; [exact A|]; exists s; split; assumption).
Qed.
End Floats.
