(** Properties C47-C50 (keywords) and C80: text, tables and comments in the ASCII format. *)
From Coq Require Import QArith ZArith List Arith Ascii String Bool Lia.
From Verif Require Import Common TextModel TextProofs DblModel TableModel TableSpec TableProofs AsciiModel AsciiSpec AsciiProofs AsciiProofs2 AsciiProofs3.
Import ListNotations.
Local Notation length := List.length.
Local Open Scope nat_scope.

(** ** C47: quoted text *)

(** A text written with quoted() after some blanks, and followed by white space or the
    end of the stream, is what the quoted extractor returns; the rest of the stream is
    left untouched. *)
Theorem C47_quoted_text : forall s before after,
  s <> [] -> (forall c, In c before -> is_space c = true) ->
  (forall c r, after = c :: r -> is_space c = true) ->
  read_quoted (before ++ quoted s ++ after) = Some (s, after).
Proof.
  intros s b r N B R. unfold read_quoted. rewrite (proj2 (proj2 (quoted_item s N))); [reflexivity | |].
  - apply Forall_forall. exact B.
  - destruct r as [|c r]; [exact I | apply (R c r eq_refl)].
Qed.
Print Assumptions C47_quoted_text.

(** A line of quoted texts, each after at least one blank, is read back as these texts. *)
Theorem C47_quoted_sequence : forall l : list (nat * text),
  (forall p, In p l -> snd p <> []) ->
  tokens (flat_map (fun p => repeat sp (S (fst p)) ++ quoted (snd p)) l) = map snd l.
Proof.
  intros l H. replace (flat_map (fun p => repeat sp (S (fst p)) ++ quoted (snd p)) l)
    with (laid (map (fun p => (fst p, quoted (snd p))) l)).
  - apply tokens_laid. induction l as [|p l IH]; constructor.
    + apply quoted_item. apply H. left. reflexivity.
    + apply IH. intros q I. apply H. right. exact I.
  - clear H. induction l as [|p l IH]; [reflexivity|]. cbn [map laid flat_map]. rewrite IH, <- app_assoc. reflexivity.
Qed.
Print Assumptions C47_quoted_sequence.

(** The quotes are written exactly when the text has white space or a quote; the text
    between them is the text with a backslash before every quote and backslash. *)
Theorem C47_when_quoted : forall s,
  ((exists c, In c s /\ (is_space c = true \/ c = dq)) -> quoted s = dq :: escape s ++ [dq]) /\
  ((forall c, In c s -> is_space c = false /\ c <> dq) -> quoted s = s).
Proof.
  intros s. unfold quoted. split.
  - intros [c [I H]]. destruct (needs_quotes s) eqn:E; [reflexivity|]. apply needs_quotes_false with (c := c) in E; [|exact I].
    destruct E as [E1 E2]. destruct H; congruence.
  - intros H. apply needs_quotes_false in H. rewrite H. reflexivity.
Qed.
Print Assumptions C47_when_quoted.

(** The empty text is lost: nothing is written, and the extractor takes the next text. *)
Theorem C47_empty_text_refuted : forall s after,
  s <> [] -> (forall c r, after = c :: r -> is_space c = true) ->
  read_quoted (sp :: quoted [] ++ sp :: quoted s ++ after) = Some (s, after).
Proof.
  intros s r N R. change (sp :: quoted [] ++ sp :: quoted s ++ r) with ([sp; sp] ++ quoted s ++ r).
  apply C47_quoted_text; [exact N | | exact R]. intros c [<-|[<-|[]]]; reflexivity.
Qed.
Print Assumptions C47_empty_text_refuted.

Example C47_case :
  quoted [dq; "a"%char; sp; bs; dq] = [dq; bs; dq; "a"%char; sp; bs; bs; bs; dq; dq] /\
  read_quoted (txt "  " ++ quoted [dq; "a"%char; sp; bs; dq] ++ txt " next") = Some ([dq; "a"%char; sp; bs; dq], txt " next").
Proof. split; reflexivity. Qed.

(** ** C48: a table written and read back *)

(** Comments and tables with the same columns are written; reading everything back gives
    one table with the same columns and all the rows in order. The descriptions are the
    same too when they are words separated by single blanks. *)
Theorem C48_round_trip : forall ff fd pf pd ind comments t ts,
  good_indicator ind -> Forall (harmless_comment ind) comments ->
  Forall built_table (t :: ts) ->
  (forall x, In x ts -> columns_of (t_info x) = columns_of (t_info t)) ->
  Forall (carried_column ind) (t_info t) -> first_name_ok (t_info t) ->
  (forall x r, In x (t :: ts) -> In r (t_rows x) -> carried_row ff fd pf pd ind r) ->
  exists out a t' a',
    write_file ff fd ind comments (t :: ts) = Ok out /\ open_reader ind out = Ok a /\
    ar_read pf pd a (-1) = (Ok t', a') /\
    columns_of (t_info t') = columns_of (t_info t) /\
    map r_values (t_rows t') = map r_values (flat_map t_rows (t :: ts)) /\
    ar_has_more a' = false /\
    (Forall plain_description (t_info t) -> t_info t' = t_info t).
Proof.
  intros ff fd pf pd ind cs t ts GI HC B CO C FN R.
  destruct (round_trip ff fd pf pd ind cs t ts GI HC B CO C FN R) as [out [a [a1 [a2 [H1 [H2 [H3 [H4 _]]]]]]]].
  exists out, a. eexists. exists a1. split; [exact H1|]. split; [exact H2|]. split; [exact H3|].
  cbn [t_info t_rows]. split; [apply columns_read_back|]. split; [rewrite map_map; reflexivity|]. split.
  - unfold ar_has_more. rewrite H4. reflexivity.
  - intros P. clear -P. induction P as [|d i H P IH]; [reflexivity|]. cbn [map]. rewrite IH. f_equal.
    unfold read_back. rewrite read_desc_plain by exact H. destruct d; reflexivity.
Qed.
Print Assumptions C48_round_trip.

(** One cell at a time: the text of a cell is read back as the same cell, for every cell
    the format carries. *)
Theorem C48_cells : forall ff fd pf pd c,
  carried ff fd pf pd c -> (forall s, c = CString s -> s <> []) ->
  exists u, cell_text ff fd c = Ok u /\
    forall before after, (forall x, In x before -> is_space x = true) ->
      (forall x r, after = x :: r -> is_space x = true) ->
      exists v, read_quoted (before ++ u ++ after) = Some (v, after) /\ read_cell pf pd (type_of c) v = Ok c.
Proof.
  intros ff fd pf pd c K S0. destruct (cell_round ff fd pf pd c K S0) as [u [v [U1 [U2 [U3 _]]]]].
  exists u. split; [exact U1|]. intros b r B R. exists v. split; [|exact U3].
  unfold read_quoted. rewrite (proj2 (proj2 U2)); [reflexivity | apply Forall_forall; exact B|].
  destruct r as [|x r]; [exact I | apply (R x r eq_refl)].
Qed.
Print Assumptions C48_cells.

Definition no_text : dbl -> text := fun _ => txt "x".
Definition no_read : text -> option dbl := fun _ => None.
Definition col (n : string) (t : ctype) (u d : string) : coldesc := mkDesc (txt n) t (txt u) (txt d).
Definition one_table (i : colinfo) (rows : list (list cell)) : table := mkTable (map (fun v => mkRow v i) rows) i.
Definition file_of (ind : string) (comments : list text) (t : table) : text :=
  match write_file no_text no_text (txt ind) comments [t] with Ok s => s | _ => [] end.
Definition reader_of (ind : string) (s : text) : areader :=
  match open_reader (txt ind) s with Ok a => a | _ => new_areader [] end.

Lemma word_by_check s : s <> [] -> needs_quotes s = false -> word s.
Proof. intros N H. split; [exact N|]. apply needs_quotes_false. exact H. Qed.

Definition example_table : table :=
  one_table [col "ID" TLong "" "the identifier"; col "my name" TString "" ""; col "v" TVInt "m/s" ""]
    [[CLong 12; CString (txt "a b"); CVInt [1; -2]%Z]; [CLong (-3); CString [dq]; CVInt [7]%Z]].
Example C48_case_hypotheses :
  good_indicator (txt "#") /\ Forall (harmless_comment (txt "#")) [txt "Made by hand"] /\
  built_table example_table /\ Forall (carried_column (txt "#")) (t_info example_table) /\
  first_name_ok (t_info example_table) /\
  Forall plain_description (t_info example_table) /\
  (forall r, In r (t_rows example_table) -> carried_row no_text no_text no_read no_read (txt "#") r).
Proof.
  assert (AV : forall s, existsb (Ascii.eqb "#"%char) s = false -> avoids (txt "#") s).
  { intros s H c0 r E I. injection E as <- <-.
    assert (existsb (Ascii.eqb "#"%char) s = true) by (apply existsb_exists; exists "#"%char; split; [exact I | reflexivity]). congruence. }
  split; [|split; [|split; [|split; [|split; [|split]]]]].
  - split.
    + exists "#"%char, []. split; [reflexivity|]. vm_compute. intuition discriminate.
    + intros c [<-|[]]. reflexivity.
  - repeat constructor. apply AV. reflexivity.
  - split; [reflexivity|]. split; [repeat constructor|]. split; [reflexivity|]. repeat constructor.
  - repeat constructor; try (apply AV; reflexivity);
      try (intros c I; vm_compute in I; repeat (destruct I as [<-|I]; [reflexivity|]); destruct I);
      intros I; vm_compute in I; repeat (destruct I as [I|I]; [discriminate|]); destruct I.
  - reflexivity.
  - constructor; [|constructor; [|constructor; [|constructor]]].
    + exists [txt "the"; txt "identifier"]. split; [|reflexivity].
      constructor; [|constructor; [|constructor]]; (apply word_by_check; [discriminate | reflexivity]).
    + exists []. split; [constructor | reflexivity].
    + exists []. split; [constructor | reflexivity].
  - assert (SM : forall z, (-100 <= z <= 100)%Z -> is_int32 z /\ is_int64 z)
      by (intros z H; unfold is_int32, is_int64, int32_min, int32_max, int64_min, int64_max; lia).
    assert (K : forall c u, carried no_text no_text no_read no_read c -> cell_text no_text no_text c = Ok u ->
      existsb (Ascii.eqb "#"%char) u = false ->
      carried no_text no_text no_read no_read c /\ forall t, cell_text no_text no_text c = Ok t -> avoids (txt "#") t).
    { intros c u H1 H2 H3. split; [exact H1|]. intros t H. rewrite H2 in H. injection H as <-. apply AV. exact H3. }
    intros r [<-|[<-|[]]]; (split; [exact I|]); intros c [<-|[<-|[<-|[]]]].
    + apply (K _ (txt "12")); [apply (SM 12%Z); lia | reflexivity | reflexivity].
    + apply (K _ (quoted (txt "a b"))); [exact I | reflexivity | reflexivity].
    + apply (K _ (txt "1,-2")); [split; [discriminate|]; constructor; [apply SM; lia|]; constructor; [apply SM; lia | constructor] | reflexivity | reflexivity].
    + apply (K _ (txt "-3")); [apply (SM (-3)%Z); lia | reflexivity | reflexivity].
    + apply (K _ (quoted [dq])); [exact I | reflexivity | reflexivity].
    + apply (K _ (txt "7")); [split; [discriminate|]; constructor; [apply SM; lia | constructor] | reflexivity | reflexivity].
Qed.
Example C48_case :
  lines_of (file_of "#" [txt "Made by hand"] example_table) =
    [txt "# Made by hand"; [];
     txt "# Column: ID long - the identifier";
     txt "# Column: " ++ [dq] ++ txt "my name" ++ [dq] ++ txt " string";
     txt "# Column: v [int] (m/s)"; [];
     txt "# ID " ++ [dq] ++ txt "my name" ++ [dq] ++ txt "    v"; [];
     txt "  12     " ++ [dq] ++ txt "a b" ++ [dq] ++ txt " 1,-2";
     txt "  -3      " ++ [dq; bs; dq; dq] ++ txt "    7"; []] /\
  fst (ar_read no_read no_read (reader_of "#" (file_of "#" [txt "Made by hand"] example_table)) (-1)) = Ok example_table.
Proof. split; vm_compute; reflexivity. Qed.

(** The conditions are needed. A first cell with a blank is split: the row is refused. *)
Theorem C48_first_cell_with_blank_refuted : exists t, built_table t /\
  fst (ar_read no_read no_read (reader_of "#" (file_of "#" [] t)) (-1)) = Throw.
Proof.
  exists (one_table [col "name" TString "" ""; col "n" TInt "" ""] [[CString (txt "a b"); CInt 1]]).
  split; [|vm_compute; reflexivity]. split; [reflexivity|]. split; [repeat constructor|]. split; [reflexivity|]. repeat constructor.
Qed.
Print Assumptions C48_first_cell_with_blank_refuted.

(** A first cell with a quote comes back as another text: the quotes and backslashes are kept. *)
Theorem C48_first_cell_with_quote_refuted : exists t t', built_table t /\
  fst (ar_read no_read no_read (reader_of "#" (file_of "#" [] t)) (-1)) = Ok t' /\
  map r_values (t_rows t) = [[CString [dq]]] /\ map r_values (t_rows t') = [[CString [dq; bs; dq; dq]]].
Proof.
  exists (one_table [col "name" TString "" ""] [[CString [dq]]]). eexists.
  split; [|split; [vm_compute; reflexivity | split; reflexivity]].
  split; [reflexivity|]. split; [repeat constructor|]. split; [reflexivity|]. repeat constructor.
Qed.
Print Assumptions C48_first_cell_with_quote_refuted.

(** A cell with the comment indicator is cut there, even between quotes. *)
Theorem C48_comment_in_cell_refuted : exists t t', built_table t /\
  fst (ar_read no_read no_read (reader_of "#" (file_of "#" [] t)) (-1)) = Ok t' /\
  map r_values (t_rows t) = [[CInt 1; CString (txt "a#b")]] /\ map r_values (t_rows t') = [[CInt 1; CString (txt "a")]].
Proof.
  exists (one_table [col "n" TInt "" ""; col "s" TString "" ""] [[CInt 1; CString (txt "a#b")]]). eexists.
  split; [|split; [vm_compute; reflexivity | split; reflexivity]].
  split; [reflexivity|]. split; [repeat constructor|]. split; [reflexivity|]. repeat constructor.
Qed.
Print Assumptions C48_comment_in_cell_refuted.

(** An empty vector cannot be written: printing it is undefined behaviour. *)
Theorem C48_empty_vector_refuted : exists t, built_table t /\ write_file no_text no_text (txt "#") [] [t] = UB.
Proof.
  exists (one_table [col "v" TVInt "" ""] [[CVInt []]]). split; [|vm_compute; reflexivity].
  split; [reflexivity|]. split; [repeat constructor|]. split; [reflexivity|]. repeat constructor.
Qed.
Print Assumptions C48_empty_vector_refuted.

(** A first column called "Column:..." : its line of names is taken for a description. *)
Theorem C48_column_named_column_refuted : exists t, built_table t /\
  fst (ar_read no_read no_read (reader_of "#" (file_of "#" [] t)) (-1)) = Throw.
Proof.
  exists (one_table [col "Column:a" TInt "" ""; col "b" TInt "" ""] [[CInt 1; CInt 2]]).
  split; [|vm_compute; reflexivity]. split; [reflexivity|]. split; [repeat constructor|]. split; [reflexivity|]. repeat constructor.
Qed.
Print Assumptions C48_column_named_column_refuted.

(** ** C49: reading in chunks *)

(** [data_lines a]: the lines of data ahead of the reader, without comments and blanks.
    read(n) asks for [asked n] of them; when each is a row of the table, read returns
    exactly these rows, in order, and leaves the following lines. *)
Theorem C49_read : forall pf pd a n i a1 rows,
  read_info a = (Ok i, a1) ->
  map_o (read_line pf pd i) (firstn (asked n (length (data_lines a))) (data_lines a)) = Ok rows ->
  exists a2, ar_read pf pd a n = (match rows with [] => Throw | _ => Ok (mkTable rows i) end, a2) /\
    data_lines a2 = skipn (asked n (length (data_lines a))) (data_lines a) /\ read_info a2 = (Ok i, a2).
Proof. exact ar_read_ok. Qed.
Print Assumptions C49_read.

(** A malformed line among those asked for: read throws, and the reader is just after it. *)
Theorem C49_malformed_line : forall pf pd a n i a1 k bad,
  read_info a = (Ok i, a1) ->
  nth_error (data_lines a) k = Some bad -> k < asked n (length (data_lines a)) ->
  (forall l, In l (firstn k (data_lines a)) -> exists r, read_line pf pd i l = Ok r) ->
  (forall r, read_line pf pd i bad <> Ok r) ->
  exists a2, ar_read pf pd a n = (Throw, a2) /\
    data_lines a2 = skipn (S k) (data_lines a) /\ read_info a2 = (Ok i, a2).
Proof.
  intros pf pd a n i a1 k bad H B K G T. apply (ar_read_bad pf pd a n i a1 k bad); try assumption.
  - intros l I E. destruct (G l I) as [r R]. congruence.
  - destruct (read_line_outcomes pf pd i bad) as [[v E]|E]; [exfalso; apply (T _ E) | exact E].
Qed.
Print Assumptions C49_malformed_line.

(** skip(n) leaves the reader where read(n) would. *)
Theorem C49_skip : forall a n i a1, read_info a = (Ok i, a1) ->
  exists a2, ar_skip a n = (Ok tt, a2) /\
    data_lines a2 = skipn (asked n (length (data_lines a))) (data_lines a) /\ read_info a2 = (Ok i, a2).
Proof. exact ar_skip_ok. Qed.
Print Assumptions C49_skip.

(** rowsLeft() and hasMoreRows() count the lines of data ahead; asking for the columns
    does not move the reader. *)
Theorem C49_rows_left : forall a,
  ar_rows_left a = length (data_lines a) /\
  (ar_has_more a = true <-> data_lines a <> []) /\
  data_lines (snd (read_info a)) = data_lines a.
Proof.
  intros a. destruct (rows_left_data a) as [H1 H2]. split; [exact H1|]. split.
  - rewrite H2. destruct (data_lines a); cbn; split; congruence.
  - destruct (read_info a) as [o a1] eqn:E. destruct (read_info_state a o a1 E) as [E1 [E2 _]]. cbn [snd].
    unfold data_lines. rewrite E1, E2. reflexivity.
Qed.
Print Assumptions C49_rows_left.

(** Reading in chunks: with positive sizes that add up to the number of rows, every read
    succeeds with its size, all the tables have the columns of the file, and together
    they are the rows of one read of everything. *)
Theorem C49_chunks : forall pf pd a i rows sizes,
  fst (read_info a) = Ok i ->
  fst (ar_read pf pd a (-1)) = Ok (mkTable rows i) ->
  Forall (fun n => (0 < n)%Z) sizes -> fold_right Z.add 0%Z sizes = Z.of_nat (length rows) ->
  exists ts a2, read_chunks pf pd (snd (read_info a)) sizes = (map Ok ts, a2) /\
    flat_map t_rows ts = rows /\ map (fun t => Z.of_nat (length (t_rows t))) ts = sizes /\
    Forall (fun t => t_info t = i) ts /\ ar_has_more a2 = false.
Proof.
  intros pf pd a i rows sizes HI HR P SM.
  destruct (read_info a) as [o a1] eqn:E. cbn [fst snd] in *. subst o.
  destruct (read_info_state a _ _ E) as [E1 [E2 E3]]. specialize (E3 i eq_refl).
  assert (D : data_lines a1 = data_lines a) by (unfold data_lines; rewrite E1, E2; reflexivity).
  assert (R1 : read_info a1 = (Ok i, a1)) by (unfold read_info; rewrite E3; reflexivity).
  assert (M : map_o (read_line pf pd i) (data_lines a) = Ok rows).
  { assert (AK : asked (-1) (length (data_lines a)) = length (data_lines a)) by reflexivity.
    assert (MO : (exists z, map_o (read_line pf pd i) (data_lines a) = Ok z) \/
       exists k bad, nth_error (data_lines a) k = Some bad /\ read_line pf pd i bad = Throw /\
         forall l, In l (firstn k (data_lines a)) -> read_line pf pd i l <> Throw).
    { clear. induction (data_lines a) as [|l ls IH]; [left; exists []; reflexivity|].
      destruct (read_line_outcomes pf pd i l) as [[v RL]|RL].
      - destruct IH as [[z Z]|[k [bad [K1 [K2 K3]]]]].
        + left. eexists. cbn [map_o]. rewrite RL. cbn [bind]. rewrite Z. reflexivity.
        + right. exists (S k), bad. split; [exact K1|]. split; [exact K2|]. intros x [<-|I]; [congruence | apply K3; exact I].
      - right. exists 0, l. split; [reflexivity|]. split; [exact RL|]. intros x []. }
    destruct MO as [[z Z]|[k [bad [K1 [K2 K3]]]]].
    - destruct (ar_read_ok pf pd a (-1) i a1 z E) as [a2 [X _]]; [rewrite AK, firstn_all; exact Z|].
      rewrite X in HR. cbn [fst] in HR. destruct z; [discriminate|]. injection HR as <-. exact Z.
    - destruct (ar_read_bad pf pd a (-1) i a1 k bad E K1) as [a2 [X _]]; [|exact K3 | exact K2 | rewrite X in HR; discriminate].
      rewrite AK. apply nth_error_Some. congruence. }
  destruct (chunks_all pf pd sizes a1 i rows R1) as [ts [a2 [C1 [C2 [C3 [C4 C5]]]]]]; [rewrite D; exact M | exact P | exact SM|].
  exists ts, a2. split; [exact C1|]. split; [exact C2|]. split; [exact C3|]. split; [exact C4|].
  rewrite (proj2 (rows_left_data a2)), C5. reflexivity.
Qed.
Print Assumptions C49_chunks.

Definition three_rows : areader :=
  reader_of "#" (file_of "#" [] (one_table [col "n" TInt "" ""] [[CInt 1]; [CInt 2]; [CInt 3]])).
Example C49_case :
  ar_rows_left three_rows = 3 /\
  map (fun o => match o with Ok t => map r_values (t_rows t) | _ => [] end)
    (fst (read_chunks no_read no_read three_rows [2; 1; 1]%Z)) = [[[CInt 1]; [CInt 2]]; [[CInt 3]]; []] /\
  ar_rows_left (snd (ar_skip three_rows 2)) = 1.
Proof. repeat split; vm_compute; reflexivity. Qed.

(** ** C50: keywords of the column types *)

Theorem C50_keywords : forall t, keyword_type (type_keyword t) = Ok t.
Proof. exact keyword_round. Qed.
Print Assumptions C50_keywords.
Theorem C50_keywords_distinct : forall a b, type_keyword a = type_keyword b -> a = b.
Proof. intros a b H. pose proof (keyword_round a) as A. rewrite H, keyword_round in A. congruence. Qed.
Print Assumptions C50_keywords_distinct.

(** ** C80: comments *)

(** getComment() on a file with comments returns their lines, trimmed, one per line; the
    table read afterwards is the one read without asking for the comment. *)
Theorem C80_comments : forall ff fd pf pd ind comments t ts,
  good_indicator ind -> Forall (harmless_comment ind) comments -> comments <> [] ->
  Forall built_table (t :: ts) ->
  (forall x, In x ts -> columns_of (t_info x) = columns_of (t_info t)) ->
  Forall (carried_column ind) (t_info t) -> first_name_ok (t_info t) ->
  (forall x r, In x (t :: ts) -> In r (t_rows x) -> carried_row ff fd pf pd ind r) ->
  exists out a,
    write_file ff fd ind comments (t :: ts) = Ok out /\ open_reader ind out = Ok a /\
    fst (ar_comment a) = trim (flat_map (fun l => trim l ++ [nl]) (flat_map lines_of comments)) /\
    fst (ar_read pf pd (snd (ar_comment a)) (-1)) = fst (ar_read pf pd a (-1)) /\
    (exists t', fst (ar_read pf pd a (-1)) = Ok t').
Proof.
  intros ff fd pf pd ind cs t ts GI HC N B CO C FN R.
  destruct (round_trip ff fd pf pd ind cs t ts GI HC B CO C FN R) as [out [a [a1 [a2 [H1 [H2 [H3 [_ H4]]]]]]]].
  destruct (H4 N) as [H5 [H6 _]].
  exists out, a. split; [exact H1|]. split; [exact H2|]. split; [|split].
  - rewrite H5. f_equal. unfold flat. clear. induction (flat_map lines_of cs) as [|l ls IH]; [reflexivity|].
    cbn [map flat_map]. rewrite IH. reflexivity.
  - rewrite H6, H3. reflexivity.
  - rewrite H3. eexists. reflexivity.
Qed.
Print Assumptions C80_comments.

(** Without user comments, asking for the comment first consumes the descriptions of the
    columns: every column is read as text. *)
Theorem C80_comment_before_reading_refuted : exists t t', built_table t /\
  fst (ar_read no_read no_read (reader_of "#" (file_of "#" [] t)) (-1)) = Ok t /\
  fst (ar_read no_read no_read (snd (ar_comment (reader_of "#" (file_of "#" [] t)))) (-1)) = Ok t' /\
  map r_values (t_rows t) = [[CInt 1]] /\ map r_values (t_rows t') = [[CString (txt "1")]].
Proof.
  exists (one_table [col "n" TInt "" ""] [[CInt 1]]). eexists.
  split; [|split; [vm_compute; reflexivity | split; [vm_compute; reflexivity | split; reflexivity]]].
  split; [reflexivity|]. split; [repeat constructor|]. split; [reflexivity|]. repeat constructor.
Qed.
Print Assumptions C80_comment_before_reading_refuted.

(** addComment() is refused once a table was added, and the indicator cannot change once
    anything was written. *)
Theorem C80_comments_come_first : forall ff fd w t w1 message ind,
  aw_add ff fd w t = Ok w1 -> aw_comment w1 message = Throw /\ aw_set_comment w1 ind = Throw.
Proof.
  intros ff fd w t w1 m ind H. unfold aw_add in H.
  destruct (match aw_info w with Some i => negb (info_eqb i (t_info t)) | None => false end); [discriminate|].
  destruct (map_o (row_texts ff fd) (t_rows t)) as [texts| | |]; try discriminate. cbn [bind] in H.
  destruct (match aw_info w with None => init_text w (t_info t) texts | Some _ => Ok [] end) as [h| | |]; try discriminate.
  cbn [bind] in H. destruct (rows_text _ _) as [b| | |]; try discriminate. cbn [bind] in H.
  injection H as <-. split; reflexivity.
Qed.
Print Assumptions C80_comments_come_first.

Example C80_case :
  fst (ar_comment (reader_of "#" (file_of "#" [txt "  first " ++ [nl] ++ txt "second"; txt "third"] example_table))) =
  txt "first" ++ [nl] ++ txt "second" ++ [nl] ++ txt "third".
Proof. vm_compute. reflexivity. Qed.
