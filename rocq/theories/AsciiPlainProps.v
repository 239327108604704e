(** Property C149: ASCII tables written without the descriptions of their columns. *)
From Coq Require Import ZArith List Arith Ascii String Bool Lia.
From Verif Require Import Common TextModel TextProofs DblModel TableModel TableSpec TableProofs AsciiModel AsciiSpec AsciiProofs AsciiProofs2 AsciiProofs3 AsciiProps AsciiPlainSpec AsciiPlainProofs.
Import ListNotations.
Local Notation length := List.length.

(** A reader told the types of the columns gets the names, these types and every row; the
    units and descriptions are gone. *)
Theorem C149_round_trip_with_types : forall ff fd pf pd ind comments t ts,
  good_indicator ind -> Forall (harmless_comment ind) comments ->
  Forall built_table (t :: ts) ->
  (forall x, In x ts -> columns_of (t_info x) = columns_of (t_info t)) ->
  Forall (carried_column ind) (t_info t) -> first_name_ok (t_info t) ->
  (forall x r, In x (t :: ts) -> In r (t_rows x) -> carried_row ff fd pf pd ind r) ->
  exists out a a1 t' a',
    write_plain ff fd ind comments (t :: ts) = Ok out /\ open_reader ind out = Ok a /\
    ar_fix_types a (map cd_type (t_info t)) = Ok a1 /\ ar_read pf pd a1 (-1) = (Ok t', a') /\
    t_info t' = map (fun d => bare_column d (cd_type d)) (t_info t) /\
    map r_values (t_rows t') = map r_values (flat_map t_rows (t :: ts)).
Proof.
  intros ff fd pf pd ind cs t ts GI HC B CO C FN R.
  destruct (plain_round_trip ff fd pf pd ind cs t ts GI HC B CO C FN R) as [out [a [H1 [H2 [_ [a1 [a2 [H3 H4]]]]]]]].
  exists out, a, a1. eexists. exists a2. split; [exact H1|]. split; [exact H2|]. split; [exact H3|]. split; [exact H4|].
  cbn [t_info t_rows]. split; [reflexivity|]. rewrite map_map. reflexivity.
Qed.
Print Assumptions C149_round_trip_with_types.

(** A reader told nothing finds the same names, and takes every column for text. *)
Theorem C149_columns_without_types : forall ff fd pf pd ind comments t ts,
  good_indicator ind -> Forall (harmless_comment ind) comments ->
  Forall built_table (t :: ts) ->
  (forall x, In x ts -> columns_of (t_info x) = columns_of (t_info t)) ->
  Forall (carried_column ind) (t_info t) -> first_name_ok (t_info t) ->
  (forall x r, In x (t :: ts) -> In r (t_rows x) -> carried_row ff fd pf pd ind r) ->
  exists out a a1,
    write_plain ff fd ind comments (t :: ts) = Ok out /\ open_reader ind out = Ok a /\
    read_info a = (Ok (map (fun d => bare_column d TString) (t_info t)), a1).
Proof.
  intros ff fd pf pd ind cs t ts GI HC B CO C FN R.
  destruct (plain_round_trip ff fd pf pd ind cs t ts GI HC B CO C FN R) as [out [a [H1 [H2 [[a1 H3] _]]]]].
  exists out, a, a1. split; [exact H1|]. split; [exact H2 | exact H3].
Qed.
Print Assumptions C149_columns_without_types.

(** Once a comment or a table has been written, both settings of the writer are refused
    for good, and leave it as it was. *)
Theorem C149_settings_are_frozen : forall ff fd w w1 w2 w3 comments ts b ind,
  (exists c, aw_comment w c = Ok w1) \/ (exists t, aw_add ff fd w t = Ok w1) ->
  add_comments w1 comments = Ok w2 -> add_tables ff fd w2 ts = Ok w3 ->
  aw_show_info w3 b = Throw /\ aw_set_comment w3 ind = Throw.
Proof.
  intros ff fd w w1 w2 w3 cs ts b ind S0 H1 H2.
  assert (CS : forall w c w', aw_comment w c = Ok w' -> aw_started w' = true).
  { intros v c v' H. unfold aw_comment in H. destruct (aw_init v); [discriminate|]. injection H as <-. reflexivity. }
  assert (TS : forall w t w', aw_add ff fd w t = Ok w' -> aw_started w' = true).
  { intros v t v' H. unfold aw_add in H.
    repeat match type of H with
    | context [match ?x with _ => _ end] => destruct x; try discriminate; cbn [bind] in H
    | bind ?x _ = _ => destruct x; try discriminate; cbn [bind] in H
    end; injection H as <-; reflexivity. }
  assert (K1 : aw_started w1 = true) by (destruct S0 as [[c S0]|[t S0]]; eauto).
  assert (K2 : aw_started w2 = true).
  { clear H2 S0. revert w1 K1 H1. induction cs as [|c cs IH]; intros v K H; cbn [add_comments] in H.
    - injection H as <-. exact K.
    - destruct (aw_comment v c) as [v'| | |] eqn:E; try discriminate. cbn [bind] in H. eauto. }
  assert (K3 : aw_started w3 = true).
  { clear H1 S0 K1. revert w2 K2 H2. induction ts as [|t ts IH]; intros v K H; cbn [add_tables] in H.
    - injection H as <-. exact K.
    - destruct (aw_add ff fd v t) as [v'| | |] eqn:E; try discriminate. cbn [bind] in H. eauto. }
  unfold aw_show_info, aw_set_comment. rewrite K3. split; reflexivity.
Qed.
Print Assumptions C149_settings_are_frozen.

Definition plain_of (ind : string) (comments : list text) (t : table) : text :=
  match write_plain no_text no_text (txt ind) comments [t] with Ok s => s | _ => [] end.
(** Without the descriptions numbers come back as text, even though the names are found. *)
Theorem C149_types_are_lost_refuted : exists t t', built_table t /\
  fst (ar_read no_read no_read (reader_of "#" (plain_of "#" [] t)) (-1)) = Ok t' /\
  map r_values (t_rows t) = [[CInt 1; CString (txt "a")]] /\
  map r_values (t_rows t') = [[CString (txt "1"); CString (txt "a")]].
Proof.
  exists (one_table [col "n" TInt "" ""; col "s" TString "" ""] [[CInt 1; CString (txt "a")]]). eexists.
  split; [|split; [vm_compute; reflexivity | split; reflexivity]].
  split; [reflexivity|]. split; [repeat constructor|]. split; [reflexivity|]. repeat constructor.
Qed.
Print Assumptions C149_types_are_lost_refuted.

(** The table of C48_case_hypotheses meets the conditions; this is its file. *)
Example C149_case :
  lines_of (plain_of "#" [txt "Made by hand"] example_table) =
    [txt "# Made by hand"; [];
     txt "# ID " ++ [dq] ++ txt "my name" ++ [dq] ++ txt "    v"; [];
     txt "  12     " ++ [dq] ++ txt "a b" ++ [dq] ++ txt " 1,-2";
     txt "  -3      " ++ [dq; bs; dq; dq] ++ txt "    7"; []] /\
  (exists a1 t', ar_fix_types (reader_of "#" (plain_of "#" [txt "Made by hand"] example_table)) [TLong; TString; TVInt] = Ok a1 /\
    fst (ar_read no_read no_read a1 (-1)) = Ok t' /\ map r_values (t_rows t') = map r_values (t_rows example_table)).
Proof. split; [vm_compute; reflexivity|]. eexists. eexists. split; [vm_compute; reflexivity|]. split; vm_compute; reflexivity. Qed.
