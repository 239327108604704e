(** ASCII tables left by an interrupted write. *)
From Coq Require Import ZArith List Arith Ascii String Bool Lia.
From Verif Require Import Common TextModel TextProofs DblModel TableModel TableSpec TableProofs AsciiModel AsciiSpec AsciiProofs AsciiProofs2 AsciiProofs3 AsciiProps AsciiCrashModel AsciiCrashSpec AsciiCrashProofs.
Import ListNotations.
Local Notation length := List.length.

(** ** C144: an ASCII table whose writing was interrupted *)

(** The file is a preamble and then one line per row. Whatever the number [k] of characters
    that reached the file: when at least the first row is complete, asking for at most as
    many rows as are complete gives the columns that were written and these rows; reading
    everything throws or gives all the complete rows followed by at most one more, and
    exactly the complete rows when the file ends with one. When no character of the first
    row is there and the comment indicator is one character, all reads throw. *)
Theorem C144_interrupted_write : forall ff fd pf pd ind comments t ts,
  good_indicator ind -> Forall (harmless_comment ind) comments ->
  Forall built_table (t :: ts) ->
  (forall x, In x ts -> columns_of (t_info x) = columns_of (t_info t)) ->
  Forall (carried_column ind) (t_info t) -> first_name_ok (t_info t) ->
  (forall x r, In x (t :: ts) -> In r (t_rows x) -> carried_row ff fd pf pd ind r) ->
  let rows := map r_values (flat_map t_rows (t :: ts)) in
  exists preamble lines,
    write_file ff fd ind comments (t :: ts) = Ok (preamble ++ text_of_lines lines) /\
    length lines = length rows /\ (forall l, In l lines -> ~ In nl l) /\
    forall k, exists file a,
      killed_after k (write_file ff fd ind comments (t :: ts)) = Ok file /\ open_reader ind file = Ok a /\
      (forall complete, complete_lines preamble lines k complete -> 1 <= complete ->
        (forall n, 1 <= n <= complete ->
          exists t' a', ar_read pf pd a (Z.of_nat n) = (Ok t', a') /\ holds_rows t' (t_info t) (firstn n rows)) /\
        (exists a', ar_read pf pd a (-1) = (Throw, a') \/
          exists t' last, ar_read pf pd a (-1) = (Ok t', a') /\
            holds_rows t' (t_info t) (firstn complete rows ++ last) /\ length last <= 1) /\
        (file = preamble ++ text_of_lines (firstn complete lines) ->
          exists t' a', ar_read pf pd a (-1) = (Ok t', a') /\ holds_rows t' (t_info t) (firstn complete rows))) /\
      (length ind = 1 -> k <= length preamble -> forall n, exists a', ar_read pf pd a n = (Throw, a')).
Proof.
  intros ff fd pf pd ind cs t ts GI HC B CO C FN R. cbv zeta.
  destruct (interrupted ff fd pf pd ind cs t ts GI HC B CO C FN R) as [pre [lines [W [L [NL K]]]]]. cbv zeta in K.
  exists pre, lines. split; [exact W|]. split; [rewrite map_length; exact L|]. split; [rewrite Forall_forall in NL; exact NL|].
  set (rows := flat_map t_rows (t :: ts)) in *. set (i2 := map read_back (t_info t)) in *.
  assert (HR : forall rs last, holds_rows (mkTable (map (row_with i2) rs ++ last) i2) (t_info t) (map r_values rs ++ map r_values last)).
  { intros rs last. split; cbn [t_info t_rows]; [apply columns_read_back|]. rewrite map_app, map_map. reflexivity. }
  assert (HR0 : forall n, holds_rows (mkTable (map (row_with i2) (firstn n rows)) i2) (t_info t) (firstn n (map r_values rows))).
  { intros n. specialize (HR (firstn n rows) []). cbn [map] in HR. rewrite !app_nil_r in HR. rewrite firstn_map. exact HR. }
  intros k. destruct (K k) as [file [a [E [O [P Q]]]]]. exists file, a. split; [exact E|]. split; [exact O|]. split; [|exact Q].
  intros m [M1 [M2 M3]] M4. destruct (P m (conj M4 M1) M2) as [P1 [P2 P3]]. split; [|split].
  - intros n N. destruct (P1 n N) as [a' RD]. eexists. exists a'. split; [exact RD | apply HR0].
  - destruct (P2 M3) as [a' [RD|[last [RD LL]]]]; exists a'; [left; exact RD | right].
    eexists. exists (map r_values last). split; [exact RD|]. split; [rewrite firstn_map; apply HR | rewrite map_length; exact LL].
  - intros F. destruct (P3 F) as [a' RD]. eexists. exists a'. split; [exact RD | apply HR0].
Qed.
Print Assumptions C144_interrupted_write.

(** The number of complete rows exists and is unique as soon as the preamble is there, so
    the statement is about all interruptions after it. *)
Theorem C144_every_interruption : forall preamble lines k,
  length preamble <= k ->
  exists complete, complete_lines preamble lines k complete /\
    forall c, complete_lines preamble lines k c -> c = complete.
Proof.
  intros pre lines k K.
  assert (ST : forall a b, a < b -> b <= length lines -> length (flat (firstn a lines)) < length (flat (firstn b lines))).
  { induction lines as [|x L IH]; intros a b H1 H2; [cbn in H2; lia|]. destruct b; [lia|]. rewrite firstn_cons, flat_cons, !app_length.
    destruct a; [cbn; lia|]. rewrite firstn_cons, flat_cons, !app_length. cbn [length] in H2. specialize (IH a b ltac:(lia) ltac:(lia)). lia. }
  assert (EX : forall n, n <= length lines -> length (pre ++ flat (firstn n lines)) <= k \/
     exists c, c < n /\ length (pre ++ flat (firstn c lines)) <= k < length (pre ++ flat (firstn (S c) lines))).
  { induction n as [|n IH]; intros N; [left; cbn; rewrite app_nil_r; exact K|].
    destruct IH as [A|[c [A1 A2]]]; [lia| |right; exists c; split; [lia | exact A2]].
    destruct (Nat.le_gt_cases (length (pre ++ flat (firstn (S n) lines))) k) as [Z|Z]; [left; exact Z|].
    right. exists n. split; [lia|]. split; [exact A | exact Z]. }
  assert (UN : forall a b, complete_lines pre lines k a -> complete_lines pre lines k b -> a <= b).
  { intros a b [A1 [A2 A3]] [B1 [B2 B3]]. change text_of_lines with flat in *. rewrite !app_length in *.
    destruct (Nat.le_gt_cases a b) as [Z|Z]; [exact Z|]. exfalso. destruct B3 as [B3|B3]; [lia|].
    destruct (Nat.eq_dec (S b) a) as [<-|D]; [lia|]. specialize (ST (S b) a ltac:(lia) A1). lia. }
  assert (G : exists c, complete_lines pre lines k c).
  { destruct (EX (length lines) (le_n _)) as [A|[c [A1 A2]]].
    - exists (length lines). split; [lia|]. split; [exact A | left; reflexivity].
    - exists c. split; [lia|]. split; [apply A2 | right; apply A2]. }
  destruct G as [c G]. exists c. split; [exact G|]. intros c' G'. apply Nat.le_antisymm; apply UN; assumption.
Qed.
Print Assumptions C144_every_interruption.

(** The row after the complete ones, if there is one, may be wrong: of 123 only 12 was
    written. *)
Definition two_numbers : table := one_table [col "ID" TInt "" ""; col "v" TInt "" ""] [[CInt 1; CInt 9]; [CInt 2; CInt 123]].
Definition table_of (o : outcome table) : table := match o with Ok t => t | _ => two_numbers end.
Theorem C144_last_row_refuted : exists k file t' a',
  killed_after k (write_file no_text no_text (txt "#") [] [two_numbers]) = Ok file /\
  ar_read no_read no_read (reader_of "#" file) (-1) = (Ok t', a') /\
  map r_values (t_rows t') = [[CInt 1; CInt 9]; [CInt 2; CInt 12]].
Proof.
  exists 60, (firstn 60 (file_of "#" [] two_numbers)). set (r := ar_read _ _ _ _).
  exists (table_of (fst r)), (snd r). split; [vm_compute; reflexivity|]. unfold r. (split; [vm_compute; reflexivity|]). vm_compute. reflexivity.
Qed.
Print Assumptions C144_last_row_refuted.

(** Without a complete row even the columns may be wrong: the file is a table of the first
    column only. *)
Theorem C144_columns_refuted : exists k file t' a',
  killed_after k (write_file no_text no_text (txt "#") [] [two_numbers]) = Ok file /\
  ar_read no_read no_read (reader_of "#" file) (-1) = (Ok t', a') /\
  map cd_name (t_info t') = [txt "ID"] /\ map r_values (t_rows t') = [[CInt 1]].
Proof.
  exists 48, (firstn 48 (file_of "#" [] two_numbers)). set (r := ar_read _ _ _ _).
  exists (table_of (fst r)), (snd r). split; [vm_compute; reflexivity|]. unfold r. do 2 (split; [vm_compute; reflexivity|]). vm_compute. reflexivity.
Qed.
Print Assumptions C144_columns_refuted.

(** With an indicator of two characters, its first character alone is a row. *)
Theorem C144_long_indicator_refuted : exists k file t' a',
  killed_after k (write_file no_text no_text (txt "##") [] [two_numbers]) = Ok file /\
  ar_read no_read no_read (reader_of "##" file) (-1) = (Ok t', a') /\
  map cd_name (t_info t') = [txt "col1"] /\ map r_values (t_rows t') = [[CString (txt "#")]].
Proof.
  exists 1, (firstn 1 (file_of "##" [] two_numbers)). set (r := ar_read _ _ _ _).
  exists (table_of (fst r)), (snd r). split; [vm_compute; reflexivity|]. unfold r. do 2 (split; [vm_compute; reflexivity|]). vm_compute. reflexivity.
Qed.
Print Assumptions C144_long_indicator_refuted.

(** The hypotheses hold of the table of C48 (C48_case_hypotheses). Its file, cut in the
    second row: reading one row succeeds, reading everything throws. *)
Definition cut_example (k : nat) : areader := reader_of "#" (firstn k (file_of "#" [txt "Made by hand"] example_table)).
Example C144_case :
  match lines_of (file_of "#" [txt "Made by hand"] example_table) with
  | l1 :: l2 :: l3 :: l4 :: l5 :: l6 :: l7 :: l8 :: r1 :: r2 :: _ =>
      complete_lines (text_of_lines [l1; l2; l3; l4; l5; l6; l7; l8]) [r1; r2] 150 1 /\
      file_of "#" [txt "Made by hand"] example_table = text_of_lines [l1; l2; l3; l4; l5; l6; l7; l8] ++ text_of_lines [r1; r2]
  | _ => False
  end /\
  (exists t' a', ar_read no_read no_read (cut_example 150) 1 = (Ok t', a') /\
     holds_rows t' (t_info example_table) [[CLong 12; CString (txt "a b"); CVInt [1; -2]%Z]]) /\
  fst (ar_read no_read no_read (cut_example 150) (-1)) = Throw.
Proof.
  split; [|split].
  - vm_compute. split; [split; [|split; [|right]]; repeat constructor | reflexivity].
  - do 2 eexists. split; [vm_compute; reflexivity | split; reflexivity].
  - vm_compute. reflexivity.
Qed.
