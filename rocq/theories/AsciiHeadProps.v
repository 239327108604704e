(** The columns of ASCII files, whoever wrote them; fixed columns; spellings. *)
From Coq Require Import ZArith List Arith Ascii String Bool Lia.
From Verif Require Import Common TextModel TextProofs DblModel TableModel TableSpec TableProofs AsciiModel AsciiSpec AsciiProofs AsciiProofs2 AsciiProofs3 AsciiHeadModel AsciiHeadSpec AsciiCrashProofs AsciiHeadProofs AsciiHeadProofs2.
Import ListNotations.
Local Notation length := List.length.

(** ** C145: the columns of a file *)

(** Comments, descriptions of some columns, then a comment with as many words as the first
    line of data: these words are the names. The types are the fixed ones, or those of the
    descriptions with these names, or strings. *)
Theorem C145_names_line : forall ind hs ds names_line line rest ns ws names types a,
  good_indicator ind -> Forall (plain_comment ind) hs ->
  Forall (described_ok ind) ds -> NoDup (map de_name ds) ->
  plain_comment ind names_line -> spaced names_line ns -> NoDup ns ->
  first_line ind line ws -> length ns = length ws ->
  as_many names (length ws) -> as_many types (length ws) ->
  configured ind (ascii_file ind (hs ++ map description ds ++ [names_line]) line rest) names types a ->
  exists i a', read_info a = (Ok i, a') /\
    map cd_name i = chosen names ns /\
    (types <> [] -> map cd_type i = types) /\
    (types = [] -> forall k x, nth_error ns k = Some x ->
      (forall d, In d ds -> de_name d = x -> nth_error (map cd_type i) k = Some (de_type d)) /\
      (~ In x (map de_name ds) -> nth_error (map cd_type i) k = Some TString)) /\
    Forall (fun d => cd_unit d = [] /\ cd_desc d = []) i.
Proof.
  intros ind hs ds nl_ line rest ns ws N T a GI PH DO ND PN SN DN FL LN AN AT CF.
  destruct (names_line_columns ind hs ds nl_ line rest ns ws N T a) as [a' R]; try assumption.
  eexists. exists a'. split; [exact R|]. split; [|split; [|split]].
  - rewrite found_names.
    + apply firstn_all2. destruct N; cbn [chosen]; [lia|]. destruct AN; [discriminate | lia].
    + destruct N; cbn [chosen]; [lia|]. destruct AN; [discriminate | lia].
  - intros NE. apply found_types_fixed; [exact NE|]. destruct AT; [congruence | assumption].
  - intros -> k x E. assert (K : k < length ws) by (rewrite <- LN; apply nth_error_Some; congruence).
    assert (S1 : nth_error (map cd_type (map (column_found N [] ns (map found ds)) (seq 0 (length ws)))) k =
                 Some (cd_type (column_found N [] ns (map found ds) k))).
    { rewrite map_map, nth_error_map. replace (nth_error (seq 0 (length ws)) k) with (Some k); [reflexivity|].
      rewrite (nth_error_some_nth _ _ 0) by (rewrite seq_length; exact K). rewrite seq_nth by exact K. reflexivity. }
    rewrite S1. unfold column_found. cbn [cd_type]. rewrite (nth_error_nth ns k [] E). split.
    + intros d I <-. rewrite (find_described ds d ND I). reflexivity.
    + intros H. rewrite (find_desc_none x (map found ds)); [reflexivity|]. rewrite names_found. exact H.
  - apply found_plain, found_ok.
Qed.
Print Assumptions C145_names_line.

(** Without a line of names the descriptions give the names, in their order; the columns
    that are left are called after their numbers. With three columns the last description
    is taken for a line of names (see below). *)
Theorem C145_descriptions_only : forall ind hs ds line rest ws names types a,
  good_indicator ind -> Forall (plain_comment ind) hs ->
  Forall (described_ok ind) ds -> ds <> [] ->
  NoDup (map de_name ds ++ default_names (length ds) (length ws)) ->
  first_line ind line ws -> length ws <> 3 ->
  as_many names (length ws) -> as_many types (length ws) ->
  configured ind (ascii_file ind (hs ++ map description ds) line rest) names types a ->
  exists i a', read_info a = (Ok i, a') /\
    map cd_name i = chosen names (firstn (length ws) (map de_name ds ++ default_names (length ds) (length ws))) /\
    map cd_type i = chosen types (firstn (length ws) (map de_type ds ++ repeat TString (length ws - length ds))) /\
    Forall (fun d => cd_unit d = [] /\ cd_desc d = []) i.
Proof.
  intros ind hs ds line rest ws N T a GI PH DO NE ND FL N3 AN AT CF.
  destruct (described_columns ind hs ds line rest ws N T a) as [a' R]; try assumption.
  assert (LA : length ws <= length (map de_name ds ++ default_names (length ds) (length ws)))
    by (rewrite app_length, map_length; unfold default_names; rewrite map_length, seq_length; lia).
  eexists. exists a'. split; [exact R|]. split; [|split].
  - rewrite found_names by (destruct N; cbn [chosen]; [exact LA|]; destruct AN; [discriminate | lia]).
    destruct N; cbn [chosen]; [reflexivity|]. apply firstn_all2. destruct AN; [discriminate | lia].
  - destruct T as [|ty T]; [|cbn [chosen]; apply found_types_fixed; [discriminate | destruct AT; [discriminate | assumption]]].
    cbn [chosen]. rewrite <- (map_nth_seq (map de_type ds ++ repeat TString (length ws - length ds)) TString)
      by (rewrite app_length, map_length, repeat_length; lia).
    rewrite map_map. apply map_ext_in. intros k I. apply in_seq in I. cbn [column_found cd_type].
    destruct (Nat.lt_ge_cases k (length ds)) as [L|L].
    + rewrite !app_nth1 by (rewrite map_length; exact L).
      destruct (nth_error ds k) as [d|] eqn:E; [|apply nth_error_None in E; lia].
      rewrite (nth_error_nth (map de_name ds) k [] (x := de_name d)) by (rewrite nth_error_map, E; reflexivity).
      rewrite (nth_error_nth (map de_type ds) k TString (x := de_type d)) by (rewrite nth_error_map, E; reflexivity).
      rewrite (find_described ds d); [reflexivity | | apply (nth_error_In _ _ E)].
      clear -ND. induction (map de_name ds) as [|x l IH]; [constructor|]. cbn [app] in ND. inversion ND as [|? ? A B]; subst.
      constructor; [intros J; apply A; apply in_app_iff; left; exact J | apply IH; exact B].
    + rewrite !app_nth2 by (rewrite map_length; exact L). rewrite !map_length, nth_repeat.
      rewrite (find_desc_none _ (map found ds)); [reflexivity|]. rewrite names_found. intros J.
      assert (J2 : In (nth (k - length ds) (default_names (length ds) (length ws)) []) (default_names (length ds) (length ws)))
        by (apply nth_In; unfold default_names; rewrite map_length, seq_length; lia).
      revert ND J J2. generalize (nth (k - length ds) (default_names (length ds) (length ws)) []) as x.
      generalize (default_names (length ds) (length ws)) as l2. generalize (map de_name ds) as l1. clear.
      induction l1 as [|y l1 IH]; intros l2 x ND J J2; [destruct J|]. cbn [app] in ND. inversion ND as [|? ? A B]; subst.
      destruct J as [<-|J]; [apply A, in_app_iff; right; exact J2 | apply (IH l2 x B J J2)].
  - apply found_plain, found_ok.
Qed.
Print Assumptions C145_descriptions_only.

(** Without names and descriptions the columns are called col1, col2, ... and hold strings. *)
Theorem C145_no_names : forall ind hs line rest ws names types a,
  good_indicator ind -> Forall (plain_comment ind) hs ->
  (forall hs' h, hs = hs' ++ [h] -> exists lw, spaced h lw /\ lw <> [] /\ length lw <> length ws) ->
  first_line ind line ws -> as_many names (length ws) -> as_many types (length ws) ->
  configured ind (ascii_file ind hs line rest) names types a ->
  exists i a', read_info a = (Ok i, a') /\
    map cd_name i = chosen names (default_names 0 (length ws)) /\
    map cd_type i = chosen types (repeat TString (length ws)) /\
    Forall (fun d => cd_unit d = [] /\ cd_desc d = []) i.
Proof.
  intros ind hs line rest ws N T a GI PH LA FL AN AT CF.
  destruct (unnamed_columns ind hs line rest ws N T a) as [a' R]; try assumption.
  assert (LD : length (default_names 0 (length ws)) = length ws)
    by (unfold default_names; rewrite map_length, seq_length; lia).
  eexists. exists a'. split; [exact R|]. split; [|split].
  - rewrite found_names by (destruct N; cbn [chosen]; [lia|]; destruct AN; [discriminate | lia]).
    apply firstn_all2. destruct N; cbn [chosen]; [lia|]. destruct AN; [discriminate | lia].
  - destruct T as [|ty T]; [|cbn [chosen]; apply found_types_fixed; [discriminate | destruct AT; [discriminate | assumption]]].
    cbn [chosen]. rewrite map_map. cbn [column_found cd_type find_desc].
    generalize (length ws) as n. clear. intros n. generalize 0 as m. induction n as [|n IH]; intros m; [reflexivity|]. cbn. f_equal. apply IH.
  - apply found_plain. constructor.
Qed.
Print Assumptions C145_no_names.

(** The table that is read has the columns found. *)
Theorem C145_columns_of_the_table : forall pf pd a n t a',
  ar_read pf pd a n = (Ok t, a') -> exists a1, read_info a = (Ok (t_info t), a1).
Proof. intros pf pd a n t a' H. apply (read_table_info pf pd a n t a' H). Qed.
Print Assumptions C145_columns_of_the_table.

(** A file with comments and blank lines only cannot be read. *)
Theorem C145_no_data : forall pf pd ind lines names types a,
  good_indicator ind -> Forall (fun l => ~ In nl l /\ (white l \/ exists h, l = ind ++ h)) lines ->
  configured ind (flat_map (fun l => l ++ [nl]) lines) names types a ->
  forall n, exists a', ar_read pf pd a n = (Throw, a').
Proof.
  intros pf pd ind lines N T a GI F CF n. pose proof (ind_nonempty ind GI) as NI.
  destruct (configured_reader _ _ _ _ _ NI CF) as [-> _].
  assert (CC : forall ls, Forall (fun l => white l \/ exists h, l = ind ++ h) ls -> count_columns ind ls = Throw).
  { clear -GI NI. induction ls as [|l ls IH]; intros F; [reflexivity|]. inversion F as [|? ? H F2]; subst. cbn [count_columns].
    replace (clean ind l) with (@nil ascii); [apply IH; exact F2|]. symmetry. destruct H as [W|[h ->]].
    - unfold clean. destruct (find_sub ind l) as [k|]; apply trim_nil_iff, white_blank; [|exact W].
      intros c I. apply W. rewrite <- (firstn_skipn k l). apply in_app_iff. left. exact I.
    - apply clean_comment. exact NI. }
  unfold ar_read, read_info. cbn [ar_info ar_ind ar_names ar_types ar_lines]. unfold detect_info. rewrite CC.
  - eexists. reflexivity.
  - change (flat_map (fun l => l ++ [nl]) lines) with (flat lines). rewrite <- (app_nil_r (flat lines)). rewrite lines_flat_app.
    + apply Forall_app. split; [|constructor; [left; intros ? []|constructor]].
      eapply Forall_impl; [|exact F]. intros l [_ H]. exact H.
    + eapply Forall_impl; [|exact F]. intros l [H _]. exact H.
Qed.
Print Assumptions C145_no_data.

(** A file that describes a column twice cannot be read, whatever the user fixed. *)
Theorem C145_described_twice : forall pf pd ind hs ds more line rest ws names types a n,
  good_indicator ind -> Forall (plain_comment ind) hs ->
  Forall (described_ok ind) ds -> ~ NoDup (map de_name ds) ->
  Forall (fun h => avoids ind h /\ ~ In nl h) more -> first_line ind line ws ->
  configured ind (ascii_file ind (hs ++ map description ds ++ more) line rest) names types a ->
  exists a', ar_read pf pd a n = (Throw, a').
Proof.
  intros pf pd ind hs ds more line rest ws N T a n GI PH DO ND FM FL CF. pose proof (ind_nonempty ind GI) as NI.
  assert (FC : Forall (fun h => avoids ind h /\ ~ In nl h) (hs ++ map description ds ++ more)).
  { rewrite !Forall_app. split; [|split; [|exact FM]].
    - eapply Forall_impl; [|exact PH]. intros h [A [B _]]. auto.
    - apply Forall_forall. intros x I. apply in_map_iff in I. destruct I as [d [<- I]]. rewrite Forall_forall in DO.
      split; [apply description_avoids; auto | apply (description_no_nl ind); auto]. }
  destruct (configured_reader _ _ _ _ _ NI CF) as [-> _].
  unfold ar_read, read_info. cbn [ar_info ar_ind ar_names ar_types ar_lines].
  rewrite file_lines; [|apply (ind_no_nl ind GI) | eapply Forall_impl; [|exact FC]; intros h [_ H]; exact H | apply FL].
  unfold detect_info. rewrite (file_count ind _ line ws) by assumption. cbn [bind].
  rewrite (file_header ind _ line ws); [|exact GI | exact FL | eapply Forall_impl; [|exact FC]; intros h [H _]; exact H].
  rewrite !map_app. rewrite descriptions_skip by (apply (plain_not_desc ind); exact PH). rewrite map_map.
  rewrite (descriptions_twice ind ds []); [|exact DO | constructor | exact ND].
  destruct (_ && _)%bool; [eexists; reflexivity|]. destruct (_ && _)%bool; [eexists; reflexivity|].
  unfold auto_names. destruct (no_duplicates _ _); eexists; reflexivity.
Qed.
Print Assumptions C145_described_twice.

(** With three columns, the last description has as many words as there are columns, and its
    words become the names: the columns of this file are called Column:, c and int, instead of
    a, b and c, and only the second one has a type that was described, the one of c. *)
Theorem C145_three_columns_refuted : exists ind ds line ws a,
  good_indicator ind /\ Forall (described_ok ind) ds /\ NoDup (map de_name ds) /\
  first_line ind line ws /\ length ds = 3 /\ length ws = 3 /\
  configured ind (ascii_file ind (map description ds) line []) [] [] a /\
  exists i a', read_info a = (Ok i, a') /\
    map cd_name i = [txt "Column:"; txt "c"; txt "int"] /\ map cd_type i = [TString; TInt; TString].
Proof.
  set (ds := [mkDescribed (txt "a") "double" TDouble; mkDescribed (txt "b") "double" TDouble; mkDescribed (txt "c") "int" TInt]).
  exists (txt "#"), ds, (txt "1 2 3"), [txt "1"; txt "2"; txt "3"].
  exists (mkAr (txt "#") [] [] false None (lines_of (ascii_file (txt "#") (map description ds) (txt "1 2 3") []))).
  assert (AV : forall s, ~ In "#"%char s -> avoids (txt "#") s) by (intros s H c0 r E; injection E as <- <-; exact H).
  assert (W : forall s, needs_quotes s = false -> s <> [] -> word s)
    by (intros s H N; split; [exact N | apply needs_quotes_false; exact H]).
  split; [|split; [|split; [|split; [|split; [|split; [|split]]]]]].
  - split; [exists "#"%char, []; split; [reflexivity | vm_compute; intuition discriminate] | intros c [<-|[]]; reflexivity].
  - assert (OK : forall n k t, needs_quotes n = false -> n <> [] -> ~ In "#"%char n -> In (k, t) spellings -> ~ In "#"%char (txt k) ->
      described_ok (txt "#") (mkDescribed n k t)).
    { intros n k t A B C D E. split; [apply W; assumption|]. split; [exact D|]. split; apply AV; assumption. }
    unfold ds. do 3 (constructor; [apply OK; [reflexivity | discriminate | cbn; intuition discriminate | cbn; tauto | cbn; intuition discriminate]|]). constructor.
  - vm_compute. repeat constructor; cbn; intuition discriminate.
  - split; [|split; [discriminate | split; [apply AV; vm_compute; intuition discriminate | vm_compute; intuition discriminate]]].
    assert (B0 : white []) by (intros ? []). assert (B1 : white [sp]) by (intros c [<-|[]]; apply white_is_space; reflexivity).
    change (txt "1 2 3") with ([] ++ txt "1" ++ ([sp] ++ txt "2" ++ ([sp] ++ txt "3" ++ []))).
    assert (SW : forall c r, sp :: c = r -> forall d q, r = d :: q -> In d white_space) by (intros c r <- d q E; injection E as <- _; apply white_is_space; reflexivity).
    apply spaced_word; [exact B0 | apply W; [reflexivity | discriminate] | apply (SW _ _ eq_refl)|].
    apply spaced_word; [exact B1 | apply W; [reflexivity | discriminate] | apply (SW _ _ eq_refl)|].
    apply spaced_word; [exact B1 | apply W; [reflexivity | discriminate] | intros c r E; discriminate | apply spaced_end; exact B0].
  - reflexivity.
  - reflexivity.
  - eexists. eexists. repeat split; vm_compute; reflexivity.
  - eexists. eexists. repeat split; vm_compute; reflexivity.
Qed.
Print Assumptions C145_three_columns_refuted.

(** ** C146: columns fixed by the user *)

(** Names are accepted exactly before any reading, when they are not empty, have no vertical
    white space, are all different, and are as many as the types already fixed. *)
Theorem C146_names_accepted : forall a names,
  (exists a', ar_fix_names a names = Ok a') <->
  ar_started a = false /\ good_names names /\ (names = [] \/ ar_types a = [] \/ length names = length (ar_types a)).
Proof.
  intros a N. rewrite good_names_checks, <- sizes_differ_false. unfold ar_fix_names.
  destruct (ar_started a), (forallb not_empty N), (existsb has_vertical N), (no_duplicates [] N), (sizes_differ N (ar_types a));
    cbn [negb]; split; intros H; try (destruct H as [? H]; discriminate H); try (decompose [and] H; discriminate); eauto;
    repeat split; reflexivity.
Qed.
Print Assumptions C146_names_accepted.
Theorem C146_types_accepted : forall a types,
  (exists a', ar_fix_types a types = Ok a') <->
  ar_started a = false /\ (ar_names a = [] \/ types = [] \/ length (ar_names a) = length types).
Proof.
  intros a T. rewrite <- sizes_differ_false. unfold ar_fix_types.
  destruct (ar_started a), (sizes_differ (ar_names a) T);
    cbn [negb]; split; intros H; try (destruct H as [? H]; discriminate H); try (decompose [and] H; discriminate); eauto.
Qed.
Print Assumptions C146_types_accepted.

(** Whatever the file holds, a table that is read has the names and the types that were
    fixed, or the names found in the file, all different. *)
Theorem C146_fixed_columns_obeyed : forall pf pd ind file names types a n t a',
  ind <> [] -> configured ind file names types a -> ar_read pf pd a n = (Ok t, a') ->
  (names <> [] -> map cd_name (t_info t) = names) /\
  (types <> [] -> map cd_type (t_info t) = types) /\
  good_names (map cd_name (t_info t)).
Proof.
  intros pf pd ind file N T a n t a' NI CF H. destruct (configured_reader _ _ _ _ _ NI CF) as [-> _].
  apply read_table_info in H. destruct H as [a1 H]. apply read_info_obeys in H; [|reflexivity].
  apply detect_obeys in H. destruct H as [A [B [C D]]]. split; [exact A|]. split; [exact B|].
  split; [apply Forall_map; exact D | exact C].
Qed.
Print Assumptions C146_fixed_columns_obeyed.

(** Another number of names or types than the first line of data has: nothing can be read. *)
Theorem C146_wrong_number : forall pf pd ind comments line rest ws names types a n,
  good_indicator ind -> Forall (fun h => ~ In nl h) comments -> first_line ind line ws ->
  ~ as_many names (length ws) \/ ~ as_many types (length ws) ->
  configured ind (ascii_file ind comments line rest) names types a ->
  exists a', ar_read pf pd a n = (Throw, a').
Proof.
  intros pf pd ind cs line rest ws N T a n GI FC FL W CF. pose proof (ind_nonempty ind GI) as NI.
  destruct (configured_reader _ _ _ _ _ NI CF) as [-> _].
  unfold ar_read, read_info. cbn [ar_info ar_ind ar_names ar_types ar_lines].
  rewrite file_lines; [|apply (ind_no_nl ind GI) | exact FC | apply FL].
  unfold detect_info. rewrite (file_count ind cs line ws) by assumption. cbn [bind].
  assert (E : forall A (l : list A), ~ as_many l (length ws) -> (negb (Nat.eqb (length l) 0) && negb (Nat.eqb (length l) (length ws)))%bool = true).
  { intros A l H. apply andb_true_iff. split; apply negb_true_iff, Nat.eqb_neq; intros Z; apply H; [left; destruct l; [reflexivity | discriminate] | right; exact Z]. }
  destruct W as [W|W]; rewrite (E _ _ W).
  - eexists. reflexivity.
  - destruct (_ && _)%bool; eexists; reflexivity.
Qed.
Print Assumptions C146_wrong_number.

(** The two ways of writing the calls agree: with the reader that results also when the call
    throws, and without. *)
Theorem C146_calls : forall a a' names types,
  (ar_fix_names a names = Ok a' <-> fix_names_call a names = (Ok tt, a')) /\
  (ar_fix_types a types = Ok a' <-> fix_types_call a types = (Ok tt, a')).
Proof.
  intros a a' N T. split.
  - unfold ar_fix_names, fix_names_call.
    destruct (ar_started a), (forallb not_empty N), (existsb has_vertical N), (no_duplicates [] N), (sizes_differ N (ar_types a));
      cbn [negb]; split; intros H; try discriminate; injection H as <-; reflexivity.
  - unfold ar_fix_types, fix_types_call. destruct (ar_started a), (sizes_differ (ar_names a) T); split; intros H; try discriminate; injection H as <-; reflexivity.
Qed.
Print Assumptions C146_calls.

(** A refused call leaves the reader with the names it refused: a user who catches the
    exception cannot read the table any more. *)
Theorem C146_refused_names_poison : forall pf pd ind file types a0 a a1 names n t a2,
  open_reader ind file = Ok a0 -> ar_fix_types a0 types = Ok a -> fix_names_call a names = (Throw, a1) ->
  ar_read pf pd a1 n <> (Ok t, a2).
Proof.
  intros pf pd ind file T a0 a a1 N n t a2 O FT FN H. unfold open_reader, ar_set_comment, new_areader in O. cbn [ar_started] in O.
  destruct ind as [|c ind]; [discriminate|]. injection O as <-. unfold ar_fix_types in FT. cbn [ar_started ar_names] in FT.
  destruct (sizes_differ [] T); [discriminate|]. injection FT as <-. unfold fix_names_call in FN. cbn [ar_started ar_ind ar_types ar_info ar_lines] in FN.
  injection FN as FN <-. apply read_table_info in H. destruct H as [a3 H]. apply read_info_obeys in H; [|reflexivity].
  cbn [ar_ind ar_names ar_types ar_lines] in H. apply detect_obeys in H. destruct H as [A [B [C D]]].
  assert (GN : good_names N).
  { destruct N as [|x N]; [split; constructor|]. specialize (A ltac:(discriminate)). rewrite <- A. split; [apply Forall_map; exact D | exact C]. }
  assert (SD : sizes_differ N T = false).
  { apply sizes_differ_false. destruct N as [|x N]; [auto|]. destruct T as [|ty T]; [auto|]. right. right.
    rewrite <- (A ltac:(discriminate)), <- (B ltac:(discriminate)), !map_length. reflexivity. }
  apply good_names_checks in GN. destruct GN as [-> [-> ->]] in FN. rewrite SD in FN. discriminate.
Qed.
Print Assumptions C146_refused_names_poison.
Theorem C146_refused_types_poison : forall pf pd ind file names a0 a a1 types n t a2,
  open_reader ind file = Ok a0 -> ar_fix_names a0 names = Ok a -> fix_types_call a types = (Throw, a1) ->
  ar_read pf pd a1 n <> (Ok t, a2).
Proof.
  intros pf pd ind file N a0 a a1 T n t a2 O FN FT H. unfold open_reader, ar_set_comment, new_areader in O. cbn [ar_started] in O.
  destruct ind as [|c ind]; [discriminate|]. injection O as <-.
  assert (E : a = mkAr (c :: ind) N [] false None (lines_of file)).
  { unfold ar_fix_names in FN. cbn [ar_started ar_ind ar_types ar_info ar_lines] in FN.
    destruct (negb (forallb not_empty N)); [discriminate|]. destruct (existsb has_vertical N); [discriminate|].
    destruct (negb (no_duplicates [] N)); [discriminate|]. destruct (sizes_differ N []); [discriminate|]. injection FN as <-. reflexivity. }
  subst a. unfold fix_types_call in FT. cbn [ar_started ar_ind ar_names ar_info ar_lines] in FT.
  injection FT as FT <-. apply read_table_info in H. destruct H as [a3 H]. apply read_info_obeys in H; [|reflexivity].
  cbn [ar_ind ar_names ar_types ar_lines] in H. apply detect_obeys in H. destruct H as [A [B [C D]]].
  assert (SD : sizes_differ N T = false).
  { apply sizes_differ_false. destruct N as [|x N]; [auto|]. destruct T as [|ty T]; [auto|]. right. right.
    rewrite <- (A ltac:(discriminate)), <- (B ltac:(discriminate)), !map_length. reflexivity. }
  rewrite SD in FT. discriminate.
Qed.
Print Assumptions C146_refused_types_poison.

(** After any read, skip, or request for the columns or the comment, whether it succeeded or
    threw, the indicator, the names and the types cannot be changed: the calls throw and the
    reader is as before. *)
Theorem C146_too_late : forall pf pd a0 a,
  (exists n o, ar_read pf pd a0 n = (o, a)) \/ (exists n o, ar_skip a0 n = (o, a)) \/
  (exists o, read_info a0 = (o, a)) \/ (exists s, ar_comment a0 = (s, a)) ->
  ar_info a0 = None \/ ar_started a0 = true ->
  forall ind names types,
  ar_set_comment a ind = Throw /\ fix_names_call a names = (Throw, a) /\ fix_types_call a types = (Throw, a).
Proof.
  intros pf pd a0 a H I ind N T.
  assert (R : forall o x, read_info a0 = (o, x) -> ar_started x = true).
  { intros o x E. unfold read_info in E. destruct (ar_info a0) as [i|].
    - injection E as _ <-. destruct I; [discriminate | assumption].
    - destruct (detect_info _ _ _ _); injection E as _ <-; reflexivity. }
  assert (ST : ar_started a = true).
  { destruct H as [[n [o H]]|[[n [o H]]|[[o H]|[s H]]]].
    - unfold ar_read in H. destruct (read_info a0) as [q x] eqn:E. specialize (R q x eq_refl).
      destruct q as [i| | |]; try (injection H as _ <-; exact R). destruct (read_loop _ _ _ _ _ _) as [q r]. injection H as _ <-. exact R.
    - unfold ar_skip in H. destruct (read_info a0) as [q x] eqn:E. specialize (R q x eq_refl).
      destruct q as [i| | |]; injection H as _ <-; exact R.
    - apply (R o a H).
    - unfold ar_comment in H. destruct (comment_lines _ _) as [q r]. injection H as _ <-. reflexivity. }
  unfold ar_set_comment, fix_names_call, fix_types_call. rewrite ST. auto.
Qed.
Print Assumptions C146_too_late.

(** The comment indicator can be set to any text but the empty one before anything was read, and nothing else
    of the reader changes. *)
Theorem C146_comment_indicator : forall a ind,
  (ind = [] -> ar_set_comment a ind = Throw) /\
  (ind <> [] -> ar_started a = false -> exists a', ar_set_comment a ind = Ok a' /\ ar_ind a' = ind /\
    ar_names a' = ar_names a /\ ar_types a' = ar_types a /\ ar_started a' = false /\ ar_info a' = ar_info a /\ ar_lines a' = ar_lines a).
Proof.
  intros a ind. split.
  - intros ->. unfold ar_set_comment. destruct (ar_started a); reflexivity.
  - intros N S. unfold ar_set_comment. rewrite S. destruct ind as [|c r]; [congruence|]. eexists. repeat split.
Qed.
Print Assumptions C146_comment_indicator.
(** Skipping rows fails exactly when the columns of the file cannot be told, with the same exception and the
    same reader left. *)
Theorem C146_skip_fails_with_the_columns : forall a n, (exists i a1, read_info a = (Ok i, a1) /\ fst (ar_skip a n) = Ok tt) \/
  (exists o a1, read_info a = (o, a1) /\ (forall i, o <> Ok i) /\ snd (ar_skip a n) = a1 /\ (o = Throw -> fst (ar_skip a n) = Throw)).
Proof.
  intros a n. unfold ar_skip. destruct (read_info a) as [o a1]. destruct o as [i| | |].
  - left. exists i, a1. split; reflexivity.
  - right. exists Throw, a1. repeat split; auto. discriminate.
  - right. exists UB, a1. repeat split; auto; discriminate.
  - right. exists Diverge, a1. repeat split; auto; discriminate.
Qed.
Print Assumptions C146_skip_fails_with_the_columns.

(** ** C147: spellings of types and values *)

(** The spellings of the types are those of the list, and nothing else is accepted. *)
Theorem C147_type_spellings : forall k,
  (forall t, keyword_type k = Ok t <-> exists s, k = txt s /\ In (s, t) spellings) /\
  ((exists t, keyword_type k = Ok t) \/ keyword_type k = Throw).
Proof.
  intros k.
  assert (P : forall s t, k = txt s -> In (s, t) spellings -> keyword_type k = Ok t) by (intros s t -> I; apply (spelling_facts s t I)).
  assert (Q : (exists t s, keyword_type k = Ok t /\ k = txt s /\ In (s, t) spellings) \/ keyword_type k = Throw).
  { assert (D : forall s, is_word s k = true -> k = txt s) by (intros s H; unfold is_word in H; apply text_eqb_iff in H; congruence).
    unfold keyword_type.
    repeat match goal with
    | |- context [(is_word ?s k || is_word ?s' k)%bool] =>
        destruct (is_word s k) eqn:?; cbn [orb]; [left; eexists; exists s; split; [reflexivity|]; split; [apply D; assumption | cbn; tauto]|];
        destruct (is_word s' k) eqn:?; cbn [orb]; [left; eexists; exists s'; split; [reflexivity|]; split; [apply D; assumption | cbn; tauto]|]
    | |- context [if is_word ?s k then _ else _] =>
        destruct (is_word s k) eqn:?; [left; eexists; exists s; split; [reflexivity|]; split; [apply D; assumption | cbn; tauto]|]
    end. right. reflexivity. }
  split.
  - intros t. split.
    + intros H. destruct Q as [[t' [s [E [K I]]]]|Q]; [|congruence]. rewrite H in E. injection E as <-. eauto.
    + intros [s [K I]]. apply (P s t K I).
  - destruct Q as [[t [s [E _]]]|Q]; [left; eauto | right; exact Q].
Qed.
Print Assumptions C147_type_spellings.

(** Booleans. *)
Theorem C147_booleans : forall pf pd s c,
  read_cell pf pd TBool s = Ok c <->
  c = CBool true /\ In s (map txt ["true"; "t"; "yes"; "y"; "1"]%string) \/
  c = CBool false /\ In s (map txt ["false"; "f"; "no"; "n"; "0"]%string).
Proof.
  intros pf pd s c. cbn [read_cell]. rewrite bind_ok.
  assert (D : forall l, existsb (fun w => is_word w s) l = true <-> In s (map txt l)).
  { intros l. rewrite existsb_exists, in_map_iff. split; intros [w [A B]]; exists w; unfold is_word in *.
    - apply text_eqb_iff in B. auto.
    - split; [exact B|]. apply text_eqb_iff. congruence. }
  rewrite <- !D. unfold read_bool.
  destruct (existsb _ ["true"; "t"; "yes"; "y"; "1"]%string) eqn:E1.
  - split.
    + intros [b [H K]]. injection H as <-. injection K as <-. auto.
    + intros [[-> _]|[-> H]]; [eauto|]. exfalso. apply D in E1. apply D in H.
      cbn [map In] in E1, H. decompose [or] E1; decompose [or] H; subst; try contradiction; discriminate.
  - destruct (existsb _ ["false"; "f"; "no"; "n"; "0"]%string) eqn:E2.
    + split; [intros [b [H K]]; injection H as <-; injection K as <-; auto | intros [[_ H]|[-> _]]; [discriminate | eauto]].
    + split; [intros [b [H _]]; discriminate | intros [[_ H]|[_ H]]; discriminate].
Qed.
Print Assumptions C147_booleans.

(** Integers: an optional sign and decimal digits, within the range of the type. *)
Theorem C147_integers : forall pf pd s c,
  (read_cell pf pd TInt s = Ok c <->
   exists v, is_integer s v /\ (-2147483648 <= v <= 2147483647)%Z /\ c = CInt v) /\
  (read_cell pf pd TLong s = Ok c <->
   exists v, is_integer s v /\ (-9223372036854775808 <= v <= 9223372036854775807)%Z /\ c = CLong v).
Proof.
  intros pf pd s c. cbn [read_cell]. unfold read_int, read_long. rewrite !bind_ok.
  split; split.
  - intros [v [H K]]. apply lexical_int_ok in H. destruct H as [H R]. injection K as <-. exists v. auto.
  - intros [v [H [R ->]]]. exists v. split; [apply lexical_int_ok; auto | reflexivity].
  - intros [v [H K]]. apply lexical_int_ok in H. destruct H as [H R]. injection K as <-. exists v. auto.
  - intros [v [H [R ->]]]. exists v. split; [apply lexical_int_ok; auto | reflexivity].
Qed.
Print Assumptions C147_integers.

(** Vectors: the elements between commas, each spelled like a single value; nothing between
    two commas is no element. *)
Theorem C147_vectors : forall pf pd s c,
  let list_of {A} (ty : ctype) (one : A -> cell) (many : list A -> cell) := exists ps l,
    comma_list s ps /\ Forall2 (fun p v => read_cell pf pd ty p = Ok (one v)) (given ps) l /\ c = many l in
  (read_cell pf pd TVBool s = Ok c <-> list_of TBool CBool CVBool) /\
  (read_cell pf pd TVInt s = Ok c <-> list_of TInt CInt CVInt) /\
  (read_cell pf pd TVLong s = Ok c <-> list_of TLong CLong CVLong) /\
  (read_cell pf pd TVFloat s = Ok c <-> list_of TFloat CFloat CVFloat) /\
  (read_cell pf pd TVDouble s = Ok c <-> list_of TDouble CDouble CVDouble).
Proof.
  intros pf pd s c. cbv zeta. cbn [read_cell].
  assert (G : forall A (f : text -> outcome A) (one : A -> cell) (many : list A -> cell), (forall x y, one x = one y -> x = y) ->
    (bind (read_vector f s) (fun l => Ok (many l)) = Ok c <->
     exists ps l, comma_list s ps /\ Forall2 (fun p v => bind (f p) (fun x => Ok (one x)) = Ok (one v)) (given ps) l /\ c = many l)).
  { intros A f one many INJ.
    assert (E : forall ps l, Forall2 (fun p v => bind (f p) (fun x => Ok (one x)) = Ok (one v)) ps l <-> Forall2 (fun p v => f p = Ok v) ps l).
    { intros ps l. split; intros F; induction F as [|p v ps l H F IH]; constructor; try exact IH.
      - apply bind_ok in H. destruct H as [x [H K]]. injection K as K. apply INJ in K. congruence.
      - rewrite H. reflexivity. }
    rewrite bind_ok. split.
    - intros [l [H K]]. injection K as <-. apply read_vector_list in H. destruct H as [ps [H F]]. exists ps, l. rewrite E. auto.
    - intros [ps [l [H [F ->]]]]. exists l. split; [|reflexivity]. apply read_vector_list. exists ps. rewrite <- E. auto. }
  do 4 (split; [apply G; intros x y H; injection H; auto|]). apply G. intros x y H. injection H. auto.
Qed.
Print Assumptions C147_vectors.

(** Arrays: the lengths between < and >, then the elements; their number is the product of
    the lengths, computed with 32 bits. *)
Theorem C147_arrays : forall pf pd s c,
  let array_of {A} (ty : ctype) (many : list A -> cell) (array : list Z -> list A -> cell) :=
    exists a b sh l, s = "<"%char :: a ++ ">"%char :: b /\ ~ In ">"%char a /\
      read_cell pf pd TVInt a = Ok (CVInt sh) /\ read_cell pf pd ty b = Ok (many l) /\
      (lengths_product sh mod 4294967296 = Z.of_nat (length l))%Z /\
      c = array (map (fun n => n mod 18446744073709551616)%Z sh) l in
  (read_cell pf pd TNInt s = Ok c <-> array_of TVInt CVInt CNInt) /\
  (read_cell pf pd TNLong s = Ok c <-> array_of TVLong CVLong CNLong) /\
  (read_cell pf pd TNFloat s = Ok c <-> array_of TVFloat CVFloat CNFloat) /\
  (read_cell pf pd TNDouble s = Ok c <-> array_of TVDouble CVDouble CNDouble).
Proof.
  intros pf pd s c. cbv zeta. cbn [read_cell].
  assert (G : forall A (f : text -> outcome A) (many : list A -> cell) (array : list Z -> list A -> cell), (forall x y, many x = many y -> x = y) ->
    (bind (read_array f s) (fun p => Ok (array (fst p) (snd p))) = Ok c <->
     exists a b sh l, s = "<"%char :: a ++ ">"%char :: b /\ ~ In ">"%char a /\
      bind (read_vector read_int a) (fun x => Ok (CVInt x)) = Ok (CVInt sh) /\ bind (read_vector f b) (fun x => Ok (many x)) = Ok (many l) /\
      (lengths_product sh mod 4294967296 = Z.of_nat (length l))%Z /\
      c = array (map (fun n => n mod 18446744073709551616)%Z sh) l)).
  { intros A f many array INJ. rewrite bind_ok. split.
    - intros [[sh l] [H K]]. injection K as <-. apply read_array_ok in H. destruct H as [a [b [sh0 [E [N [V1 [V2 [P ->]]]]]]]].
      exists a, b, sh0, l. rewrite V1, V2. cbn. auto 10.
    - intros [a [b [sh0 [l [E [N [V1 [V2 [P ->]]]]]]]]]. exists (map (fun n => n mod 18446744073709551616)%Z sh0, l). split; [|reflexivity].
      apply read_array_ok. exists a, b, sh0. apply bind_ok in V1, V2. destruct V1 as [x [V1 K1]], V2 as [y [V2 K2]].
      injection K1 as ->. injection K2 as K2. apply INJ in K2. subst y. auto 10. }
  do 3 (split; [apply G; intros x y H; injection H; auto|]). apply G. intros x y H. injection H. auto.
Qed.
Print Assumptions C147_arrays.

(** Strings are taken as they are; nothing but an exception happens to the other values. *)
Theorem C147_strings_and_others : forall pf pd ty s,
  read_cell pf pd TString s = Ok (CString s) /\
  ((exists c, read_cell pf pd ty s = Ok c) \/ read_cell pf pd ty s = Throw).
Proof. intros pf pd ty s. split; [reflexivity|]. apply read_cell_outcomes. Qed.
Print Assumptions C147_strings_and_others.

(** Negative lengths are accepted when their product fits: this cell with one element becomes
    an array of (2^64 - 1) times (2^64 - 1) elements. *)
Theorem C147_negative_lengths_refuted : forall pf pd,
  read_cell pf pd TNInt (txt "<-1,-1>5") = Ok (CNInt [18446744073709551615; 18446744073709551615]%Z [5%Z]).
Proof. intros pf pd. vm_compute. reflexivity. Qed.
Print Assumptions C147_negative_lengths_refuted.

(** ** Cases *)
Example C145_case :
  let file := txt "# from the survey" ++ nl :: txt "# Column: z int64" ++ nl :: txt "# id z" ++ nl :: txt "  a 12" ++ nl :: txt "b 13" in
  let a := mkAr (txt "#") [] [] false None (lines_of file) in
  configured (txt "#") file [] [] a /\
  file = ascii_file (txt "#") ([txt " from the survey"] ++ map description [mkDescribed (txt "z") "int64" TLong] ++ [txt " id z"]) (txt "  a 12") (txt "b 13") /\
  map (fun d => (cd_name d, cd_type d)) (match fst (read_info a) with Ok i => i | _ => [] end) = [(txt "id", TString); (txt "z", TLong)] /\
  default_name 12 = txt "col12".
Proof.
  cbv zeta. split; [eexists; eexists; repeat split; vm_compute; reflexivity|]. split; [|split]; vm_compute; reflexivity.
Qed.
Example C146_case : forall pf pd,
  let file := txt "# id z" ++ nl :: txt "a 12" ++ nl :: txt "b 13" in
  let a := mkAr (txt "#") [txt "name"; txt "redshift"] [TString; TInt] false None (lines_of file) in
  configured (txt "#") file [txt "name"; txt "redshift"] [TString; TInt] a /\
  (exists t a', ar_read pf pd a (-1) = (Ok t, a') /\ map r_values (t_rows t) = [[CString (txt "a"); CInt 12]; [CString (txt "b"); CInt 13]]) /\
  exists a0 a1, open_reader (txt "#") file = Ok a0 /\ fix_names_call a0 [txt "z"; txt "z"] = (Throw, a1) /\
    ar_read pf pd a1 1 = (Throw, mkAr (txt "#") [txt "z"; txt "z"] [] true None (lines_of file)).
Proof.
  intros pf pd. cbv zeta. split; [eexists; eexists; repeat split; vm_compute; reflexivity|]. split.
  - eexists. eexists. split; vm_compute; reflexivity.
  - eexists. eexists. repeat split; vm_compute; reflexivity.
Qed.
Example C147_case : forall pf pd,
  read_cell pf pd TNInt (txt "<2,2>1,-2,+3,,4") = Ok (CNInt [2; 2] [1; -2; 3; 4])%Z /\
  read_cell pf pd TInt (txt "2147483648") = Throw /\ read_cell pf pd TVBool (txt "yes,,n") = Ok (CVBool [true; false]) /\
  keyword_type (txt "[int32+]") = Ok TNInt /\ keyword_type (txt "Int") = Throw.
Proof. intros pf pd. repeat split; vm_compute; reflexivity. Qed.
