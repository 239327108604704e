(** Proofs about the ASCII tables left by an interrupted write. *)
From Coq Require Import ZArith List Arith Ascii String Bool Lia.
From Verif Require Import Common TextModel TextProofs DblModel TableModel TableSpec TableProofs AsciiModel AsciiSpec AsciiProofs AsciiProofs2 AsciiProofs3 AsciiCrashModel.
Import ListNotations.
Local Notation length := List.length.

(** ** Cutting a list of lines *)
Lemma flat_cons x L : flat (x :: L) = x ++ [nl] ++ flat L.
Proof. unfold flat. cbn [flat_map]. rewrite <- app_assoc. reflexivity. Qed.
Lemma cut_lines : forall L k, exists j p, j <= length L /\
  firstn k (flat L) = flat (firstn j L) ++ firstn p (nth j L []) /\
  (j < length L -> k < length (flat (firstn (S j) L))) /\
  (length (flat (firstn j L)) = k -> firstn p (nth j L []) = []).
Proof.
  induction L as [|x L IH]; intros k.
  - exists 0, 0. rewrite firstn_nil. repeat split; cbn [length]; lia.
  - rewrite flat_cons. destruct (Nat.le_gt_cases k (length x)) as [H|H].
    + exists 0, k. cbn [firstn nth flat flat_map app length]. split; [lia|]. split; [|split].
      * rewrite firstn_app. replace (k - length x) with 0 by lia. rewrite app_nil_r. reflexivity.
      * intros _. fold (flat []). rewrite app_length. cbn [length]. rewrite app_length. cbn [length]. lia.
      * intros <-. reflexivity.
    + destruct (IH (k - length x - 1)) as [j [p [A [B [C D]]]]]. exists (S j), p.
      rewrite !firstn_cons. cbn [nth length]. split; [lia|]. split; [|split].
      * rewrite flat_cons. rewrite firstn_app, (firstn_all2 x) by lia. rewrite <- !app_assoc. f_equal.
        cbn [app]. replace (k - length x) with (S (k - length x - 1)) by lia. rewrite firstn_cons, B. reflexivity.
      * intros J. specialize (C ltac:(lia)). rewrite !flat_cons, !app_length. cbn [length]. lia.
      * intros J. apply D. rewrite flat_cons, !app_length in J. cbn [length] in J. lia.
Qed.
Lemma lines_cut L part : Forall (fun s => ~ In nl s) L -> ~ In nl part -> lines_of (flat L ++ part) = L ++ [part].
Proof.
  intros F N. assert (NS : forall s, ~ In nl s -> split_on is_nl s = [s]).
  { intros s H. apply split_no_sep. apply Forall_forall. intros c I. unfold is_nl. apply ascii_eqb_neq. intros ->. contradiction. }
  unfold lines_of. induction F as [|s L H F IH]; [apply NS; exact N|].
  rewrite flat_cons. rewrite <- !app_assoc. cbn [app]. rewrite split_app by reflexivity. rewrite IH, NS by exact H. reflexivity.
Qed.
Lemma firstn_in {A} n (l : list A) x : In x (firstn n l) -> In x l.
Proof. intros I. rewrite <- (firstn_skipn n l). apply in_app_iff. left. exact I. Qed.
Lemma Forall_firstn {A} (P : A -> Prop) n l : Forall P l -> Forall P (firstn n l).
Proof. rewrite !Forall_forall. intros H x I. apply H. apply firstn_in in I. exact I. Qed.
Lemma Forall2_firstn {A B} (P : A -> B -> Prop) : forall l r n, Forall2 P l r -> Forall2 P (firstn n l) (firstn n r).
Proof.
  intros l r n F. revert n. induction F as [|x y l r H F IH]; intros n; destruct n; cbn; constructor; auto.
Qed.
Lemma flat_firstn_mono L : forall a b, a <= b -> length (flat (firstn a L)) <= length (flat (firstn b L)).
Proof.
  induction L as [|x L IH]; intros a b H; [rewrite !firstn_nil; lia|].
  destruct a; [cbn; lia|]. destruct b; [lia|]. rewrite !firstn_cons, !flat_cons, !app_length. specialize (IH a b). lia.
Qed.

Lemma Forall2_length' {A B} (R : A -> B -> Prop) l m : Forall2 R l m -> length l = length m.
Proof. intros F. induction F; cbn; congruence. Qed.

Section Floats.
Variables ff fd : dbl -> text.
Variables pf pd : text -> option dbl.

(** The columns, from the head and the first complete row. *)
Lemma detect_written ind cs t l x rest : good_indicator ind -> Forall (harmless_comment ind) cs ->
  built_table t -> Forall (carried_column ind) (t_info t) -> first_name_ok (t_info t) ->
  name_items (t_info t) l ->
  clean ind x <> [] -> length (tokens (clean ind x)) = length (t_info t) -> trim x <> [] -> starts_with (trim x) ind = false ->
  detect_info ind [] [] (head_lines ind cs (t_info t) (laid l) ++ x :: rest) = Ok (map read_back (t_info t)).
Proof.
  intros GI HC B1 C FN E Q1 Q2 Q4 Q5.
  pose proof (built_good ind t B1 C) as G.
  assert (IN : new_info (t_info t) = Ok (t_info t)) by apply B1.
  pose proof IN as IN2. apply new_info_ok in IN2. destruct IN2 as [_ [NE ND]].
  pose proof (ind_nonempty ind GI) as NI. set (i := t_info t) in *.
  unfold detect_info. rewrite count_silent by (apply head_silent; exact NI).
  rewrite (count_data ind x _ (length i - 1)).
  2: exact Q1.
  2:{ rewrite Q2. destruct i; [congruence | simpl; lia]. }
  cbn [bind length Nat.eqb negb andb].
  replace (S (length i - 1)) with (length i) by (destruct i; [congruence | simpl; lia]).
  destruct (head_header pf pd ind cs i l (x :: rest) GI NE HC G C E FN (header_stop ind x _ Q4 Q5)) as [hs [HH1 HH2]].
  rewrite HH1.
  destruct (names_entry ind GI i l NE E G FN C) as [_ [T1 [T2 T3]]].
  rewrite (auto_names_found _ (trim (laid l)) i NE ND T2 T3). cbn [bind].
  rewrite <- app_assoc. rewrite descriptions_skip by exact HH2. rewrite descriptions_entries by (exact G || exact ND).
  cbn [descriptions]. rewrite T1. cbn [bind app]. rewrite columns_found by assumption. cbn [bind].
  apply new_info_read_back. exact IN.
Qed.

Lemma data_head ind h rest : Forall (silent ind) h -> data_of ind (h ++ rest) = data_of ind rest.
Proof. intros F. induction F as [|x h H F IH]; [reflexivity|]. cbn [app]. rewrite data_cons_blank by exact H. exact IH. Qed.
Lemma data_lines_app ind lines rest : Forall (fun x => clean ind x <> []) lines ->
  data_of ind (lines ++ rest) = map (clean ind) lines ++ data_of ind rest.
Proof. intros F. induction F as [|x h H F IH]; [reflexivity|]. cbn [app map]. rewrite data_cons by exact H. rewrite IH. reflexivity. Qed.

(** The rows of the complete lines. *)
Definition row_with (i : colinfo) (r : row) : row := mkRow (r_values r) i.

Lemma good_lines ind i lines rows : ind <> [] ->
  Forall2 (fun line r => line_of_row pf pd ind i (r_values r) line /\ fits (r_values r) i) lines rows ->
  Forall2 (fun x r => clean ind x <> [] /\ length (tokens (clean ind x)) = length i /\
     read_line pf pd (map read_back i) (clean ind x) = Ok (row_with (map read_back i) r) /\ trim x <> [] /\ starts_with (trim x) ind = false)
     lines rows.
Proof.
  intros NI F. set (i2 := map read_back i).
  assert (T : map cd_type i2 = map cd_type i) by (unfold i2; rewrite map_map; reflexivity).
  assert (LL : length i2 = length i) by (unfold i2; apply map_length).
  induction F as [|x r lines rows [H1 H2] F IH]; constructor; [|exact IH]. rewrite <- LL.
  apply row_line_read; [exact NI | | split; [rewrite T; apply H2 | apply H2]].
  destruct H1 as [l [toks [P1 [P2 [P3 [P4 [P5 [P6 [P7 [P8 P9]]]]]]]]]].
  exists l, toks. split; [exact P1|]. split; [exact P2|]. split; [exact P3|]. split; [exact P4|]. split; [exact P5|].
  split; [exact P6|]. split; [|split; [rewrite LL; exact P8 | exact P9]].
  apply read_with_same_types. exact P7.
Qed.
Lemma map_o_rows ind (i i2 : colinfo) lines rows :
  Forall2 (fun x r => clean ind x <> [] /\ length (tokens (clean ind x)) = length i /\
     read_line pf pd i2 (clean ind x) = Ok (row_with i2 r) /\ trim x <> [] /\ starts_with (trim x) ind = false) lines rows ->
  map_o (read_line pf pd i2) (map (clean ind) lines) = Ok (map (row_with i2) rows).
Proof.
  intros F. induction F as [|x r lines rows [_ [_ [H _]]] F IH]; [reflexivity|].
  cbn [map map_o]. rewrite H. cbn [bind]. rewrite IH. reflexivity.
Qed.
Lemma map_o_snoc {A B} (f : A -> outcome B) l x r y : map_o f l = Ok r -> f x = Ok y -> map_o f (l ++ [x]) = Ok (r ++ [y]).
Proof.
  revert r. induction l as [|a l IH]; intros r H E; cbn [app map_o] in *.
  - injection H as <-. rewrite E. reflexivity.
  - destruct (f a) as [b| | |]; try discriminate. cbn [bind] in *. destruct (map_o f l) as [r'| | |]; try discriminate.
    cbn [bind] in *. injection H as <-. rewrite (IH r' eq_refl E). reflexivity.
Qed.

(** Reading a file of which [c] rows, at least one, are complete. *)
Lemma read_cut ind cs t l lines rows c part :
  good_indicator ind -> Forall (harmless_comment ind) cs ->
  built_table t -> Forall (carried_column ind) (t_info t) -> first_name_ok (t_info t) ->
  name_items (t_info t) l ->
  Forall2 (fun line r => line_of_row pf pd ind (t_info t) (r_values r) line /\ fits (r_values r) (t_info t)) lines rows ->
  1 <= c <= length lines ->
  let i2 := map read_back (t_info t) in
  let a := mkAr ind [] [] false None (head_lines ind cs (t_info t) (laid l) ++ firstn c lines ++ [part]) in
  (forall n, 1 <= n <= c -> exists a', ar_read pf pd a (Z.of_nat n) = (Ok (mkTable (map (row_with i2) (firstn n rows)) i2), a')) /\
  (exists a', ar_read pf pd a (-1) = (Throw, a') \/
     exists last, ar_read pf pd a (-1) = (Ok (mkTable (map (row_with i2) (firstn c rows) ++ last) i2), a') /\ length last <= 1) /\
  (part = [] -> exists a', ar_read pf pd a (-1) = (Ok (mkTable (map (row_with i2) (firstn c rows)) i2), a')).
Proof.
  intros GI HC B1 C FN E F CC i2 a. pose proof (ind_nonempty ind GI) as NI.
  pose proof (good_lines ind (t_info t) lines rows NI F) as GL. fold i2 in GL.
  pose proof (Forall2_firstn _ _ _ c GL) as GC.
  assert (LR : length lines = length rows) by (eapply Forall2_length'; exact F).
  assert (RI : exists a1, read_info a = (Ok i2, a1)).
  { unfold read_info, a. cbn [ar_info ar_ind ar_names ar_types ar_lines].
    destruct lines as [|x lines']; [cbn in CC; lia|]. destruct c as [|c]; [lia|]. cbn [firstn app].
    inversion GL as [|? r ? rows' [Q1 [Q2 [Q3 [Q4 Q5]]]] GL2]; subst.
    rewrite detect_written by assumption. eexists. reflexivity. }
  destruct RI as [a1 RI].
  assert (DL : data_lines a = map (clean ind) (firstn c lines) ++ data_of ind [part]).
  { unfold data_lines, a. cbn [ar_ind ar_lines]. fold (data_of ind (head_lines ind cs (t_info t) (laid l) ++ firstn c lines ++ [part])).
    rewrite data_head by (apply head_silent; exact NI). apply data_lines_app.
    clear -GC. induction GC as [|x y ? ? [H _] ? IH]; constructor; auto. }
  assert (LC : length (firstn c lines) = c) by (apply firstn_length_le; lia).
  assert (NEr : forall n, 1 <= n -> n <= length rows -> map (row_with i2) (firstn n rows) <> []).
  { intros n H H2. destruct rows; [cbn in H2; lia|]. destruct n; [lia|]. discriminate. }
  assert (ALL : data_of ind [part] = [] -> exists a', ar_read pf pd a (-1) = (Ok (mkTable (map (row_with i2) (firstn c rows)) i2), a')).
  { intros D. rewrite D, app_nil_r in DL. destruct (ar_read_ok pf pd a (-1) i2 a1 (map (row_with i2) (firstn c rows)) RI) as [a2 [R _]].
    - rewrite DL. unfold asked. cbn [Z.ltb Z.compare]. rewrite firstn_all. eapply map_o_rows. exact GC.
    - exists a2. rewrite R. pose proof (NEr c ltac:(lia) ltac:(lia)) as N. destruct (map (row_with i2) (firstn c rows)); [congruence | reflexivity]. }
  split; [|split].
  - intros n N. destruct (ar_read_ok pf pd a (Z.of_nat n) i2 a1 (map (row_with i2) (firstn n rows)) RI) as [a2 [R _]].
    + rewrite DL, app_length, map_length, LC. unfold asked.
      replace (Z.ltb (Z.of_nat n) 0) with false by (symmetry; apply Z.ltb_ge; lia). rewrite Nat2Z.id.
      rewrite Nat.min_l by lia. rewrite firstn_app, map_length, LC. replace (n - c) with 0 by lia. cbn [firstn].
      rewrite app_nil_r, firstn_map, firstn_firstn, Nat.min_l by lia. eapply map_o_rows. apply Forall2_firstn. exact GL.
    + exists a2. rewrite R. pose proof (NEr n ltac:(lia) ltac:(lia)) as N2. destruct (map (row_with i2) (firstn n rows)); [congruence | reflexivity].
  - destruct (data_of ind [part]) as [|x q] eqn:D.
    + destruct (ALL eq_refl) as [a' R]. exists a'. right. exists []. rewrite app_nil_r. split; [exact R | cbn; lia].
    + assert (q = []) as ->. { unfold data_of in D. cbn [map filter] in D. destruct (not_empty _); [injection D as _ <-; reflexivity | discriminate]. }
      destruct (read_line_outcomes pf pd i2 x) as [[v RL]|RL].
      * destruct (ar_read_ok pf pd a (-1) i2 a1 (map (row_with i2) (firstn c rows) ++ [mkRow v i2]) RI) as [a2 [R _]].
        -- rewrite DL. unfold asked. cbn [Z.ltb Z.compare]. rewrite firstn_all. apply map_o_snoc; [eapply map_o_rows; exact GC | exact RL].
        -- exists a2. right. exists [mkRow v i2]. rewrite R. split; [|cbn; lia].
           destruct (map (row_with i2) (firstn c rows)); reflexivity.
      * destruct (ar_read_bad pf pd a (-1) i2 a1 c x RI) as [a2 [R _]].
        -- rewrite DL. rewrite nth_error_app2 by (rewrite map_length; lia). rewrite map_length, LC, Nat.sub_diag. reflexivity.
        -- rewrite DL, app_length, map_length, LC. unfold asked. cbn. lia.
        -- rewrite DL. rewrite firstn_app, map_length, LC, Nat.sub_diag. cbn [firstn]. rewrite app_nil_r, firstn_all2 by (rewrite map_length; lia).
           intros y I. apply in_map_iff in I. destruct I as [z [<- I]]. clear -GC I.
           induction GC as [|x y ? ? [_ [_ [H _]]] ? IH]; [destruct I|]. destruct I as [<-|I]; [rewrite H; discriminate | apply IH; exact I].
        -- exact RL.
        -- exists a2. left. exact R.
  - intros ->. apply ALL. unfold data_of. cbn [map]. rewrite clean_nil by exact NI. reflexivity.
Qed.

(** Killed before the first row, with an indicator of one character. *)
Lemma cut_head_silent ind cs i names j p : length ind = 1 ->
  Forall (silent ind) (firstn j (head_lines ind cs i names) ++ [firstn p (nth j (head_lines ind cs i names) [])]).
Proof.
  intros L1. assert (NI : ind <> []) by (destruct ind; discriminate).
  apply Forall_app. split; [apply Forall_firstn, head_silent, NI|]. constructor; [|constructor].
  assert (K : Forall (fun s => s = [] \/ exists s', s = ind ++ s') (head_lines ind cs i names)).
  { unfold head_lines, comment_out. rewrite !Forall_app.
    assert (K : forall l, Forall (fun s => s = [] \/ exists s', s = ind ++ s') (map (fun s => ind ++ s) l)).
    { induction l; constructor; [right; eexists; reflexivity | exact IHl]. }
    split; [apply K|]. split; [destruct cs; repeat constructor|]. split; [apply K|].
    constructor; [left; reflexivity|]. constructor; [right; eexists; reflexivity|]. constructor; [left; reflexivity | constructor]. }
  assert (N0 : nth j (head_lines ind cs i names) [] = [] \/ exists s', nth j (head_lines ind cs i names) [] = ind ++ s').
  { destruct (Nat.lt_ge_cases j (length (head_lines ind cs i names))) as [H|H].
    - rewrite Forall_forall in K. apply K. apply nth_In. exact H.
    - left. apply nth_overflow. exact H. }
  unfold silent. destruct N0 as [-> |[s' ->]]; [rewrite firstn_nil; apply clean_nil; exact NI|].
  destruct ind as [|c0 [|? ?]]; try discriminate. destruct p; [apply clean_nil; exact NI|].
  cbn [app firstn]. change (c0 :: firstn p s') with ([c0] ++ firstn p s'). apply clean_comment. exact NI.
Qed.
Lemma read_silent ind L n : Forall (silent ind) L ->
  exists a', ar_read pf pd (mkAr ind [] [] false None L) n = (Throw, a').
Proof.
  intros F. unfold ar_read, read_info. cbn [ar_info ar_ind ar_names ar_types ar_lines]. unfold detect_info.
  rewrite <- (app_nil_r L), count_silent by exact F. cbn [count_columns bind]. eexists. reflexivity.
Qed.

Lemma interrupted ind cs t ts : good_indicator ind -> Forall (harmless_comment ind) cs ->
  Forall built_table (t :: ts) ->
  (forall x, In x ts -> columns_of (t_info x) = columns_of (t_info t)) ->
  Forall (carried_column ind) (t_info t) -> first_name_ok (t_info t) ->
  (forall x r, In x (t :: ts) -> In r (t_rows x) -> carried_row ff fd pf pd ind r) ->
  exists preamble lines,
    write_file ff fd ind cs (t :: ts) = Ok (preamble ++ flat lines) /\
    length lines = length (flat_map t_rows (t :: ts)) /\ Forall (fun s => ~ In nl s) lines /\
    let i2 := map read_back (t_info t) in
    forall k, exists file a, killed_after k (write_file ff fd ind cs (t :: ts)) = Ok file /\ open_reader ind file = Ok a /\
     (forall m, 1 <= m <= length lines -> length (preamble ++ flat (firstn m lines)) <= k ->
      (forall n, 1 <= n <= m -> exists a', ar_read pf pd a (Z.of_nat n) = (Ok (mkTable (map (row_with i2) (firstn n (flat_map t_rows (t :: ts)))) i2), a')) /\
      (m = length lines \/ k < length (preamble ++ flat (firstn (S m) lines)) ->
       exists a', ar_read pf pd a (-1) = (Throw, a') \/
         exists last, ar_read pf pd a (-1) = (Ok (mkTable (map (row_with i2) (firstn m (flat_map t_rows (t :: ts))) ++ last) i2), a') /\ length last <= 1) /\
      (file = preamble ++ flat (firstn m lines) ->
       exists a', ar_read pf pd a (-1) = (Ok (mkTable (map (row_with i2) (firstn m (flat_map t_rows (t :: ts)))) i2), a'))) /\
     (length ind = 1 -> k <= length preamble -> forall n, exists a', ar_read pf pd a n = (Throw, a')).
Proof.
  intros GI HC B CO C FN R.
  destruct (write_file_lines ff fd pf pd ind cs t ts GI B CO R) as [l [lines [E [W F]]]].
  inversion B as [|? ? B1 B2]; subst.
  pose proof (built_good ind t B1 C) as G. pose proof (ind_nonempty ind GI) as NI.
  set (H := head_lines ind cs (t_info t) (laid l)) in *. set (rows := flat_map t_rows (t :: ts)) in *.
  assert (NH : Forall (fun s => ~ In nl s) H) by (apply (head_no_nl pf pd); assumption).
  assert (NL : Forall (fun s => ~ In nl s) lines).
  { clear -F. induction F as [|x y l r H F IH]; constructor; [|exact IH].
    destruct H as [[l0 [toks [_ [_ [_ [_ [H _]]]]]]] _]. exact H. }
  exists (flat H), lines. rewrite <- flat_app. split; [exact W|]. split; [eapply Forall2_length'; exact F|]. split; [exact NL|].
  cbv zeta. intros k. rewrite W. unfold killed_after. cbn [bind].
  destruct (cut_lines (H ++ lines) k) as [j [p [J1 [J2 [J3 J4]]]]].
  set (part := firstn p (nth j (H ++ lines) [])) in *.
  assert (NP : ~ In nl part).
  { intros I. unfold part in I. apply firstn_in in I. destruct (Nat.lt_ge_cases j (length (H ++ lines))) as [D|D].
    - assert (Z : Forall (fun s => ~ In nl s) (H ++ lines)) by (apply Forall_app; split; assumption).
      rewrite Forall_forall in Z. apply (Z _ (nth_In _ [] D)). exact I.
    - rewrite nth_overflow in I by exact D. destruct I. }
  assert (LO : lines_of (firstn k (flat (H ++ lines))) = firstn j (H ++ lines) ++ [part]).
  { rewrite J2. apply lines_cut; [|exact NP]. apply Forall_firstn. apply Forall_app. split; assumption. }
  exists (firstn k (flat (H ++ lines))), (mkAr ind [] [] false None (firstn j (H ++ lines) ++ [part])).
  split; [reflexivity|]. split.
  { unfold open_reader, ar_set_comment, new_areader. cbn [ar_started ar_names ar_types ar_info ar_lines]. rewrite LO.
    destruct ind; [congruence | reflexivity]. }
  assert (FH : forall m, firstn (length H + m) (H ++ lines) = H ++ firstn m lines) by (intros m; apply firstn_app_2).
  assert (LF : length (flat (H ++ lines)) = length (flat (firstn (length (H ++ lines)) (H ++ lines)))) by (rewrite firstn_all; reflexivity).
  split.
  - intros m M KM. rewrite <- flat_app in KM. rewrite <- FH in KM.
    assert (JM : length H + m <= j).
    { destruct (Nat.le_gt_cases (length H + m) j) as [Z|Z]; [exact Z|]. exfalso.
      assert (j < length (H ++ lines)) by (rewrite app_length; lia). specialize (J3 H0).
      pose proof (flat_firstn_mono (H ++ lines) (S j) (length H + m) ltac:(lia)). lia. }
    replace j with (length H + (j - length H)) in * by lia. set (c := j - length H) in *.
    assert (CC : 1 <= c <= length lines) by (rewrite app_length in J1; lia).
    assert (EX : (mkAr ind [] [] false None (firstn (length H + c) (H ++ lines) ++ [part])) =
                 (mkAr ind [] [] false None (H ++ firstn c lines ++ [part]))) by (rewrite FH, <- app_assoc; reflexivity).
    rewrite EX. destruct (read_cut ind cs t l lines rows c part GI HC B1 C FN E F CC) as [P1 [P2 P3]]. fold H in P1, P2, P3.
    split; [|split].
    + intros n N. apply P1. lia.
    + intros K. assert (c = m) as <-; [|exact P2].
      destruct K as [-> |K]; [lia|]. rewrite <- flat_app, <- FH in K.
      destruct (Nat.le_gt_cases c m) as [Z|Z]; [lia|]. exfalso.
      assert (LE : length (flat (firstn (length H + c) (H ++ lines))) <= k).
      { apply (f_equal (@length ascii)) in J2. rewrite app_length in J2. pose proof (firstn_le_length k (flat (H ++ lines))). lia. }
      pose proof (flat_firstn_mono (H ++ lines) (length H + S m) (length H + c) ltac:(lia)). lia.
    + intros K. rewrite <- flat_app, <- FH in K. rewrite K in J2.
      apply (f_equal (@length ascii)) in J2. rewrite app_length in J2.
      assert (c = m) as <-.
      { destruct (Nat.le_gt_cases c m) as [Z|Z]; [lia|]. exfalso.
        pose proof (flat_firstn_mono (H ++ lines) (length H + S m) (length H + c) ltac:(lia)) as Q.
        assert (ST : length (flat (firstn (length H + m) (H ++ lines))) < length (flat (firstn (length H + S m) (H ++ lines)))).
        { rewrite !FH, !flat_app, !app_length. apply Nat.add_lt_mono_l.
          assert (Z2 : m < length lines) by lia. clear -Z2. revert m Z2. induction lines as [|x L IH]; intros m Z2; [cbn in Z2; lia|].
          rewrite firstn_cons, flat_cons, !app_length. destruct m; [cbn; lia|].
          rewrite firstn_cons, flat_cons, !app_length. cbn [length] in Z2. specialize (IH m ltac:(lia)). lia. }
        lia. }
      apply P3. destruct part; [reflexivity | cbn [length] in J2; lia].
  - intros L1 KP n.
    assert (JH : j <= length H).
    { destruct (Nat.le_gt_cases j (length H)) as [Z|Z]; [exact Z|]. exfalso.
      assert (LE : length (flat (firstn j (H ++ lines))) <= k).
      { apply (f_equal (@length ascii)) in J2. rewrite app_length in J2. pose proof (firstn_le_length k (flat (H ++ lines))). lia. }
      replace j with (length H + (j - length H)) in LE by lia. rewrite FH, flat_app, app_length in LE.
      assert (Z2 : 1 <= j - length H <= length lines) by (rewrite app_length in J1; lia).
      destruct lines as [|x L]; [cbn in Z2; lia|]. destruct (j - length H) as [|q]; [lia|].
      rewrite firstn_cons, flat_cons, !app_length in LE. cbn [length] in LE. lia. }
    apply read_silent. destruct (Nat.eq_dec j (length H)) as [-> |D].
    + assert (part = []) as ->.
      { apply J4. rewrite firstn_app, Nat.sub_diag, firstn_all. cbn [firstn]. rewrite app_nil_r.
        apply Nat.le_antisymm; [|exact KP].
        apply (f_equal (@length ascii)) in J2. rewrite app_length, firstn_app, Nat.sub_diag, firstn_all in J2. cbn [firstn] in J2. rewrite app_nil_r in J2.
        pose proof (firstn_le_length k (flat (H ++ lines))). lia. }
      rewrite firstn_app, Nat.sub_diag, firstn_all. cbn [firstn]. rewrite app_nil_r. apply Forall_app.
      split; [apply head_silent; exact NI|]. constructor; [apply clean_nil; exact NI | constructor].
    + unfold part. rewrite firstn_app. replace (j - length H) with 0 by lia. cbn [firstn]. rewrite app_nil_r.
      rewrite app_nth1 by lia. apply cut_head_silent. exact L1.
Qed.
End Floats.
