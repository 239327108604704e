(** Proofs about ASCII tables written without the descriptions of their columns. *)
From Coq Require Import ZArith List Arith Ascii String Bool Lia.
From Verif Require Import Common TextModel TextProofs DblModel TableModel TableSpec TableProofs AsciiModel AsciiSpec AsciiProofs AsciiProofs2 AsciiProofs3 AsciiHeadModel AsciiHeadSpec AsciiCrashProofs AsciiHeadProofs AsciiHeadProofs2 AsciiPlainSpec.
Import ListNotations.
Local Notation length := List.length.

Section Floats.
Variables ff fd : dbl -> text.
Variables pf pd : text -> option dbl.

Definition plain_head (ind : text) (cs : list text) (names : text) : list text :=
  comment_out ind cs ++ (match cs with [] => [] | _ => [[]] end) ++ [ind ++ names; []].

Lemma write_plain_lines ind cs t ts : good_indicator ind ->
  Forall built_table (t :: ts) ->
  (forall x, In x ts -> columns_of (t_info x) = columns_of (t_info t)) ->
  (forall x r, In x (t :: ts) -> In r (t_rows x) -> carried_row ff fd pf pd ind r) ->
  exists l lines, name_items (t_info t) l /\
    write_plain ff fd ind cs (t :: ts) = Ok (flat (plain_head ind cs (laid l) ++ lines)) /\
    Forall2 (fun line r => line_of_row pf pd ind (t_info t) (r_values r) line /\ fits (r_values r) (t_info t)) lines (flat_map t_rows (t :: ts)).
Proof.
  intros GI B C R. inversion B as [|? ? B1 B2]; subst.
  assert (NE : t_info t <> []) by (destruct B1 as [B1 _]; apply new_info_ok in B1; apply B1).
  destruct (table_lines ff fd pf pd ind (t_info t) t (length ind) GI NE B1 eq_refl) as [texts [lines [T1 [T2 T3]]]].
  { intros r I. apply (R t); [left; reflexivity | exact I]. }
  destruct (padded_laid _ _ (names_wide (t_info t) texts)) as [l [P1 P2]].
  exists l.
  unfold write_plain. unfold aw_set_comment. cbn [aw_started new_awriter].
  replace (match ind with [] => Throw | _ => _ end) with (Ok (mkAw ind true false false None []))
    by (destruct ind eqn:E; [exfalso; rewrite <- E in *; apply (ind_nonempty ind GI); exact E | reflexivity]).
  cbn [bind]. unfold aw_show_info. cbn [bind aw_ind aw_show aw_started aw_info aw_out aw_init].
  rewrite add_comments_ok by reflexivity. cbn [bind aw_ind aw_show aw_started aw_info aw_out].
  cbn [add_tables]. unfold aw_add. cbn [aw_info aw_ind]. cbn [negb]. rewrite T1. cbn [bind].
  unfold init_text. rewrite P1. cbn [bind]. rewrite T2. cbn [bind aw_show aw_started aw_out aw_ind].
  match goal with |- context [add_tables ff fd ?w ts] => set (w1 := w) end.
  destruct (more_tables ff fd pf pd ind (t_info t) GI NE ts w1 (t_info t) eq_refl eq_refl eq_refl B2 C) as [w' [lines' [H1 [H2 H3]]]].
  { intros x r I. apply R. right. exact I. }
  exists (lines ++ lines'). split; [exact P2|]. rewrite H1. cbn [bind]. split.
  - f_equal. rewrite H2. cbn [aw_out w1]. rewrite !flat_app. rewrite !app_assoc. f_equal. f_equal.
    unfold plain_head. rewrite !flat_app. cbn [app orb]. rewrite <- !app_assoc. f_equal. f_equal.
    + destruct cs; reflexivity.
    + unfold flat. cbn [flat_map app]. rewrite <- !app_assoc. reflexivity.
  - cbn [flat_map]. apply Forall2_app; assumption.
Qed.

Lemma plain_no_nl ind cs i l : good_indicator ind -> Forall good_desc i ->
  name_items i l -> Forall (fun s => ~ In nl s) (plain_head ind cs (laid l)).
Proof.
  intros GI G E. pose proof (ind_no_nl ind GI) as NI.
  assert (AP : forall s, ~ In nl s -> ~ In nl (ind ++ s)) by (intros s H I; apply in_app_iff in I; tauto).
  unfold plain_head. rewrite !Forall_app. split; [|split].
  - unfold comment_out. apply Forall_forall. intros x I. apply in_map_iff in I. destruct I as [s [<- I]].
    apply in_map_iff in I. destruct I as [y [<- I]]. apply AP. intros [Z|Z]; [discriminate|].
    apply in_flat_map in I. destruct I as [c [_ I]]. pose proof (lines_no_nl c) as L. rewrite Forall_forall in L. apply (L y I Z).
  - destruct cs; constructor; [intros [] | constructor].
  - constructor; [apply AP, (names_no_nl i l E G)|]. constructor; [intros [] | constructor].
Qed.
Lemma plain_silent ind cs names : ind <> [] -> Forall (silent ind) (plain_head ind cs names).
Proof.
  intros N. unfold plain_head, silent. rewrite !Forall_app.
  assert (K : forall l, Forall (fun s => clean ind s = []) (map (fun s => ind ++ s) l)).
  { induction l; constructor; [apply clean_comment; exact N | exact IHl]. }
  split; [apply K|]. split; [destruct cs; constructor; [apply clean_nil; exact N | constructor]|].
  constructor; [apply clean_comment; exact N|]. constructor; [apply clean_nil; exact N | constructor].
Qed.
Lemma plain_header ind cs i l rest : good_indicator ind -> i <> [] -> Forall (harmless_comment ind) cs ->
  Forall good_desc i -> Forall (carried_column ind) i -> name_items i l -> first_name_ok i ->
  header ind rest = [] ->
  exists hs, header ind (plain_head ind cs (laid l) ++ rest) = hs ++ [trim (laid l)] /\ Forall (fun h => is_desc h = false) hs.
Proof.
  intros GI NE HC G C E FN HR.
  exists (map trim (map (fun l => sp :: l) (flat_map lines_of cs))). split.
  - unfold plain_head. rewrite <- !app_assoc.
    assert (A1 : Forall (avoids ind) (map (fun l => sp :: l) (flat_map lines_of cs))).
    { apply Forall_forall. intros x I. apply in_map_iff in I. destruct I as [y [<- I]]. apply in_flat_map in I.
      destruct I as [c [I1 I2]]. rewrite Forall_forall in HC. destruct (HC c I1) as [A _].
      change (sp :: y) with ([sp] ++ y). apply avoids_app. split; [apply (avoids_sp ind GI)|].
      intros c0 r Ei Iy. apply (A c0 r Ei). apply (split_in is_nl c y c0 I2 Iy). }
    destruct (header_entries ind GI _ A1) as [X1 X2]. unfold comment_out.
    rewrite header_app by exact X1. rewrite X2. f_equal.
    assert (Z : header ind ([ind ++ laid l; []] ++ rest) = [trim (laid l)]).
    { cbn [app]. change ((ind ++ laid l) :: [] :: rest) with ([ind ++ laid l] ++ [] :: rest).
      destruct (names_entry ind GI i l NE E G FN C) as [A3 _]. destruct (header_entry ind GI _ A3) as [W1 W2].
      rewrite header_app by (constructor; [exact W1 | constructor]). rewrite W2, header_blank, HR. reflexivity. }
    destruct cs; cbn [app] in Z |- *; [exact Z|]. rewrite header_blank. exact Z.
  - apply Forall_forall. intros x I. rewrite map_map in I. apply in_map_iff in I. destruct I as [y [<- I]].
    apply in_flat_map in I. destruct I as [c [I1 I2]]. rewrite Forall_forall in HC. destruct (HC c I1) as [_ H].
    rewrite Forall_forall in H. change (sp :: y) with ([sp] ++ y). rewrite trim_blank_app by (repeat constructor).
    unfold is_desc. apply H. exact I2.
Qed.

(** The columns, with or without fixed types. *)
Lemma plain_columns ind cs t l x rest T : good_indicator ind -> Forall (harmless_comment ind) cs ->
  built_table t -> Forall (carried_column ind) (t_info t) -> first_name_ok (t_info t) ->
  name_items (t_info t) l -> as_many T (length (t_info t)) ->
  clean ind x <> [] -> length (tokens (clean ind x)) = length (t_info t) -> trim x <> [] -> starts_with (trim x) ind = false ->
  detect_info ind [] T (plain_head ind cs (laid l) ++ x :: rest) =
    Ok (map (column_found [] T (names_of (t_info t)) []) (seq 0 (length (t_info t)))).
Proof.
  intros GI HC B1 C FN E AT Q1 Q2 Q4 Q5.
  pose proof (built_good ind t B1 C) as G.
  assert (IN : new_info (t_info t) = Ok (t_info t)) by apply B1.
  pose proof IN as IN2. apply new_info_ok in IN2. destruct IN2 as [_ [NE ND]].
  pose proof (ind_nonempty ind GI) as NI. set (i := t_info t) in *.
  assert (LN : length (names_of i) = length i) by (unfold names_of; apply map_length).
  destruct (plain_header ind cs i l (x :: rest) GI NE HC G C E FN (header_stop ind x _ Q4 Q5)) as [hs [HH1 HH2]].
  destruct (names_entry ind GI i l NE E G FN C) as [_ [T1 [T2 T3]]].
  apply detect_columns.
  - rewrite count_silent by (apply plain_silent; exact NI). rewrite (count_data ind x _ (length i - 1)).
    + f_equal. destruct i; [congruence | simpl; lia].
    + exact Q1.
    + rewrite Q2. destruct i; [congruence | simpl; lia].
  - destruct i; [congruence | simpl; lia].
  - left. reflexivity.
  - exact AT.
  - rewrite HH1. apply auto_names_found; assumption.
  - lia.
  - rewrite HH1, descriptions_skip by exact HH2. cbn [descriptions]. rewrite T1. reflexivity.
  - rewrite <- LN, firstn_all. split; [|exact ND]. apply Forall_forall. intros s I. apply in_map_iff in I. destruct I as [d [<- I]].
    rewrite Forall_forall in G. destruct (G d I) as [G1 [G2 _]]. auto.
Qed.

Lemma map_nth_error_seq {A B} (f : A -> B) (g : nat -> B) (l : list A) : (forall k x, nth_error l k = Some x -> g k = f x) ->
  map g (seq 0 (length l)) = map f l.
Proof.
  revert g. induction l as [|x l IH]; intros g H; [reflexivity|]. cbn [length seq map]. f_equal; [apply (H 0); reflexivity|].
  rewrite <- seq_shift, map_map. apply IH. intros k y E. apply (H (S k)). exact E.
Qed.
Lemma plain_fixed i : map (column_found [] (map cd_type i) (names_of i) []) (seq 0 (length i)) = map (fun d => bare_column d (cd_type d)) i.
Proof.
  apply map_nth_error_seq. intros k d E. unfold column_found, bare_column. cbn [find_desc chosen]. f_equal.
  - apply nth_error_nth. unfold names_of. rewrite nth_error_map, E. reflexivity.
  - destruct i as [|d0 i]; [destruct k; discriminate|]. cbn [map]. change (cd_type d0 :: map cd_type i) with (map cd_type (d0 :: i)).
    apply nth_error_nth. rewrite nth_error_map, E. reflexivity.
Qed.
Lemma plain_strings i : map (column_found [] [] (names_of i) []) (seq 0 (length i)) = map (fun d => bare_column d TString) i.
Proof.
  apply map_nth_error_seq. intros k d E. unfold column_found, bare_column. cbn [find_desc chosen]. f_equal.
  apply nth_error_nth. unfold names_of. rewrite nth_error_map, E. reflexivity.
Qed.
Lemma read_with_bare vs : forall toks i,
  Forall2 (fun t cd => read_cell pf pd (cd_type (snd cd)) t = Ok (fst cd)) toks (combine vs i) ->
  Forall2 (fun t cd => read_cell pf pd (cd_type (snd cd)) t = Ok (fst cd)) toks (combine vs (map (fun d => bare_column d (cd_type d)) i)).
Proof.
  induction vs as [|v vs IH]; intros toks i P; [exact P|]. destruct i as [|d i]; [exact P|].
  cbn [combine map] in *. inversion P as [|? ? ? ? H1 H2]; subst. constructor; [exact H1 | apply IH; exact H2].
Qed.

Lemma plain_round_trip ind cs t ts : good_indicator ind -> Forall (harmless_comment ind) cs ->
  Forall built_table (t :: ts) ->
  (forall x, In x ts -> columns_of (t_info x) = columns_of (t_info t)) ->
  Forall (carried_column ind) (t_info t) -> first_name_ok (t_info t) ->
  (forall x r, In x (t :: ts) -> In r (t_rows x) -> carried_row ff fd pf pd ind r) ->
  exists out a, write_plain ff fd ind cs (t :: ts) = Ok out /\ open_reader ind out = Ok a /\
    (exists a1, read_info a = (Ok (map (fun d => bare_column d TString) (t_info t)), a1)) /\
    exists a1 a2, ar_fix_types a (map cd_type (t_info t)) = Ok a1 /\
      let i2 := map (fun d => bare_column d (cd_type d)) (t_info t) in
      ar_read pf pd a1 (-1) = (Ok (mkTable (map (fun r => mkRow (r_values r) i2) (flat_map t_rows (t :: ts))) i2), a2).
Proof.
  intros GI HC B CO C FN R.
  destruct (write_plain_lines ind cs t ts GI B CO R) as [l [lines [E [W F]]]].
  inversion B as [|? ? B1 B2]; subst.
  pose proof (built_good ind t B1 C) as G.
  pose proof (ind_nonempty ind GI) as NI.
  set (L := plain_head ind cs (laid l) ++ lines) in *.
  assert (LO : lines_of (flat L) = L ++ [[]]).
  { apply lines_flat. unfold L. rewrite Forall_app. split; [apply (plain_no_nl ind cs (t_info t)); assumption|].
    clear -F. induction F as [|x y l r H F IH]; constructor; [|exact IH].
    destruct H as [[l0 [toks [_ [_ [_ [_ [H _]]]]]]] _]. exact H. }
  exists (flat L), (mkAr ind [] [] false None (L ++ [[]])).
  split; [exact W|]. split.
  { unfold open_reader, ar_set_comment, new_areader. cbn [ar_started ar_names ar_types ar_info ar_lines]. rewrite LO.
    destruct ind; [congruence | reflexivity]. }
  set (i := t_info t) in *. set (i2 := map (fun d => bare_column d (cd_type d)) i) in *.
  assert (RL : Forall2 (fun x r => clean ind x <> [] /\ length (tokens (clean ind x)) = length i /\
     read_line pf pd i2 (clean ind x) = Ok (mkRow (r_values r) i2) /\ trim x <> [] /\ starts_with (trim x) ind = false)
     lines (flat_map t_rows (t :: ts))).
  { clear -F NI. assert (T : map cd_type i2 = map cd_type i) by (unfold i2; rewrite map_map; reflexivity).
    assert (LL : length i2 = length i) by (unfold i2; apply map_length).
    induction F as [|x r lines rows [H1 H2] F IH]; constructor; [|exact IH]. rewrite <- LL.
    apply row_line_read; [exact NI | | split; [rewrite T; apply H2 | apply H2]].
    destruct H1 as [l [toks [P1 [P2 [P3 [P4 [P5 [P6 [P7 [P8 P9]]]]]]]]]].
    exists l, toks. split; [exact P1|]. split; [exact P2|]. split; [exact P3|]. split; [exact P4|]. split; [exact P5|].
    split; [exact P6|]. split; [|split; [rewrite LL; exact P8 | exact P9]].
    apply read_with_bare. exact P7. }
  assert (D : forall T, as_many T (length i) -> detect_info ind [] T (L ++ [[]]) = Ok (map (column_found [] T (names_of i) []) (seq 0 (length i)))).
  { assert (R1 : exists x r lines' rows, lines = x :: lines' /\ flat_map t_rows (t :: ts) = r :: rows).
    { destruct B1 as [_ [_ [BT _]]]. apply new_table_ok in BT. destruct BT as [r0 [rest [E1 _]]].
      revert RL. cbn [flat_map]. rewrite E1. cbn [app]. intros RL.
      destruct lines as [|x lines']; [inversion RL|]. exists x, r0, lines', (rest ++ flat_map t_rows ts). split; reflexivity. }
    destruct R1 as [x [r [lines' [rows [R1 R2]]]]]. rewrite R1, R2 in RL. inversion RL as [|? ? ? ? [Q1 [Q2 [Q3 [Q4 Q5]]]] RL2]; subst lines.
    intros T AT. unfold L. rewrite <- app_assoc. cbn [app]. apply plain_columns; assumption. }
  split.
  - eexists. unfold read_info. cbn [ar_info ar_ind ar_names ar_types ar_lines]. rewrite D by (left; reflexivity).
    rewrite plain_strings. reflexivity.
  - exists (mkAr ind [] (map cd_type i) false None (L ++ [[]])). eexists. split; [reflexivity|]. cbv zeta.
    unfold ar_read, read_info. cbn [ar_info ar_ind ar_names ar_types ar_lines].
    rewrite D by (right; apply map_length). rewrite plain_fixed. fold i2. cbn [ar_ind ar_lines].
    unfold L. rewrite <- app_assoc. rewrite read_loop_silent by first [apply plain_silent; exact NI | discriminate].
    rewrite (read_loop_all pf pd ind i2 lines (map (fun r => mkRow (r_values r) i2) (flat_map t_rows (t :: ts)))).
    + cbn [bind]. destruct B1 as [_ [_ [BT _]]]. apply new_table_ok in BT. destruct BT as [r0 [rest [E1 _]]].
      f_equal. cbn [flat_map]. rewrite E1. cbn [app map]. apply new_table_ok.
      eexists. eexists. split; [reflexivity|]. split; [reflexivity|].
      intros r [<-|I]; [reflexivity|]. apply in_map_iff in I. destruct I as [y [<- _]]. reflexivity.
    + lia.
    + clear -RL. induction RL as [|x r lines rows [H1 [_ [H2 _]]] F IH]; constructor; auto.
    + constructor; [apply clean_nil; exact NI | constructor].
Qed.
End Floats.
