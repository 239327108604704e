(** Proofs about the ASCII tables: whole files, and reading in chunks. *)
From Coq Require Import ZArith List Arith Ascii String Bool Lia.
From Verif Require Import Common TextModel TextProofs DblModel TableModel TableSpec TableProofs AsciiModel AsciiSpec AsciiProofs AsciiProofs2.
Import ListNotations.
Local Notation length := List.length.

Definition flat (ls : list text) : text := flat_map (fun s => s ++ [nl]) ls.
Lemma flat_app a b : flat (a ++ b) = flat a ++ flat b.
Proof. apply flat_map_app. Qed.

Section Floats.
Variables ff fd : dbl -> text.
Variables pf pd : text -> option dbl.

Lemma split_in p s : forall y c, In y (split_on p s) -> In c y -> In c s.
Proof.
  induction s as [|x s IH]; intros y c I J.
  - destruct I as [<-|[]]. destruct J.
  - destruct (p x) eqn:E.
    + cbn [split_on] in I. rewrite E in I. destruct I as [<-|I]; [destruct J|]. right. apply (IH y c I J).
    + rewrite split_cons_no in I by exact E.
      pose proof (split_nonnil p s) as N. destruct (split_on p s) as [|h q]; [congruence|]. cbn [hd tl] in I.
      destruct I as [<-|I].
      * destruct J as [<-|J]; [left; reflexivity | right; apply (IH h c (or_introl eq_refl) J)].
      * right. apply (IH y c (or_intror I) J).
Qed.

(** ** Writing *)
Definition comment_out (ind : text) (cs : list text) : list text :=
  map (fun s => ind ++ s) (map (fun l => sp :: l) (flat_map lines_of cs)).
Lemma add_comments_ok cs : forall w, aw_init w = false ->
  add_comments w cs = Ok (mkAw (aw_ind w) (aw_show w) (aw_started w || negb (Nat.eqb (length cs) 0)) false
    (aw_info w) (aw_out w ++ flat (comment_out (aw_ind w) cs))).
Proof.
  induction cs as [|c cs IH]; intros w H.
  - cbn. rewrite orb_false_r, app_nil_r. destruct w; cbn in *. subst. reflexivity.
  - cbn [add_comments]. unfold aw_comment. rewrite H. cbn [bind]. rewrite IH by reflexivity.
    cbn [aw_ind aw_show aw_started aw_info aw_out]. rewrite orb_true_r. cbn [orb]. f_equal. f_equal.
    rewrite <- app_assoc. f_equal. unfold comment_out. cbn [flat_map]. rewrite !map_app, flat_app. f_equal.
    generalize (lines_of c). intros ls. unfold flat. rewrite map_map.
    induction ls as [|l ls IHl]; [reflexivity|]. cbn [flat_map map]. rewrite IHl. f_equal.
    rewrite <- app_assoc. reflexivity.
Qed.

Definition row_written (ind : text) (i : colinfo) (values : list cell) (ts : list text) : Prop :=
  map_o (cell_text ff fd) values = Ok ts /\
  exists toks, Forall2 item ts toks /\
    match ts, toks with u :: _, t :: _ => word t /\ u = t | _, _ => True end /\
    Forall2 (fun t cd => read_cell pf pd (cd_type (snd cd)) t = Ok (fst cd)) toks (combine values i) /\
    Forall (fun u => avoids ind u /\ ~ In nl u) ts /\ length toks = length values.

Lemma word_no_nl s : word s -> ~ In nl s.
Proof. intros [_ H] I. apply H in I. destruct I as [I _]. discriminate. Qed.
Lemma quoted_no_nl s : one_line s -> ~ In nl (quoted s).
Proof.
  intros O I. apply quoted_in in I. destruct I as [I|[I|I]]; [|discriminate|discriminate].
  apply (O nl); [left; reflexivity | exact I].
Qed.

Lemma row_written_ok ind values : forall i,
  map type_of values = map cd_type i ->
  (forall s, In (CString s) values -> s <> [] /\ one_line s) ->
  first_plain values ->
  (forall c, In c values -> carried ff fd pf pd c /\ forall t, cell_text ff fd c = Ok t -> avoids ind t) ->
  exists ts, row_written ind i values ts.
Proof.
  assert (K : forall values i, map type_of values = map cd_type i ->
    (forall s, In (CString s) values -> s <> [] /\ one_line s) ->
    (forall c, In c values -> carried ff fd pf pd c /\ forall t, cell_text ff fd c = Ok t -> avoids ind t) ->
    exists ts toks, map_o (cell_text ff fd) values = Ok ts /\ Forall2 item ts toks /\
    Forall2 (fun t cd => read_cell pf pd (cd_type (snd cd)) t = Ok (fst cd)) toks (combine values i) /\
    Forall (fun u => avoids ind u /\ ~ In nl u) ts /\ length toks = length values /\
    match values, ts, toks with c :: _, u :: _, t :: _ => cell_text ff fd c = Ok u /\ ((forall s, c <> CString s) -> word u /\ u = t) /\ (forall s, c = CString s -> t = s)
       | _, _, _ => True end).
  { clear. induction values as [|c values IH]; intros i T SS C.
    - exists [], []. repeat split; constructor.
    - destruct i as [|d i]; [discriminate|]. cbn [map] in T. injection T as T1 T2.
      destruct (IH i T2) as [ts [toks [E [I [R [A [L _]]]]]]].
      + intros s Is. apply SS. right. exact Is.
      + intros x Ix. apply C. right. exact Ix.
      + destruct (C c (or_introl eq_refl)) as [C1 C2].
        destruct (cell_round ff fd pf pd c C1) as [u [t [U1 [U2 [U3 U4]]]]].
        { intros s ->. apply (SS s). left. reflexivity. }
        exists (u :: ts), (t :: toks). cbn [map_o]. rewrite U1. cbn [bind]. rewrite E. cbn [bind].
        split; [reflexivity|]. split; [constructor; assumption|]. split; [|split; [|split; [|split; [|split]]]].
        * cbn [combine]. constructor; [|exact R]. cbn [snd fst]. rewrite <- T1. exact U3.
        * constructor; [|exact A]. split; [apply C2; exact U1|].
          destruct (match c with CString s => Some s | _ => None end) as [s|] eqn:Z.
          -- assert (c = CString s) by (destruct c; congruence). subst c. injection U1 as <-.
             apply quoted_no_nl. apply (SS s). left. reflexivity.
          -- apply word_no_nl. apply U4. intros s ->. discriminate.
        * simpl. lia.
        * reflexivity.
        * exact U4.
        * intros s ->. injection U3 as <-. reflexivity. }
  intros i T SS FP C. destruct (K values i T SS C) as [ts [toks [E [I [R [A [L H]]]]]]].
  exists ts. split; [exact E|]. exists toks. split; [exact I|]. split; [|auto].
  destruct I as [|u t ts toks I1 I2]; [exact Logic.I|].
  destruct values as [|c values]; [discriminate|]. destruct H as [H1 [H2 H3]].
  destruct (match c with CString s => Some s | _ => None end) as [s|] eqn:Z.
  - assert (c = CString s) by (destruct c; congruence). subst c. cbn [first_plain] in FP.
    rewrite (H3 s eq_refl). cbn in H1. rewrite word_quoted in H1 by exact FP. injection H1 as <-. split; [exact FP | reflexivity].
  - destruct H2 as [W ->]; [intros s ->; discriminate|]. split; [exact W | reflexivity].
Qed.

Lemma laid_in l c : In c (laid l) -> c = sp \/ exists u, In u (map snd l) /\ In c u.
Proof.
  induction l as [|[n u] l IH]; [intros []|]. cbn [laid map snd]. rewrite !in_app_iff. intros [I|[I|I]].
  - left. apply repeat_spec in I. exact I.
  - right. exists u. split; [left; reflexivity | exact I].
  - destruct (IH I) as [->|[v [V1 V2]]]; [auto|]. right. exists v. split; [right; exact V1 | exact V2].
Qed.

Lemma row_line ind i values ts ws : good_indicator ind -> i <> [] -> length values = length i ->
  row_written ind i values ts -> wide ws ts ->
  exists line, padded ws ts = Ok line /\ line_of_row pf pd ind i values line.
Proof.
  intros GI NE LV [_ [toks [I [W [R [A L]]]]]] WD. destruct (padded_laid ws ts WD) as [l [E M]].
  exists (laid l). split; [exact E|]. exists l, toks.
  assert (I2 : Forall2 (fun p t => item (snd p) t) l toks).
  { clear -M I. revert l M. induction I as [|u t ts toks H I IH]; intros [|p l] M; try discriminate; [constructor|].
    cbn [map] in M. injection M as M1 M2. constructor; [rewrite M1; exact H | apply IH; exact M2]. }
  split; [reflexivity|]. split; [|split; [exact I2|split; [|split; [|split; [|split; [exact R|split; [exact LV | exact L]]]]]]].
  - intros ->. inversion I2; subst. destruct values; [|discriminate]. destruct i; [congruence | discriminate].
  - intros c0 r Ei Ic. apply laid_in in Ic. destruct Ic as [->|[u [U1 U2]]].
    + apply (avoids_sp ind GI _ _ Ei). left. reflexivity.
    + rewrite M in U1. rewrite Forall_forall in A. apply (proj1 (A u U1) c0 r Ei U2).
  - intros Ic. apply laid_in in Ic. destruct Ic as [E1|[u [U1 U2]]]; [discriminate|].
    rewrite M in U1. rewrite Forall_forall in A. apply (proj2 (A u U1) U2).
  - destruct I2 as [|p t l0 toks0 H _]; [exact Logic.I|]. destruct ts as [|u ts]; [discriminate|].
    cbn [map] in M. injection M as -> _. exact W.
Qed.

(** The rows of a table. *)
Lemma rows_lines ind i ws : good_indicator ind -> i <> [] -> forall rows texts,
  Forall2 (fun r ts => length (r_values r) = length i /\ row_written ind i (r_values r) ts /\ wide ws ts) rows texts ->
  map_o (row_texts ff fd) rows = Ok texts /\
  exists lines, rows_text ws texts = Ok (flat lines) /\
    Forall2 (fun line r => line_of_row pf pd ind i (r_values r) line) lines rows.
Proof.
  intros GI NE rows texts F. induction F as [|r ts rows texts [LV [H1 H2]] F [IH0 [lines [IH1 IH2]]]].
  - split; [reflexivity|]. exists []. split; [reflexivity | constructor].
  - split.
    + cbn [map_o]. unfold row_texts at 1. rewrite (proj1 H1). cbn [bind]. rewrite IH0. reflexivity.
    + destruct (row_line ind i (r_values r) ts ws GI NE LV H1 H2) as [line [E L]].
      exists (line :: lines). split; [|constructor; assumption].
      cbn [rows_text]. rewrite E. cbn [bind]. rewrite IH1. cbn [bind]. unfold flat. cbn [flat_map].
      rewrite <- app_assoc. reflexivity.
Qed.

Lemma columns_types a b : columns_of a = columns_of b -> map cd_type a = map cd_type b /\ length a = length b.
Proof.
  revert b. induction a as [|x a IH]; intros [|y b] H; try discriminate; [split; reflexivity|].
  cbn [columns_of map] in H. injection H as E1 E2 E3 E4. destruct (IH b E4) as [H1 H2].
  cbn [map length]. rewrite E2, H1, H2. split; reflexivity.
Qed.
Lemma fits_length values i : fits values i -> length values = length i.
Proof. intros [H _]. rewrite <- (map_length type_of values), H, map_length. reflexivity. Qed.

Lemma table_lines ind i t k : good_indicator ind -> i <> [] ->
  built_table t -> columns_of (t_info t) = columns_of i ->
  (forall r, In r (t_rows t) -> carried_row ff fd pf pd ind r) ->
  exists texts lines,
    map_o (row_texts ff fd) (t_rows t) = Ok texts /\
    rows_text (add_first k (column_lengths (t_info t) texts)) texts = Ok (flat lines) /\
    Forall2 (fun line r => line_of_row pf pd ind i (r_values r) line /\ fits (r_values r) i) lines (t_rows t).
Proof.
  intros GI NE [_ [_ [BT BR]]] CO CR.
  apply new_table_ok in BT. destruct BT as [r0 [rest [E1 [E2 E3]]]].
  assert (FT : forall r, In r (t_rows t) -> fits (r_values r) i).
  { intros r I. rewrite Forall_forall in BR. pose proof (BR r I) as H. apply new_row_ok in H. destruct H as [_ [H1 H2]].
    split; [|exact H2]. rewrite H1. assert (C1 : columns_of (r_info r) = columns_of (r_info r0)) by (apply E3; exact I).
    assert (C2 : t_info t = r_info r0) by (rewrite E2; reflexivity).
    rewrite <- C2, CO in C1. apply columns_types in C1. apply C1. }
  assert (X : exists texts, Forall2 (fun r ts => row_written ind i (r_values r) ts) (t_rows t) texts).
  { clear E1 E2 E3 BR. revert FT CR. generalize (t_rows t). induction l as [|r l IH]; intros FT CR.
    - exists []. constructor.
    - destruct IH as [texts IH]; [intros x I; apply FT; right; exact I | intros x I; apply CR; right; exact I|].
      destruct (FT r (or_introl eq_refl)) as [F1 F2]. destruct (CR r (or_introl eq_refl)) as [C1 C2].
      destruct (row_written_ok ind (r_values r) i F1 F2 C1 C2) as [ts H]. exists (ts :: texts). constructor; assumption. }
  destruct X as [texts X]. set (ws := add_first k (column_lengths (t_info t) texts)).
  assert (Y : Forall2 (fun r ts => length (r_values r) = length i /\ row_written ind i (r_values r) ts /\ wide ws ts) (t_rows t) texts).
  { assert (LI : length (t_info t) = length i) by (apply columns_types in CO; apply CO).
    assert (G : forall rows txs, Forall2 (fun r ts => row_written ind i (r_values r) ts) rows txs ->
       (forall r, In r rows -> fits (r_values r) i) -> incl txs texts ->
       Forall2 (fun r ts => length (r_values r) = length i /\ row_written ind i (r_values r) ts /\ wide ws ts) rows txs).
    { intros rows txs F. induction F as [|r ts rows txs H F IH]; intros FT2 IN; constructor.
      - assert (LV : length (r_values r) = length i) by (apply fits_length, FT2; left; reflexivity).
        split; [exact LV|]. split; [exact H|]. apply wide_add_first, cells_wide; [apply IN; left; reflexivity|].
        destruct H as [H _]. apply map_o_ok in H. rewrite LI, <- LV. clear -H. induction H; simpl; auto.
      - apply IH; [intros x I; apply FT2; right; exact I | intros x I; apply IN; right; exact I]. }
    apply G; [exact X | exact FT | apply incl_refl]. }
  destruct (rows_lines ind i ws GI NE _ _ Y) as [Z1 [lines [Z2 Z3]]].
  exists texts, lines. split; [exact Z1|]. split; [exact Z2|].
  clear -Z3 FT. revert FT. induction Z3 as [|line r lines rows H F IH]; intros FT; constructor.
  - split; [exact H | apply FT; left; reflexivity].
  - apply IH. intros x I. apply FT. right. exact I.
Qed.

Lemma more_tables ind i : good_indicator ind -> i <> [] -> forall ts w i0,
  aw_ind w = ind -> aw_info w = Some i0 -> columns_of i0 = columns_of i ->
  Forall built_table ts -> (forall t, In t ts -> columns_of (t_info t) = columns_of i) ->
  (forall t r, In t ts -> In r (t_rows t) -> carried_row ff fd pf pd ind r) ->
  exists w' lines, add_tables ff fd w ts = Ok w' /\ aw_out w' = aw_out w ++ flat lines /\
    Forall2 (fun line r => line_of_row pf pd ind i (r_values r) line /\ fits (r_values r) i) lines (flat_map t_rows ts).
Proof.
  intros GI NE. induction ts as [|t ts IH]; intros w i0 EI EO C0 B C R.
  - exists w, []. split; [reflexivity|]. split; [cbn; rewrite app_nil_r; reflexivity | constructor].
  - inversion B as [|? ? B1 B2]; subst.
    destruct (table_lines (aw_ind w) i t (length (aw_ind w)) GI NE B1) as [texts [lines [T1 [T2 T3]]]].
    { apply C. left. reflexivity. }
    { intros r I. apply (R t); [left; reflexivity | exact I]. }
    cbn [add_tables]. unfold aw_add. rewrite EO.
    replace (info_eqb i0 (t_info t)) with true.
    2:{ symmetry. apply info_eqb_iff. rewrite C0. symmetry. apply C. left. reflexivity. }
    cbn [negb]. rewrite T1. cbn [bind]. rewrite T2. cbn [bind app].
    set (w1 := mkAw (aw_ind w) (aw_show w) true true (Some i0) (aw_out w ++ flat lines)).
    destruct (IH w1 i0 eq_refl eq_refl C0 B2) as [w' [lines' [H1 [H2 H3]]]].
    { intros x I. apply C. right. exact I. }
    { intros x r I. apply R. right. exact I. }
    exists w', (lines ++ lines'). split; [exact H1|]. split.
    + rewrite H2. cbn [aw_out w1]. rewrite flat_app, <- app_assoc. reflexivity.
    + cbn [flat_map]. apply Forall2_app; assumption.
Qed.

(** The lines before the rows. *)
Definition head_lines (ind : text) (cs : list text) (i : colinfo) (names : text) : list text :=
  comment_out ind cs ++ (match cs with [] => [] | _ => [[]] end) ++
  map (fun s => ind ++ s) (map entry i) ++ [[]; ind ++ names; []].

Lemma write_file_lines ind cs t ts : good_indicator ind ->
  Forall built_table (t :: ts) ->
  (forall x, In x ts -> columns_of (t_info x) = columns_of (t_info t)) ->
  (forall x r, In x (t :: ts) -> In r (t_rows x) -> carried_row ff fd pf pd ind r) ->
  exists l lines, name_items (t_info t) l /\
    write_file ff fd ind cs (t :: ts) = Ok (flat (head_lines ind cs (t_info t) (laid l) ++ lines)) /\
    Forall2 (fun line r => line_of_row pf pd ind (t_info t) (r_values r) line /\ fits (r_values r) (t_info t)) lines (flat_map t_rows (t :: ts)).
Proof.
  intros GI B C R. inversion B as [|? ? B1 B2]; subst.
  assert (NE : t_info t <> []) by (destruct B1 as [B1 _]; apply new_info_ok in B1; apply B1).
  destruct (table_lines ind (t_info t) t (length ind) GI NE B1 eq_refl) as [texts [lines [T1 [T2 T3]]]].
  { intros r I. apply (R t); [left; reflexivity | exact I]. }
  destruct (padded_laid _ _ (names_wide (t_info t) texts)) as [l [P1 P2]].
  exists l.
  unfold write_file. unfold aw_set_comment. cbn [aw_started new_awriter].
  replace (match ind with [] => Throw | _ => _ end) with (Ok (mkAw ind true false false None []))
    by (destruct ind eqn:E; [exfalso; rewrite <- E in *; apply (ind_nonempty ind GI); exact E | reflexivity]).
  cbn [bind]. rewrite add_comments_ok by reflexivity. cbn [bind aw_ind aw_show aw_started aw_info aw_out].
  cbn [add_tables]. unfold aw_add. cbn [aw_info aw_ind]. cbn [negb]. rewrite T1. cbn [bind].
  unfold init_text. rewrite P1. cbn [bind]. rewrite T2. cbn [bind aw_show aw_started aw_out aw_ind].
  match goal with |- context [add_tables ff fd ?w ts] => set (w1 := w) end.
  destruct (more_tables ind (t_info t) GI NE ts w1 (t_info t) eq_refl eq_refl eq_refl B2 C) as [w' [lines' [H1 [H2 H3]]]].
  { intros x r I. apply R. right. exact I. }
  exists (lines ++ lines'). split; [exact P2|]. rewrite H1. cbn [bind]. split.
  - f_equal. rewrite H2. cbn [aw_out w1]. rewrite !flat_app. rewrite !app_assoc. f_equal. f_equal.
    unfold head_lines. rewrite !flat_app. cbn [app orb]. rewrite <- !app_assoc. f_equal. f_equal.
    + destruct cs; reflexivity.
    + rewrite map_map.
      replace (flat_map (fun d => desc_line ind d ++ [nl]) (t_info t)) with (flat (map (fun x => ind ++ entry x) (t_info t))).
      * f_equal. unfold flat. cbn [flat_map app]. rewrite <- !app_assoc. reflexivity.
      * unfold flat. clear. induction (t_info t) as [|d i IH]; [reflexivity|]. cbn [map flat_map]. rewrite IH, desc_line_eq. reflexivity.
  - cbn [flat_map]. apply Forall2_app; assumption.
Qed.

(** ** Reading back *)
Lemma header_blank ind rest : header ind ([] :: rest) = header ind rest.
Proof. reflexivity. Qed.
Lemma header_line_nil ind : header_line ind [].
Proof. left. reflexivity. Qed.

Lemma built_good ind t : built_table t -> Forall (carried_column ind) (t_info t) -> Forall good_desc (t_info t).
Proof.
  intros [_ [B _]] C. rewrite Forall_forall in *. intros d I. destruct (C d I) as [_ [_ [_ [U _]]]].
  pose proof (B d I) as H. apply new_desc_ok in H. destruct H as [H1 [H2 _]]. split; [exact H1|]. split; [exact H2 | exact U].
Qed.

Lemma ind_no_nl ind : good_indicator ind -> ~ In nl ind.
Proof. intros [_ H] I. apply H in I. discriminate. Qed.
Lemma entry_no_nl d : good_desc d -> ~ In nl (cd_desc d) -> ~ In nl (entry d).
Proof.
  intros [H1 [H2 H3]] H4 I. unfold entry in I. apply in_app_iff in I. destruct I as [I|I].
  { repeat (destruct I as [I|I]; [discriminate|]). destruct I. }
  apply in_app_iff in I. destruct I as [I|I].
  { unfold core in I. apply in_app_iff in I. destruct I as [I|[I|I]]; [|discriminate|].
    - apply (quoted_no_nl _ H2 I).
    - apply (word_no_nl _ (keyword_word _) I). }
  apply in_app_iff in I. destruct I as [I|I].
  - unfold unit_part in I. destruct (cd_unit d) eqn:E; [destruct I|]. apply in_app_iff in I.
    destruct I as [I|I]; [repeat (destruct I as [I|I]; [discriminate|]); destruct I|].
    apply in_app_iff in I. destruct I as [I|I]; [apply H3 in I; discriminate | repeat (destruct I as [I|I]; [discriminate|]); destruct I].
  - unfold desc_part in I. destruct (cd_desc d) eqn:E; [destruct I|]. apply in_app_iff in I.
    destruct I as [I|I]; [repeat (destruct I as [I|I]; [discriminate|]); destruct I | apply H4; exact I].
Qed.
Lemma names_no_nl i l : name_items i l -> Forall good_desc i -> ~ In nl (laid l).
Proof.
  intros E F I. apply laid_in in I. destruct I as [I|[u [U1 U2]]]; [discriminate|].
  unfold name_items in E. rewrite E in U1. apply in_map_iff in U1. destruct U1 as [d [<- D]].
  rewrite Forall_forall in F. destruct (F d D) as [_ [O _]]. apply (quoted_no_nl _ O U2).
Qed.
Lemma head_no_nl ind cs i l : good_indicator ind -> Forall good_desc i -> Forall (carried_column ind) i ->
  name_items i l -> Forall (fun s => ~ In nl s) (head_lines ind cs i (laid l)).
Proof.
  intros GI G C E. pose proof (ind_no_nl ind GI) as NI.
  assert (AP : forall s, ~ In nl s -> ~ In nl (ind ++ s)) by (intros s H I; apply in_app_iff in I; tauto).
  unfold head_lines. rewrite !Forall_app. split; [|split; [|split]].
  - unfold comment_out. apply Forall_forall. intros x I. apply in_map_iff in I. destruct I as [s [<- I]].
    apply in_map_iff in I. destruct I as [y [<- I]]. apply AP. intros [Z|Z]; [discriminate|].
    apply in_flat_map in I. destruct I as [c [_ I]]. pose proof (lines_no_nl c) as L. rewrite Forall_forall in L. apply (L y I Z).
  - destruct cs; constructor; [intros [] | constructor].
  - apply Forall_forall. intros x I. apply in_map_iff in I. destruct I as [s [<- I]]. apply in_map_iff in I.
    destruct I as [d [<- I]]. apply AP. rewrite Forall_forall in G, C. apply entry_no_nl; [apply G; exact I | apply (C d I)].
  - constructor; [intros []|]. constructor; [apply AP, (names_no_nl i l E G)|]. constructor; [intros [] | constructor].
Qed.
Lemma head_silent ind cs i names : ind <> [] -> Forall (silent ind) (head_lines ind cs i names).
Proof.
  intros N. unfold head_lines, silent. rewrite !Forall_app.
  assert (K : forall l, Forall (fun s => clean ind s = []) (map (fun s => ind ++ s) l)).
  { induction l; constructor; [apply clean_comment; exact N | exact IHl]. }
  split; [apply K|]. split; [destruct cs; constructor; [apply clean_nil; exact N | constructor]|]. split; [apply K|].
  constructor; [apply clean_nil; exact N|]. constructor; [apply clean_comment; exact N|].
  constructor; [apply clean_nil; exact N | constructor].
Qed.

(** The comments found in the header. *)
Lemma head_header ind cs i l rest : good_indicator ind -> i <> [] -> Forall (harmless_comment ind) cs ->
  Forall good_desc i -> Forall (carried_column ind) i -> name_items i l -> first_name_ok i ->
  header ind rest = [] ->
  exists hs, header ind (head_lines ind cs i (laid l) ++ rest) =
    (hs ++ map (fun d => trim (entry d)) i) ++ [trim (laid l)] /\ Forall (fun h => is_desc h = false) hs.
Proof.
  intros GI NE HC G C E FN HR.
  exists (map trim (map (fun l => sp :: l) (flat_map lines_of cs))). split.
  - unfold head_lines. rewrite <- !app_assoc.
    assert (A1 : Forall (avoids ind) (map (fun l => sp :: l) (flat_map lines_of cs))).
    { apply Forall_forall. intros x I. apply in_map_iff in I. destruct I as [y [<- I]]. apply in_flat_map in I.
      destruct I as [c [I1 I2]]. rewrite Forall_forall in HC. destruct (HC c I1) as [A _].
      change (sp :: y) with ([sp] ++ y). apply avoids_app. split; [apply (avoids_sp ind GI)|].
      intros c0 r Ei Iy. apply (A c0 r Ei). apply (split_in is_nl c y c0 I2 Iy). }
    destruct (header_entries ind GI _ A1) as [X1 X2]. unfold comment_out.
    rewrite header_app by exact X1. rewrite X2. f_equal.
    assert (A2 : Forall (avoids ind) (map entry i)).
    { apply Forall_forall. intros x I. apply in_map_iff in I. destruct I as [d [<- I]]. unfold entry.
      apply avoids_app. rewrite Forall_forall in C. split; [|apply (avoids_parts ind GI d (C d I))].
      apply (avoids_layout ind GI). intros c H. repeat (destruct H as [<-|H]; [vm_compute; tauto|]). destruct H. }
    destruct (header_entries ind GI _ A2) as [Y1 Y2].
    assert (Z : header ind (map (fun s => ind ++ s) (map entry i) ++ [[]; ind ++ laid l; []] ++ rest)
       = map (fun d => trim (entry d)) i ++ [trim (laid l)]).
    { rewrite header_app by exact Y1. rewrite Y2, map_map. f_equal. cbn [app].
      rewrite header_blank. change ((ind ++ laid l) :: [] :: rest) with ([ind ++ laid l] ++ [] :: rest).
      destruct (names_entry ind GI i l NE E G FN C) as [A3 _]. destruct (header_entry ind GI _ A3) as [W1 W2].
      rewrite header_app by (constructor; [exact W1 | constructor]). rewrite W2, header_blank, HR. reflexivity. }
    destruct cs; cbn [app] in Z |- *; [exact Z|]. rewrite header_blank. exact Z.
  - apply Forall_forall. intros x I. rewrite map_map in I. apply in_map_iff in I. destruct I as [y [<- I]].
    apply in_flat_map in I. destruct I as [c [I1 I2]]. rewrite Forall_forall in HC. destruct (HC c I1) as [_ H].
    rewrite Forall_forall in H. change (sp :: y) with ([sp] ++ y). rewrite trim_blank_app by (repeat constructor).
    unfold is_desc. apply H. exact I2.
Qed.

Lemma read_with_same_types vs : forall toks i,
  Forall2 (fun t cd => read_cell pf pd (cd_type (snd cd)) t = Ok (fst cd)) toks (combine vs i) ->
  Forall2 (fun t cd => read_cell pf pd (cd_type (snd cd)) t = Ok (fst cd)) toks (combine vs (map read_back i)).
Proof.
  induction vs as [|v vs IH]; intros toks i P; [exact P|]. destruct i as [|d i]; [exact P|].
  cbn [combine map] in *. inversion P as [|? ? ? ? H1 H2]; subst. constructor; [exact H1 | apply IH; exact H2].
Qed.

Lemma detect_pre ind pre L : ind <> [] -> Forall (fun x => x = []) pre ->
  detect_info ind [] [] (pre ++ L) = detect_info ind [] [] L.
Proof.
  intros NI F. induction F as [|x pre E F IH]; [reflexivity|]. subst x. rewrite <- IH. unfold detect_info. cbn [app].
  rewrite header_blank. cbn [count_columns]. rewrite clean_nil by exact NI. reflexivity.
Qed.

(** Main lemma: what is read is what was written. *)
Lemma read_written ind cs t ts l lines pre st : good_indicator ind -> Forall (harmless_comment ind) cs ->
  built_table t ->
  Forall (carried_column ind) (t_info t) -> first_name_ok (t_info t) ->
  name_items (t_info t) l ->
  Forall2 (fun line r => line_of_row pf pd ind (t_info t) (r_values r) line /\ fits (r_values r) (t_info t)) lines (flat_map t_rows (t :: ts)) ->
  Forall (fun x => x = []) pre ->
  ar_read pf pd (mkAr ind [] [] st None (pre ++ (head_lines ind cs (t_info t) (laid l) ++ lines) ++ [[]])) (-1) =
      (Ok (mkTable (map (fun r => mkRow (r_values r) (map read_back (t_info t))) (flat_map t_rows (t :: ts)))
                   (map read_back (t_info t))), mkAr ind [] [] true (Some (map read_back (t_info t))) []).
Proof.
  intros GI HC B1 C FN E F PRE.
  pose proof (built_good ind t B1 C) as G.
  assert (IN : new_info (t_info t) = Ok (t_info t)) by apply B1.
  pose proof IN as IN2. apply new_info_ok in IN2. destruct IN2 as [_ [NE ND]].
  pose proof (ind_nonempty ind GI) as NI.
  set (i := t_info t) in *. set (i2 := map read_back i).
  set (L := head_lines ind cs i (laid l) ++ lines) in *.
  (* the lines of data *)
  assert (RL : Forall2 (fun x r => clean ind x <> [] /\ length (tokens (clean ind x)) = length i /\
     read_line pf pd i2 (clean ind x) = Ok (mkRow (r_values r) i2) /\ trim x <> [] /\ starts_with (trim x) ind = false)
     lines (flat_map t_rows (t :: ts))).
  { clear -F NI. assert (T : map cd_type i2 = map cd_type i) by (unfold i2; rewrite map_map; reflexivity).
    assert (LL : length i2 = length i) by (unfold i2; apply map_length).
    induction F as [|x r lines rows [H1 H2] F IH]; constructor; [|exact IH]. rewrite <- LL.
    apply row_line_read; [exact NI | | split; [rewrite T; apply H2 | apply H2]].
    destruct H1 as [l [toks [P1 [P2 [P3 [P4 [P5 [P6 [P7 [P8 P9]]]]]]]]]].
    exists l, toks. split; [exact P1|]. split; [exact P2|]. split; [exact P3|]. split; [exact P4|]. split; [exact P5|].
    split; [exact P6|]. split; [|split; [rewrite LL; exact P8 | exact P9]].
    apply read_with_same_types. exact P7. }
  (* the columns *)
  assert (D : detect_info ind [] [] (L ++ [[]]) = Ok i2).
  { assert (R1 : exists x r lines' rows, lines = x :: lines' /\ flat_map t_rows (t :: ts) = r :: rows).
    { destruct B1 as [_ [_ [BT _]]]. apply new_table_ok in BT. destruct BT as [r0 [rest [E1 _]]].
      revert RL. cbn [flat_map]. rewrite E1. cbn [app]. intros RL.
      destruct lines as [|x lines']; [inversion RL|]. exists x, r0, lines', (rest ++ flat_map t_rows ts). split; reflexivity. }
    destruct R1 as [x [r [lines' [rows [R1 R2]]]]]. rewrite R1, R2 in RL. inversion RL as [|? ? ? ? [Q1 [Q2 [Q3 [Q4 Q5]]]] RL2]; subst lines.
    unfold detect_info, L. rewrite <- app_assoc. rewrite count_silent by (apply head_silent; exact NI).
    cbn [app]. rewrite (count_data ind x _ (length i - 1)).
    2: exact Q1.
    2:{ rewrite Q2. destruct i; [congruence | simpl; lia]. }
    cbn [bind length Nat.eqb negb andb].
    replace (S (length i - 1)) with (length i) by (destruct i; [congruence | simpl; lia]).
    destruct (head_header ind cs i l (x :: lines' ++ [[]]) GI NE HC G C E FN (header_stop ind x _ Q4 Q5)) as [hs [HH1 HH2]].
    rewrite HH1.
    destruct (names_entry ind GI i l NE E G FN C) as [_ [T1 [T2 T3]]].
    rewrite (auto_names_found _ (trim (laid l)) i NE ND T2 T3). cbn [bind].
    rewrite <- app_assoc. rewrite descriptions_skip by exact HH2. rewrite descriptions_entries by (exact G || exact ND).
    cbn [descriptions]. rewrite T1. cbn [bind app]. rewrite columns_found by assumption. cbn [bind].
    apply new_info_read_back. exact IN. }
  unfold ar_read, read_info. cbn [ar_info ar_ind ar_names ar_types ar_lines]. rewrite detect_pre by assumption. rewrite D.
  cbn [ar_ind ar_lines].
  rewrite read_loop_silent.
  2:{ eapply Forall_impl; [|exact PRE]. intros x ->. apply clean_nil. exact NI. }
  2: discriminate.
  unfold L. rewrite <- app_assoc.
  rewrite read_loop_silent by first [apply head_silent; exact NI | discriminate].
  rewrite (read_loop_all pf pd ind i2 lines (map (fun r => mkRow (r_values r) i2) (flat_map t_rows (t :: ts)))).
  - cbn [bind]. destruct B1 as [_ [_ [BT _]]]. apply new_table_ok in BT. destruct BT as [r0 [rest [E1 _]]].
    unfold set_lines. cbn [ar_ind ar_names ar_types ar_started ar_info]. f_equal.
    cbn [flat_map]. rewrite E1. cbn [app map]. apply new_table_ok.
    eexists. eexists. split; [reflexivity|]. split; [reflexivity|].
    intros r [<-|I]; [reflexivity|]. apply in_map_iff in I. destruct I as [y [<- _]]. reflexivity.
  - lia.
  - clear -RL. induction RL as [|x r lines rows [H1 [_ [H2 _]]] F IH]; constructor; auto.
  - constructor; [apply clean_nil; exact NI | constructor].
Qed.

(** getComment on the comments written. *)
Lemma comment_lines_app ind ss rest : starts_with (hd [] rest) ind = false ->
  comment_lines ind (map (fun s => ind ++ s) ss ++ rest) = (map trim ss, rest).
Proof.
  intros H. induction ss as [|s ss IH].
  - cbn [map app]. destruct rest as [|x r]; [reflexivity|]. cbn [hd] in H. cbn [comment_lines]. rewrite H. reflexivity.
  - cbn [map app comment_lines]. rewrite starts_with_refl_app, IH.
    rewrite skipn_app, skipn_all, Nat.sub_diag. reflexivity.
Qed.

Lemma round_trip ind cs t ts : good_indicator ind -> Forall (harmless_comment ind) cs ->
  Forall built_table (t :: ts) ->
  (forall x, In x ts -> columns_of (t_info x) = columns_of (t_info t)) ->
  Forall (carried_column ind) (t_info t) -> first_name_ok (t_info t) ->
  (forall x r, In x (t :: ts) -> In r (t_rows x) -> carried_row ff fd pf pd ind r) ->
  exists out a a1 a2, write_file ff fd ind cs (t :: ts) = Ok out /\ open_reader ind out = Ok a /\
    let t' := mkTable (map (fun r => mkRow (r_values r) (map read_back (t_info t))) (flat_map t_rows (t :: ts)))
                   (map read_back (t_info t)) in
    ar_read pf pd a (-1) = (Ok t', a1) /\ ar_lines a1 = [] /\
    (cs <> [] -> fst (ar_comment a) = trim (flat (map trim (flat_map lines_of cs))) /\
                 ar_read pf pd (snd (ar_comment a)) (-1) = (Ok t', a2) /\ ar_lines a2 = []).
Proof.
  intros GI HC B CO C FN R.
  destruct (write_file_lines ind cs t ts GI B CO R) as [l [lines [E [W F]]]].
  inversion B as [|? ? B1 B2]; subst.
  pose proof (built_good ind t B1 C) as G.
  pose proof (ind_nonempty ind GI) as NI.
  set (L := head_lines ind cs (t_info t) (laid l) ++ lines) in *.
  assert (LO : lines_of (flat L) = L ++ [[]]).
  { apply lines_flat. unfold L. rewrite Forall_app. split; [apply head_no_nl; assumption|].
    clear -F. induction F as [|x y l r H F IH]; constructor; [|exact IH].
    destruct H as [[l0 [toks [_ [_ [_ [_ [H _]]]]]]] _]. exact H. }
  exists (flat L), (mkAr ind [] [] false None (L ++ [[]])),
    (mkAr ind [] [] true (Some (map read_back (t_info t))) []), (mkAr ind [] [] true (Some (map read_back (t_info t))) []).
  split; [exact W|]. split.
  { unfold open_reader, ar_set_comment, new_areader. cbn [ar_started ar_names ar_types ar_info ar_lines]. rewrite LO.
    destruct ind; [congruence | reflexivity]. }
  cbv zeta. split; [|split; [reflexivity|]].
  - apply (read_written ind cs t ts l lines [] false); try assumption. constructor.
  - intros NC. unfold ar_comment. cbn [ar_ind ar_lines ar_names ar_types ar_info].
    set (L0 := head_lines ind [] (t_info t) (laid l)).
    assert (EL : L ++ [[]] = comment_out ind cs ++ [[]] ++ (L0 ++ lines) ++ [[]]).
    { unfold L, L0, head_lines. destruct cs; [congruence|]. cbn [comment_out flat_map map app].
      rewrite <- !app_assoc. cbn [app]. rewrite <- !app_assoc. reflexivity. }
    rewrite EL. unfold comment_out. rewrite comment_lines_app by (destruct ind; [congruence | reflexivity]).
    cbn [fst snd]. split; [|split; [|reflexivity]].
    + f_equal. fold (flat (map trim (map (fun l => sp :: l) (flat_map lines_of cs)))). f_equal. rewrite map_map.
      apply map_ext. intros x. change (sp :: x) with ([sp] ++ x). apply trim_blank_app. repeat constructor.
    + apply (read_written ind [] t ts l lines [[]] true); try assumption; repeat constructor.
Qed.

(** ** Reading in chunks *)
Definition data_of (ind : text) (lines : list text) : list text := filter not_empty (map (clean ind) lines).

Lemma read_cell_outcomes ty s : (exists c, read_cell pf pd ty s = Ok c) \/ read_cell pf pd ty s = Throw.
Proof.
  assert (LI : forall lo hi x, (exists z, lexical_int lo hi x = Ok z) \/ lexical_int lo hi x = Throw).
  { intros lo hi x. unfold lexical_int. destruct (signed_text x); [|auto]. destruct (_ && _)%bool; eauto. }
  assert (RB : forall x, (exists z, read_bool x = Ok z) \/ read_bool x = Throw).
  { intros x. unfold read_bool. destruct (existsb _ _); [eauto|]. destruct (existsb _ _); eauto. }
  assert (RF : forall x, (exists z, read_float pf x = Ok z) \/ read_float pf x = Throw).
  { intros x. unfold read_float. destruct (pf x); eauto. }
  assert (RD : forall x, (exists z, read_double pd x = Ok z) \/ read_double pd x = Throw).
  { intros x. unfold read_double. destruct (pd x); eauto. }
  assert (MO : forall A (f : text -> outcome A), (forall x, (exists z, f x = Ok z) \/ f x = Throw) ->
     forall l, (exists z, map_o f l = Ok z) \/ map_o f l = Throw).
  { intros A f H. induction l as [|x l IH]; cbn [map_o]; [eauto|].
    destruct (H x) as [[z ->]| ->]; [|auto]. cbn [bind]. destruct IH as [[z2 ->]| ->]; cbn [bind]; eauto. }
  assert (RV : forall A (f : text -> outcome A), (forall x, (exists z, f x = Ok z) \/ f x = Throw) ->
     forall x, (exists z, read_vector f x = Ok z) \/ read_vector f x = Throw)
    by (intros A f H x; apply MO; exact H).
  assert (RA : forall A (f : text -> outcome A), (forall x, (exists z, f x = Ok z) \/ f x = Throw) ->
     forall x, (exists z, read_array f x = Ok z) \/ read_array f x = Throw).
  { intros A f H x. unfold read_array. destruct x as [|c x]; [auto|]. destruct (negb _); [auto|].
    destruct (find_char _ _); [|auto].
    destruct (RV _ read_int (LI _ _) (firstn (n - 1) (skipn 1 (c :: x)))) as [[z ->]| ->]; [|auto]. cbn [bind].
    destruct (RV _ f H (skipn (n + 1) (c :: x))) as [[z2 ->]| ->]; [|auto]. cbn [bind].
    destruct (Z.eqb _ _); eauto. }
  destruct ty; cbn [AsciiModel.read_cell]; try (left; eexists; reflexivity);
  match goal with
  | |- context [bind (read_bool ?x)] => destruct (RB x) as [[z ->]| ->]
  | |- context [bind (read_int ?x)] => destruct (LI int32_min int32_max x) as [[z Z]|Z]; unfold read_int; rewrite Z
  | |- context [bind (read_long ?x)] => destruct (LI int64_min int64_max x) as [[z Z]|Z]; unfold read_long; rewrite Z
  | |- context [bind (read_float pf ?x)] => destruct (RF x) as [[z ->]| ->]
  | |- context [bind (read_double pd ?x)] => destruct (RD x) as [[z ->]| ->]
  | |- context [bind (read_vector ?f ?x)] => destruct (RV _ f ltac:(intros y; first [apply RB | apply LI | apply RF | apply RD]) x) as [[z ->]| ->]
  | |- context [bind (read_array ?f ?x)] => destruct (RA _ f ltac:(intros y; first [apply RB | apply LI | apply RF | apply RD]) x) as [[z ->]| ->]
  end; cbn [bind]; eauto.
Qed.
Lemma read_cells_outcomes i toks : forall k, (exists c, read_cells pf pd i k toks = Ok c) \/ read_cells pf pd i k toks = Throw.
Proof.
  induction toks as [|t toks IH]; intros k; cbn [read_cells]; [eauto|].
  destruct (Nat.leb (length i) k) eqn:E; [auto|]. apply Nat.leb_gt in E. rewrite get_desc_in by exact E.
  destruct (nth_error i k) as [d|] eqn:D; [|apply nth_error_None in D; lia]. cbn [of_option bind].
  destruct (read_cell_outcomes (cd_type d) t) as [[c ->]| ->]; [|auto]. cbn [bind].
  destruct (IH (S k)) as [[z ->]| ->]; cbn [bind]; eauto.
Qed.
Lemma read_line_outcomes i l : (exists v, read_line pf pd i l = Ok (mkRow v i)) \/ read_line pf pd i l = Throw.
Proof.
  unfold read_line. destruct (read_cells_outcomes i (row_tokens l) 0) as [[c ->]| ->]; [|auto]. cbn [bind].
  destruct (new_row_outcomes c (Some i)) as [[r H]|H]; rewrite H; [|auto].
  apply new_row_ok in H. destruct H as [-> _]. eauto.
Qed.

Lemma data_cons_blank ind l r : clean ind l = [] -> data_of ind (l :: r) = data_of ind r.
Proof. intros H. unfold data_of. cbn [map filter]. rewrite H. reflexivity. Qed.
Lemma data_cons ind l r : clean ind l <> [] -> data_of ind (l :: r) = clean ind l :: data_of ind r.
Proof. intros H. unfold data_of. cbn [map filter]. destruct (clean ind l) eqn:E; [congruence | reflexivity]. Qed.
Lemma asked_zero n : asked 0 n = 0.
Proof. reflexivity. Qed.
Lemma asked_succ n m : n <> 0%Z -> asked n (S m) = S (asked (n - 1) m).
Proof.
  intros N. unfold asked. destruct (Z.ltb_spec n 0); destruct (Z.ltb_spec (n - 1) 0); try lia.
Qed.
Lemma asked_none n : asked n 0 = 0.
Proof. unfold asked. destruct (Z.ltb n 0); [reflexivity | apply Nat.min_0_r]. Qed.

(** The rows read are those of the lines asked for. *)
Lemma read_loop_ok ind i : forall lines n rows,
  map_o (read_line pf pd i) (firstn (asked n (length (data_of ind lines))) (data_of ind lines)) = Ok rows ->
  exists rest, read_loop pf pd ind i n lines = (Ok rows, rest) /\
    data_of ind rest = skipn (asked n (length (data_of ind lines))) (data_of ind lines).
Proof.
  induction lines as [|l lines IH]; intros n rows H.
  - cbn in H. rewrite asked_none in H. injection H as <-. exists []. split; [reflexivity|]. cbn. rewrite asked_none. reflexivity.
  - cbn [read_loop]. destruct (Z.eqb_spec n 0) as [->|N].
    + rewrite asked_zero in *. cbn in H. injection H as <-. exists (l :: lines). split; reflexivity.
    + destruct (clean ind l) as [|c q] eqn:E.
      * rewrite data_cons_blank in * by exact E. apply IH. exact H.
      * assert (NE : clean ind l <> []) by congruence.
        rewrite data_cons in * by exact NE. cbn [length] in *. rewrite asked_succ in * by exact N.
        cbn [firstn skipn] in *. cbn [map_o] in H. rewrite E in H.
        destruct (read_line pf pd i (c :: q)) as [w| | |] eqn:RL; try discriminate. cbn [bind] in H.
        destruct (map_o _ _) as [ws| | |] eqn:MO in H; try discriminate. injection H as <-.
        destruct (IH (n - 1)%Z ws MO) as [rest [I1 I2]]. exists rest. rewrite I1. split; [reflexivity | exact I2].
Qed.
(** A malformed line stops the read just after it. *)
Lemma read_loop_bad ind i : forall lines n k bad,
  nth_error (data_of ind lines) k = Some bad -> k < asked n (length (data_of ind lines)) ->
  (forall l, In l (firstn k (data_of ind lines)) -> read_line pf pd i l <> Throw) ->
  read_line pf pd i bad = Throw ->
  exists rest, read_loop pf pd ind i n lines = (Throw, rest) /\ data_of ind rest = skipn (S k) (data_of ind lines).
Proof.
  induction lines as [|l lines IH]; intros n k bad B K G T.
  - destruct k; discriminate.
  - cbn [read_loop]. destruct (Z.eqb_spec n 0) as [->|N]; [rewrite asked_zero in K; lia|].
    destruct (clean ind l) as [|c q] eqn:E.
    + rewrite data_cons_blank in * by exact E. apply (IH n k bad); assumption.
    + assert (NE : clean ind l <> []) by congruence.
      rewrite data_cons in * by exact NE. cbn [length] in K. rewrite asked_succ in K by exact N.
      rewrite E in *. destruct k as [|k].
      * cbn [nth_error] in B. injection B as <-. rewrite T. exists lines. split; reflexivity.
      * cbn [nth_error] in B. cbn [firstn] in G.
        destruct (read_line_outcomes i (c :: q)) as [[v RL]|RL]; [|exfalso; apply (G (c :: q)); [left; reflexivity | exact RL]].
        rewrite RL. destruct (IH (n - 1)%Z k bad B) as [rest [I1 I2]]; [lia | | exact T|].
        { intros x I. apply G. right. exact I. }
        rewrite I1. exists rest. split; [reflexivity | exact I2].
Qed.
Lemma skip_loop_ok ind : forall lines n,
  data_of ind (skip_loop ind n lines) = skipn (asked n (length (data_of ind lines))) (data_of ind lines).
Proof.
  induction lines as [|l lines IH]; intros n.
  - cbn. rewrite asked_none. reflexivity.
  - cbn [skip_loop]. destruct (Z.eqb_spec n 0) as [->|N]; [reflexivity|].
    destruct (clean ind l) as [|c q] eqn:E.
    + rewrite data_cons_blank by exact E. apply IH.
    + assert (NE : clean ind l <> []) by congruence. rewrite data_cons by exact NE. cbn [length].
      rewrite asked_succ by exact N. cbn [skipn]. apply IH.
Qed.

Lemma read_info_state a o a1 : read_info a = (o, a1) ->
  ar_ind a1 = ar_ind a /\ ar_lines a1 = ar_lines a /\
  (forall i, o = Ok i -> ar_info a1 = Some i).
Proof.
  unfold read_info. destruct (ar_info a) eqn:E.
  - intros H. injection H as <- <-. split; [reflexivity|]. split; [reflexivity|]. intros i0 H. injection H as <-. exact E.
  - destruct (detect_info _ _ _ _); intros H; injection H as <- <-; cbn [ar_ind ar_lines ar_info];
      (split; [reflexivity|]); (split; [reflexivity|]); intros i0 H; try discriminate. injection H as <-. reflexivity.
Qed.
Lemma table_of_lines i lines rows : map_o (read_line pf pd i) lines = Ok rows -> rows <> [] ->
  new_table rows = Ok (mkTable rows i).
Proof.
  intros H N. apply map_o_ok in H.
  assert (F : Forall (fun r => r_info r = i) rows).
  { induction H as [|l r lines rows H F IH]; [constructor|]. constructor.
    - destruct (read_line_outcomes i l) as [[v E]|E]; rewrite E in H; [injection H as <-; reflexivity | discriminate].
    - destruct rows; [constructor | apply IH; discriminate]. }
  apply new_table_ok. destruct F as [|r0 rest E F]; [congruence|]. exists r0, rest. split; [reflexivity|].
  split; [rewrite E; reflexivity|]. intros r [<-|I]; [reflexivity|]. rewrite Forall_forall in F. rewrite (F r I), E. reflexivity.
Qed.

Lemma ar_read_ok a n i a1 rows : read_info a = (Ok i, a1) ->
  map_o (read_line pf pd i) (firstn (asked n (length (data_lines a))) (data_lines a)) = Ok rows ->
  exists a2, ar_read pf pd a n = (match rows with [] => Throw | _ => Ok (mkTable rows i) end, a2) /\
    data_lines a2 = skipn (asked n (length (data_lines a))) (data_lines a) /\ read_info a2 = (Ok i, a2).
Proof.
  intros H M. destruct (read_info_state a _ _ H) as [E1 [E2 E3]]. specialize (E3 i eq_refl).
  unfold ar_read. rewrite H, E1, E2. unfold data_lines in M |- *. fold (data_of (ar_ind a) (ar_lines a)) in M |- *.
  destruct (read_loop_ok (ar_ind a) i (ar_lines a) n rows M) as [rest [R1 R2]]. rewrite R1. cbn [bind].
  exists (set_lines a1 rest). split; [|split].
  - f_equal. destruct rows as [|r rows]; [reflexivity|]. eapply table_of_lines; [exact M | discriminate].
  - unfold set_lines. cbn [ar_ind ar_lines]. rewrite E1. exact R2.
  - unfold read_info, set_lines. cbn [ar_info]. rewrite E3. reflexivity.
Qed.
Lemma ar_read_bad a n i a1 k bad : read_info a = (Ok i, a1) ->
  nth_error (data_lines a) k = Some bad -> k < asked n (length (data_lines a)) ->
  (forall l, In l (firstn k (data_lines a)) -> read_line pf pd i l <> Throw) ->
  read_line pf pd i bad = Throw ->
  exists a2, ar_read pf pd a n = (Throw, a2) /\ data_lines a2 = skipn (S k) (data_lines a) /\ read_info a2 = (Ok i, a2).
Proof.
  intros H B K G T. destruct (read_info_state a _ _ H) as [E1 [E2 E3]]. specialize (E3 i eq_refl).
  unfold ar_read. rewrite H, E1, E2.
  destruct (read_loop_bad (ar_ind a) i (ar_lines a) n k bad B K G T) as [rest [R1 R2]]. rewrite R1. cbn [bind].
  exists (set_lines a1 rest). split; [reflexivity|]. split.
  - unfold data_lines, set_lines. cbn [ar_ind ar_lines]. rewrite E1. exact R2.
  - unfold read_info, set_lines. cbn [ar_info]. rewrite E3. reflexivity.
Qed.
Lemma ar_skip_ok a n i a1 : read_info a = (Ok i, a1) ->
  exists a2, ar_skip a n = (Ok tt, a2) /\
    data_lines a2 = skipn (asked n (length (data_lines a))) (data_lines a) /\ read_info a2 = (Ok i, a2).
Proof.
  intros H. destruct (read_info_state a _ _ H) as [E1 [E2 E3]]. specialize (E3 i eq_refl).
  unfold ar_skip. rewrite H, E1, E2. eexists. split; [reflexivity|]. split.
  - unfold data_lines, set_lines. cbn [ar_ind ar_lines]. rewrite E1. apply skip_loop_ok.
  - unfold read_info, set_lines. cbn [ar_info]. rewrite E3. reflexivity.
Qed.
Lemma rows_left_data a : ar_rows_left a = length (data_lines a) /\ ar_has_more a = negb (Nat.eqb (length (data_lines a)) 0).
Proof.
  unfold ar_rows_left, ar_has_more, data_lines. induction (ar_lines a) as [|l lines [IH1 IH2]]; [split; reflexivity|].
  cbn [map filter existsb]. destruct (not_empty (clean (ar_ind a) l)); cbn [length]; [|split; assumption].
  split; [rewrite IH1; reflexivity | reflexivity].
Qed.

(** A table read at once is read in chunks. *)
Lemma map_o_app {A B} (f : A -> outcome B) a : forall b ra, map_o f (a ++ b) = Ok ra ->
  exists x y, map_o f a = Ok x /\ map_o f b = Ok y /\ ra = x ++ y.
Proof.
  induction a as [|u a IH]; intros b ra H.
  - exists [], ra. split; [reflexivity|]. split; [exact H | reflexivity].
  - cbn [app map_o] in H |- *. destruct (f u) as [v| | |]; try discriminate. cbn [bind] in *.
    destruct (map_o f (a ++ b)) as [w| | |] eqn:E; try discriminate. injection H as <-.
    destruct (IH b w E) as [x [y [E1 [E2 E3]]]]. exists (v :: x), y. rewrite E1, E2, E3. repeat split.
Qed.
Lemma map_o_length {A B} (f : A -> outcome B) l r : map_o f l = Ok r -> length r = length l.
Proof. intros H. apply map_o_ok in H. induction H; simpl; auto. Qed.

Lemma chunks_all ns : forall a i rows, read_info a = (Ok i, a) ->
  map_o (read_line pf pd i) (data_lines a) = Ok rows ->
  Forall (fun n => 0 < n)%Z ns -> fold_right Z.add 0%Z ns = Z.of_nat (length rows) ->
  exists ts a2, read_chunks pf pd a ns = (map Ok ts, a2) /\ flat_map t_rows ts = rows /\
    map (fun t => Z.of_nat (length (t_rows t))) ts = ns /\ Forall (fun t => t_info t = i) ts /\ data_lines a2 = [].
Proof.
  induction ns as [|n ns IH]; intros a i rows H M P SM.
  - cbn in SM. exists [], a. destruct rows; [|simpl in SM; lia]. split; [reflexivity|]. split; [reflexivity|].
    split; [reflexivity|]. split; [constructor|]. apply map_o_length in M. destruct (data_lines a); [reflexivity | discriminate].
  - inversion P as [|? ? P1 P2]; subst. cbn [fold_right] in SM.
    assert (S2 : (0 <= fold_right Z.add 0 ns)%Z).
    { clear -P2. induction P2; cbn [fold_right]; lia. }
    pose proof (map_o_length _ _ _ M) as LL.
    assert (AK : asked n (length (data_lines a)) = Z.to_nat n).
    { unfold asked. destruct (Z.ltb_spec n 0); lia. }
    pose proof M as M2. rewrite <- (firstn_skipn (Z.to_nat n) (data_lines a)) in M2. apply map_o_app in M2.
    destruct M2 as [x [y [X [Y E]]]].
    pose proof (map_o_length _ _ _ X) as LX. rewrite firstn_length in LX.
    destruct (ar_read_ok a n i a x H) as [a2 [R1 [R2 R3]]]; [rewrite AK; exact X|].
    rewrite AK in R2.
    destruct (IH a2 i y R3) as [ts [a3 [C1 [C2 [C3 [C4 C5]]]]]].
    + rewrite R2. exact Y.
    + exact P2.
    + rewrite E, app_length in SM, LL. lia.
    + destruct x as [|x0 x]; [simpl in LX; lia|].
      exists (mkTable (x0 :: x) i :: ts), a3. cbn [read_chunks]. rewrite R1, C1.
      split; [reflexivity|]. split; [cbn [flat_map t_rows]; rewrite C2, E; reflexivity|].
      split; [|split; [constructor; [reflexivity | exact C4] | exact C5]].
      cbn [map]. rewrite C3. f_equal. cbn [t_rows]. lia.
Qed.
End Floats.
