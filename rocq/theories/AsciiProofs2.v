(** Proofs about the ASCII tables: cells, columns and the round trip. *)
From Coq Require Import ZArith List Arith Ascii String Bool Lia.
From Verif Require Import Common TextModel TextProofs DblModel TableModel TableSpec TableProofs AsciiModel AsciiSpec AsciiProofs.
Import ListNotations.
Local Notation length := List.length.

Lemma keyword_round t : keyword_type (type_keyword t) = Ok t.
Proof. destruct t; reflexivity. Qed.
Lemma keyword_word t : word (type_keyword t).
Proof.
  assert (K : type_keyword t <> [] /\ Forall plain_char (type_keyword t)).
  { destruct t; (split; [discriminate|]); repeat constructor; discriminate. }
  apply plain_word; apply K.
Qed.

Lemma escape_in s c : In c (escape s) -> In c s \/ c = bs.
Proof.
  induction s as [|x s IH]; [intros []|]. cbn [escape]. destruct (special x); cbn [In]; intros H; intuition.
Qed.
Lemma quoted_in s c : In c (quoted s) -> In c s \/ c = bs \/ c = dq.
Proof.
  unfold quoted. destruct (needs_quotes s); [|auto]. intros [<-|I]; [auto|]. apply in_app_iff in I.
  destruct I as [I|[<-|[]]]; [|auto]. apply escape_in in I. tauto.
Qed.

Section Floats.
Variables ff fd : dbl -> text.
Variables pf pd : text -> option dbl.
Notation cell_text := (cell_text ff fd).
Notation read_cell := (read_cell pf pd).

(** ** Cells *)
Definition elem {A} (f : A -> text) (g : text -> outcome A) (x : A) : Prop :=
  word (f x) /\ ~ In ","%char (f x) /\ g (f x) = Ok x.

Lemma plain_no_comma s : Forall plain_char s -> ~ In ","%char s.
Proof. intros F I. rewrite Forall_forall in F. apply F in I. destruct I as [_ [_ [H _]]]. congruence. Qed.
Lemma plain_no_gt s : Forall plain_char s -> ~ In ">"%char s.
Proof. intros F I. rewrite Forall_forall in F. apply F in I. destruct I as [_ [_ [_ H]]]. congruence. Qed.
Lemma elem_int lo hi z : (lo <= z <= hi)%Z -> elem int_text (lexical_int lo hi) z.
Proof.
  intros H. destruct (int_text_plain z) as [N F]. split; [apply plain_word; assumption|].
  split; [apply plain_no_comma; exact F | apply lexical_int_text; exact H].
Qed.
Lemma elem_bool b : elem bool_text read_bool b.
Proof.
  destruct (bool_text_plain b) as [N F]. split; [apply plain_word; assumption|].
  split; [apply plain_no_comma; exact F | destruct b; reflexivity].
Qed.
Lemma elem_float d : printable ff pf d -> elem ff (read_float pf) d.
Proof. intros [A [B C]]. split; [exact B|]. split; [exact C|]. unfold read_float. rewrite A. reflexivity. Qed.
Lemma elem_double d : printable fd pd d -> elem fd (read_double pd) d.
Proof. intros [A [B C]]. split; [exact B|]. split; [exact C|]. unfold read_double. rewrite A. reflexivity. Qed.

Lemma map_nonempty {A B} (f : A -> B) l : l <> [] -> map f l <> [].
Proof. destruct l; [congruence | discriminate]. Qed.
Lemma join_word l : l <> [] -> Forall word l -> word (join_comma l).
Proof.
  intros N F. split.
  - apply join_nonempty; [exact N|]. eapply Forall_impl; [|exact F]. intros t [H _]. exact H.
  - intros c I. apply join_in in I. destruct I as [->|[t [I1 I2]]]; [split; [reflexivity | discriminate]|].
    rewrite Forall_forall in F. apply (F t I1). exact I2.
Qed.
Lemma read_vector_join {A} (f : A -> text) (g : text -> outcome A) l :
  l <> [] -> Forall (elem f g) l ->
  word (join_comma (map f l)) /\ read_vector g (join_comma (map f l)) = Ok l.
Proof.
  intros N F. split.
  - apply join_word; [apply map_nonempty; exact N|]. apply Forall_forall. intros t I.
    apply in_map_iff in I. destruct I as [x [<- I]]. rewrite Forall_forall in F. apply (F x I).
  - unfold read_vector. rewrite comma_tokens_join.
    + rewrite (map_o_map g f (fun x => x) l).
      * rewrite map_id. reflexivity.
      * eapply Forall_impl; [|exact F]. intros x [_ [_ H]]. exact H.
    + apply map_nonempty. exact N.
    + apply Forall_forall. intros t I. apply in_map_iff in I. destruct I as [x [<- I]].
      rewrite Forall_forall in F. destruct (F x I) as [[H1 _] [H2 _]]. split; assumption.
Qed.

Lemma find_char_app c a b : ~ In c a -> find_char c (a ++ c :: b) = Some (length a).
Proof.
  induction a as [|x a IH]; intros N; cbn [app find_char].
  - rewrite ascii_eqb_refl. reflexivity.
  - replace (Ascii.eqb x c) with false.
    + rewrite IH; [reflexivity|]. intros I. apply N. right. exact I.
    + symmetry. apply ascii_eqb_neq. intros ->. apply N. left. reflexivity.
Qed.
Lemma ints_no_gt l : ~ In ">"%char (join_comma (map int_text l)).
Proof.
  intros I. apply join_in in I. destruct I as [E|[t [I1 I2]]]; [discriminate|].
  apply in_map_iff in I1. destruct I1 as [z [<- _]]. destruct (int_text_plain z) as [_ F].
  apply (plain_no_gt _ F I2).
Qed.
Lemma map_mod_id l : Forall (fun z => 0 <= z <= int32_max)%Z l -> map (fun z => Z.modulo z (2 ^ 64)) l = l.
Proof.
  intros F. induction F as [|z l H F IH]; [reflexivity|]. cbn [map]. rewrite IH. f_equal.
  apply Z.mod_small. unfold int32_max in H. lia.
Qed.
Lemma read_array_text {A} (f : A -> text) (g : text -> outcome A) sh l :
  array_ok sh l -> Forall (elem f g) l ->
  exists u, array_text f sh l = Ok u /\ word u /\ read_array g u = Ok (sh, l).
Proof.
  intros [N [M [R [P B]]]] F.
  set (a := join_comma (map int_text sh)). set (b := join_comma (map f l)).
  exists ("<"%char :: a ++ ">"%char :: b). split.
  - unfold array_text. destruct l; [congruence|]. destruct sh; [congruence | reflexivity].
  - assert (Fs : Forall (elem int_text read_int) sh).
    { eapply Forall_impl; [|exact R]. intros z [H1 H2]. apply elem_int. split; [|exact H2].
      unfold int32_min. lia. }
    destruct (read_vector_join int_text read_int sh M Fs) as [W1 V1].
    destruct (read_vector_join f g l N F) as [W2 V2]. fold a in W1, V1. fold b in W2, V2. split.
    + split; [discriminate|]. intros c [<-|I]; [split; [reflexivity | discriminate]|].
      apply in_app_iff in I. destruct I as [I|[<-|I]];
        [apply W1; exact I | split; [reflexivity | discriminate] | apply W2; exact I].
    + unfold read_array. rewrite ascii_eqb_refl. cbn [negb].
      change ("<"%char :: a ++ ">"%char :: b) with (("<"%char :: a) ++ ">"%char :: b).
      rewrite find_char_app.
      * cbn [length]. rewrite Nat.sub_1_r. cbn [Nat.pred].
        replace (firstn (length a) (skipn 1 (("<"%char :: a) ++ ">"%char :: b))) with a.
        2:{ cbn [app skipn]. rewrite firstn_app, firstn_all, Nat.sub_diag. simpl. rewrite app_nil_r. reflexivity. }
        replace (skipn (S (length a) + 1) (("<"%char :: a) ++ ">"%char :: b)) with b.
        2:{ rewrite Nat.add_1_r. cbn [app]. rewrite skipn_cons. rewrite skipn_app.
            rewrite skipn_all2 by lia. replace (S (length a) - length a) with 1 by lia. reflexivity. }
        rewrite V1. cbn [bind]. rewrite V2. cbn [bind].
        rewrite P. rewrite Z.mod_small by lia. rewrite Z.eqb_refl. rewrite map_mod_id by exact R. reflexivity.
      * intros [E|I]; [discriminate | apply (ints_no_gt sh I)].
Qed.

(** Writing and reading one cell. *)
Lemma cell_round c : carried ff fd pf pd c -> (forall s, c = CString s -> s <> []) ->
  exists u t, cell_text c = Ok u /\ item u t /\ read_cell (type_of c) t = Ok c /\
    ((forall s, c <> CString s) -> word u /\ u = t).
Proof.
  intros K S0.
  assert (V : forall u, word u -> cell_text c = Ok u -> read_cell (type_of c) u = Ok c ->
    exists u0 t, cell_text c = Ok u0 /\ item u0 t /\ read_cell (type_of c) t = Ok c /\
    ((forall s, c <> CString s) -> word u0 /\ u0 = t)).
  { intros u W E R. exists u, u. split; [exact E|]. split; [apply word_item; exact W|].
    split; [exact R|]. intros _. split; [exact W | reflexivity]. }
  assert (E1 : forall A (f : A -> text) g x, elem f g x -> word (f x) /\ g (f x) = Ok x)
    by (intros A f g x [H1 [_ H2]]; auto).
  destruct c; cbn [carried type_of] in K, V |- *; cbn [AsciiModel.cell_text AsciiModel.read_cell] in V |- *.
  - destruct (E1 _ _ _ _ (elem_bool b)) as [W R]. apply (V _ W eq_refl). rewrite R. reflexivity.
  - destruct (E1 _ _ _ _ (elem_int int32_min int32_max _ K)) as [W R]. apply (V _ W eq_refl). unfold read_int. rewrite R. reflexivity.
  - destruct (E1 _ _ _ _ (elem_int int64_min int64_max _ K)) as [W R]. apply (V _ W eq_refl). unfold read_long. rewrite R. reflexivity.
  - destruct (E1 _ _ _ _ (elem_float _ K)) as [W R]. apply (V _ W eq_refl). rewrite R. reflexivity.
  - destruct (E1 _ _ _ _ (elem_double _ K)) as [W R]. apply (V _ W eq_refl). rewrite R. reflexivity.
  - exists (quoted s), s. split; [reflexivity|]. split; [apply quoted_item; apply S0; reflexivity|].
    split; [reflexivity|]. intros H. exfalso. apply (H s). reflexivity.
  - destruct (read_vector_join bool_text read_bool l K) as [W R].
    { apply Forall_forall. intros b _. apply elem_bool. }
    destruct l; [congruence|]. apply (V _ W eq_refl). rewrite R. reflexivity.
  - destruct K as [N F]. destruct (read_vector_join int_text read_int l N) as [W R].
    { eapply Forall_impl; [|exact F]. intros z H. apply elem_int. exact H. }
    destruct l; [congruence|]. apply (V _ W eq_refl). rewrite R. reflexivity.
  - destruct K as [N F]. destruct (read_vector_join int_text read_long l N) as [W R].
    { eapply Forall_impl; [|exact F]. intros z H. apply elem_int. exact H. }
    destruct l; [congruence|]. apply (V _ W eq_refl). rewrite R. reflexivity.
  - destruct K as [N F]. destruct (read_vector_join ff (read_float pf) l N) as [W R].
    { eapply Forall_impl; [|exact F]. apply elem_float. }
    destruct l; [congruence|]. apply (V _ W eq_refl). rewrite R. reflexivity.
  - destruct K as [N F]. destruct (read_vector_join fd (read_double pd) l N) as [W R].
    { eapply Forall_impl; [|exact F]. apply elem_double. }
    destruct l; [congruence|]. apply (V _ W eq_refl). rewrite R. reflexivity.
  - destruct K as [N F]. destruct (read_array_text int_text read_int sh l N) as [u [E [W R]]].
    { eapply Forall_impl; [|exact F]. intros z H. apply elem_int. exact H. }
    apply (V u W E). rewrite R. reflexivity.
  - destruct K as [N F]. destruct (read_array_text int_text read_long sh l N) as [u [E [W R]]].
    { eapply Forall_impl; [|exact F]. intros z H. apply elem_int. exact H. }
    apply (V u W E). rewrite R. reflexivity.
  - destruct K as [N F]. destruct (read_array_text ff (read_float pf) sh l N) as [u [E [W R]]].
    { eapply Forall_impl; [|exact F]. apply elem_float. }
    apply (V u W E). rewrite R. reflexivity.
  - destruct K as [N F]. destruct (read_array_text fd (read_double pd) sh l N) as [u [E [W R]]].
    { eapply Forall_impl; [|exact F]. apply elem_double. }
    apply (V u W E). rewrite R. reflexivity.
Qed.

(** ** Widths *)
Definition covers (ws : list nat) (ts : list text) : Prop := Forall2 (fun w t => length t <= w) ws ts.
Lemma widen_length ws : forall ts, length (widen ws ts) = length ws.
Proof. induction ws as [|w ws IH]; intros [|t ts]; simpl; auto. Qed.
Lemma widen_covers ws ts0 : covers ws ts0 -> forall ts, covers (widen ws ts) ts0.
Proof.
  intros C. induction C as [|w t0 ws ts0 H C IH]; intros [|t ts]; cbn [widen]; try constructor; auto; try lia.
  apply IH.
Qed.
Lemma widen_covers_new ws : forall ts, length ts = length ws -> covers (widen ws ts) ts.
Proof.
  induction ws as [|w ws IH]; intros [|t ts] L; simpl in L; try lia; cbn [widen]; constructor; [lia|].
  apply IH. lia.
Qed.
Lemma fold_widen_length texts : forall ws, length (fold_left widen texts ws) = length ws.
Proof. induction texts as [|t r IH]; intros ws; [reflexivity|]. cbn [fold_left]. rewrite IH. apply widen_length. Qed.
Lemma fold_widen_keeps texts : forall ws ts, covers ws ts -> covers (fold_left widen texts ws) ts.
Proof. induction texts as [|t r IH]; intros ws ts C; [exact C|]. cbn [fold_left]. apply IH. apply widen_covers. exact C. Qed.
Lemma fold_widen_covers texts : forall ws ts, In ts texts -> length ts = length ws -> covers (fold_left widen texts ws) ts.
Proof.
  induction texts as [|t r IH]; intros ws ts I L; [destruct I|]. destruct I as [->|I]; cbn [fold_left].
  - apply fold_widen_keeps. apply widen_covers_new. exact L.
  - apply IH; [exact I|]. rewrite widen_length. exact L.
Qed.
Definition wide (ws : list nat) (ts : list text) : Prop := Forall2 (fun w t => length t < w) ws ts.
Lemma covers_wide ws ts : covers ws ts -> wide (map S ws) ts.
Proof. intros C. induction C; constructor; auto. lia. Qed.
Lemma wide_add_first k ws ts : wide ws ts -> wide (add_first k ws) ts.
Proof. intros C. destruct C; constructor; auto. lia. Qed.
Lemma names_wide i texts : wide (column_lengths i texts) (map (fun d => quoted (cd_name d)) i).
Proof.
  unfold column_lengths. apply covers_wide, fold_widen_keeps. clear texts.
  induction i as [|d i IH]; constructor; [lia | exact IH].
Qed.
Lemma cells_wide i texts ts : In ts texts -> length ts = length i -> wide (column_lengths i texts) ts.
Proof. intros I L. unfold column_lengths. apply covers_wide, fold_widen_covers; [exact I|]. rewrite map_length. exact L. Qed.

Lemma setw_laid w t : length t < w -> setw w t = laid [(w - length t - 1, t)].
Proof.
  intros H. unfold setw. cbn [laid]. rewrite app_nil_r.
  replace (S (w - length t - 1)) with (w - length t) by lia. reflexivity.
Qed.
Lemma padded_laid ws ts : wide ws ts -> exists l, padded ws ts = Ok (laid l) /\ map snd l = ts.
Proof.
  intros C. induction C as [|w t ws ts H C [l [IH1 IH2]]].
  - exists []. split; reflexivity.
  - exists ((w - length t - 1, t) :: l). cbn [padded]. rewrite IH1. cbn [bind]. rewrite setw_laid by exact H.
    split; [|cbn [map snd]; rewrite IH2; reflexivity]. cbn [laid]. rewrite app_nil_r, <- app_assoc. reflexivity.
Qed.

(** ** Rows *)
(** A line holding the row [values]. *)
Definition line_of_row (ind : text) (i : colinfo) (values : list cell) (line : text) : Prop :=
  exists l toks, line = laid l /\ l <> [] /\
    Forall2 (fun p t => item (snd p) t) l toks /\
    avoids ind line /\ ~ In nl line /\
    match l, toks with p :: _, t :: _ => word t /\ snd p = t | _, _ => True end /\
    Forall2 (fun t cd => read_cell (cd_type (snd cd)) t = Ok (fst cd)) toks (combine values i) /\
    length values = length i /\ length toks = length values.

Lemma read_cells_gen pre : forall i values toks,
  Forall2 (fun t cd => read_cell (cd_type (snd cd)) t = Ok (fst cd)) toks (combine values i) ->
  length values = length i ->
  read_cells pf pd (pre ++ i) (length pre) toks = Ok values.
Proof.
  intros i values toks. revert pre i values.
  induction toks as [|t toks IH]; intros pre i values F L.
  - inversion F as [E|]. destruct values as [|v vs]; [reflexivity|]. destruct i; [discriminate | discriminate].
  - destruct values as [|v vs]; [inversion F|]. destruct i as [|d i]; [discriminate|].
    cbn [combine] in F. inversion F as [|? ? ? ? H F2]; subst. cbn [snd fst] in H.
    cbn [read_cells]. replace (Nat.leb (length (pre ++ d :: i)) (length pre)) with false.
    2:{ symmetry. apply Nat.leb_gt. rewrite app_length. simpl. lia. }
    rewrite get_desc_in by (rewrite app_length; simpl; lia).
    rewrite nth_error_app2, Nat.sub_diag by lia. cbn [nth_error of_option bind]. rewrite H. cbn [bind].
    specialize (IH (pre ++ [d]) i vs F2). rewrite <- app_assoc in IH. cbn [app] in IH.
    rewrite app_length in IH. cbn [length] in IH. rewrite Nat.add_1_r in IH. rewrite IH; [reflexivity|].
    simpl in L. lia.
Qed.

Lemma row_tokens_laid l t toks :
  Forall2 (fun p t => item (snd p) t) l toks -> word t ->
  row_tokens (t ++ laid l) = t :: toks.
Proof.
  intros F2 W.
  unfold row_tokens, read_plain.
  assert (SH : solid_head t) by (apply word_item in W; apply W).
  rewrite drop_while_solid_app by exact SH.
  destruct (t ++ laid l) as [|c r] eqn:Z.
  - destruct SH as [c [r [-> _]]]. discriminate.
  - rewrite <- Z. rewrite span_word; [|intros x X; apply W; exact X | apply laid_starts_blank].
    f_equal. apply tokens_laid. exact F2.
Qed.

Lemma item_solid u t : item u t -> solid_head u /\ solid_last u.
Proof. intros [A [B _]]. auto. Qed.
Lemma items_solid l toks : Forall2 (fun p t => item (snd p) t) l toks ->
  Forall (fun p : nat * text => solid_head (snd p) /\ solid_last (snd p)) l.
Proof. intros F. induction F as [|p t l ts H F IH]; constructor; auto. apply item_solid in H. exact H. Qed.

(** A line of data is read back as its row and is the source of the column count. *)
Lemma row_line_read ind i values line : ind <> [] -> line_of_row ind i values line ->
  fits values i ->
  clean ind line <> [] /\ length (tokens (clean ind line)) = length i /\
  read_line pf pd i (clean ind line) = Ok (mkRow values i) /\
  trim line <> [] /\ starts_with (trim line) ind = false.
Proof.
  intros NI [l [toks [-> [N [F [A [_ [W [R [L1 L2]]]]]]]]]] FT.
  destruct F as [|p t l toks I F]; [congruence|]. destruct W as [W E].
  destruct p as [n u]. cbn [snd] in *. subst u.
  assert (TL : trim (laid ((n, t) :: l)) = t ++ laid l).
  { apply trim_laid. apply (items_solid _ (t :: toks)). constructor; assumption. }
  assert (NE : t ++ laid l <> []) by (destruct W as [W _]; destruct t; [congruence | discriminate]).
  rewrite clean_avoids by assumption. rewrite TL. split; [exact NE|].
  assert (TK : tokens (t ++ laid l) = t :: toks).
  { change (t ++ laid l) with ([] ++ t ++ laid l).
    rewrite (tokens_item [] t t); [|exact I | constructor | apply laid_starts_blank].
    f_equal. apply tokens_laid. exact F. }
  split; [rewrite TK; lia|]. split; [|split; [exact NE|]].
  - unfold read_line.
    assert (RT : row_tokens (t ++ laid l) = t :: toks)
      by (apply row_tokens_laid; assumption).
    rewrite RT. pose proof (read_cells_gen [] i values (t :: toks) R L1) as RC. cbn [app length] in RC. rewrite RC. cbn [bind].
    apply new_row_ok. split; [reflexivity | exact FT].
  - apply starts_with_avoids; [exact NI|]. intros c0 r E0 I0. apply (A c0 r E0).
    rewrite <- TL in I0. apply trim_in in I0. exact I0.
Qed.

(** ** What the loops do with the lines *)
Definition silent (ind line : text) : Prop := clean ind line = [].
Definition header_line (ind line : text) : Prop := trim line = [] \/ starts_with (trim line) ind = true.

Lemma count_silent ind h : forall lines, Forall (silent ind) h -> count_columns ind (h ++ lines) = count_columns ind lines.
Proof. intros lines F. induction F as [|l h H F IH]; [reflexivity|]. cbn [app count_columns]. rewrite H. exact IH. Qed.
Lemma count_data ind l rest n : clean ind l <> [] -> length (tokens (clean ind l)) = S n -> count_columns ind (l :: rest) = Ok (S n).
Proof. intros N L. cbn [count_columns]. destruct (clean ind l); [congruence|]. rewrite L. reflexivity. Qed.

Lemma header_app ind a : forall b, Forall (header_line ind) a -> header ind (a ++ b) = header ind a ++ header ind b.
Proof.
  intros b F. induction F as [|l a H F IH]; [reflexivity|]. cbn [app header].
  destruct (trim l) as [|c r] eqn:E; [exact IH|]. destruct H as [H|H]; [congruence|]. rewrite E in H. rewrite H.
  rewrite IH. reflexivity.
Qed.
Lemma header_stop ind l rest : trim l <> [] -> starts_with (trim l) ind = false -> header ind (l :: rest) = [].
Proof. intros N H. cbn [header]. destruct (trim l); [congruence|]. rewrite H. reflexivity. Qed.

Lemma read_loop_silent ind i h : forall n lines, Forall (silent ind) h -> n <> 0%Z ->
  read_loop pf pd ind i n (h ++ lines) = read_loop pf pd ind i n lines.
Proof.
  intros n lines F N. induction F as [|l h H F IH]; [reflexivity|]. cbn [app read_loop].
  replace (Z.eqb n 0) with false by (symmetry; apply Z.eqb_neq; exact N). rewrite H. exact IH.
Qed.
Lemma read_loop_all ind i : forall lines rows n, (n < 0)%Z ->
  Forall2 (fun l r => clean ind l <> [] /\ read_line pf pd i (clean ind l) = Ok r) lines rows ->
  Forall (silent ind) [[]] ->
  read_loop pf pd ind i n (lines ++ [[]]) = (Ok rows, []).
Proof.
  intros lines rows n N F SL. revert n N. induction F as [|l r lines rows [H1 H2] F IH]; intros n N.
  - cbn [app read_loop]. replace (Z.eqb n 0) with false by (symmetry; apply Z.eqb_neq; lia).
    inversion SL as [|? ? H _]; subst. rewrite H. reflexivity.
  - cbn [app read_loop]. replace (Z.eqb n 0) with false by (symmetry; apply Z.eqb_neq; lia).
    destruct (clean ind l) eqn:E; [congruence|]. rewrite H2. rewrite IH by lia. reflexivity.
Qed.

End Floats.

(** ** Column descriptions *)
Lemma starts_with_app_blank u r p : (forall c, In c p -> is_space c = false) -> starts_blank r ->
  starts_with (u ++ r) p = true -> starts_with u p = true.
Proof.
  revert u. induction p as [|x p IH]; intros u NB B H.
  - destruct u; reflexivity.
  - destruct u as [|y u].
    + cbn [app] in H. destruct r as [|y r]; [discriminate|]. cbn [starts_with] in H.
      apply andb_true_iff in H. destruct H as [H _]. apply ascii_eqb_spec in H. subst y.
      simpl in B. rewrite (NB x (or_introl eq_refl)) in B. discriminate.
    + cbn [app starts_with] in H |- *. apply andb_true_iff in H. destruct H as [H1 H2]. rewrite H1. cbn [andb].
      apply IH; [intros c I; apply NB; right; exact I | exact B | exact H2].
Qed.

Definition unit_part (d : coldesc) : text := match cd_unit d with [] => [] | u => txt " (" ++ u ++ txt ")" end.
Definition desc_part (d : coldesc) : text := match cd_desc d with [] => [] | e => txt " - " ++ e end.
Definition core (d : coldesc) : text := quoted (cd_name d) ++ sp :: type_keyword (cd_type d).
Lemma desc_line_eq ind d : desc_line ind d = ind ++ txt " Column: " ++ core d ++ unit_part d ++ desc_part d.
Proof. unfold desc_line, core, unit_part, desc_part. rewrite <- !app_assoc. cbn [app]. reflexivity. Qed.

Lemma core_solid d : cd_name d <> [] -> solid_head (core d) /\ solid_last (core d).
Proof.
  intros N. unfold core. split.
  - apply solid_head_app. apply (quoted_item (cd_name d) N).
  - apply solid_last_app. change (sp :: type_keyword (cd_type d)) with ([sp] ++ type_keyword (cd_type d)).
    apply solid_last_app. apply word_item, keyword_word.
Qed.
Lemma parts_blank d : starts_blank (unit_part d ++ desc_part d).
Proof. unfold unit_part, desc_part. destruct (cd_unit d); [|reflexivity]. destruct (cd_desc d); [exact I | reflexivity]. Qed.

(** What is read of the description text. *)
Definition read_desc_text (d : coldesc) : text :=
  match cd_desc d with [] => [] | e => desc_rest (tokens (rtrim (sp :: e))) end.

Lemma parse_desc_written d : cd_name d <> [] -> one_line (cd_name d) ->
  (forall c, In c (cd_unit d) -> is_space c = false) ->
  parse_desc (core d ++ rtrim (unit_part d ++ desc_part d)) =
  Ok (mkDesc (cd_name d) (cd_type d) (cd_unit d) (read_desc_text d)).
Proof.
  intros N O U. unfold parse_desc, core. rewrite <- app_assoc. cbn [app].
  set (R := rtrim (unit_part d ++ desc_part d)).
  assert (BR : starts_blank R) by (apply rtrim_starts_blank, parts_blank).
  destruct (quoted_item (cd_name d) N) as [_ [_ Q]].
  specialize (Q [] (sp :: type_keyword (cd_type d) ++ R)). cbn [app] in Q.
  rewrite Q; [|constructor | reflexivity].
  assert (T1 : tokens (sp :: type_keyword (cd_type d) ++ R) = type_keyword (cd_type d) :: tokens R).
  { change (sp :: type_keyword (cd_type d) ++ R) with ([sp] ++ type_keyword (cd_type d) ++ R).
    apply tokens_item; [apply word_item, keyword_word | repeat constructor | exact BR]. }
  rewrite T1.
  assert (D1 : desc_type (type_keyword (cd_type d) :: tokens R) = Ok (cd_type d, tokens R)).
  { unfold desc_type. replace (starts_with (type_keyword (cd_type d)) (txt "(") || text_eqb (type_keyword (cd_type d)) (txt "-"))%bool
      with false by (destruct (cd_type d); reflexivity). rewrite keyword_round. reflexivity. }
  rewrite D1. cbn [bind fst snd].
  (* the description part *)
  assert (TD : forall x, x = rtrim (desc_part d) -> exists tl0, tokens x = tl0 /\
     desc_rest (drop_dash tl0) = read_desc_text d /\ desc_unit tl0 = Ok ([], tl0)).
  { intros x ->. unfold desc_part, read_desc_text. destruct (cd_desc d) as [|e0 e].
    - exists []. repeat split.
    - set (E := e0 :: e). exists (txt "-" :: tokens (rtrim (sp :: E))). split.
      + change (txt " - " ++ E) with ((txt " -") ++ sp :: E).
        rewrite rtrim_keep by (exists "-"%char, [sp]; split; reflexivity).
        change (txt " -" ++ rtrim (sp :: E)) with ([sp] ++ txt "-" ++ rtrim (sp :: E)).
        apply tokens_item; [apply bare_item; exists "-"%char, []; split; [reflexivity|]; split; [discriminate|]; intros y [<-|[]]; reflexivity
          | repeat constructor | apply rtrim_starts_blank; reflexivity].
      + split; reflexivity. }
  unfold unit_part in R. destruct (cd_unit d) as [|u0 u] eqn:EU.
  - cbn [app] in R. destruct (TD R eq_refl) as [tl0 [E1 [E2 E3]]]. rewrite E1, E3. cbn [bind fst snd]. rewrite E2.
    apply new_desc_ok. split; [exact N|]. split; [exact O | reflexivity].
  - set (UU := u0 :: u) in *.
    assert (SB : starts_blank (rtrim (desc_part d))).
    { apply rtrim_starts_blank. unfold desc_part. destruct (cd_desc d); [exact I | reflexivity]. }
    assert (TU : tokens R = (txt "(" ++ UU ++ txt ")") :: tokens (rtrim (desc_part d))).
    { unfold R. rewrite rtrim_keep.
      - replace ((txt " (" ++ UU ++ txt ")") ++ rtrim (desc_part d))
          with ([sp] ++ (txt "(" ++ UU ++ txt ")") ++ rtrim (desc_part d)) by reflexivity.
        apply tokens_item; [|repeat constructor | exact SB].
        apply bare_item. exists "("%char, (UU ++ txt ")"). split; [reflexivity|]. split; [discriminate|].
        intros y I. rewrite !in_app_iff in I. destruct I as [[<-|[]]|[I|[<-|[]]]]; [reflexivity | apply U; exact I | reflexivity].
      - exists ")"%char, (txt " (" ++ UU). split; [rewrite <- app_assoc; reflexivity | reflexivity]. }
    rewrite TU. cbn [desc_unit].
    change (starts_with (txt "(" ++ UU ++ txt ")") (txt "(")) with true.
    cbv match. replace (tl (txt "(" ++ UU ++ txt ")")) with (UU ++ txt ")") by reflexivity.
    destruct (UU ++ txt ")") as [|z zs] eqn:EZ; [discriminate|]. rewrite <- EZ.
    change (txt ")") with [")"%char]. rewrite removelast_last. cbn [bind fst snd].
    destruct (TD _ eq_refl) as [tl0 [E1 [E2 _]]]. rewrite E1, E2.
    apply new_desc_ok. split; [exact N|]. split; [exact O | reflexivity].
Qed.
Lemma desc_rest_words ws : Forall word ws -> desc_rest (tokens (rtrim (sp :: join sp ws))) = join sp ws.
Proof.
  intros F. destruct ws as [|w ws].
  - reflexivity.
  - assert (J : forall w ws, Forall word (w :: ws) -> sp :: join sp (w :: ws) = laid (map (fun x => (0, x)) (w :: ws))).
    { clear. intros w ws. revert w. induction ws as [|v ws IH]; intros w F.
      - cbn [map laid repeat]. rewrite app_nil_r. reflexivity.
      - inversion F as [|? ? H1 H2]; subst. rewrite join_cons by discriminate.
        change (map (fun x => (0, x)) (w :: v :: ws)) with ((0, w) :: map (fun x => (0, x)) (v :: ws)).
        cbn [laid repeat]. rewrite <- IH by exact H2. reflexivity. }
    assert (FI : Forall2 (fun p t => item (snd p) t) (map (fun x => (0, x)) (w :: ws)) (w :: ws)).
    { clear J. induction F as [|x l H F IH]; constructor; [apply word_item; exact H | exact IH]. }
    rewrite J by exact F. rewrite rtrim_solid.
    2:{ apply laid_last; [discriminate|]. apply items_solid in FI. eapply Forall_impl; [|exact FI]. intros p [_ H]. exact H. }
    rewrite (tokens_laid _ (w :: ws)) by exact FI.
    unfold desc_rest.
    assert (E : flat_map (fun t => t ++ [sp]) (w :: ws) = join sp (w :: ws) ++ [sp]).
    { clear. revert w. induction ws as [|v ws IH]; intros w.
      - cbn [flat_map join]. rewrite app_nil_r. reflexivity.
      - rewrite join_cons by discriminate. cbn [flat_map] in IH |- *. rewrite IH. rewrite <- !app_assoc. reflexivity. }
    rewrite E. rewrite trim_keep.
    + cbn. apply app_nil_r.
    + inversion F as [|? ? H1 H2]; subst. apply word_item in H1. destruct H1 as [H1 _].
      destruct ws as [|v ws]; [exact H1|]. rewrite join_cons by discriminate. apply solid_head_app. exact H1.
    + assert (L : solid_last (sp :: join sp (w :: ws))).
      { rewrite J by exact F. apply laid_last; [discriminate|]. apply items_solid in FI.
        eapply Forall_impl; [|exact FI]. intros p [_ H]. exact H. }
      destruct L as [c [r [E1 H1]]]. destruct r as [|y r].
      * exfalso. injection E1 as <- _. discriminate.
      * injection E1 as _ E1. exists c, r. split; assumption.
Qed.
Lemma read_desc_plain d : plain_description d -> read_desc_text d = cd_desc d.
Proof.
  intros [ws [F E]]. unfold read_desc_text. destruct (cd_desc d) as [|c r] eqn:Z; [reflexivity|].
  rewrite E. apply desc_rest_words. exact F.
Qed.

(** ** The header *)
Section Header.
Variable ind : text.
Hypothesis GI : good_indicator ind.

Lemma ind_nonempty : ind <> [].
Proof. destruct GI as [[c0 [r [-> _]]] _]. discriminate. Qed.
Lemma ind_solid : solid_head ind /\ solid_last ind.
Proof.
  destruct GI as [[c0 [r [E _]]] H]. split.
  - exists c0, r. split; [exact E|]. apply H. rewrite E. left. reflexivity.
  - destruct (exists_last ind_nonempty) as [q [c E2]]. exists c, q. split; [exact E2|]. apply H.
    rewrite E2. apply in_app_iff. right. left. reflexivity.
Qed.
Lemma avoids_layout s : (forall c, In c s -> In c layout_chars) -> avoids ind s.
Proof.
  intros H c0 r E I. destruct GI as [[c [q [E2 N]]] _]. rewrite E2 in E. injection E as -> ->. apply N, H, I.
Qed.
Ltac layout := apply avoids_layout; let c := fresh in let H := fresh in intros c H;
  repeat (destruct H as [<-|H]; [vm_compute; tauto|]); destruct H.
Lemma avoids_sp : avoids ind [sp].
Proof. layout. Qed.
Lemma avoids_repeat n : avoids ind (repeat sp n).
Proof. apply avoids_layout. intros c I. apply repeat_spec in I. subst c. vm_compute. tauto. Qed.
Lemma avoids_keyword t : avoids ind (type_keyword t).
Proof. destruct t; layout. Qed.
Lemma avoids_quoted s : avoids ind s -> avoids ind (quoted s).
Proof.
  intros A c0 r E I. apply quoted_in in I. destruct I as [I|I]; [apply (A c0 r E I)|].
  assert (B : avoids ind [bs; dq]) by layout. apply (B c0 r E). simpl. intuition.
Qed.
Lemma avoids_parts d : carried_column ind d -> avoids ind (core d ++ unit_part d ++ desc_part d).
Proof.
  intros [A [B [C _]]]. rewrite !avoids_app. split; [|split].
  - unfold core. change (sp :: type_keyword (cd_type d)) with ([sp] ++ type_keyword (cd_type d)).
    rewrite !avoids_app. split; [apply avoids_quoted; exact A|]. split; [apply avoids_sp | apply avoids_keyword].
  - unfold unit_part. destruct (cd_unit d) eqn:E; [intros c0 r _ []|]. rewrite !avoids_app.
    split; [layout|]. split; [exact B | layout].
  - unfold desc_part. destruct (cd_desc d) eqn:E; [intros c0 r _ []|]. rewrite avoids_app. split; [layout | exact C].
Qed.
Lemma avoids_rtrim s : avoids ind s -> avoids ind (rtrim s).
Proof. intros A c0 r E I. apply (A c0 r E). destruct (rtrim_prefix s) as [b F]. rewrite F. apply in_app_iff. auto. Qed.

(** The entry of a comment line. *)
Lemma header_entry s : avoids ind s ->
  header_line ind (ind ++ s) /\ header ind [ind ++ s] = [trim s].
Proof.
  intros A. destruct ind_solid as [S1 S2].
  assert (T : trim (ind ++ s) = ind ++ rtrim s) by (apply trim_keep; assumption).
  assert (W : starts_with (trim (ind ++ s)) ind = true) by (rewrite T; apply starts_with_refl_app).
  split; [right; exact W|]. cbn [header]. destruct (trim (ind ++ s)) as [|c q] eqn:E.
  - exfalso. symmetry in T. apply app_eq_nil in T. apply ind_nonempty. apply T.
  - rewrite W. rewrite T. rewrite remove_all_comment; [|apply ind_nonempty | apply avoids_rtrim; exact A].
    rewrite trim_rtrim. reflexivity.
Qed.
Lemma header_entries ss : Forall (avoids ind) ss ->
  Forall (header_line ind) (map (fun s => ind ++ s) ss) /\ header ind (map (fun s => ind ++ s) ss) = map trim ss.
Proof.
  intros F. induction F as [|s ss A F [IH1 IH2]]; [split; [constructor | reflexivity]|].
  destruct (header_entry s A) as [H1 H2]. split; [constructor; assumption|].
  cbn [map]. change (header ind ((ind ++ s) :: map (fun s => ind ++ s) ss))
    with (header ind ([ind ++ s] ++ map (fun s => ind ++ s) ss)).
  rewrite header_app by (constructor; [exact H1 | constructor]). rewrite H2, IH2. reflexivity.
Qed.

Definition read_back (d : coldesc) : coldesc := mkDesc (cd_name d) (cd_type d) (cd_unit d) (read_desc_text d).
Definition entry (d : coldesc) : text := txt " Column: " ++ core d ++ unit_part d ++ desc_part d.
Lemma entry_trim d : cd_name d <> [] -> trim (entry d) = txt "Column:" ++ sp :: core d ++ rtrim (unit_part d ++ desc_part d).
Proof.
  intros N. unfold entry. destruct (core_solid d N) as [_ CL].
  replace (txt " Column: " ++ core d ++ unit_part d ++ desc_part d)
    with ([sp] ++ (txt "Column: " ++ core d) ++ unit_part d ++ desc_part d) by (rewrite <- !app_assoc; reflexivity).
  rewrite trim_blank_app by (repeat constructor).
  rewrite trim_keep.
  - rewrite <- app_assoc. reflexivity.
  - exists "C"%char, (txt "olumn: " ++ core d). split; reflexivity.
  - apply solid_last_app. exact CL.
Qed.
Lemma entry_desc d : cd_name d <> [] ->
  is_desc (trim (entry d)) = true /\
  after_keyword (trim (entry d)) = core d ++ rtrim (unit_part d ++ desc_part d).
Proof.
  intros N. rewrite entry_trim by exact N. split; [reflexivity|].
  unfold after_keyword. change (skipn 7 (txt "Column:" ++ sp :: core d ++ rtrim (unit_part d ++ desc_part d)))
    with ([sp] ++ core d ++ rtrim (unit_part d ++ desc_part d)).
  rewrite trim_blank_app by (repeat constructor).
  destruct (core_solid d N) as [C1 C2]. rewrite trim_keep by assumption. rewrite rtrim_idem. reflexivity.
Qed.

Lemma find_desc_none n l : ~ In n (names_of l) -> find_desc n l = None.
Proof.
  induction l as [|d l IH]; intros H; [reflexivity|]. cbn [find_desc].
  destruct (text_eqb (cd_name d) n) eqn:E.
  - apply text_eqb_iff in E. exfalso. apply H. left. exact E.
  - apply IH. intros I. apply H. right. exact I.
Qed.
Lemma find_desc_nth l : forall k d, NoDup (names_of l) -> nth_error l k = Some d -> find_desc (cd_name d) l = Some d.
Proof.
  induction l as [|x l IH]; intros [|k] d N H; try discriminate.
  - injection H as ->. cbn [find_desc]. replace (text_eqb (cd_name d) (cd_name d)) with true; [reflexivity|].
    symmetry. apply text_eqb_iff. reflexivity.
  - cbn [names_of map] in N. inversion N as [|? ? N1 N2]; subst. cbn [find_desc].
    destruct (text_eqb (cd_name x) (cd_name d)) eqn:E.
    + apply text_eqb_iff in E. exfalso. apply N1. rewrite E. apply in_map. apply (nth_error_In l k). exact H.
    + apply (IH k d N2). exact H.
Qed.

Definition good_desc (d : coldesc) : Prop :=
  cd_name d <> [] /\ one_line (cd_name d) /\ (forall c, In c (cd_unit d) -> is_space c = false).

Lemma descriptions_skip acc a : Forall (fun h => is_desc h = false) a -> forall b, descriptions acc (a ++ b) = descriptions acc b.
Proof. intros F b. induction F as [|h a H F IH]; [reflexivity|]. cbn [app descriptions]. rewrite H. exact IH. Qed.
Lemma descriptions_entries i : forall acc rest, Forall good_desc i -> NoDup (names_of acc ++ names_of i) ->
  descriptions acc (map (fun d => trim (entry d)) i ++ rest) = descriptions (acc ++ map read_back i) rest.
Proof.
  induction i as [|d i IH]; intros acc rest F N.
  - cbn [map app]. rewrite app_nil_r. reflexivity.
  - inversion F as [|? ? [H1 [H2 H3]] F2]; subst. cbn [map app descriptions].
    destruct (entry_desc d H1) as [E1 E2]. rewrite E1, E2.
    pose proof (parse_desc_written d H1 H2 H3) as P.
    destruct (core_solid d H1) as [[c [q [C _]]] _].
    destruct (core d ++ rtrim (unit_part d ++ desc_part d)) as [|x y] eqn:Z.
    { rewrite C in Z. discriminate. }
    rewrite <- Z in P |- *.
    assert (X : fst (extract_quoted (core d ++ rtrim (unit_part d ++ desc_part d))) = cd_name d).
    { destruct (quoted_item (cd_name d) H1) as [_ [_ Q]].
      specialize (Q [] (sp :: type_keyword (cd_type d) ++ rtrim (unit_part d ++ desc_part d))).
      cbn [app] in Q. unfold core. rewrite <- app_assoc. cbn [app]. rewrite Q; [reflexivity | constructor | reflexivity]. }
    rewrite X. rewrite find_desc_none.
    + rewrite P. cbn [bind]. rewrite IH; [rewrite <- app_assoc; reflexivity | exact F2|].
      unfold names_of in N |- *. rewrite map_app, <- app_assoc. exact N.
    + intros I. cbn [names_of map] in N. apply NoDup_remove_2 in N. apply N. apply in_app_iff. left. exact I.
Qed.

Lemma no_duplicates_ok l : forall seen, NoDup l -> (forall x, In x l -> ~ In x seen) -> no_duplicates seen l = true.
Proof.
  induction l as [|x l IH]; intros seen N D; [reflexivity|]. inversion N as [|? ? N1 N2]; subst.
  cbn [no_duplicates]. replace (existsb (text_eqb x) seen) with false.
  - cbn [negb andb]. apply IH; [exact N2|]. intros y I [<-|I2]; [apply N1; exact I | apply (D y (or_intror I) I2)].
  - symmetry. apply existsb_text_eqb_false. apply D. left. reflexivity.
Qed.

(** The line with the names. *)
Definition name_items (i : colinfo) (l : list (nat * text)) : Prop := map snd l = map (fun d => quoted (cd_name d)) i.
Lemma name_items_item i l : name_items i l -> Forall good_desc i ->
  Forall2 (fun p t => item (snd p) t) l (names_of i).
Proof.
  unfold name_items. revert l. induction i as [|d i IH]; intros [|p l] E F; try discriminate; [constructor|].
  cbn [map] in E. injection E as E1 E2. inversion F as [|? ? [H _] F2]; subst. constructor.
  - rewrite E1. apply quoted_item. exact H.
  - apply IH; assumption.
Qed.
Lemma starts_with_word_app n rest p : (forall c, In c p -> is_space c = false) -> ~ In dq p ->
  p <> [] -> starts_blank rest -> starts_with (quoted n ++ rest) p = true -> starts_with n p = true.
Proof.
  intros NB ND NE B H. apply starts_with_app_blank in H; [|exact NB | exact B]. unfold quoted in H.
  destruct (needs_quotes n); [|exact H]. destruct p as [|c p]; [congruence|]. cbn [starts_with] in H.
  apply andb_true_iff in H. destruct H as [H _]. apply ascii_eqb_spec in H. exfalso. apply ND. left. auto.
Qed.
Lemma names_entry i l : i <> [] -> name_items i l -> Forall good_desc i -> first_name_ok i ->
  Forall (carried_column ind) i ->
  avoids ind (laid l) /\ is_desc (trim (laid l)) = false /\ tokens (trim (laid l)) = names_of i /\
  trim (laid l) <> [].
Proof.
  intros N E F FN CC. pose proof (name_items_item i l E F) as FI.
  assert (A : avoids ind (laid l)).
  { unfold name_items in E. clear F FI FN N. revert l E. induction CC as [|d i C CC IH]; intros [|[n u] l] E; try discriminate.
    - intros c0 r _ [].
    - cbn [map snd] in E. injection E as E1 E2. cbn [laid]. rewrite !avoids_app. split; [apply avoids_repeat|].
      split; [|apply IH; exact E2]. subst u. apply avoids_quoted. apply C. }
  split; [exact A|]. destruct i as [|d i]; [congruence|]. destruct l as [|[n u] l]; [discriminate|].
  unfold name_items in E. cbn [map snd] in E. injection E as E1 E2. subst u.
  pose proof (items_solid _ _ FI) as SI. rewrite trim_laid by exact SI.
  cbn [names_of map] in FI. inversion FI as [|? ? ? ? I1 I2]; subst. cbn [snd] in I1. split; [|split].
  - unfold is_desc. destruct (starts_with (quoted (cd_name d) ++ laid l) (txt "Column:")) eqn:Z; [|reflexivity].
    apply starts_with_word_app in Z.
    + cbn [first_name_ok] in FN. congruence.
    + intros c I. repeat (destruct I as [<-|I]; [reflexivity|]). destruct I.
    + intros I. repeat (destruct I as [I|I]; [discriminate|]). destruct I.
    + discriminate.
    + apply laid_starts_blank.
  - change (quoted (cd_name d) ++ laid l) with ([] ++ quoted (cd_name d) ++ laid l).
    rewrite (tokens_item [] _ (cd_name d)); [|exact I1 | constructor | apply laid_starts_blank].
    cbn [names_of map]. f_equal. apply tokens_laid. exact I2.
  - destruct I1 as [[c [q [-> _]]] _]. discriminate.
Qed.

(** The columns found from a header made of comments, descriptions and names. *)
Lemma auto_names_found hs nm i : i <> [] -> NoDup (names_of i) -> tokens nm = names_of i -> nm <> [] ->
  auto_names (hs ++ [nm]) (length i) = Ok (names_of i).
Proof.
  intros N D T NN. unfold auto_names.
  assert (L : last (filter not_empty (hs ++ [nm])) [] = nm).
  { rewrite filter_app. cbn [filter]. destruct nm; [congruence|]. cbn [not_empty]. apply last_last. }
  assert (LN : length (names_of i) = length i) by (unfold names_of; apply map_length).
  assert (NE : names_of i <> []) by (destruct i; [congruence | discriminate]).
  rewrite L, T, LN, Nat.eqb_refl. cbv zeta.
  replace (match names_of i with [] => map desc_name (filter is_desc (hs ++ [nm])) | _ => names_of i end)
    with (names_of i) by (destruct (names_of i); congruence).
  rewrite LN, Nat.sub_diag. cbn [seq map]. rewrite app_nil_r.
  rewrite no_duplicates_ok; [reflexivity | exact D | intros ? _ []].
Qed.
Lemma columns_found i : Forall good_desc i -> NoDup (names_of i) ->
  map_o (column_at [] [] (names_of i) (map read_back i)) (seq 0 (length i)) = Ok (map read_back i).
Proof.
  intros F N. apply map_o_ok.
  assert (NB : names_of (map read_back i) = names_of i) by (unfold names_of; rewrite map_map; reflexivity).
  assert (K : forall k d, nth_error i k = Some d ->
     column_at [] [] (names_of i) (map read_back i) k = Ok (read_back d)).
  { intros k d H. unfold column_at. unfold names_of at 1. rewrite nth_error_map, H. cbn [option_map of_option bind].
    replace (cd_name d) with (cd_name (read_back d)) by reflexivity.
    rewrite (find_desc_nth (map read_back i) k (read_back d)).
    - apply new_desc_ok. rewrite Forall_forall in F. destruct (F d (nth_error_In _ _ H)) as [A [B _]].
      split; [exact A|]. split; [exact B | reflexivity].
    - rewrite NB. exact N.
    - rewrite nth_error_map, H. reflexivity. }
  clear F N NB. revert K. generalize (column_at [] [] (names_of i) (map read_back i)). intros f K.
  assert (G : forall j pre, (forall k d, nth_error j k = Some d -> f (pre + k) = Ok (read_back d)) ->
     Forall2 (fun a b => f a = Ok b) (seq pre (length j)) (map read_back j)).
  { clear. induction j as [|d j IH]; intros pre K; [constructor|]. cbn [length seq map]. constructor.
    - specialize (K 0 d eq_refl). rewrite Nat.add_0_r in K. exact K.
    - apply IH. intros k x H. specialize (K (S k) x H). rewrite Nat.add_succ_r in K. exact K. }
  apply (G i 0). intros k d H. apply K. exact H.
Qed.
Lemma columns_read_back i : columns_of (map read_back i) = columns_of i.
Proof. unfold columns_of. rewrite map_map. reflexivity. Qed.
Lemma new_info_read_back i : new_info i = Ok i -> new_info (map read_back i) = Ok (map read_back i).
Proof.
  intros H. apply new_info_ok in H. destruct H as [_ [N D]]. apply new_info_ok. split; [reflexivity|].
  split; [apply map_nonempty; exact N|]. unfold names_of. rewrite map_map. exact D.
Qed.
End Header.
