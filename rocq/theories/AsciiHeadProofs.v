(** Proofs about the columns of ASCII files. *)
From Coq Require Import ZArith List Arith Ascii String Bool Lia.
From Verif Require Import Common TextModel TextProofs DblModel TableModel TableSpec TableProofs AsciiModel AsciiSpec AsciiProofs AsciiProofs2 AsciiProofs3 AsciiHeadModel AsciiHeadSpec AsciiCrashProofs.
Import ListNotations.
Local Notation length := List.length.

(** ** Words *)
Lemma white_blank s : white s <-> blank s.
Proof.
  unfold white, blank. rewrite Forall_forall. split; intros H c I; specialize (H c I); apply white_is_space; exact H.
Qed.
Lemma white_start s : (forall c r, s = c :: r -> In c white_space) <-> starts_blank s.
Proof.
  split; intros H; destruct s as [|c r]; cbn; auto.
  - apply white_is_space. apply (H c r eq_refl).
  - intros c r E. discriminate.
  - intros c' r' E. injection E as <- <-. apply white_is_space. exact H.
Qed.
Lemma tokens_blank b : blank b -> tokens b = [].
Proof.
  intros B. rewrite tokens_step. unfold read_quoted, extract_quoted.
  rewrite <- (app_nil_r b), drop_while_blank by exact B. reflexivity.
Qed.
Lemma spaced_tokens s ws : spaced s ws -> tokens s = ws.
Proof.
  intros H. induction H as [b B|b w s ws B W S H IH]; [apply tokens_blank, white_blank, B|].
  rewrite (tokens_item b w w s); [rewrite IH; reflexivity | apply word_item; exact W | apply white_blank; exact B | apply white_start; exact S].
Qed.
Lemma word_solid w : word w -> solid_head w /\ solid_last w.
Proof. intros W. apply (item_solid w w). apply word_item. exact W. Qed.
Lemma spaced_drop s ws : spaced s ws -> spaced (drop_while is_space s) ws.
Proof.
  intros H. destruct H as [b B|b w s ws B W S H].
  - rewrite <- (app_nil_r b), drop_while_blank by (apply white_blank; exact B). cbn. constructor. intros c [].
  - rewrite drop_while_blank by (apply white_blank; exact B).
    rewrite drop_while_solid_app by (apply word_solid; exact W).
    change (w ++ s) with ([] ++ w ++ s). constructor; try assumption. intros c [].
Qed.
Lemma spaced_rtrim s ws : spaced s ws -> spaced (rtrim s) ws.
Proof.
  intros H. induction H as [b B|b w s ws B W S H IH].
  - rewrite rtrim_blank by (apply white_blank; exact B). constructor. intros c [].
  - rewrite app_assoc, rtrim_keep by (apply solid_last_app, word_solid, W). rewrite <- app_assoc.
    constructor; try assumption. apply white_start, rtrim_starts_blank, white_start, S.
Qed.
Lemma spaced_trim s ws : spaced s ws -> spaced (trim s) ws.
Proof. intros H. rewrite trim_def. apply spaced_rtrim, spaced_drop, H. Qed.
Lemma spaced_trim_nonempty s ws : spaced s ws -> ws <> [] -> trim s <> [].
Proof. intros H N E. apply spaced_trim, spaced_tokens in H. rewrite E in H. cbn in H. congruence. Qed.
Lemma word_one_line w : word w -> one_line w.
Proof.
  intros [_ H] c I J. apply H in J. destruct J as [J _].
  repeat (destruct I as [<-|I]; [discriminate|]). destruct I.
Qed.

(** ** Lines *)
Lemma lines_flat_app L rest : Forall (fun s => ~ In nl s) L -> lines_of (flat L ++ rest) = L ++ lines_of rest.
Proof.
  intros F. unfold lines_of. induction F as [|s L H F IH]; [reflexivity|].
  rewrite flat_cons. rewrite <- !app_assoc. cbn [app]. rewrite split_app by reflexivity. rewrite IH.
  rewrite split_no_sep; [reflexivity|]. apply Forall_forall. intros c I. unfold is_nl. apply ascii_eqb_neq. intros ->. contradiction.
Qed.
Lemma file_lines ind hs line rest : ~ In nl ind -> Forall (fun h => ~ In nl h) hs -> ~ In nl line ->
  lines_of (ascii_file ind hs line rest) = map (fun h => ind ++ h) hs ++ line :: lines_of rest.
Proof.
  intros NI NH NL. unfold ascii_file.
  replace (flat_map (fun h => ind ++ h ++ [nl]) hs ++ line ++ nl :: rest)
    with (flat (map (fun h => ind ++ h) hs ++ [line]) ++ rest).
  - rewrite lines_flat_app; [rewrite <- app_assoc; reflexivity|]. apply Forall_app. split; [|constructor; [exact NL | constructor]].
    apply Forall_forall. intros x I. apply in_map_iff in I. destruct I as [h [<- I]]. rewrite Forall_forall in NH.
    intros J. apply in_app_iff in J. destruct J as [J|J]; [apply NI; exact J | apply (NH h I J)].
  - rewrite flat_app, <- app_assoc. unfold flat at 2. cbn [flat_map]. rewrite app_nil_r, <- app_assoc. cbn [app]. f_equal.
    unfold flat. clear. induction hs as [|h hs IH]; [reflexivity|]. cbn [map flat_map]. rewrite IH, <- !app_assoc. reflexivity.
Qed.

(** The count of columns and the comments of such a file. *)
Lemma file_count ind hs line ws rest : ind <> [] -> first_line ind line ws ->
  count_columns ind (map (fun h => ind ++ h) hs ++ line :: rest) = Ok (length ws).
Proof.
  intros NI [SP [NE [A _]]]. rewrite count_silent.
  - destruct ws as [|w ws]; [congruence|]. apply count_data; rewrite clean_avoids by assumption.
    + apply (spaced_trim_nonempty _ _ SP). discriminate.
    + rewrite (spaced_tokens _ _ (spaced_trim _ _ SP)). reflexivity.
  - induction hs; constructor; [apply clean_comment; exact NI | assumption].
Qed.
Lemma avoids_trim ind s : avoids ind s -> avoids ind (trim s).
Proof. intros A c0 r E I. apply (A c0 r E). apply trim_in. exact I. Qed.
Lemma file_header ind hs line ws rest : good_indicator ind -> first_line ind line ws -> Forall (avoids ind) hs ->
  header ind (map (fun h => ind ++ h) hs ++ line :: rest) = map trim hs.
Proof.
  intros GI [SP [NE [A _]]] F. destruct (header_entries ind GI hs F) as [H1 H2].
  rewrite header_app by exact H1. rewrite H2. rewrite header_stop; [apply app_nil_r | |].
  - apply (spaced_trim_nonempty _ _ SP NE).
  - apply starts_with_avoids; [apply ind_nonempty; exact GI | apply avoids_trim; exact A].
Qed.

(** ** Names *)
Lemma auto_last hs nm ns : tokens nm = ns -> nm <> [] -> ns <> [] -> NoDup ns ->
  auto_names (hs ++ [nm]) (length ns) = Ok ns.
Proof.
  intros T NN NE D. unfold auto_names.
  assert (L : last (filter not_empty (hs ++ [nm])) [] = nm).
  { rewrite filter_app. cbn [filter]. destruct nm; [congruence|]. cbn [not_empty]. apply last_last. }
  rewrite L, T, Nat.eqb_refl. cbv zeta.
  replace (match ns with [] => map desc_name (filter is_desc (hs ++ [nm])) | _ => ns end) with ns by (destruct ns; congruence).
  rewrite Nat.sub_diag. cbn [seq map]. rewrite app_nil_r.
  rewrite no_duplicates_ok; [reflexivity | exact D | intros ? _ []].
Qed.
Lemma auto_other hs n : length (tokens (last (filter not_empty hs) [])) <> n ->
  NoDup (map desc_name (filter is_desc hs) ++ default_names (length (map desc_name (filter is_desc hs))) n) ->
  auto_names hs n = Ok (map desc_name (filter is_desc hs) ++ default_names (length (map desc_name (filter is_desc hs))) n).
Proof.
  intros H D. unfold auto_names. cbv zeta. apply Nat.eqb_neq in H. rewrite H.
  unfold default_names, default_name in *. rewrite Nat.add_1_r. rewrite no_duplicates_ok; [reflexivity | exact D | intros ? _ []].
Qed.

(** ** Descriptions *)
Definition found (d : described) : coldesc := mkDesc (de_name d) (de_type d) [] [].
Lemma spelling_facts k ty : In (k, ty) spellings ->
  word (txt k) /\ keyword_type (txt k) = Ok ty /\ starts_with (txt k) (txt "(") = false /\ text_eqb (txt k) (txt "-") = false.
Proof.
  assert (W : forall s, s <> [] -> needs_quotes s = false -> word s)
    by (intros s N H; split; [exact N | apply needs_quotes_false; exact H]).
  intros I. repeat (destruct I as [I|I]; [injection I as <- <-; split; [apply W; [discriminate | reflexivity] | repeat split]|]). destruct I.
Qed.
Lemma description_trim ind d : described_ok ind d ->
  trim (description d) = txt "Column:" ++ sp :: de_name d ++ sp :: txt (de_spelling d).
Proof.
  intros [W [K _]]. destruct (spelling_facts _ _ K) as [KW _]. unfold description.
  change (txt " Column: " ++ de_name d ++ txt " " ++ txt (de_spelling d))
    with ([sp] ++ (txt "Column:" ++ sp :: de_name d ++ sp :: txt (de_spelling d))).
  rewrite trim_blank_app by (repeat constructor). apply trim_solid.
  - exists "C"%char, (txt "olumn:" ++ sp :: de_name d ++ sp :: txt (de_spelling d)). split; reflexivity.
  - apply solid_last_app. change (sp :: de_name d ++ sp :: txt (de_spelling d)) with ((sp :: de_name d) ++ [sp] ++ txt (de_spelling d)).
    do 2 apply solid_last_app. apply word_solid. exact KW.
Qed.
Lemma description_facts ind d : described_ok ind d ->
  is_desc (trim (description d)) = true /\ desc_name (trim (description d)) = de_name d /\
  after_keyword (trim (description d)) = de_name d ++ sp :: txt (de_spelling d) /\
  extract_quoted (de_name d ++ sp :: txt (de_spelling d)) = (de_name d, Some (sp :: txt (de_spelling d))) /\
  parse_desc (de_name d ++ sp :: txt (de_spelling d)) = Ok (found d).
Proof.
  intros H. pose proof H as [W [K _]]. destruct (spelling_facts _ _ K) as [KW [K1 [K2 K3]]]. rewrite (description_trim ind d H).
  assert (AK : after_keyword (txt "Column:" ++ sp :: de_name d ++ sp :: txt (de_spelling d)) = de_name d ++ sp :: txt (de_spelling d)).
  { unfold after_keyword. change (skipn 7 (txt "Column:" ++ sp :: de_name d ++ sp :: txt (de_spelling d)))
      with ([sp] ++ de_name d ++ sp :: txt (de_spelling d)). rewrite trim_blank_app by (repeat constructor).
    apply trim_solid; [apply solid_head_app, word_solid, W|]. apply solid_last_app.
    change (sp :: txt (de_spelling d)) with ([sp] ++ txt (de_spelling d)). apply solid_last_app, word_solid, KW. }
  assert (EQ : extract_quoted (de_name d ++ sp :: txt (de_spelling d)) = (de_name d, Some (sp :: txt (de_spelling d)))).
  { destruct (word_item _ W) as [_ [_ Q]]. apply (Q [] (sp :: txt (de_spelling d))); [constructor | reflexivity]. }
  split; [reflexivity|]. split; [|split; [exact AK|split; [exact EQ|]]].
  - unfold desc_name. rewrite AK.
    assert (SN : forall s r, ~ In sp s -> fst (span (fun c => negb (Ascii.eqb c sp)) (s ++ sp :: r)) = s).
    { clear. induction s as [|c s IH]; intros r N; [reflexivity|]. cbn [app span].
      replace (Ascii.eqb c sp) with false by (symmetry; apply ascii_eqb_neq; intros ->; apply N; left; reflexivity). cbn [negb].
      specialize (IH r ltac:(intros I; apply N; right; exact I)). destruct (span _ (s ++ sp :: r)). cbn [fst] in *. congruence. }
    apply SN. intros I. apply W in I. destruct I as [I _]. discriminate.
  - unfold parse_desc. rewrite EQ.
    assert (TK : tokens (sp :: txt (de_spelling d)) = [txt (de_spelling d)]).
    { change (sp :: txt (de_spelling d)) with ([sp] ++ txt (de_spelling d)). rewrite <- (app_nil_r (txt (de_spelling d))) at 1.
      rewrite (tokens_item [sp] _ (txt (de_spelling d)) []); [reflexivity | apply word_item; exact KW | repeat constructor | exact I]. }
    rewrite TK. cbn [desc_type]. rewrite K2, K3. cbn [orb]. rewrite K1. cbn [bind fst snd desc_unit drop_dash].
    apply new_desc_ok. split; [apply W|]. split; [apply word_one_line; exact W | reflexivity].
Qed.
Lemma descriptions_described ind ds : forall acc rest, Forall (described_ok ind) ds ->
  NoDup (names_of acc ++ map de_name ds) ->
  descriptions acc (map (fun d => trim (description d)) ds ++ rest) = descriptions (acc ++ map found ds) rest.
Proof.
  induction ds as [|d ds IH]; intros acc rest F N.
  - cbn [map app]. rewrite app_nil_r. reflexivity.
  - inversion F as [|? ? H F2]; subst. cbn [map app descriptions].
    destruct (description_facts ind d H) as [E1 [_ [E2 [E3 E4]]]]. rewrite E1, E2.
    destruct (de_name d ++ sp :: txt (de_spelling d)) as [|x y] eqn:Z.
    { exfalso. apply app_eq_nil in Z. destruct Z as [_ Z]. discriminate. }
    rewrite E3. cbn [fst]. rewrite find_desc_none.
    + rewrite E4. cbn [bind]. rewrite IH; [rewrite <- app_assoc; reflexivity | exact F2|].
      unfold names_of in N |- *. rewrite map_app, <- app_assoc. exact N.
    + intros I. cbn [map] in N. apply NoDup_remove_2 in N. apply N. apply in_app_iff. left. exact I.
Qed.

Lemma NoDup_app_one {A} (l : list A) x : NoDup l -> ~ In x l -> NoDup (l ++ [x]).
Proof.
  intros N H. apply NoDup_rev in N. rewrite <- (rev_involutive (l ++ [x])). apply NoDup_rev. rewrite rev_app_distr. cbn [rev app].
  constructor; [intros I; apply H, in_rev, I | exact N].
Qed.
Lemma descriptions_twice ind ds : forall acc rest, Forall (described_ok ind) ds -> NoDup (names_of acc) ->
  ~ NoDup (names_of acc ++ map de_name ds) ->
  descriptions acc (map (fun d => trim (description d)) ds ++ rest) = Throw.
Proof.
  induction ds as [|d ds IH]; intros acc rest F NA N.
  - exfalso. apply N. cbn [map]. rewrite app_nil_r. exact NA.
  - inversion F as [|? ? H F2]; subst. cbn [map app descriptions].
    destruct (description_facts ind d H) as [E1 [_ [E2 [E3 E4]]]]. rewrite E1, E2.
    destruct (de_name d ++ sp :: txt (de_spelling d)) as [|x y] eqn:Z.
    { exfalso. apply app_eq_nil in Z. destruct Z as [_ Z]. discriminate. }
    rewrite E3. cbn [fst]. destruct (find_desc (de_name d) acc) as [q|] eqn:FD; [reflexivity|].
    rewrite E4. cbn [bind]. apply IH; [exact F2 | |].
    + unfold names_of. rewrite map_app. cbn [map]. apply NoDup_app_one; [exact NA|].
      intros I. clear -I FD. induction acc as [|c acc IH]; [destruct I|]. cbn [find_desc] in FD.
      destruct (text_eqb (cd_name c) (de_name d)) eqn:E; [discriminate|].
      destruct I as [I|I]; [cbn in I; rewrite I in E; rewrite text_eqb_refl in E; discriminate | apply IH; assumption].
    + intros M. apply N. unfold names_of in M |- *. rewrite map_app, <- app_assoc in M. exact M.
Qed.

(** ** The columns *)
Definition column_found (N : list text) (T : list ctype) (auto : list text) (descs : list coldesc) (k : nat) : coldesc :=
  let f := find_desc (nth k auto []) descs in
  mkDesc (nth k (chosen N auto) [])
    (match T with [] => match f with Some d => cd_type d | None => TString end | _ => nth k T TString end)
    (match f with Some d => cd_unit d | None => [] end) (match f with Some d => cd_desc d | None => [] end).
Lemma map_nth_seq {A} (l : list A) d : forall n, n <= length l -> map (fun k => nth k l d) (seq 0 n) = firstn n l.
Proof.
  induction l as [|x l IH]; intros n H.
  - cbn [length] in H. replace n with 0 by lia. reflexivity.
  - destruct n; [reflexivity|]. cbn [seq map nth firstn]. f_equal. rewrite <- seq_shift, map_map.
    cbn [length] in H. rewrite <- (IH n) by lia. apply map_ext. intros k. reflexivity.
Qed.
Lemma nth_error_some_nth {A} (l : list A) k d : k < length l -> nth_error l k = Some (nth k l d).
Proof. intros H. apply nth_error_nth'. exact H. Qed.
Lemma detect_columns ind N T lines n auto descs :
  count_columns ind lines = Ok n -> 0 < n -> as_many N n -> as_many T n ->
  auto_names (header ind lines) n = Ok auto -> n <= length auto ->
  descriptions [] (header ind lines) = Ok descs ->
  good_names (firstn n (chosen N auto)) ->
  detect_info ind N T lines = Ok (map (column_found N T auto descs) (seq 0 n)).
Proof.
  intros CN NZ AN AT AU LA DE [GN GD]. unfold detect_info. rewrite CN. cbn [bind].
  replace (negb (Nat.eqb (length N) 0) && negb (Nat.eqb (length N) n))%bool with false.
  2:{ destruct AN as [-> |<-]; [reflexivity|]. rewrite Nat.eqb_refl. rewrite andb_false_r. reflexivity. }
  replace (negb (Nat.eqb (length T) 0) && negb (Nat.eqb (length T) n))%bool with false.
  2:{ destruct AT as [-> |<-]; [reflexivity|]. rewrite Nat.eqb_refl. rewrite andb_false_r. reflexivity. }
  rewrite AU. cbn [bind]. rewrite DE. cbn [bind].
  assert (LC : n <= length (chosen N auto)) by (destruct AN as [-> |E]; [exact LA | destruct N; cbn [chosen]; [exact LA | lia]]).
  assert (MO : map_o (column_at N T auto descs) (seq 0 n) = Ok (map (column_found N T auto descs) (seq 0 n))).
  { apply map_o_ok. assert (G : forall l, (forall k, In k l -> k < n) -> Forall2 (fun x y => column_at N T auto descs x = Ok y) l (map (column_found N T auto descs) l)).
    { induction l as [|k l IH]; intros I; constructor; [|apply IH; intros q J; apply I; right; exact J].
      assert (KN : k < n) by (apply I; left; reflexivity). unfold column_at.
      rewrite (nth_error_some_nth auto k []) by lia. cbn [of_option bind].
      assert (NM : (match N with [] => Ok (nth k auto []) | _ => of_option (nth_error N k) end) = Ok (nth k (chosen N auto) [])).
      { destruct N as [|x N]; [reflexivity|]. cbn [chosen] in *. rewrite (nth_error_some_nth (x :: N) k []) by lia. reflexivity. }
      rewrite NM. cbn [bind].
      assert (TM : (match T with [] => Ok (match find_desc (nth k auto []) descs with Some d => cd_type d | None => TString end)
                     | _ => of_option (nth_error T k) end) =
                   Ok (match T with [] => match find_desc (nth k auto []) descs with Some d => cd_type d | None => TString end | _ => nth k T TString end)).
      { destruct T as [|x T]; [reflexivity|]. destruct AT as [AT|AT]; [discriminate|].
        rewrite (nth_error_some_nth (x :: T) k TString) by lia. reflexivity. }
      rewrite TM. cbn [bind]. unfold column_found.
      assert (GK : nth k (chosen N auto) [] <> [] /\ one_line (nth k (chosen N auto) [])).
      { rewrite Forall_forall in GN. apply GN. rewrite <- (map_nth_seq (chosen N auto) [] n LC).
        apply in_map_iff. exists k. split; [reflexivity|]. apply in_seq. lia. }
      destruct (find_desc (nth k auto []) descs) as [d|]; apply new_desc_ok; (split; [apply GK|]; split; [apply GK | reflexivity]). }
    apply G. intros k I. apply in_seq in I. lia. }
  rewrite MO. cbn [bind]. apply new_info_ok. split; [reflexivity|]. split.
  - destruct n; [lia|]. discriminate.
  - unfold names_of. rewrite map_map. cbn [column_found cd_name]. rewrite map_nth_seq by exact LC. exact GD.
Qed.
Lemma found_names N T auto descs n : n <= length (chosen N auto) ->
  map cd_name (map (column_found N T auto descs) (seq 0 n)) = firstn n (chosen N auto).
Proof. intros L. rewrite map_map. cbn [column_found cd_name]. apply map_nth_seq. exact L. Qed.
Lemma found_types_fixed N T auto descs n : T <> [] -> length T = n ->
  map cd_type (map (column_found N T auto descs) (seq 0 n)) = T.
Proof.
  intros NE L. rewrite map_map. cbn [column_found cd_type]. destruct T as [|x T]; [congruence|].
  rewrite map_nth_seq by lia. rewrite <- L. apply firstn_all.
Qed.

(** ** Readers *)
Lemma configured_reader ind file N T a : ind <> [] -> configured ind file N T a ->
  a = mkAr ind N T false None (lines_of file) /\ good_names N /\
  (N = [] \/ T = [] \/ length N = length T).
Proof.
  intros NI [a0 [a1 [O [F1 F2]]]]. unfold open_reader, ar_set_comment, new_areader in O.
  cbn [ar_started ar_names ar_types ar_info ar_lines] in O. destruct ind as [|c ind]; [congruence|]. injection O as <-.
  unfold ar_fix_names in F1. cbn [ar_ind ar_started ar_names ar_types ar_info ar_lines] in F1.
  destruct (forallb not_empty N) eqn:E1; [|discriminate]. destruct (existsb has_vertical N) eqn:E2; [discriminate|].
  destruct (no_duplicates [] N) eqn:E3; [|discriminate]. cbn [negb] in F1.
  destruct (sizes_differ N []) eqn:E4; [discriminate|]. injection F1 as <-.
  unfold ar_fix_types in F2. cbn [ar_ind ar_started ar_names ar_types ar_info ar_lines] in F2.
  destruct (sizes_differ N T) eqn:E5; [discriminate|]. injection F2 as <-. split; [reflexivity|]. split; [split|].
  - rewrite forallb_forall in E1. apply Forall_forall. intros s I. split; [specialize (E1 s I); destruct s; [discriminate | discriminate]|].
    apply has_vertical_false. destruct (has_vertical s) eqn:V; [|reflexivity]. exfalso.
    assert (existsb has_vertical N = true) by (apply existsb_exists; exists s; auto). congruence.
  - clear -E3. assert (G : forall l seen, no_duplicates seen l = true -> NoDup l /\ forall x, In x l -> ~ In x seen).
    { induction l as [|x l IH]; intros seen H; [split; [constructor | intros ? []]|]. cbn [no_duplicates] in H.
      apply andb_true_iff in H. destruct H as [H1 H2]. apply negb_true_iff in H1. destruct (IH _ H2) as [D F].
      split.
      - constructor; [|exact D]. intros I. apply (F x I). left. reflexivity.
      - intros y [<-|I]; [apply existsb_text_eqb_false; exact H1|]. intros J. apply (F y I). right. exact J. }
    apply (G N [] E3).
  - unfold sizes_differ in E5. destruct N as [|x N]; [auto|]. destruct T as [|y T]; [auto|]. cbn [length Nat.eqb negb andb] in E5.
    apply negb_false_iff, Nat.eqb_eq in E5. right. right. cbn [length]. lia.
Qed.
