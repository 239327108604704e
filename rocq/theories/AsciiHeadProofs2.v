(** Proofs about the columns of ASCII files: whole files. *)
From Coq Require Import ZArith List Arith Ascii String Bool Lia FinFun.
From Verif Require Import Common TextModel TextProofs DblModel TableModel TableSpec TableProofs AsciiModel AsciiSpec AsciiProofs AsciiProofs2 AsciiProofs3 AsciiHeadModel AsciiHeadSpec AsciiCrashProofs AsciiHeadProofs.
Import ListNotations.
Local Notation length := List.length.

Lemma default_name_inj a b : default_name a = default_name b -> a = b.
Proof.
  unfold default_name. intros H. apply app_inv_head in H. apply (f_equal signed_text) in H.
  rewrite !signed_int_text in H. injection H as H. lia.
Qed.
Lemma default_names_nodup m n : NoDup (default_names m n).
Proof.
  unfold default_names. apply Injective_map_NoDup; [intros a b; apply default_name_inj | apply seq_NoDup].
Qed.
Lemma default_name_good k : default_name k <> [] /\ one_line (default_name k).
Proof.
  split; [discriminate|]. unfold default_name.
  assert (W : word (txt "col" ++ int_text (Z.of_nat k))).
  { split; [discriminate|]. intros c I. apply in_app_iff in I. destruct I as [I|I].
    - repeat (destruct I as [<-|I]; [split; [reflexivity | discriminate]|]). destruct I.
    - destruct (int_text_plain (Z.of_nat k)) as [_ P]. rewrite Forall_forall in P. destruct (P c I) as [A [B _]]. auto. }
  apply word_one_line. exact W.
Qed.
Lemma default_names_good m n : Forall (fun s => s <> [] /\ one_line s) (default_names m n).
Proof. apply Forall_forall. intros x I. apply in_map_iff in I. destruct I as [k [<- _]]. apply default_name_good. Qed.
Lemma spaced_words s ws : spaced s ws -> Forall word ws.
Proof. intros H. induction H; constructor; assumption. Qed.
Lemma words_good ws : Forall word ws -> Forall (fun s => s <> [] /\ one_line s) ws.
Proof. intros F. eapply Forall_impl; [|exact F]. intros w W. split; [apply W | apply word_one_line; exact W]. Qed.
Lemma good_firstn n l : good_names l -> good_names (firstn n l).
Proof.
  intros [A B]. split; [apply Forall_firstn; exact A|]. rewrite <- (firstn_skipn n l) in B.
  clear A. induction (firstn n l) as [|x q IH]; [constructor|]. cbn [app] in B. inversion B as [|? ? B1 B2]; subst. constructor; [|apply IH; exact B2].
  intros I. apply B1. apply in_app_iff. left. exact I.
Qed.
Lemma described_name ind d : described_ok ind d -> word (de_name d).
Proof. intros [W _]. exact W. Qed.
Lemma description_avoids ind d : good_indicator ind -> described_ok ind d -> avoids ind (description d).
Proof.
  intros GI [_ [_ [A B]]]. unfold description. rewrite !avoids_app. split; [|split; [exact A|split; [|exact B]]].
  - apply (avoids_layout ind GI). intros c I. repeat (destruct I as [<-|I]; [vm_compute; tauto|]). destruct I.
  - apply (avoids_sp ind GI).
Qed.
Lemma word_no_newline w : word w -> ~ In nl w.
Proof. intros [_ H] I. apply H in I. destruct I as [I _]. discriminate. Qed.
Lemma description_no_nl ind d : described_ok ind d -> ~ In nl (description d).
Proof.
  intros [W [K _]] I. destruct (spelling_facts _ _ K) as [KW _]. unfold description in I. rewrite !in_app_iff in I.
  destruct I as [I|[I|[I|I]]].
  - repeat (destruct I as [I|I]; [discriminate|]). destruct I.
  - apply (word_no_newline _ W I).
  - destruct I as [I|[]]. discriminate.
  - apply (word_no_newline _ KW I).
Qed.

(** A reader of a file with these comments, when their names and descriptions are known. *)
Lemma read_columns ind comments line rest ws N T a auto descs :
  good_indicator ind -> Forall (fun h => avoids ind h /\ ~ In nl h) comments -> first_line ind line ws ->
  as_many N (length ws) -> as_many T (length ws) ->
  configured ind (ascii_file ind comments line rest) N T a ->
  auto_names (map trim comments) (length ws) = Ok auto -> length ws <= length auto ->
  descriptions [] (map trim comments) = Ok descs ->
  good_names auto ->
  exists a', read_info a = (Ok (map (column_found N T auto descs) (seq 0 (length ws))), a').
Proof.
  intros GI FC FL AN AT CF AU LA DE GA. pose proof (ind_nonempty ind GI) as NI.
  destruct (configured_reader _ _ _ _ _ NI CF) as [-> [GN _]].
  assert (L : lines_of (ascii_file ind comments line rest) = map (fun h => ind ++ h) comments ++ line :: lines_of rest).
  { apply file_lines; [apply (ind_no_nl ind GI) | | apply FL]. eapply Forall_impl; [|exact FC]. intros h [_ H]. exact H. }
  unfold read_info. cbn [ar_info ar_ind ar_names ar_types ar_lines]. rewrite L.
  assert (HD : header ind (map (fun h => ind ++ h) comments ++ line :: lines_of rest) = map trim comments).
  { apply (file_header ind comments line ws); [exact GI | exact FL|]. eapply Forall_impl; [|exact FC]. intros h [H _]. exact H. }
  rewrite (detect_columns ind N T _ (length ws) auto descs).
  - eexists. reflexivity.
  - apply file_count; assumption.
  - destruct FL as [_ [NE _]]. destruct ws; [congruence | cbn; lia].
  - exact AN.
  - exact AT.
  - rewrite HD. exact AU.
  - exact LA.
  - rewrite HD. exact DE.
  - apply good_firstn. destruct N; [exact GA | exact GN].
Qed.

Lemma found_plain N T auto descs n : Forall (fun d => cd_unit d = [] /\ cd_desc d = []) descs ->
  Forall (fun d => cd_unit d = [] /\ cd_desc d = []) (map (column_found N T auto descs) (seq 0 n)).
Proof.
  intros F. apply Forall_forall. intros d I. apply in_map_iff in I. destruct I as [k [<- _]]. unfold column_found. cbn [cd_unit cd_desc].
  destruct (find_desc (nth k auto []) descs) as [d|] eqn:E; [|auto].
  rewrite Forall_forall in F. apply F. clear F. revert E. induction descs as [|x l IH]; cbn [find_desc]; [discriminate|].
  destruct (text_eqb _ _); [intros H; injection H as ->; left; reflexivity | intros H; right; apply IH; exact H].
Qed.
Lemma found_ok ds : Forall (fun d => cd_unit d = [] /\ cd_desc d = []) (map found ds).
Proof. apply Forall_forall. intros d I. apply in_map_iff in I. destruct I as [x [<- _]]. auto. Qed.
Lemma names_found ds : names_of (map found ds) = map de_name ds.
Proof. unfold names_of. rewrite map_map. reflexivity. Qed.
Lemma find_described ds d : NoDup (map de_name ds) -> In d ds -> find_desc (de_name d) (map found ds) = Some (found d).
Proof.
  intros N I. apply In_nth_error in I. destruct I as [k I].
  apply (find_desc_nth (map found ds) k (found d)); [rewrite names_found; exact N | rewrite nth_error_map, I; reflexivity].
Qed.

Lemma plain_not_desc ind hs : Forall (plain_comment ind) hs -> Forall (fun h => is_desc h = false) (map trim hs).
Proof. intros F. induction F as [|h hs [_ [_ H]] F IH]; constructor; assumption. Qed.
Lemma filter_none {A} (f : A -> bool) l : Forall (fun x => f x = false) l -> filter f l = [].
Proof. intros F. induction F as [|x l H F IH]; [reflexivity|]. cbn. rewrite H. exact IH. Qed.

Lemma names_line_columns ind hs ds names_line line rest ns ws names types a :
  good_indicator ind -> Forall (plain_comment ind) hs -> Forall (described_ok ind) ds -> NoDup (map de_name ds) ->
  plain_comment ind names_line -> spaced names_line ns -> NoDup ns -> length ns = length ws ->
  first_line ind line ws -> as_many names (length ws) -> as_many types (length ws) ->
  configured ind (ascii_file ind (hs ++ map description ds ++ [names_line]) line rest) names types a ->
  exists a', read_info a = (Ok (map (column_found names types ns (map found ds)) (seq 0 (length ws))), a').
Proof.
  intros GI PH DO ND PN SN DN LN FL AN AT CF.
  assert (NN : ns <> []) by (destruct FL as [_ [NE _]]; destruct ns; [destruct ws; [congruence | discriminate] | discriminate]).
  eapply read_columns; try eassumption.
  - rewrite !Forall_app. split; [|split].
    + eapply Forall_impl; [|exact PH]. intros h [A [B _]]. auto.
    + apply Forall_forall. intros x I. apply in_map_iff in I. destruct I as [d [<- I]]. rewrite Forall_forall in DO.
      split; [apply description_avoids; auto | apply (description_no_nl ind); auto].
    + constructor; [|constructor]. destruct PN as [A [B _]]. auto.
  - rewrite app_assoc, map_app. cbn [map]. rewrite <- LN. apply auto_last; [|apply (spaced_trim_nonempty _ ns SN NN) | exact NN | exact DN].
    apply spaced_tokens, spaced_trim, SN.
  - lia.
  - rewrite !map_app. rewrite descriptions_skip by (apply (plain_not_desc ind); exact PH). rewrite map_map.
    rewrite (descriptions_described ind) by assumption. cbn [app map descriptions].
    destruct PN as [_ [_ PN]]. unfold is_desc. rewrite PN. reflexivity.
  - split; [apply words_good, (spaced_words names_line), SN | exact DN].
Qed.

Lemma last_snoc_nonempty hs x : x <> [] -> last (filter not_empty (hs ++ [x])) [] = x.
Proof. intros N. rewrite filter_app. cbn [filter]. destruct x; [congruence|]. cbn [not_empty]. apply last_last. Qed.

Lemma described_columns ind hs ds line rest ws names types a :
  good_indicator ind -> Forall (plain_comment ind) hs -> Forall (described_ok ind) ds -> ds <> [] ->
  NoDup (map de_name ds ++ default_names (length ds) (length ws)) ->
  first_line ind line ws -> length ws <> 3 -> as_many names (length ws) -> as_many types (length ws) ->
  configured ind (ascii_file ind (hs ++ map description ds) line rest) names types a ->
  exists a', read_info a = (Ok (map (column_found names types (map de_name ds ++ default_names (length ds) (length ws)) (map found ds)) (seq 0 (length ws))), a').
Proof.
  intros GI PH DO NE ND FL N3 AN AT CF.
  assert (FD : filter is_desc (map trim (hs ++ map description ds)) = map (fun d => trim (description d)) ds).
  { rewrite map_app, filter_app, filter_none by (apply (plain_not_desc ind); exact PH). cbn [app]. rewrite map_map.
    clear -DO. induction DO as [|d ds H F IH]; [reflexivity|]. cbn [map filter].
    destruct (description_facts ind d H) as [-> _]. rewrite IH. reflexivity. }
  assert (FN : map desc_name (filter is_desc (map trim (hs ++ map description ds))) = map de_name ds).
  { rewrite FD. clear -DO. induction DO as [|d ds H F IH]; [reflexivity|]. cbn [map].
    destruct (description_facts ind d H) as [_ [-> _]]. rewrite IH. reflexivity. }
  eapply read_columns; try eassumption.
  - apply Forall_app. split.
    + eapply Forall_impl; [|exact PH]. intros h [A [B _]]. auto.
    + apply Forall_forall. intros x I. apply in_map_iff in I. destruct I as [d [<- I]]. rewrite Forall_forall in DO.
      split; [apply description_avoids; auto | apply (description_no_nl ind); auto].
  - rewrite auto_other.
    + rewrite FN, map_length. reflexivity.
    + destruct (exists_last NE) as [ds' [d E]]. rewrite E. rewrite !map_app. cbn [map]. rewrite app_assoc.
      assert (DOK : described_ok ind d) by (rewrite Forall_forall in DO; apply DO; rewrite E; apply in_app_iff; right; left; reflexivity).
      rewrite last_snoc_nonempty.
      * rewrite (description_trim ind d DOK). pose proof DOK as [W [K _]]. destruct (spelling_facts _ _ K) as [KW _].
        assert (TK : tokens (txt "Column:" ++ sp :: de_name d ++ sp :: txt (de_spelling d)) = [txt "Column:"; de_name d; txt (de_spelling d)]).
        { apply spaced_tokens.
          assert (B0 : white []) by (intros ? []). assert (B1 : white [sp]) by (intros c [<-|[]]; apply white_is_space; reflexivity).
          change (txt "Column:" ++ sp :: de_name d ++ sp :: txt (de_spelling d))
            with ([] ++ txt "Column:" ++ (sp :: de_name d ++ sp :: txt (de_spelling d))).
          constructor; [exact B0 | split; [discriminate | intros c I; repeat (destruct I as [<-|I]; [split; [reflexivity | discriminate]|]); destruct I]
            | intros c r E2; injection E2 as <- _; apply white_is_space; reflexivity|].
          change (sp :: de_name d ++ sp :: txt (de_spelling d)) with ([sp] ++ de_name d ++ sp :: txt (de_spelling d)).
          constructor; [exact B1 | exact W | intros c r E2; injection E2 as <- _; apply white_is_space; reflexivity|].
          replace (sp :: txt (de_spelling d)) with ([sp] ++ txt (de_spelling d) ++ []) by (rewrite app_nil_r; reflexivity).
          constructor; [exact B1 | exact KW | intros c r E2; discriminate | constructor; exact B0]. }
        rewrite TK. cbn [length]. lia.
      * rewrite (description_trim ind d DOK). discriminate.
    + rewrite FN, map_length. exact ND.
  - rewrite app_length, map_length. unfold default_names. rewrite map_length, seq_length. lia.
  - rewrite map_app. rewrite descriptions_skip by (apply (plain_not_desc ind); exact PH). rewrite map_map.
    rewrite <- (app_nil_r (map (fun d => trim (description d)) ds)). rewrite (descriptions_described ind).
    + reflexivity.
    + exact DO.
    + cbn [names_of map app]. clear -ND. induction (map de_name ds) as [|x l IH]; [constructor|]. cbn [app] in ND. inversion ND as [|? ? A B]; subst.
      constructor; [intros I; apply A; apply in_app_iff; left; exact I | apply IH; exact B].
  - split; [|exact ND]. apply Forall_app. split; [|apply default_names_good].
    apply words_good. apply Forall_forall. intros x I. apply in_map_iff in I. destruct I as [d [<- I]]. rewrite Forall_forall in DO. apply (DO d I).
Qed.

Lemma unnamed_columns ind hs line rest ws names types a :
  good_indicator ind -> Forall (plain_comment ind) hs ->
  (forall hs' h, hs = hs' ++ [h] -> exists lw, spaced h lw /\ lw <> [] /\ length lw <> length ws) ->
  first_line ind line ws -> as_many names (length ws) -> as_many types (length ws) ->
  configured ind (ascii_file ind hs line rest) names types a ->
  exists a', read_info a = (Ok (map (column_found names types (default_names 0 (length ws)) []) (seq 0 (length ws))), a').
Proof.
  intros GI PH LA FL AN AT CF.
  assert (FD : filter is_desc (map trim hs) = []) by (apply filter_none, (plain_not_desc ind), PH).
  eapply read_columns; try eassumption.
  - eapply Forall_impl; [|exact PH]. intros h [A [B _]]. auto.
  - rewrite auto_other.
    + rewrite FD. reflexivity.
    + destruct hs as [|h0 hs0] eqn:E.
      * cbn. destruct FL as [_ [NE _]]. destruct ws; [congruence | discriminate].
      * destruct (@exists_last _ (h0 :: hs0)) as [hs' [h E2]]; [discriminate|]. rewrite E2. destruct (LA hs' h E2) as [lw [S1 [S2 S3]]].
        rewrite map_app. cbn [map]. rewrite last_snoc_nonempty by (apply (spaced_trim_nonempty _ _ S1 S2)).
        rewrite (spaced_tokens _ _ (spaced_trim _ _ S1)). exact S3.
    + rewrite FD. apply default_names_nodup.
  - unfold default_names. rewrite map_length, seq_length. lia.
  - rewrite <- (app_nil_r (map trim hs)). rewrite descriptions_skip by (apply (plain_not_desc ind); exact PH). reflexivity.
  - split; [apply default_names_good | apply default_names_nodup].
Qed.

(** ** Fixed names and types *)
Lemma detect_obeys ind N T lines i : detect_info ind N T lines = Ok i ->
  (N <> [] -> map cd_name i = N) /\ (T <> [] -> map cd_type i = T) /\ NoDup (map cd_name i) /\
  Forall (fun d => cd_name d <> [] /\ one_line (cd_name d)) i.
Proof.
  unfold detect_info. destruct (count_columns ind lines) as [n| | |]; try discriminate. cbn [bind].
  destruct (negb (Nat.eqb (length N) 0) && negb (Nat.eqb (length N) n))%bool eqn:E1; [discriminate|].
  destruct (negb (Nat.eqb (length T) 0) && negb (Nat.eqb (length T) n))%bool eqn:E2; [discriminate|].
  destruct (auto_names _ _) as [auto| | |]; try discriminate. cbn [bind].
  destruct (descriptions _ _) as [descs| | |]; try discriminate. cbn [bind].
  destruct (map_o _ _) as [cols| | |] eqn:M; try discriminate. cbn [bind]. intros H. apply new_info_ok in H. destruct H as [-> [_ ND]].
  apply map_o_ok in M.
  assert (K : forall k c, column_at N T auto descs k = Ok c ->
     (N <> [] -> nth_error N k = Some (cd_name c)) /\ (T <> [] -> nth_error T k = Some (cd_type c)) /\ cd_name c <> [] /\ one_line (cd_name c)).
  { intros k c H. unfold column_at in H. destruct (nth_error auto k) as [an|]; [|discriminate]. cbn [of_option bind] in H.
    destruct (match N with [] => Ok an | _ => of_option (nth_error N k) end) as [nm| | |] eqn:EN; try discriminate. cbn [bind] in H.
    match type of H with bind ?o _ = _ => destruct o as [ty| | |] eqn:ET; try discriminate end. cbn [bind] in H.
    assert (C : cd_name c = nm /\ cd_type c = ty /\ nm <> [] /\ one_line nm).
    { destruct (find_desc an descs); apply new_desc_ok in H; destruct H as [H1 [H2 ->]]; auto. }
    destruct C as [C1 [C2 [C3 C4]]]. rewrite C1, C2. split; [|split; [|auto]].
    - intros NE. destruct N as [|x N]; [congruence|]. destruct (nth_error (x :: N) k); [injection EN as ->; reflexivity | discriminate].
    - intros NE. destruct T as [|x T]; [congruence|]. destruct (nth_error (x :: T) k); [injection ET as ->; reflexivity | discriminate]. }
  assert (LEN : length cols = n) by (rewrite <- (Forall2_length' _ _ _ M); apply seq_length).
  assert (G : forall A (l : list A) (g : coldesc -> A), l <> [] -> length l = n -> (forall k c, column_at N T auto descs k = Ok c -> nth_error l k = Some (g c)) -> map g cols = l).
  { intros A l g NE LN HK. clear -M LN HK LEN.
    assert (Q : forall ks cs, Forall2 (fun x y => column_at N T auto descs x = Ok y) ks cs -> Forall2 (fun k c => nth_error l k = Some (g c)) ks cs).
    { intros ks cs F. induction F; constructor; auto. }
    apply Q in M. clear Q HK.
    assert (Z : forall cs pre l, Forall2 (fun k c => nth_error l k = Some (g c)) (seq pre (length cs)) cs -> length l = pre + length cs -> skipn pre l = map g cs).
    { clear. induction cs as [|c cs IH]; intros pre l F L.
      - rewrite skipn_all2 by (cbn in L; lia). reflexivity.
      - cbn [length seq] in F. inversion F as [|? ? ? ? H F2]; subst. specialize (IH (S pre) l F2 ltac:(cbn in L; lia)). cbn [map].
        clear -H IH. revert pre H IH. induction l as [|x l IHl]; intros pre H IH; [destruct pre; discriminate|].
        destruct pre; [cbn in *; injection H as ->; f_equal; exact IH | cbn [skipn nth_error] in *; apply IHl; assumption]. }
    rewrite <- LEN in M, LN. symmetry. apply (Z cols 0 l M LN). }
  split; [|split; [|split; [exact ND|]]].
  - intros NE. apply G; [exact NE | | intros k c H; apply (K k c H); exact NE].
    destruct N as [|x N]; [congruence|]. apply andb_false_iff in E1. destruct E1 as [E1|E1]; [discriminate|]. apply negb_false_iff, Nat.eqb_eq in E1. exact E1.
  - intros NE. apply G; [exact NE | | intros k c H; apply (K k c H); exact NE].
    destruct T as [|x T]; [congruence|]. apply andb_false_iff in E2. destruct E2 as [E2|E2]; [discriminate|]. apply negb_false_iff, Nat.eqb_eq in E2. exact E2.
  - clear -M K. induction M as [|k c ks cs H M IH]; constructor; [apply (K k c H) | exact IH].
Qed.
Lemma read_info_obeys a i a' : ar_info a = None -> read_info a = (Ok i, a') -> detect_info (ar_ind a) (ar_names a) (ar_types a) (ar_lines a) = Ok i.
Proof. intros E H. unfold read_info in H. rewrite E in H. destruct (detect_info _ _ _ _); try discriminate. injection H as -> _. reflexivity. Qed.
Section Floats.
Variables pf pd : text -> option dbl.
Lemma read_table_info a n t a' : ar_read pf pd a n = (Ok t, a') -> exists a1, read_info a = (Ok (t_info t), a1).
Proof.
  unfold ar_read. destruct (read_info a) as [[i| | |] a1]; try (intros H; discriminate). intros H.
  destruct (read_loop pf pd (ar_ind a1) i n (ar_lines a1)) as [o rest] eqn:R. injection H as H _.
  destruct o as [ws| | |]; try discriminate. cbn [bind] in H. destruct ws as [|w ws]; [discriminate|].
  exists a1. f_equal. f_equal. apply new_table_ok in H. destruct H as [r0 [q [E [-> _]]]]. injection E as <- <-. cbn [t_info].
  assert (G : forall lines m rows rest, read_loop pf pd (ar_ind a1) i m lines = (Ok rows, rest) -> Forall (fun r => r_info r = i) rows).
  { clear. induction lines as [|l lines IH]; intros m rows rest H; cbn [read_loop] in H.
    - injection H as <- <-. constructor.
    - destruct (Z.eqb m 0); [injection H as <- <-; constructor|]. destruct (clean (ar_ind a1) l) as [|c cl]; [apply (IH m rows rest H)|].
      destruct (read_line_outcomes pf pd i (c :: cl)) as [[v E]|E]; rewrite E in H; [|discriminate].
      destruct (read_loop pf pd (ar_ind a1) i (m - 1) lines) as [o r] eqn:Q. destruct o as [ws| | |]; try discriminate. cbn [bind] in H. injection H as <- <-.
      constructor; [reflexivity | apply (IH _ _ _ Q)]. }
  apply G in R. inversion R; subst. reflexivity.
Qed.
End Floats.
Lemma good_names_checks N : good_names N <->
  forallb not_empty N = true /\ existsb has_vertical N = false /\ no_duplicates [] N = true.
Proof.
  split.
  - intros [A B]. split; [|split].
    + apply forallb_forall. intros x I. rewrite Forall_forall in A. destruct (A x I) as [H _]. destruct x; [congruence | reflexivity].
    + destruct (existsb has_vertical N) eqn:E; [|reflexivity]. apply existsb_exists in E. destruct E as [x [I V]].
      rewrite Forall_forall in A. destruct (A x I) as [_ H]. apply has_vertical_false in H. congruence.
    + apply no_duplicates_ok; [exact B | intros ? _ []].
  - intros [E1 [E2 E3]]. split.
    + rewrite forallb_forall in E1. apply Forall_forall. intros s I. split; [specialize (E1 s I); destruct s; discriminate|].
      apply has_vertical_false. destruct (has_vertical s) eqn:V; [|reflexivity]. exfalso.
      assert (existsb has_vertical N = true) by (apply existsb_exists; exists s; auto). congruence.
    + clear -E3. assert (G : forall l seen, no_duplicates seen l = true -> NoDup l /\ forall x, In x l -> ~ In x seen).
      { induction l as [|x l IH]; intros seen H; [split; [constructor | intros ? []]|]. cbn [no_duplicates] in H.
        apply andb_true_iff in H. destruct H as [H1 H2]. apply negb_true_iff in H1. destruct (IH _ H2) as [D F].
        split.
        - constructor; [|exact D]. intros I. apply (F x I). left. reflexivity.
        - intros y [<-|I]; [apply existsb_text_eqb_false; exact H1|]. intros J. apply (F y I). right. exact J. }
      apply (G N [] E3).
Qed.
Lemma sizes_differ_false {A B} (x : list A) (y : list B) : sizes_differ x y = false <-> x = [] \/ y = [] \/ length x = length y.
Proof.
  unfold sizes_differ. destruct x as [|a x]; [cbn; tauto|]. destruct y as [|b y]; [cbn; tauto|].
  cbn [length Nat.eqb negb andb]. rewrite negb_false_iff, Nat.eqb_eq. split; [intros ->; auto | intros [H|[H|H]]; [discriminate | discriminate | lia]].
Qed.

(** ** Spellings *)
Lemma all_digits_decimal s : forall acc, (all_digits acc s = None /\ forall v, ~ decimal s v) \/
  exists v, decimal s v /\ all_digits acc s = Some (acc * 10 ^ Z.of_nat (length s) + v)%Z.
Proof.
  induction s as [|c s IH] using rev_ind; intros acc.
  - right. exists 0%Z. split; [constructor|]. cbn. f_equal. lia.
  - rewrite all_digits_app. destruct (IH acc) as [[E N]|[v [D E]]]; rewrite E.
    + left. split; [reflexivity|]. intros v H. inversion H as [|ds w x d D Nth Eq].
      * destruct s; discriminate.
      * apply app_inj_tail in Eq. destruct Eq as [-> _]. apply (N w D).
    + cbn [all_digits]. destruct (digit_val c) as [d|] eqn:V.
      * destruct (digit_val_some c d V) as (n & -> & Nth). right. exists (10 * v + Z.of_nat n)%Z. split; [constructor; assumption|].
        f_equal. rewrite app_length. cbn [length]. rewrite Nat2Z.inj_add, Z.pow_add_r by lia. change (10 ^ Z.of_nat 1)%Z with 10%Z. lia.
      * left. split; [reflexivity|]. intros w H. inversion H as [|ds w' x d D2 Nth Eq].
        -- destruct s; discriminate.
        -- apply app_inj_tail in Eq. destruct Eq as [_ ->]. apply digit_val_nth in Nth. congruence.
Qed.
Lemma unsigned_decimal s v : unsigned_text s = Some v <-> s <> [] /\ decimal s v.
Proof.
  unfold unsigned_text. destruct s as [|c s]; [split; [discriminate | intros [H _]; congruence]|].
  destruct (all_digits_decimal (c :: s) 0) as [[E N]|[w [D E]]]; rewrite E.
  - split; [discriminate | intros [_ H]; exfalso; apply (N v H)].
  - split.
    + intros H. injection H as <-. split; [discriminate|]. replace (0 * 10 ^ Z.of_nat (length (c :: s)) + w)%Z with w by lia. exact D.
    + intros [_ H]. f_equal. destruct (all_digits_decimal (c :: s) 0) as [[_ N]|_]; [exfalso; apply (N v H)|].
      assert (U : forall t a b, decimal t a -> decimal t b -> a = b).
      { clear. intros t a b H. revert b. induction H as [|ds x c d H IH N]; intros b K.
        - inversion K as [|ds x c d ? ? Eq]; [reflexivity | destruct ds; discriminate].
        - inversion K as [|ds' x' c' d' H' N' Eq]; [destruct ds; discriminate|]. apply app_inj_tail in Eq. destruct Eq as [-> ->].
          apply digit_val_nth in N, N'. rewrite N in N'. injection N' as N'. rewrite (IH _ H'). lia. }
      rewrite (U _ _ _ H D). lia.
Qed.
Lemma signed_integer s v : signed_text s = Some v <-> is_integer s v.
Proof.
  unfold signed_text, is_integer. destruct s as [|c r].
  - split; [discriminate|]. intros (sign & ds & w & E & N & _). symmetry in E. apply app_eq_nil in E. destruct E; congruence.
  - assert (HD : forall ds w x q, decimal ds w -> ds = x :: q -> digit_val x <> None) by (intros ds w x q D E; destruct (decimal_head ds w x q D E) as [d ->]; discriminate).
    destruct (Ascii.eqb c "-") eqn:M; [apply Ascii.eqb_eq in M; subst c|destruct (Ascii.eqb c "+") eqn:P; [apply Ascii.eqb_eq in P; subst c|]].
    + split.
      * intros H. destruct (unsigned_text r) as [w|] eqn:U; [|discriminate]. injection H as <-. apply unsigned_decimal in U. destruct U as [U1 U2].
        exists (txt "-"), r, w. split; [reflexivity|]. split; [exact U1|]. split; [exact U2|]. right. auto.
      * intros (sign & ds & w & E & N & D & [[[->| ->] ->]|[-> ->]]).
        -- exfalso. cbn in E. apply (HD ds w "-"%char r D (eq_sym E)). reflexivity.
        -- discriminate.
        -- injection E as ->. rewrite (proj2 (unsigned_decimal ds w)) by auto. reflexivity.
    + split.
      * intros U. apply unsigned_decimal in U. destruct U as [U1 U2].
        exists (txt "+"), r, v. split; [reflexivity|]. split; [exact U1|]. split; [exact U2|]. left. auto.
      * intros (sign & ds & w & E & N & D & [[[->| ->] ->]|[-> ->]]).
        -- exfalso. cbn in E. apply (HD ds w "+"%char r D (eq_sym E)). reflexivity.
        -- injection E as ->. apply unsigned_decimal. auto.
        -- discriminate.
    + split.
      * intros U. apply unsigned_decimal in U. destruct U as [U1 U2].
        exists [], (c :: r), v. split; [reflexivity|]. split; [exact U1|]. split; [exact U2|]. left. auto.
      * intros (sign & ds & w & E & N & D & [[[->| ->] ->]|[-> ->]]).
        -- cbn in E. subst ds. apply unsigned_decimal. auto.
        -- injection E as -> _. discriminate.
        -- injection E as -> _. discriminate.
Qed.
Lemma no_comma p : ~ In ","%char p -> Forall (fun c => Ascii.eqb c "," = false) p.
Proof. intros H. apply Forall_forall. intros c I. apply ascii_eqb_neq. intros ->. contradiction. Qed.
Lemma comma_list_split s : comma_list s (split_on (fun c => Ascii.eqb c ",") s).
Proof.
  assert (G : forall ps s, split_on (fun c => Ascii.eqb c ",") s = ps -> comma_list s ps); [|apply G; reflexivity].
  clear. intros ps s. revert ps. induction s as [|c s IH]; intros ps E.
  - cbn in E. subst ps. constructor. intros [].
  - cbn [split_on] in E. destruct (Ascii.eqb c ",") eqn:C.
    + apply Ascii.eqb_eq in C. subst c ps. change (","%char :: s) with ([] ++ ","%char :: s). constructor; [intros []|]. apply IH. reflexivity.
    + assert (C' : c <> ","%char) by (intros ->; discriminate).
      specialize (IH _ eq_refl). destruct (split_on (fun c => Ascii.eqb c ",") s) as [|p q] eqn:Q; [exfalso; apply (split_nonnil _ _ Q)|].
      subst ps. inversion IH as [x N E1 E2|x y z N K E1 E2]; subst.
      * constructor. intros [H|H]; [apply C'; exact H | apply N; exact H].
      * change (c :: p ++ ","%char :: y) with ((c :: p) ++ ","%char :: y). constructor; [|exact K].
        intros [H|H]; [apply C'; exact H | apply N; exact H].
Qed.
Lemma comma_list_unique s ps : comma_list s ps -> split_on (fun c => Ascii.eqb c ",") s = ps.
Proof.
  intros H. induction H as [p N|p s ps N H IH].
  - apply split_no_sep, no_comma, N.
  - rewrite split_app by reflexivity. rewrite IH, split_no_sep by (apply no_comma; exact N). reflexivity.
Qed.
Lemma comma_tokens_given s l : comma_tokens s = l <-> exists ps, comma_list s ps /\ l = given ps.
Proof.
  assert (E : comma_tokens s = given (split_on (fun c => Ascii.eqb c ",") s)) by reflexivity.
  rewrite E. split.
  - intros <-. eexists. split; [apply comma_list_split | reflexivity].
  - intros [ps [H ->]]. rewrite (comma_list_unique _ _ H). reflexivity.
Qed.
Lemma read_vector_list {A} (f : text -> outcome A) s l :
  read_vector f s = Ok l <-> exists ps, comma_list s ps /\ Forall2 (fun p v => f p = Ok v) (given ps) l.
Proof.
  unfold read_vector. rewrite map_o_ok. split.
  - intros F. destruct (proj1 (comma_tokens_given s _) eq_refl) as [ps [H E]]. exists ps. rewrite <- E. auto.
  - intros [ps [H F]]. rewrite (proj2 (comma_tokens_given s (given ps))); [exact F|]. eauto.
Qed.
Lemma bind_ok {A B} (o : outcome A) (f : A -> outcome B) b : bind o f = Ok b <-> exists a, o = Ok a /\ f a = Ok b.
Proof. destruct o; cbn; split; try discriminate; try (intros [? [H _]]; discriminate); [eauto | intros [a0 [H K]]; injection H as ->; exact K]. Qed.
Lemma lexical_int_ok lo hi s v : lexical_int lo hi s = Ok v <-> is_integer s v /\ (lo <= v <= hi)%Z.
Proof.
  unfold lexical_int. rewrite <- signed_integer. destruct (signed_text s) as [z|]; [|split; [discriminate | intros [H _]; discriminate]].
  destruct (Z.leb lo z && Z.leb z hi)%bool eqn:E.
  - apply andb_true_iff in E. destruct E as [E1 E2]. apply Z.leb_le in E1, E2. split; [intros H; injection H as <-; auto | intros [H _]; injection H as ->; reflexivity].
  - split; [discriminate|]. intros [H [K1 K2]]. injection H as ->. apply Z.leb_le in K1, K2. rewrite K1, K2 in E. discriminate.
Qed.
Lemma z_product_lengths sh : z_product sh = lengths_product sh.
Proof.
  unfold z_product. assert (G : forall l a, fold_left Z.mul l a = (a * lengths_product l)%Z); [|rewrite G; lia].
  induction l as [|x l IH]; intros a; cbn [fold_left lengths_product]; [lia|]. rewrite IH. lia.
Qed.
Lemma find_char_split c s k : find_char c s = Some k -> exists a b, s = a ++ c :: b /\ ~ In c a /\ length a = k.
Proof.
  revert k. induction s as [|x s IH]; intros k H; cbn [find_char] in H; [discriminate|].
  destruct (Ascii.eqb x c) eqn:E.
  - apply Ascii.eqb_eq in E. injection H as <-. subst x. exists [], s. auto.
  - destruct (find_char c s) as [j|]; [|discriminate]. injection H as <-. destruct (IH j eq_refl) as [a [b [-> [N L]]]].
    exists (x :: a), b. split; [reflexivity|]. split; [|cbn; lia]. intros [->|I]; [rewrite Ascii.eqb_refl in E; discriminate | apply N, I].
Qed.
Lemma read_array_ok {A} (f : text -> outcome A) s sh l :
  read_array f s = Ok (sh, l) <-> exists a b sh0, s = "<"%char :: a ++ ">"%char :: b /\ ~ In ">"%char a /\
    read_vector read_int a = Ok sh0 /\ read_vector f b = Ok l /\
    (lengths_product sh0 mod 4294967296 = Z.of_nat (length l))%Z /\ sh = map (fun n => n mod 18446744073709551616)%Z sh0.
Proof.
  unfold read_array. split.
  - destruct s as [|c s]; [discriminate|]. destruct (Ascii.eqb c "<") eqn:C; [|discriminate]. cbn [negb]. apply Ascii.eqb_eq in C. subst c.
    destruct (find_char ">" ("<"%char :: s)) as [k|] eqn:F; [|discriminate]. apply find_char_split in F. destruct F as [a [b [E [N L]]]].
    destruct a as [|x a]; [discriminate|]. injection E as <- ->. cbn [length] in L. subst k.
    replace (S (length a) - 1) with (length a) by lia. cbn [skipn Nat.add]. rewrite firstn_app, firstn_all, Nat.sub_diag, firstn_O, app_nil_r.
    rewrite skipn_app. replace (length a + 1 - length a) with 1 by lia. rewrite skipn_all2 by lia. cbn [app skipn].
    intros H. apply bind_ok in H. destruct H as [sh0 [V1 H]]. apply bind_ok in H. destruct H as [l0 [V2 H]].
    destruct (Z.eqb _ _) eqn:Z0; [|discriminate]. apply Z.eqb_eq in Z0. injection H as <- <-. rewrite z_product_lengths in Z0.
    exists a, b, sh0. split; [reflexivity|]. split; [intros I; apply N; right; exact I|]. auto.
  - intros [a [b [sh0 [-> [N [V1 [V2 [P ->]]]]]]]]. cbn [negb Ascii.eqb Bool.eqb].
    change ("<"%char :: a ++ ">"%char :: b) with (("<"%char :: a) ++ ">"%char :: b).
    rewrite find_char_app by (intros [H|H]; [discriminate | apply N, H]). cbn [length app].
    replace (S (length a) - 1) with (length a) by lia. cbn [skipn Nat.add]. rewrite firstn_app, firstn_all, Nat.sub_diag, firstn_O, app_nil_r.
    rewrite skipn_app. replace (length a + 1 - length a) with 1 by lia. rewrite skipn_all2 by lia. cbn [app skipn].
    rewrite V1, V2. cbn [bind]. rewrite z_product_lengths. change (2 ^ 32)%Z with 4294967296%Z. rewrite P, Z.eqb_refl. reflexivity.
Qed.
