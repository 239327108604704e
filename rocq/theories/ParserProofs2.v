(** Proofs about the datasets read from ASCII files. *)
From Coq Require Import QArith ZArith List Arith Ascii String Bool Lia.
From Verif Require Import Common TextModel TextProofs DblModel TableModel TableSpec TableProofs AsciiModel AsciiSpec
  AsciiProofs AsciiProofs2 AsciiProofs3 FitsModel XYModel ParserModel ParserSpec ParserProofs.
Import ListNotations.
Local Open Scope nat_scope.
Local Notation length := List.length.

Local Notation ind := [hash].
Definition unhash (s : text) : text := filter (fun c => negb (Ascii.eqb c "#")) s.

Lemma starts_with_nil l : starts_with l [] = true.
Proof. destruct l; reflexivity. Qed.
Lemma clean_uncommented l : clean ind l = trim (uncommented l).
Proof.
  unfold clean. f_equal. induction l as [|c l IH]; [reflexivity|].
  cbn [find_sub starts_with uncommented]. unfold hash at 1. destruct (Ascii.eqb "#" c) eqn:E.
  - apply Ascii.eqb_eq in E. subst c. cbn [andb]. rewrite starts_with_nil. reflexivity.
  - cbn [andb]. replace (Ascii.eqb c "#") with false by (symmetry; apply ascii_eqb_neq; intros ->; discriminate).
    destruct (find_sub ind l) as [k|]; cbn [option_map firstn]; rewrite IH at 1; reflexivity.
Qed.
Lemma remove_all_unhash l : remove_all ind l = unhash l.
Proof.
  unfold remove_all. induction l as [|c l IH]; [reflexivity|]. cbn [remove_all_from starts_with unhash filter].
  unfold hash at 1. destruct (Ascii.eqb "#" c) eqn:E.
  - apply Ascii.eqb_eq in E. subst c. cbn [andb]. rewrite starts_with_nil. exact IH.
  - cbn [andb]. replace (Ascii.eqb c "#") with false by (symmetry; apply ascii_eqb_neq; intros ->; discriminate).
    cbn [negb]. f_equal. exact IH.
Qed.
Lemma unhash_blank b : all_space b -> all_space (unhash b).
Proof. intros B. unfold unhash. apply Forall_forall. intros c I. apply filter_In in I. unfold all_space in B. rewrite Forall_forall in B. apply B. apply I. Qed.
Lemma words_unhash_trim l : words (unhash (trim l)) = words (unhash l).
Proof.
  destruct (trim_split l) as [a [b [E [A B]]]]. rewrite E at 2. unfold unhash. rewrite !filter_app.
  rewrite words_pre by (apply unhash_blank; exact A). rewrite words_post by (apply unhash_blank; exact B). reflexivity.
Qed.
Lemma uncommented_split l : l = uncommented l \/ exists r, l = uncommented l ++ "#"%char :: r.
Proof.
  induction l as [|c l IH]; [left; reflexivity|]. cbn [uncommented]. destruct (Ascii.eqb c "#") eqn:E.
  - apply Ascii.eqb_eq in E. subst c. right. exists l. reflexivity.
  - destruct IH as [IH|[r IH]]; [left; f_equal; exact IH | right; exists r; cbn; f_equal; exact IH].
Qed.
Lemma uncommented_in l c : In c (uncommented l) -> In c l /\ c <> "#"%char.
Proof.
  induction l as [|x l IH]; [intros []|]. cbn [uncommented]. destruct (Ascii.eqb x "#") eqn:E; [intros []|].
  intros [<-|H]; [split; [left; reflexivity | apply ascii_eqb_neq; exact E]|]. destruct (IH H). split; [right|]; assumption.
Qed.

Lemma no_data_line l : has_data l = false -> silent ind l /\ header_line ind l.
Proof.
  unfold has_data. destruct (words (uncommented l)) eqn:W; [|discriminate]. intros _.
  apply words_nil_iff in W. split.
  - unfold silent. rewrite clean_uncommented. apply trim_nil_iff. exact W.
  - unfold header_line. destruct (uncommented_split l) as [E|[r E]].
    + left. apply trim_nil_iff. rewrite E. exact W.
    + right. rewrite E. rewrite trim_blank_app by exact W.
      change ("#"%char :: r) with (["#"%char] ++ r). rewrite trim_keep.
      * cbn [app starts_with]. rewrite starts_with_nil. reflexivity.
      * exists "#"%char, []. split; reflexivity.
      * exists "#"%char, []. split; reflexivity.
Qed.
Lemma data_line l : has_data l = true -> clean ind l <> [] /\ trim l <> [] /\ starts_with (trim l) ind = false.
Proof.
  unfold has_data. destruct (words_cases (uncommented l)) as [[_ W]|[a [t [r [E [A [N [F [B [W _]]]]]]]]]]; rewrite W; [discriminate|]. intros _.
  split.
  - rewrite clean_uncommented. intros H. apply trim_nil_iff in H. apply words_nil_iff in H. congruence.
  - destruct t as [|c t]; [congruence|].
    assert (C : c <> "#"%char). { apply (uncommented_in l c). rewrite E. rewrite !in_app_iff. cbn. auto. }
    assert (G : exists q, l = a ++ c :: q).
    { destruct (uncommented_split l) as [K|[k K]]; rewrite K, E; rewrite <- ?app_assoc; cbn [app]; eexists; reflexivity. }
    destruct G as [q ->]. rewrite trim_blank_app by exact A.
    destruct (trim_stripped (c :: q)) as [a' [b' [E' [A' [B' [F' L']]]]]].
    destruct a' as [|x a'].
    2:{ cbn [app] in E'. injection E' as <- E'. inversion A'; subst. rewrite (F c (or_introl eq_refl)) in *. discriminate. }
    cbn [app] in E'. destruct (trim (c :: q)) as [|y z] eqn:T.
    { cbn [app] in E'. subst b'. inversion B'; subst. rewrite (F c (or_introl eq_refl)) in *. discriminate. }
    cbn [app] in E'. injection E' as <- _. split; [discriminate|]. cbn [starts_with].
    replace (Ascii.eqb hash c) with false; [reflexivity|]. symmetry. apply ascii_eqb_neq. unfold hash. congruence.
Qed.

Lemma split_first_data lines : (Forall (fun l => has_data l = false) lines /\ before_data lines = lines) \/
  exists x r, lines = before_data lines ++ x :: r /\ has_data x = true /\ Forall (fun l => has_data l = false) (before_data lines).
Proof.
  induction lines as [|l lines IH]; [left; split; [constructor | reflexivity]|]. cbn [before_data].
  destruct (has_data l) eqn:H.
  - right. exists l, lines. split; [reflexivity|]. split; [exact H | constructor].
  - destruct IH as [[F E]|[x [r [E [Hx F]]]]].
    + left. split; [constructor; assumption | f_equal; exact E].
    + right. exists x, r. split; [cbn; f_equal; exact E|]. split; [exact Hx | constructor; assumption].
Qed.
Lemma data_of_dlines lines : data_of ind lines = map (fun l => trim (uncommented l)) (filter has_data lines).
Proof.
  induction lines as [|l lines IH]; [reflexivity|]. cbn [filter]. destruct (has_data l) eqn:H.
  - rewrite data_cons by exact (proj1 (data_line l H)). cbn [map]. rewrite clean_uncommented, IH. reflexivity.
  - rewrite data_cons_blank by exact (proj1 (no_data_line l H)). exact IH.
Qed.

(** The comments before the data. *)
Definition quiet (h : text) : Prop := is_desc h = false /\ forall w, words h <> [w; w].
Lemma header_quiet lines : Forall (fun l => has_data l = false) lines -> Forall says_nothing lines ->
  Forall quiet (header ind lines).
Proof.
  intros F S1. induction lines as [|l lines IH]; [constructor|].
  inversion F as [|? ? F1 F2]; inversion S1 as [|? ? S2 S3]; subst. cbn [header].
  destruct (no_data_line l F1) as [_ HL]. destruct (trim l) as [|c r] eqn:T; [apply IH; assumption|].
  destruct HL as [HL|HL]; [congruence|]. rewrite T in HL. rewrite HL. constructor; [|apply IH; assumption].
  rewrite remove_all_unhash. rewrite <- T. destruct S2 as [N D].
  assert (W : words (trim (unhash (trim l))) = words (unhash l)) by (rewrite words_trim; apply words_unhash_trim).
  split.
  - unfold is_desc. destruct (starts_with (trim (unhash (trim l))) (txt "Column:")) eqn:ST; [|reflexivity]. exfalso.
    set (h := trim (unhash (trim l))) in *.
    destruct (words_cases h) as [[A _]|[a [t [q [E [A [Nt [Ft [B [Wt Dq]]]]]]]]]].
    + destruct h as [|x h']; [discriminate|]. change (txt "Column:") with ("C"%char :: txt "olumn:") in ST. cbn [starts_with] in ST.
      apply andb_true_iff in ST. destruct ST as [ST _]. apply Ascii.eqb_eq in ST. subst x. inversion A; subst. discriminate.
    + assert (a = []).
      { destruct a as [|x a]; [reflexivity|]. exfalso. unfold h in E. destruct (trim_head (unhash (trim l))) as [Z|[d [z [Z K]]]].
        - rewrite Z in E. discriminate.
        - rewrite Z in E. injection E as -> _. inversion A; subst. congruence. }
      subst a. cbn [app] in E. rewrite E in ST.
      apply starts_with_app_blank in ST; [|intros x I; vm_compute in I; repeat (destruct I as [<-|I]; [reflexivity|]); destruct I | exact B].
      assert (G : words (unhash l) = t :: words q) by congruence. rewrite (D _ _ G) in ST. discriminate.
  - intros w. rewrite W. apply N.
Qed.

Section Numbers.
Variables pf pd : text -> option dbl.

Lemma header_no_dq lines : Forall (fun l => ~ In dq l) lines -> Forall (fun h => ~ In dq h) (header ind lines).
Proof.
  intros F. induction F as [|l lines N F IH]; [constructor|]. cbn [header]. destruct (trim l) as [|c r] eqn:T; [exact IH|].
  destruct (starts_with _ _); [|constructor]. constructor; [|exact IH].
  intros I. apply trim_in in I. rewrite remove_all_unhash in I. apply filter_In in I. destruct I as [I _]. rewrite <- T in I.
  apply trim_in in I. contradiction.
Qed.
Lemma last_in_or_nil (l : list text) : last l [] = [] \/ In (last l []) l.
Proof.
  induction l as [|x l IH]; [left; reflexivity|]. destruct l as [|y l]; [right; left; reflexivity|].
  destruct IH as [IH|IH]; [left; exact IH | right; right; exact IH].
Qed.
Lemma good_name w : w <> [] -> (forall c, In c w -> is_space c = false) -> one_line w.
Proof.
  intros _ F c I K. specialize (F c K). cbn in I. repeat (destruct I as [<-|I]; [discriminate|]). destruct I.
Qed.

Lemma two_columns hs : Forall quiet hs -> Forall (fun h => ~ In dq h) hs ->
  exists n1 n2, auto_names hs 2 = Ok [n1; n2] /\ n1 <> n2 /\ n1 <> [] /\ n2 <> [] /\ one_line n1 /\ one_line n2.
Proof.
  intros Q D. unfold auto_names. set (lc := last (filter not_empty hs) []).
  assert (F : filter is_desc hs = []).
  { clear - Q. induction Q as [|h hs [H _] Q IH]; [reflexivity|]. cbn. rewrite H. exact IH. }
  rewrite F. cbn [map].
  assert (L : tokens lc = words lc /\ forall w, words lc <> [w; w]).
  { destruct (last_in_or_nil (filter not_empty hs)) as [E|E]; fold lc in E.
    - rewrite E. split; [reflexivity | discriminate].
    - apply filter_In in E. destruct E as [E _]. rewrite Forall_forall in Q, D.
      split; [apply tokens_words; apply D; exact E | apply (Q lc E)]. }
  destruct L as [-> L].
  destruct (words lc) as [|w1 [|w2 [|w3 t]]] eqn:W; cbn [length Nat.eqb].
  1,2,4: exists (txt "col1"), (txt "col2"); split; [vm_compute; reflexivity|]; repeat (split; [discriminate|]);
    split; (apply good_name; [discriminate | intros c I; vm_compute in I; repeat (destruct I as [<-|I]; [reflexivity|]); destruct I]).
  cbn [Nat.eqb length Nat.sub seq map app Nat.add].
  assert (N12 : w1 <> w2) by (intros ->; apply (L w2 eq_refl)).
  destruct (words_in lc w1) as [G1 G2]; [rewrite W; cbn; auto|]. destruct (words_in lc w2) as [G3 G4]; [rewrite W; cbn; auto|].
  exists w1, w2. rewrite no_duplicates_ok.
  - repeat (split; [reflexivity || assumption|]). split; apply good_name; try assumption; intros c I; [apply G2 | apply G4]; exact I.
  - constructor; [intros [H|[]]; congruence|]. constructor; [intros []|]. constructor.
  - intros x _ [].
Qed.

Lemma detect_two lines x r : lines = before_data lines ++ x :: r -> has_data x = true ->
  Forall (fun l => has_data l = false) (before_data lines) -> Forall says_nothing (before_data lines) ->
  Forall (fun l => ~ In dq l) lines ->
  match words (uncommented x) with
  | [_; _] => exists n1 n2, detect_info ind [] [TDouble; TDouble] lines = Ok [mkDesc n1 TDouble [] []; mkDesc n2 TDouble [] []]
  | _ => detect_info ind [] [TDouble; TDouble] lines = Throw
  end.
Proof.
  intros E Hx F S1 Q. set (b := before_data lines) in *. rewrite E. unfold detect_info.
  rewrite count_silent by (eapply Forall_impl; [|exact F]; intros l H; apply no_data_line; exact H).
  assert (T : tokens (clean ind x) = words (uncommented x)).
  { rewrite clean_uncommented. rewrite tokens_words, words_trim; [reflexivity|]. intros I. apply trim_in in I.
    apply uncommented_in in I. rewrite Forall_forall in Q. apply (Q x); [rewrite E; apply in_app_iff; right; left; reflexivity | apply I]. }
  destruct (data_line x Hx) as [C [C1 C2]].
  destruct (words (uncommented x)) as [|w1 [|w2 [|w3 t]]] eqn:W.
  - unfold has_data in Hx. rewrite W in Hx. discriminate.
  - rewrite (count_data ind x r 0) by (try exact C; rewrite T; reflexivity). reflexivity.
  - rewrite (count_data ind x r 1) by (try exact C; rewrite T; reflexivity).
    rewrite header_app by (eapply Forall_impl; [|exact F]; intros l H; apply no_data_line; exact H).
    rewrite header_stop by assumption. rewrite app_nil_r. cbn [bind length Nat.eqb negb andb].
    pose proof (header_quiet b F S1) as HQ.
    assert (HD : Forall (fun h => ~ In dq h) (header ind b)).
    { apply header_no_dq. apply Forall_forall. intros l I. rewrite Forall_forall in Q. apply Q. rewrite E. apply in_app_iff. left. exact I. }
    destruct (two_columns _ HQ HD) as [n1 [n2 [A [N [N1 [N2 [O1 O2]]]]]]]. rewrite A. cbn [bind].
    assert (DS : descriptions [] (header ind b) = Ok []).
    { rewrite <- (app_nil_r (header ind b)). rewrite descriptions_skip; [reflexivity|]. eapply Forall_impl; [|exact HQ]. intros h [H _]. exact H. }
    rewrite DS. cbn [bind seq map_o].
    assert (K1 : new_desc n1 TDouble [] [] = Ok (mkDesc n1 TDouble [] [])) by (apply new_desc_ok; auto).
    assert (K2 : new_desc n2 TDouble [] [] = Ok (mkDesc n2 TDouble [] [])) by (apply new_desc_ok; auto).
    unfold column_at. cbn [nth_error of_option bind find_desc]. rewrite K1, K2. cbn [bind].
    exists n1, n2. apply new_info_ok. split; [reflexivity|]. split; [discriminate|]. cbn.
    constructor; [intros [H|[]]; congruence|]. constructor; [intros []|]. constructor.
  - rewrite (count_data ind x r (S (S (length t)))) by (try exact C; rewrite T; reflexivity). reflexivity.
Qed.

Definition two_doubles (n1 n2 : text) : colinfo := [mkDesc n1 TDouble [] []; mkDesc n2 TDouble [] []].
Lemma fits_doubles n1 n2 a b : fits [CDouble a; CDouble b] (two_doubles n1 n2).
Proof.
  assert (H : exists r, new_row [CDouble a; CDouble b] (Some (two_doubles n1 n2)) = Ok r) by (eexists; reflexivity).
  destruct H as [r H]. apply new_row_ok in H. apply H.
Qed.
Lemma read_line_two n1 n2 l : ~ In dq l ->
  match words l with
  | [a; b] => match pd a, pd b with
              | Some x, Some y => read_line pf pd (two_doubles n1 n2) l = Ok (mkRow [CDouble x; CDouble y] (two_doubles n1 n2))
              | _, _ => read_line pf pd (two_doubles n1 n2) l = Throw
              end
  | _ => read_line pf pd (two_doubles n1 n2) l = Throw
  end.
Proof.
  intros Q. unfold read_line. rewrite row_tokens_words by exact Q.
  destruct (words l) as [|a [|b [|c t]]].
  - reflexivity.
  - cbn. unfold read_double. destruct (pd a); reflexivity.
  - cbn. unfold read_double. destruct (pd a); [|reflexivity]. cbn. destruct (pd b); reflexivity.
  - cbn. unfold read_double. destruct (pd a); [|reflexivity]. cbn. destruct (pd b); reflexivity.
Qed.

Lemma rows_two n1 n2 lines : Forall (fun l => ~ In dq l) lines ->
  (exists pairs, Forall2 (number_line pd) lines pairs /\
     map_o (read_line pf pd (two_doubles n1 n2)) (map (fun l => trim (uncommented l)) lines) =
       Ok (map (fun p => mkRow [CDouble (fst p); CDouble (snd p)] (two_doubles n1 n2)) pairs)) \/
  ((forall pairs, ~ Forall2 (number_line pd) lines pairs) /\
   exists k bad, nth_error (map (fun l => trim (uncommented l)) lines) k = Some bad /\
     (forall l, In l (firstn k (map (fun l => trim (uncommented l)) lines)) -> read_line pf pd (two_doubles n1 n2) l <> Throw) /\
     read_line pf pd (two_doubles n1 n2) bad = Throw).
Proof.
  intros Q. induction Q as [|l lines N Q IH]; [left; exists []; split; [constructor | reflexivity]|].
  assert (NT : ~ In dq (trim (uncommented l))). { intros I. apply trim_in in I. apply uncommented_in in I. apply N. apply I. }
  pose proof (read_line_two n1 n2 _ NT) as R. rewrite words_trim in R.
  assert (D : (exists p, number_line pd l p /\ read_line pf pd (two_doubles n1 n2) (trim (uncommented l)) =
                 Ok (mkRow [CDouble (fst p); CDouble (snd p)] (two_doubles n1 n2))) \/
              ((forall p, ~ number_line pd l p) /\ read_line pf pd (two_doubles n1 n2) (trim (uncommented l)) = Throw)).
  { destruct (words (uncommented l)) as [|a [|b [|c t]]] eqn:W.
    3:{ destruct (pd a) as [x|] eqn:Pa; [destruct (pd b) as [y|] eqn:Pb|].
        - left. exists (x, y). split; [exists a, b; auto | exact R].
        - right. split; [|exact R]. intros p [a' [b' [H [H1 H2]]]]. rewrite W in H. injection H as <- <-. congruence.
        - right. split; [|exact R]. intros p [a' [b' [H [H1 H2]]]]. rewrite W in H. injection H as <- <-. congruence. }
    all: right; split; [|exact R]; intros p [a' [b' [H _]]]; rewrite W in H; discriminate. }
  destruct D as [[p [P R']]|[P R']].
  - destruct IH as [[pairs [F M]]|[B [k [bad [K1 [K2 K3]]]]]].
    + left. exists (p :: pairs). split; [constructor; assumption|]. cbn [map map_o]. rewrite R'. cbn [bind]. rewrite M. reflexivity.
    + right. split; [intros pairs F; inversion F; subst; eapply B; eassumption|].
      exists (S k), bad. split; [exact K1|]. split; [|exact K3]. cbn [map firstn]. intros z [<-|I]; [rewrite R'; discriminate | apply K2; exact I].
  - right. split; [intros pairs F; inversion F; subst; eapply P; eassumption|].
    exists 0, (trim (uncommented l)). split; [reflexivity|]. split; [intros z []|]. exact R'.
Qed.

Lemma pairs_back n1 n2 pairs :
  map_o pair_of (map (fun p : dbl * dbl => mkRow [CDouble (fst p); CDouble (snd p)] (two_doubles n1 n2)) pairs) = Ok pairs.
Proof. induction pairs as [|[x y] pairs IH]; [reflexivity|]. cbn [map map_o]. rewrite IH. reflexivity. Qed.

Lemma number_lines_det lines p q : Forall2 (number_line pd) lines p -> Forall2 (number_line pd) lines q -> p = q.
Proof.
  intros F. revert q. induction F as [|l [x y] lines p [a [b [W [A B]]]] F IH]; intros q G; inversion G as [|? [x' y'] ? q' [a' [b' [W' [A' B']]]] G']; subst; [reflexivity|].
  rewrite W in W'. injection W' as <- <-. cbn in A, B, A', B'. f_equal; [|apply IH; exact G']. congruence.
Qed.
Lemma dataset_outcome s : ~ In dq s -> Forall says_nothing (before_data (lines_of s)) ->
  (exists pairs, pairs <> [] /\ Forall2 (number_line pd) (dlines s) pairs /\ ap_dataset pf pd (Some s) = Ok (Some pairs)) \/
  ((forall pairs, pairs <> [] -> ~ Forall2 (number_line pd) (dlines s) pairs) /\ ap_dataset pf pd (Some s) = Throw).
Proof.
  intros Q S1. set (a := mkAr ind [] [TDouble; TDouble] false None (lines_of s)).
  change (ap_dataset pf pd (Some s)) with
    (do t <- fst (ar_read pf pd a (-1)); do l <- map_o pair_of (t_rows t); Ok (Some l)).
  assert (QL : Forall (fun l => ~ In dq l) (lines_of s)).
  { apply Forall_forall. intros l I K. apply Q. unfold lines_of in I. eapply split_in; eassumption. }
  assert (DL : data_lines a = map (fun l => trim (uncommented l)) (dlines s)) by (apply (data_of_dlines (lines_of s))).
  destruct (split_first_data (lines_of s)) as [[F E]|[x [r [E [Hx F]]]]].
  - right. assert (Z : dlines s = []).
    { unfold dlines. clear - F. induction F as [|l ls H F IH]; [reflexivity|]. cbn. rewrite H. exact IH. }
    split; [intros pairs N G; rewrite Z in G; inversion G; subst; congruence|].
    unfold ar_read, read_info, a. cbn [ar_info ar_ind ar_names ar_types ar_lines]. unfold detect_info.
    rewrite <- (app_nil_r (lines_of s)). rewrite count_silent by (eapply Forall_impl; [|exact F]; intros l H; apply no_data_line; exact H).
    reflexivity.
  - pose proof (detect_two (lines_of s) x r E Hx F S1 QL) as D.
    assert (HD : exists ds, dlines s = x :: ds).
    { unfold dlines. rewrite E. rewrite filter_app. replace (filter has_data (before_data (lines_of s))) with (@nil text).
      - cbn. rewrite Hx. eexists. reflexivity.
      - clear - F. induction F as [|l ls H F IH]; [reflexivity|]. cbn. rewrite H. exact IH. }
    destruct HD as [ds HD].
    destruct (words (uncommented x)) as [|w1 [|w2 [|w3 t]]] eqn:W.
    3:{ destruct D as [n1 [n2 D]]. fold (two_doubles n1 n2) in D.
        assert (RI : read_info a = (Ok (two_doubles n1 n2), mkAr ind [] [TDouble; TDouble] true (Some (two_doubles n1 n2)) (lines_of s))).
        { unfold read_info, a. cbn [ar_info ar_ind ar_names ar_types ar_lines]. rewrite D. reflexivity. }
        assert (QD : Forall (fun l => ~ In dq l) (dlines s)).
        { apply Forall_forall. intros l I. apply filter_In in I. rewrite Forall_forall in QL. apply QL. apply I. }
        destruct (rows_two n1 n2 (dlines s) QD) as [[pairs [G M]]|[B [k [bad [K1 [K2 K3]]]]]].
        - left. exists pairs. assert (NP : pairs <> []) by (rewrite HD in G; inversion G; discriminate).
          split; [exact NP|]. split; [exact G|].
          destruct (ar_read_ok pf pd a (-1) _ _ (map (fun p => mkRow [CDouble (fst p); CDouble (snd p)] (two_doubles n1 n2)) pairs) RI) as [a2 [R _]].
          { unfold asked. cbn [Z.ltb Z.compare]. rewrite firstn_all, DL. exact M. }
          rewrite R. cbn [fst]. destruct pairs as [|p pairs]; [congruence|]. cbn [map bind t_rows].
          change (mkRow [CDouble (fst p); CDouble (snd p)] (two_doubles n1 n2) :: map (fun p => mkRow [CDouble (fst p); CDouble (snd p)] (two_doubles n1 n2)) pairs)
            with (map (fun p => mkRow [CDouble (fst p); CDouble (snd p)] (two_doubles n1 n2)) (p :: pairs)).
          rewrite pairs_back. reflexivity.
        - right. split; [intros pairs _; apply B|].
          destruct (ar_read_bad pf pd a (-1) _ _ k bad RI) as [a2 [R _]].
          + rewrite DL. exact K1.
          + unfold asked. cbn [Z.ltb Z.compare]. rewrite DL. apply nth_error_Some. rewrite K1. discriminate.
          + rewrite DL. exact K2.
          + exact K3.
          + rewrite R. reflexivity. }
    all: right; split;
      [intros pairs N G; rewrite HD in G; inversion G as [|? ? ? ? H]; subst; destruct H as [a' [b' [H _]]]; rewrite W in H; discriminate
      | unfold ar_read, read_info, a; cbn [ar_info ar_ind ar_names ar_types ar_lines]; rewrite D; reflexivity].
Qed.
End Numbers.
