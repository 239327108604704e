(** Proofs about the catalogs. *)
From Coq Require Import QArith Qabs Bool List Ascii ZArith Arith Lia.
From Verif Require Import Common DblModel DblProofs TextModel TextProofs TableModel TableSpec TableProofs AsciiModel AsciiSpec AsciiProofs CatalogModel CatalogSpec.
Import ListNotations.
Local Open Scope nat_scope.

(** ** Band mapping *)
Lemma words_app a c r : (forall x, In x a -> is_space x = false) -> a <> [] -> is_space c = true ->
  words (a ++ c :: r) = a :: words r.
Proof.
  intros F N E. unfold words. rewrite split_app by exact E.
  rewrite split_no_sep by (apply Forall_forall; exact F).
  destruct a; [congruence | reflexivity].
Qed.
Lemma words_one a : (forall x, In x a -> is_space x = false) -> a <> [] -> words a = [a].
Proof.
  intros F N. unfold words. rewrite split_no_sep by (apply Forall_forall; exact F).
  destruct a; [congruence | reflexivity].
Qed.
Lemma words_space c r : is_space c = true -> words (c :: r) = words r.
Proof. intros E. unfold words. cbn [split_on]. rewrite E. reflexivity. Qed.
Lemma gap_space g c : is_gap g -> In c g -> is_space c = true.
Proof. intros [_ F] I. destruct (F c I) as [-> | ->]; reflexivity. Qed.
Lemma words_spaces g r : (forall c, In c g -> is_space c = true) -> words (g ++ r) = words r.
Proof.
  intros K. induction g as [|c g IH]; [reflexivity|]. cbn [app].
  rewrite words_space by (apply K; left; reflexivity). apply IH. intros; apply K; right; assumption.
Qed.
Lemma words_line g a ws : is_gap g -> Forall is_word (a :: ws) ->
  words (a ++ flat_map (fun w => g ++ w) ws) = a :: ws.
Proof.
  intros G. revert a. induction ws as [|w ws IH]; intros a F; inversion F as [|? ? [N [_ H]] F']; subst.
  - cbn [flat_map]. rewrite app_nil_r. apply words_one; assumption.
  - specialize (IH w F'). set (rest := flat_map (fun w => g ++ w) ws) in *. cbn [flat_map]. fold rest.
    assert (K : exists c g0, g = c :: g0) by (destruct g; [destruct G; congruence | eauto]).
    destruct K as [c [g0 E]]. assert (K : forall x, In x g -> is_space x = true) by (intros x; apply gap_space; exact G).
    clearbody rest. rewrite E in *. clear E g. cbn [app].
    rewrite words_app; [| exact H | exact N | apply K; left; reflexivity].
    rewrite <- app_assoc, words_spaces, IH; [reflexivity|]. intros x I. apply K. right. exact I.
Qed.
Lemma word_head a r : is_word a -> solid_head (a ++ r).
Proof.
  intros [N [_ H]]. destruct a as [|c a]; [congruence|]. exists c, (a ++ r). split; [reflexivity | apply H; left; reflexivity].
Qed.
Lemma word_last a : is_word a -> solid_last a.
Proof.
  intros [N [_ H]]. destruct (exists_last N) as [r [c ->]]. exists c, r. split; [reflexivity|].
  apply H. apply in_or_app. right. left. reflexivity.
Qed.
Lemma flat_last g ws : ws <> [] -> Forall is_word ws -> solid_last (flat_map (fun w => g ++ w) ws).
Proof.
  intros N F. destruct (exists_last N) as [r [w ->]]. rewrite flat_map_app. cbn [flat_map]. rewrite app_nil_r.
  apply solid_last_app, solid_last_app, word_last. apply Forall_app in F. destruct F as [_ F]. inversion F; assumption.
Qed.
Lemma hash_free g a ws : is_gap g -> Forall is_word (a :: ws) ->
  ~ In "#"%char (a ++ flat_map (fun w => g ++ w) ws).
Proof.
  intros G F I. inversion F as [|? ? [_ [A _]] F']; subst. apply in_app_or in I. destruct I as [I|I]; [auto|].
  apply in_flat_map in I. destruct I as [w [W I]]. apply in_app_or in I. destruct I as [I|I].
  - destruct G as [_ G]. destruct (G _ I) as [X|X]; discriminate X.
  - rewrite Forall_forall in F'. destruct (F' w W) as [_ [H _]]. auto.
Qed.
Lemma nl_free g a ws : is_gap g -> Forall is_word (a :: ws) ->
  ~ In nl (a ++ flat_map (fun w => g ++ w) ws).
Proof.
  intros G F I. inversion F as [|? ? [_ [_ A]] F']; subst. apply in_app_or in I. destruct I as [I|I].
  - specialize (A _ I). discriminate A.
  - apply in_flat_map in I. destruct I as [w [W I]]. apply in_app_or in I. destruct I as [I|I].
    + destruct G as [_ G]. destruct (G _ I) as [X|X]; discriminate X.
    + rewrite Forall_forall in F'. destruct (F' w W) as [_ [_ H]]. specialize (H _ I). discriminate H.
Qed.
Lemma written_trim g a ws : is_gap g -> ws <> [] -> Forall is_word (a :: ws) ->
  trim (a ++ flat_map (fun w => g ++ w) ws) = a ++ flat_map (fun w => g ++ w) ws.
Proof.
  intros G N F. inversion F as [|? ? A F']; subst. apply trim_solid.
  - apply word_head; exact A.
  - apply solid_last_app, flat_last; assumption.
Qed.
Lemma existsb_hash s : existsb (Ascii.eqb "#"%char) s = false <-> ~ In "#"%char s.
Proof.
  split.
  - intros E I. assert (T : existsb (Ascii.eqb "#"%char) s = true).
    { apply existsb_exists. exists "#"%char. split; [exact I | apply Ascii.eqb_refl]. }
    congruence.
  - intros N. destruct (existsb (Ascii.eqb "#"%char) s) eqn:E; [|reflexivity].
    apply existsb_exists in E. destruct E as [c [I H]]. apply Ascii.eqb_eq in H. subst c. contradiction.
Qed.
Lemma stoi_cast s : stoi s = cast_int (CString s).
Proof. reflexivity. Qed.

Lemma trim_hash s : exists r, trim ("#"%char :: s) = "#"%char :: r.
Proof.
  exists (rtrim s). rewrite trim_def. change (drop_while is_space ("#"%char :: s)) with (["#"%char] ++ s).
  rewrite rtrim_keep; [reflexivity|]. exists "#"%char, []. split; reflexivity.
Qed.

Definition mapping_of (l : list (text * (text * text) * dbl * bool)) : mapping := map (fun x => (fst (fst (fst x)), snd (fst (fst x)))) l.
Lemma parse_written stof g bs os : is_gap g -> Forall well_written bs -> Forall2 (stands_for stof) bs os ->
  parse_lines stof (map (written g) bs)
  = Ok (map (fun x => (fst (fst (fst x)), snd (fst (fst x)))) (given os),
        map (fun x => (fst (fst (fst x)), snd (fst x))) (given os),
        map (fun x => (fst (fst (fst x)), snd x)) (given os)).
Proof.
  intros G W F. induction F as [|b o bs os H F IH]; [reflexivity|].
  inversion W as [|? ? Wb W']; subst. specialize (IH W'). cbn [map parse_lines].
  assert (HASH : forall a ws r, Forall is_word (a :: ws) -> a ++ flat_map (fun w => g ++ w) ws <> "#"%char :: r).
  { intros a ws r Fw E. apply (hash_free g a ws G Fw). rewrite E. left. reflexivity. }
  destruct H as [s|a b c|a b c n t Hn|a b c n t f z Hn Hz]; cbn [written].
  - destruct (trim_hash s) as [r ->]. exact IH.
  - cbn [well_written] in Wb. rewrite written_trim by (auto; discriminate).
    specialize (HASH _ _ (tl (a ++ flat_map (fun w => g ++ w) [b; c])) Wb).
    assert (M : match_line (a ++ flat_map (fun w => g ++ w) [b; c]) = Some (a, b, c, None, None)).
    { unfold match_line. rewrite (proj2 (existsb_hash _)) by (apply hash_free; assumption).
      rewrite words_line by assumption. reflexivity. }
    rewrite M. destruct (a ++ flat_map (fun w => g ++ w) [b; c]) as [|x l] eqn:El.
    + cbn [bind]. rewrite IH. reflexivity.
    + cbn [tl] in HASH. rewrite IH.
      destruct x as [[] [] [] [] [] [] [] []]; try reflexivity. congruence.
  - cbn [well_written] in Wb. rewrite written_trim by (auto; discriminate).
    specialize (HASH _ _ (tl (a ++ flat_map (fun w => g ++ w) [b; c; t])) Wb).
    assert (M : match_line (a ++ flat_map (fun w => g ++ w) [b; c; t]) = Some (a, b, c, Some t, None)).
    { unfold match_line. rewrite (proj2 (existsb_hash _)) by (apply hash_free; assumption).
      rewrite words_line by assumption. reflexivity. }
    rewrite M. rewrite IH, Hn. destruct (a ++ flat_map (fun w => g ++ w) [b; c; t]) as [|x l] eqn:El.
    + reflexivity.
    + cbn [tl] in HASH. destruct x as [[] [] [] [] [] [] [] []]; try reflexivity. congruence.
  - cbn [well_written] in Wb. rewrite written_trim by (auto; discriminate).
    specialize (HASH _ _ (tl (a ++ flat_map (fun w => g ++ w) [b; c; t; f])) Wb).
    assert (M : match_line (a ++ flat_map (fun w => g ++ w) [b; c; t; f]) = Some (a, b, c, Some t, Some f)).
    { unfold match_line. rewrite (proj2 (existsb_hash _)) by (apply hash_free; assumption).
      rewrite words_line by assumption. reflexivity. }
    rewrite M. rewrite IH, Hn, stoi_cast, Hz. destruct (a ++ flat_map (fun w => g ++ w) [b; c; t; f]) as [|x l] eqn:El.
    + reflexivity.
    + cbn [tl] in HASH. destruct x as [[] [] [] [] [] [] [] []]; try reflexivity. congruence.
Qed.
Lemma getlines_flat ls : Forall (fun s => ~ In nl s) ls -> getlines (flat_map (fun s => s ++ [nl]) ls) = ls.
Proof.
  intros F. unfold getlines. rewrite lines_flat by exact F. rewrite rev_app_distr. cbn [rev app].
  apply rev_involutive.
Qed.
Lemma file_parsed stof g bs os : is_gap g -> Forall well_written bs -> Forall2 (stands_for stof) bs os ->
  parse_file stof (file_of g bs)
  = Ok (map (fun x => (fst (fst (fst x)), snd (fst (fst x)))) (given os),
        map (fun x => (fst (fst (fst x)), snd (fst x))) (given os),
        map (fun x => (fst (fst (fst x)), snd x)) (given os)).
Proof.
  intros G W F. unfold parse_file, file_of.
  assert (E : flat_map (fun b => written g b ++ ["010"%char]) bs = flat_map (fun s => s ++ [nl]) (map (written g) bs)).
  { clear. induction bs as [|b bs IH]; [reflexivity|]. cbn [flat_map map]. rewrite IH. reflexivity. }
  rewrite E, getlines_flat; [apply parse_written; assumption|].
  rewrite Forall_forall in *. intros s I. apply in_map_iff in I. destruct I as [b [<- Ib]]. specialize (W b Ib).
  destruct b as [s|a b c o]; cbn [written well_written] in *.
  - intros [X|X]; [discriminate X | exact (W X)].
  - apply nl_free; assumption.
Qed.

Definition body stof (line : text) (rest : outcome (mapping * thresholds * converts)) :=
  match match_line line with
  | None => Throw
  | Some (name, flux, err, n, f) =>
      do th <- (match n with None => Ok default_threshold | Some t => match stof t with None => Throw | Some d => Ok d end end);
      do cv <- (match f with None => Ok false | Some t => do z <- stoi t; Ok (negb (Z.eqb z 0)) end);
      do rest <- rest;
      let '(m, t, c) := rest in
      Ok ((name, (flux, err)) :: m, (name, th) :: t, (name, cv) :: c)
  end.
Lemma parse_cases stof l r :
  (exists q, trim l = "#"%char :: q) /\ parse_lines stof (l :: r) = parse_lines stof r
  \/ parse_lines stof (l :: r) = body stof (trim l) (parse_lines stof r).
Proof.
  cbn [parse_lines]. fold (body stof (trim l) (parse_lines stof r)).
  destruct (trim l) as [|x q] eqn:El; [right; reflexivity|].
  destruct x as [[] [] [] [] [] [] [] []]; try (right; reflexivity). left. split; [eauto | reflexivity].
Qed.
Lemma body_ok stof line rest m t c : body stof line rest = Ok (m, t, c) ->
  exists m' t' c' name cols th cv, rest = Ok (m', t', c')
    /\ m = (name, cols) :: m' /\ t = (name, th) :: t' /\ c = (name, cv) :: c'.
Proof.
  unfold body. destruct (match_line line) as [[[[[name flux] err] n] f]|]; [|discriminate].
  destruct (match n with None => _ | Some _ => _ end) as [th| | |]; cbn [bind]; try discriminate.
  destruct (match f with None => _ | Some _ => _ end) as [cv| | |]; cbn [bind]; try discriminate.
  destruct rest as [[[m' t'] c']| | |]; cbn [bind]; try discriminate.
  intros E. injection E as <- <- <-. exists m', t', c', name, (flux, err), th, cv. auto.
Qed.
Lemma body_outcomes stof line rest : (exists x, rest = Ok x) \/ rest = Throw ->
  (exists x, body stof line rest = Ok x) \/ body stof line rest = Throw.
Proof.
  intros IH. unfold body. destruct (match_line line) as [[[[[name flux] err] n] f]|]; [|auto].
  assert (K1 : (exists x, match n with None => Ok default_threshold | Some t => match stof t with None => Throw | Some d => Ok d end end = Ok x)
    \/ match n with None => Ok default_threshold | Some t => match stof t with None => Throw | Some d => Ok d end end = Throw).
  { destruct n as [t|]; [destruct (stof t)|]; eauto. }
  assert (K2 : (exists x, match f with None => Ok false | Some t => do z <- stoi t; Ok (negb (Z.eqb z 0)) end = Ok x)
    \/ match f with None => Ok false | Some t => do z <- stoi t; Ok (negb (Z.eqb z 0)) end = Throw).
  { destruct f as [u|]; [|eauto]. unfold stoi. destruct (strtoll u) as [z|]; [destruct (_ || _)|]; cbn [bind]; eauto. }
  destruct K1 as [[x1 ->]| ->]; cbn [bind]; [|auto]. destruct K2 as [[x2 ->]| ->]; cbn [bind]; [|auto].
  destruct IH as [[[[m t] c] ->]| ->]; cbn [bind]; eauto.
Qed.
Lemma parse_outcomes stof ls : (exists x, parse_lines stof ls = Ok x) \/ parse_lines stof ls = Throw.
Proof.
  induction ls as [|l r IH]; [left; eexists; reflexivity|].
  destruct (parse_cases stof l r) as [[_ ->]| ->]; [exact IH | apply body_outcomes; exact IH].
Qed.
Lemma blank_line stof (ls : list text) (l : text) : In l ls -> (forall c, In c l -> is_space c = true) -> parse_lines stof ls = Throw.
Proof.
  intros I B. induction ls as [|x ls IH]; [destruct I|]. destruct I as [->|I].
  - cbn [parse_lines].
    assert (E : trim l = []) by (apply trim_nil_iff; apply Forall_forall; exact B). rewrite E. reflexivity.
  - specialize (IH I). destruct (parse_cases stof x ls) as [[_ E]|E]; [congruence|]. rewrite E, IH. clear E.
    destruct (body_outcomes stof (trim x) Throw) as [[[[m t] c] E]|E]; [auto | | exact E].
    apply body_ok in E. destruct E as [? [? [? [? [? [? [? [E _]]]]]]]]. discriminate E.
Qed.
Lemma parse_names stof ls m t c : parse_lines stof ls = Ok (m, t, c) -> names t = names m /\ names c = names m.
Proof.
  revert m t c. induction ls as [|l r IH]; intros m t c.
  - intros E. injection E as <- <- <-. split; reflexivity.
  - destruct (parse_cases stof l r) as [[_ ->]| ->]; [apply IH|]. intros E. apply body_ok in E.
    destruct E as [m' [t' [c' [name [cols [th [cv [E [-> [-> ->]]]]]]]]]]. destruct (IH _ _ _ E) as [A B].
    unfold names in *. cbn [map fst]. rewrite A, B. split; reflexivity.
Qed.

Lemma in_set_iff x l : in_set x l = true <-> In x l.
Proof. apply existsb_text_eqb. Qed.
Lemma in_set_false x l : in_set x l = false <-> ~ In x l.
Proof. apply existsb_text_eqb_false. Qed.
Lemma erase_in x y l : In y (erase x l) <-> In y l /\ y <> x.
Proof.
  unfold erase. rewrite filter_In. split; intros [A B]; split; auto.
  - intros ->. rewrite text_eqb_refl in B. discriminate.
  - destruct (text_eqb x y) eqn:E; [|reflexivity]. apply text_eqb_iff in E. congruence.
Qed.
Lemma without_filter {B} ex (l : list (text * B)) : without ex l = filter (fun p => negb (in_set (fst p) ex)) l.
Proof.
  unfold without. apply filter_ext. intros p. destruct (in_dec text_dec (fst p) ex) as [I|N].
  - apply in_set_iff in I. rewrite I. reflexivity.
  - apply in_set_false in N. rewrite N. reflexivity.
Qed.
Lemma keep_left m : forall ex x, In x (snd (keep_mapping ex m)) <-> In x ex /\ ~ In x (names m).
Proof.
  induction m as [|p m IH]; intros ex x; cbn [keep_mapping].
  - cbn. tauto.
  - destruct (in_set (fst p) ex) eqn:E.
    + rewrite IH, erase_in. cbn [names map In]. unfold names. split.
      * intros [[A B] C]. split; [exact A|]. intros [D|D]; [congruence | auto].
      * intros [A C]. split; [split; [exact A|]|]; [intros ->; apply C; left; reflexivity | intros D; apply C; right; exact D].
    + destruct (keep_mapping ex m) as [k e] eqn:K. cbn [snd].
      specialize (IH ex x). rewrite K in IH. cbn [snd] in IH. rewrite IH. cbn [names map In]. unfold names. split.
      * intros [A B]. split; [exact A|]. intros [D|D]; [|auto]. apply in_set_false in E. congruence.
      * intros [A B]. split; [exact A|]. intros D. apply B. right. exact D.
Qed.
Lemma keep_distinct m : forall ex, NoDup (names m) -> fst (keep_mapping ex m) = without ex m.
Proof.
  induction m as [|p m IH]; intros ex N; [reflexivity|]. cbn [keep_mapping names map] in *.
  inversion N as [|? ? NI N']; subst. rewrite without_filter. cbn [filter].
  destruct (in_set (fst p) ex) eqn:E; cbn [negb].
  - rewrite IH by exact N'. rewrite without_filter. apply filter_ext_in. intros q I.
    f_equal. destruct (in_set (fst q) ex) eqn:F.
    + apply in_set_iff. apply erase_in. split; [apply in_set_iff; exact F|]. intros X. apply NI. rewrite <- X.
      apply in_map. exact I.
    + apply in_set_false. intros X. apply erase_in in X. apply in_set_false in F. tauto.
  - destruct (keep_mapping ex m) as [k e] eqn:K. cbn [fst]. specialize (IH ex N'). rewrite K in IH. cbn [fst] in IH.
    rewrite IH, without_filter. reflexivity.
Qed.
Lemma init_ok_iff stof content ex :
  (exists r, init_bands stof content ex = Ok r) <->
  exists m t c, parse_file stof content = Ok (m, t, c) /\ forall x, In x ex -> In x (names m).
Proof.
  unfold init_bands. split.
  - intros [r E]. destruct (parse_file stof content) as [[[m t] c]| | |]; cbn [bind] in E; try discriminate.
    exists m, t, c. split; [reflexivity|]. intros x I.
    destruct (keep_mapping ex m) as [k e] eqn:K. destruct e; [|discriminate].
    destruct (in_dec text_dec x (names m)) as [Y|Y]; [exact Y|].
    assert (F : In x (snd (keep_mapping ex m))) by (apply keep_left; auto). rewrite K in F. destruct F.
  - intros [m [t [c [E A]]]]. rewrite E. cbn [bind]. destruct (keep_mapping ex m) as [k e] eqn:K.
    destruct e as [|x e]; [eauto|]. exfalso.
    assert (F : In x (snd (keep_mapping ex m))) by (rewrite K; left; reflexivity). apply keep_left in F. destruct F as [F1 F2]. exact (F2 (A x F1)).
Qed.
Lemma init_outcomes stof content ex : (exists r, init_bands stof content ex = Ok r) \/ init_bands stof content ex = Throw.
Proof.
  unfold init_bands. destruct (parse_outcomes stof (getlines content)) as [[[[m t] c] E]|E]; unfold parse_file; rewrite E; cbn [bind]; auto.
  destruct (keep_mapping ex m) as [k [|x e]]; eauto.
Qed.
Lemma init_value stof content ex m t c r :
  parse_file stof content = Ok (m, t, c) -> init_bands stof content ex = Ok r ->
  snd (fst r) = without ex t /\ snd r = without ex c /\ (NoDup (names m) -> fst (fst r) = without ex m).
Proof.
  intros P. unfold init_bands. rewrite P. cbn [bind].
  destruct (keep_mapping ex m) as [k e] eqn:K. destruct e; [|discriminate]. intros E. injection E as <-. cbn [fst snd].
  rewrite !without_filter. repeat split. intros N. rewrite <- without_filter, <- (keep_distinct m ex N), K. reflexivity.
Qed.
Lemma without_names {B C} ex (l : list (text * B)) (l' : list (text * C)) :
  names l = names l' -> names (without ex l) = names (without ex l').
Proof.
  revert l'. induction l as [|p l IH]; intros [|q l'] E; try discriminate; [reflexivity|].
  cbn [names map] in E. injection E as E1 E2. unfold without in *. cbn [filter]. rewrite E1.
  destruct (in_dec text_dec (fst q) ex); [apply IH; exact E2|]. cbn [names map]. rewrite E1. f_equal. apply IH. exact E2.
Qed.
Lemma keep_none (l : mapping) : keep_mapping [] l = (l, []).
Proof. induction l as [|p l IH]; [reflexivity|]. cbn. rewrite IH. reflexivity. Qed.
Lemma filter_none {B} (l : list (text * B)) : filter (fun p => negb (in_set (fst p) [])) l = l.
Proof. induction l as [|x l IH]; [reflexivity|]. 
  transitivity (x :: filter (fun p => negb (in_set (fst p) [])) l); [reflexivity | f_equal; exact IH]. Qed.
Lemma init_none stof content r : parse_file stof content = Ok r -> init_bands stof content [] = Ok r.
Proof.
  intros P. unfold init_bands. rewrite P. cbn [bind]. destruct r as [[m t] c]. rewrite keep_none.
  do 2 f_equal; [f_equal|]; apply filter_none.
Qed.

(** ** Catalogs *)
Lemma sid_eqb_iff a b : sid_eqb a b = true <-> a = b.
Proof.
  destruct a as [x|x], b as [y|y]; cbn [sid_eqb]; try (split; discriminate).
  - rewrite Z.eqb_eq. split; congruence.
  - rewrite text_eqb_iff. split; congruence.
Qed.
Lemma index_find_some m i k : index_find m i = Some k -> In (i, k) m.
Proof.
  unfold index_find. destruct (find _ m) as [[j n]|] eqn:E; [|discriminate]. cbn. intros H. injection H as <-.
  apply find_some in E. destruct E as [I E]. cbn [fst] in E. apply sid_eqb_iff in E. subst j. exact I.
Qed.
Lemma index_find_none m i : index_find m i = None <-> ~ In i (map fst m).
Proof.
  unfold index_find. induction m as [|[j n] m IH]; cbn [find map In fst].
  - cbn. tauto.
  - destruct (sid_eqb j i) eqn:E.
    + apply sid_eqb_iff in E. cbn. split; [discriminate|]. intros N. exfalso. apply N. left. exact E.
    + rewrite IH. split; intros N; [|tauto]. intros [X|X]; [|tauto]. subst j.
      assert (T : sid_eqb i i = true) by (apply sid_eqb_iff; reflexivity). congruence.
Qed.
Section Cat.
Context {A : Type}.
Implicit Types l : list (source A).

Lemma index_sources_ok l : forall m k m',
  index_sources m k l = Ok m' <->
  m' = rev (combine (ids l) (seq k (length l))) ++ m /\ NoDup (ids l)
  /\ (forall i, In i (ids l) -> ~ In i (map fst m)).
Proof.
  induction l as [|s l IH]; intros m k m'; cbn [index_sources].
  - cbn. split; [intros H; injection H as <-; repeat split; [constructor | tauto] | intros [-> _]; reflexivity].
  - unfold ids in *. cbn [map combine seq length rev].
    destruct (index_find m (s_id s)) as [n|] eqn:E.
    + split; [discriminate|]. intros [_ [_ D]]. exfalso. apply index_find_some in E.
      apply (D (s_id s)); [left; reflexivity|]. apply (in_map fst) in E. exact E.
    + rewrite IH. rewrite <- app_assoc. cbn [app map fst In]. apply index_find_none in E. split.
      * intros [-> [N D]]. repeat split.
        -- constructor; [|exact N]. intros I. apply (D _ I). left. reflexivity.
        -- intros i [<-|I]; [exact E|]. intros X. apply (D _ I). right. exact X.
      * intros [-> [N D]]. inversion N as [|? ? NI N']; subst. repeat split.
        -- exact N'.
        -- intros i I [X|X]; [subst i; contradiction|]. apply (D i); [right; exact I | exact X].
Qed.
Lemma index_sources_outcomes l : forall m k, (exists m', index_sources m k l = Ok m') \/ index_sources m k l = Throw.
Proof.
  induction l as [|s l IH]; intros m k; cbn [index_sources]; [eauto|]. destruct (index_find m (s_id s)); auto.
Qed.
Lemma new_catalog_ok l c : new_catalog l = Ok c <->
  c = mkCatalog l (rev (combine (ids l) (seq 0 (length l)))) /\ NoDup (ids l).
Proof.
  unfold new_catalog. destruct (index_sources [] 0 l) as [m| | |] eqn:E; cbn [bind].
  - apply index_sources_ok in E. rewrite app_nil_r in E. destruct E as [-> [N _]]. split.
    + intros H. injection H as <-. auto.
    + intros [-> _]. reflexivity.
  - split; [discriminate|]. intros [-> N]. exfalso.
    assert (F : index_sources [] 0 l = Ok (rev (combine (ids l) (seq 0 (length l))) ++ [])).
    { apply index_sources_ok. repeat split; auto. }
    congruence.
  - destruct (index_sources_outcomes l [] 0) as [[m X]|X]; congruence.
  - destruct (index_sources_outcomes l [] 0) as [[m X]|X]; congruence.
Qed.
Lemma new_catalog_throw l : new_catalog l = Throw <-> ~ NoDup (ids l).
Proof.
  split.
  - intros E N. assert (F := proj2 (new_catalog_ok l _) (conj eq_refl N)). congruence.
  - intros N. unfold new_catalog. destruct (index_sources_outcomes l [] 0) as [[m X]|X]; rewrite X; cbn [bind]; [|reflexivity].
    exfalso. apply index_sources_ok in X. tauto.
Qed.
Lemma combine_seq_in l i k n : In (i, n) (combine (ids l) (seq k (length l))) <->
  exists j s, n = k + j /\ nth_error l j = Some s /\ s_id s = i.
Proof.
  revert k. unfold ids. induction l as [|s l IH]; intros k; cbn [map combine seq length].
  - split; [intros [] | intros [j [s [_ [E _]]]]; destruct j; discriminate].
  - cbn [In]. rewrite IH. split.
    + intros [E|[j [s' [-> [E F]]]]].
      * injection E as <- <-. exists 0, s. repeat split. lia.
      * exists (S j), s'. repeat split; auto. lia.
    + intros [[|j] [s' [-> [E F]]]].
      * left. cbn in E. injection E as <-. rewrite F. f_equal. lia.
      * right. exists j, s'. repeat split; auto. lia.
Qed.
Lemma keys_combine l k : map fst (combine (ids l) (seq k (length l))) = ids l.
Proof.
  revert k. unfold ids. induction l as [|s l IH]; intros k; [reflexivity|]. cbn [map combine seq length fst]. rewrite IH. reflexivity.
Qed.
Lemma find_spec l c i : new_catalog l = Ok c ->
  (exists s, catalog_find c i = Ok (Some s) /\ In s l /\ s_id s = i) \/
  (catalog_find c i = Ok None /\ ~ In i (ids l)).
Proof.
  intros E. apply new_catalog_ok in E. destruct E as [-> N]. unfold catalog_find. cbn [c_index c_sources].
  destruct (index_find _ i) as [n|] eqn:F.
  - left. apply index_find_some in F. apply in_rev in F. apply combine_seq_in in F.
    destruct F as [j [s [-> [E X]]]]. cbn [Nat.add]. rewrite E. exists s. repeat split; auto. apply nth_error_In in E. exact E.
  - right. split; [reflexivity|]. apply index_find_none in F. intros I. apply F.
    rewrite map_rev. apply -> in_rev. rewrite keys_combine. exact I.
Qed.
Lemma ids_inj l s s' : NoDup (ids l) -> In s l -> In s' l -> s_id s = s_id s' -> s = s'.
Proof.
  unfold ids. induction l as [|x l IH]; [intros _ []|]. cbn [map]. intros N I I' E. inversion N as [|? ? NI N']; subst.
  destruct I as [->|I], I' as [->|I']; auto.
  - exfalso. apply NI. rewrite E. apply in_map. exact I'.
  - exfalso. apply NI. rewrite <- E. apply in_map. exact I.
Qed.
Lemma find_iff l c i s : new_catalog l = Ok c ->
  (catalog_find c i = Ok (Some s) <-> In s l /\ s_id s = i).
Proof.
  intros E. assert (N : NoDup (ids l)) by (apply new_catalog_ok in E; tauto).
  destruct (find_spec l c i E) as [[s' [F [I X]]]|[F NI]]; rewrite F.
  - split.
    + intros H. injection H as <-. auto.
    + intros [I' X']. do 2 f_equal. apply (ids_inj l); auto. congruence.
  - split; [discriminate|]. intros [I X]. exfalso. apply NI. subst i. apply in_map. exact I.
Qed.
Lemma find_none_iff l c i : new_catalog l = Ok c -> (catalog_find c i = Ok None <-> ~ In i (ids l)).
Proof.
  intros E. destruct (find_spec l c i E) as [[s' [F [I X]]]|[F NI]]; rewrite F.
  - split; [discriminate|]. intros N. exfalso. apply N. subst i. apply in_map. exact I.
  - tauto.
Qed.

Lemma get_attribute_some {T} (dcast : A -> option T) (l : list A) t :
  get_attribute_from dcast l = Some t <->
  exists pre a post, l = pre ++ a :: post /\ dcast a = Some t /\ forall b, In b pre -> dcast b = None.
Proof.
  induction l as [|x l IH]; cbn [get_attribute_from].
  - split; [discriminate|]. intros [[|x0 pre] [a [post [E _]]]]; discriminate.
  - destruct (dcast x) as [u|] eqn:E.
    + split.
      * intros H. injection H as <-. exists [], x, l. repeat split; auto. intros b [].
      * intros [[|y pre] [a [post [H [D F]]]]].
        -- injection H as -> ->. congruence.
        -- injection H as -> ->. rewrite (F y) in E by (left; reflexivity). discriminate.
    + rewrite IH. split.
      * intros [pre [a [post [-> [D F]]]]]. exists (x :: pre), a, post. repeat split; auto. intros b [<-|I]; auto.
      * intros [[|y pre] [a [post [H [D F]]]]].
        -- injection H as -> ->. congruence.
        -- injection H as -> ->. exists pre, a, post. repeat split; auto. intros b I. apply F. right. exact I.
Qed.
Lemma get_attribute_none {T} (dcast : A -> option T) (l : list A) :
  get_attribute_from dcast l = None <-> forall a, In a l -> dcast a = None.
Proof.
  induction l as [|x l IH]; cbn [get_attribute_from].
  - split; [intros _ a [] | reflexivity].
  - destruct (dcast x) as [u|] eqn:E.
    + split; [discriminate|]. intros F. rewrite (F x) in E by (left; reflexivity). discriminate.
    + rewrite IH. split; [intros F a [<-|I]; auto | intros F a I; apply F; right; exact I].
Qed.

Lemma cast_id_ok c i : cast_id c = Ok i <->
  (exists s, c = CString s /\ i = IdText s) \/ (exists z, (c = CInt z \/ c = CLong z) /\ i = IdInt z).
Proof.
  split.
  - destruct c; cbn [cast_id]; try discriminate; intros E; injection E as <-; eauto.
  - intros [[s [-> ->]]|[z [[-> | ->] ->]]]; reflexivity.
Qed.
Lemma source_of_row_ok k makers r (s : source A) : source_of_row k makers r = Ok s <->
  (exists c, nth_error (r_values r) k = Some c /\ cast_id c = Ok (s_id s))
  /\ Forall2 (fun mk a => mk r = Ok a) makers (s_attrs s).
Proof.
  unfold source_of_row. split.
  - destruct (row_at r k) as [c| | |] eqn:E; cbn [bind]; try discriminate.
    destruct (cast_id c) as [i| | |] eqn:F; cbn [bind]; try discriminate.
    destruct (map_o _ makers) as [attrs| | |] eqn:G; cbn [bind]; try discriminate.
    intros H. injection H as <-. cbn [s_id s_attrs]. apply row_at_ok in E. apply map_o_ok in G. eauto.
  - intros [[c [E F]] G]. apply row_at_ok in E. apply map_o_ok in G. rewrite E. cbn [bind]. rewrite F. cbn [bind].
    rewrite G. cbn [bind]. destruct s; reflexivity.
Qed.
Lemma create_catalog_ok k makers t (c : catalog A) : create_catalog k makers t = Ok c <->
  exists l, Forall2 (fun r s => source_of_row k makers r = Ok s) (t_rows t) l /\ new_catalog l = Ok c.
Proof.
  unfold create_catalog. split.
  - destruct (map_o _ (t_rows t)) as [l| | |] eqn:E; cbn [bind]; try discriminate. intros H. exists l. apply map_o_ok in E. auto.
  - intros [l [E H]]. apply map_o_ok in E. rewrite E. exact H.
Qed.
End Cat.
Lemma new_catalog_sources {A} (l : list (source A)) c : new_catalog l = Ok c -> catalog_sources c = l /\ catalog_size c = List.length l.
Proof. intros E. apply new_catalog_ok in E. destruct E as [-> _]. split; reflexivity. Qed.

(** ** Photometry *)
Lemma is_nan_iff d : is_nan d = true <-> d = NaN.
Proof. destruct d; cbn; split; congruence. Qed.
Lemma dlt_dle a b : dlt a b = true -> dle a b = true.
Proof. intros E. unfold dle. rewrite E. reflexivity. Qed.
Lemma dlt_not_deq a b : dlt a b = true -> deq a b = false.
Proof.
  destruct a as [x| | |], b as [y| | |]; cbn; try congruence. intros H. apply Qlt_b_iff in H.
  destruct (Qeq_bool x y) eqn:E; [|reflexivity]. apply Qeq_bool_iff in E. rewrite E in H. apply Qlt_irrefl in H. destruct H.
Qed.
Lemma dabs_pos d : dlt d dzero = true -> positive (dabs d).
Proof.
  destruct d as [x| | |]; cbn; try congruence; unfold positive; cbn; auto.
  intros H. apply Qlt_b_iff in H. apply Qlt_b_iff. rewrite Qabs_neg by (apply Qlt_le_weak; exact H).
  apply Qopp_lt_compat in H. exact H.
Qed.
Lemma not_dle_pos d : dle d dzero = false -> positive d \/ d = NaN.
Proof.
  unfold positive. destruct d as [x| | |]; cbn; auto; try discriminate. unfold dle. cbn. rewrite orb_false_iff. intros [A B].
  left. apply Qlt_b_iff. apply Qlt_b_false in A. apply Qle_lteq in A. destruct A as [A|A]; [exact A|].
  assert (Qeq_bool x 0 = true) by (apply Qeq_bool_iff; symmetry; exact A). congruence.
Qed.
Lemma dle_lt_or_eq d : deq d dzero = false -> dlt d dzero = false -> positive d \/ d = NaN.
Proof. intros A B. apply not_dle_pos. unfold dle. rewrite A, B. reflexivity. Qed.
Lemma div_pos x n : positive (Fin x) -> positive (dabs (ddiv (Fin x) (Fin n))).
Proof.
  unfold positive. cbn [dlt dzero]. intros H. apply Qlt_b_iff in H. unfold ddiv.
  destruct (Qeq_bool n 0) eqn:E.
  - cbn [sign_of]. apply Qgt_alt in H. rewrite H. reflexivity.
  - cbn [dabs dlt dzero]. apply Qlt_b_iff.
    assert (NZ : ~ (n == 0)%Q) by (intros X; apply Qeq_bool_iff in X; congruence).
    assert (P : ~ (x / n == 0)%Q).
    { intros X. assert (Y : (x == 0)%Q).
      { rewrite <- (Qmult_div_r x n NZ). rewrite X. ring. }
      rewrite Y in H. apply Qlt_irrefl in H. exact H. }
    destruct (Qlt_le_dec 0 (Qabs (x / n))) as [L|L]; [exact L|]. exfalso. apply P.
    assert (Z0 : (Qabs (x / n) == 0)%Q) by (apply Qle_antisym; [exact L | apply Qabs_nonneg]).
    apply Qabs_case with (x := (x / n)%Q) (P := fun a => (a == 0)%Q -> (x / n == 0)%Q) in Z0; auto.
    intros _ X. setoid_replace (x / n)%Q with (- - (x / n))%Q by ring. rewrite X. reflexivity.
Qed.

Ltac entry_case :=
  unfold entry_of, is_limit; cbn [f_flux f_error f_missing f_upper];
  refine (conj eq_refl (conj _ (conj _ (conj _ (conj _ (conj _ _))))));
  first [ split; intros; solve [reflexivity | discriminate | tauto | exfalso; tauto | intuition congruence]
        | intros ? ->; reflexivity
        | intros; solve [reflexivity | discriminate | exfalso; tauto | exfalso; intuition congruence] ].

Section Phot.
Variable strtod : text -> option dbl.
Variable same : dbl -> dbl -> bool.
Variable mag_flux : dbl -> dbl.
Variable mag_error : dbl -> dbl -> dbl.

(** The entry computed from values already converted. *)
Lemma convert_spec p mag err : converted same mag_flux mag_error (p_missing_flag p) (p_upper_flag p) mag err
  (fst (convert_from_mag same mag_flux mag_error p mag err)) (snd (convert_from_mag same mag_flux mag_error p mag err)).
Proof.
  unfold converted, convert_from_mag. destruct (same mag (p_missing_flag p)) eqn:E; cbn [orb fst snd].
  - left. auto.
  - destruct (is_nan mag) eqn:N; cbn [fst snd].
    + left. apply is_nan_iff in N. auto.
    + right. repeat split; auto.
      * intros ->. discriminate N.
      * destruct (same err (p_upper_flag p)); auto.
Qed.

Lemma entry_plain p n flux error :
  (create_entry same mag_flux mag_error p n false flux error = Throw
   <-> rejected same (p_missing_on p) (p_upper_on p) (p_missing_flag p) flux error)
  /\ (forall x, create_entry same mag_flux mag_error p n false flux error = Ok x ->
       entry_of same (p_missing_on p) (p_upper_on p) (p_missing_flag p) (p_upper_flag p) flux error n x)
  /\ ((exists x, create_entry same mag_flux mag_error p n false flux error = Ok x)
      \/ create_entry same mag_flux mag_error p n false flux error = Throw).
Proof.
  unfold create_entry.
  destruct (is_infinite flux) eqn:EI.
  { repeat split; try discriminate; auto. intros _. apply rej_infinite. destruct flux; try discriminate; auto. }
  assert (NI : ~ (flux = PInf \/ flux = NInf)) by (intros [-> | ->]; discriminate EI).
  destruct (p_missing_on p) eqn:EM.
  - destruct (same flux (p_missing_flag p) || is_nan flux) eqn:ES.
    + assert (M : is_missing same true (p_missing_flag p) flux).
      { split; [reflexivity|]. apply orb_true_iff in ES. rewrite is_nan_iff in ES. exact ES. }
      split; [split; [discriminate|]|split; [|eauto]].
      * intros [H|H _|H _ _|H _ _|H _ _ _]; [contradiction | discriminate | contradiction ..].
      * intros x E. injection E as <-. entry_case.
    + assert (M : ~ is_missing same true (p_missing_flag p) flux).
      { intros [_ H]. rewrite <- is_nan_iff in H. apply orb_true_iff in H. congruence. }
      destruct (p_upper_on p) eqn:EU.
      * destruct (deq error dzero) eqn:E0.
        { repeat split; try discriminate; auto. intros _. apply rej_zero_error; auto. }
        destruct (dlt error dzero) eqn:EL.
        { destruct (dle flux dzero) eqn:EF.
          { repeat split; try discriminate; auto. intros _. apply rej_limit_flux; auto. }
          split; [split; [discriminate|]|split; [|eauto]].
          - intros [H|H _|_ H _|_ _ H|_ _ _ H]; [contradiction | discriminate | discriminate | congruence | congruence].
          - intros x E. injection E as <-. entry_case. }
        { split; [split; [discriminate|]|split; [|eauto]].
          - intros [H|H _|_ H _|_ _ H|_ _ H _]; [contradiction | discriminate | discriminate | congruence | congruence].
          - intros x E. injection E as <-. entry_case. }
      * destruct (dle error dzero) eqn:EE.
        { repeat split; try discriminate; auto. intros _. apply rej_error; auto. }
        split; [split; [discriminate|]|split; [|eauto]].
        -- intros [H|H _|_ _ H|_ H _|_ H _ _]; [contradiction | discriminate | congruence | discriminate | discriminate].
        -- intros x E. injection E as <-. entry_case.
  - assert (M : ~ is_missing same false (p_missing_flag p) flux) by (intros [H _]; discriminate).
    destruct (is_nan flux) eqn:EN.
    { repeat split; try discriminate; auto. intros _. apply rej_nan; auto. apply is_nan_iff. exact EN. }
    assert (NN : flux <> NaN) by (intros H; apply is_nan_iff in H; congruence).
    destruct (p_upper_on p) eqn:EU.
    + destruct (deq error dzero) eqn:E0.
      { repeat split; try discriminate; auto. intros _. apply rej_zero_error; auto. }
      destruct (dlt error dzero) eqn:EL.
      { destruct (dle flux dzero) eqn:EF.
        { repeat split; try discriminate; auto. intros _. apply rej_limit_flux; auto. }
        split; [split; [discriminate|]|split; [|eauto]].
        - intros [H|_ H|_ H _|_ _ H|_ _ _ H]; [contradiction | contradiction | discriminate | congruence | congruence].
        - intros x E. injection E as <-. entry_case. }
      { split; [split; [discriminate|]|split; [|eauto]].
        - intros [H|_ H|_ H _|_ _ H|_ _ H _]; [contradiction | contradiction | discriminate | congruence | congruence].
        - intros x E. injection E as <-. entry_case. }
    + destruct (dle error dzero) eqn:EE.
      { repeat split; try discriminate; auto. intros _. apply rej_error; auto. }
      split; [split; [discriminate|]|split; [|eauto]].
      * intros [H|_ H|_ _ H|_ H _|_ H _ _]; [contradiction | contradiction | congruence | discriminate | discriminate].
      * intros x E. injection E as <-. entry_case.
Qed.
Lemma entry_converted p n mag err :
  create_entry same mag_flux mag_error p n true mag err
  = create_entry same mag_flux mag_error p n false (fst (convert_from_mag same mag_flux mag_error p mag err))
      (snd (convert_from_mag same mag_flux mag_error p mag err)).
Proof. unfold create_entry. destruct (convert_from_mag same mag_flux mag_error p mag err). reflexivity. Qed.

(** Without a rejection and with a finite threshold the error is positive or NaN. *)
Lemma entry_contract mo uo mf uf flux error n x :
  ~ rejected same mo uo mf flux error -> entry_of same mo uo mf uf flux error n x ->
  (f_missing x = true -> mo = true /\ f_error x = dzero /\ f_upper x = false)
  /\ (f_upper x = true -> uo = true /\ f_missing x = false /\ positive (f_flux x))
  /\ (f_missing x = false -> exists q, f_flux x = Fin q)
  /\ (f_missing x = false -> (exists q, n = Fin q) -> positive (f_error x) \/ f_error x = NaN).
Proof.
  intros R [F [M [U [E1 [E2 [E3 E4]]]]]].
  assert (FQ : f_missing x = false -> exists q, flux = Fin q).
  { intros N. destruct flux as [q| | |]; [eauto | exfalso; apply R; apply rej_infinite; auto .. |].
    exfalso. destruct mo eqn:Emo.
    - assert (f_missing x = true) by (apply M; split; auto). congruence.
    - apply R. apply rej_nan; auto. }
  assert (DM : is_missing same mo mf flux \/ ~ is_missing same mo mf flux).
  { destruct (f_missing x); [left; apply M; reflexivity | right; intros H; apply M in H; discriminate]. }
  assert (DL : is_limit same mo uo mf flux error \/ ~ is_limit same mo uo mf flux error).
  { destruct (f_upper x); [left; apply U; reflexivity | right; intros H; apply U in H; discriminate]. }
  repeat split.
  - apply M in H. destruct H; assumption.
  - apply E1, M, H.
  - apply not_true_iff_false. intros EU. apply M in H. apply U in EU. destruct EU. contradiction.
  - apply U in H. destruct H as [_ [H _]]. exact H.
  - apply not_true_iff_false. intros EM. apply U in H. destruct H as [H _]. apply H, M, EM.
  - apply U in H. destruct H as [H [HU HL]]. rewrite F.
    destruct (not_dle_pos flux) as [P|P]; [|exact P|].
    + destruct (dle flux dzero) eqn:D; [|reflexivity]. exfalso. apply R. apply rej_limit_flux; auto.
    + exfalso. destruct FQ as [q Q]; [|congruence]. apply not_true_iff_false. intros EM. apply H, M, EM.
  - rewrite F. exact FQ.
  - intros N [q Q]. assert (NM : ~ is_missing same mo mf flux) by (intros H; apply M in H; congruence).
    destruct (FQ N) as [y Y]. destruct DL as [L|L].
    + left. destruct (same error uf) eqn:S.
      * rewrite (E2 L eq_refl), Q, Y. apply div_pos. destruct L as [_ [HU HL]].
        destruct (not_dle_pos flux) as [P|P].
        -- destruct (dle flux dzero) eqn:D; [|reflexivity]. exfalso. apply R. apply rej_limit_flux; auto.
        -- rewrite Y in P. exact P.
        -- congruence.
      * rewrite (E3 L eq_refl). destruct L as [_ [_ HL]]. apply dabs_pos. exact HL.
    + rewrite (E4 NM L). destruct uo eqn:EU.
      * apply dle_lt_or_eq.
        -- destruct (deq error dzero) eqn:D; [|reflexivity]. exfalso. apply R. apply rej_zero_error; auto.
        -- destruct (dlt error dzero) eqn:D; [|reflexivity]. exfalso. apply L. repeat split; auto.
      * apply not_dle_pos. destruct (dle error dzero) eqn:D; [|reflexivity]. exfalso. apply R. apply rej_error; auto.
Qed.

(** The constructor. *)
Lemma find_columns_ok info m cols : find_columns info m = Ok cols <->
  Forall2 (fun f ij => find_col info (fst (snd f)) = Some (fst ij) /\ find_col info (snd (snd f)) = Some (snd ij)) m cols.
Proof.
  revert cols. induction m as [|[nm [fl er]] m IH]; intros cols; cbn [find_columns].
  - split; [intros E; injection E as <-; constructor | intros H; inversion H; reflexivity].
  - destruct (find_col info fl) as [i|] eqn:E1.
    + destruct (find_col info er) as [j|] eqn:E2.
      * destruct (find_columns info m) as [rest| | |] eqn:E3; cbn [bind].
        -- split.
           ++ intros E. injection E as <-. constructor; [cbn; auto | apply IH; reflexivity].
           ++ intros H. inversion H as [|? [i' j'] ? rest' [A B] C]; subst. cbn [fst snd] in A, B. apply IH in C. congruence.
        -- split; [discriminate|]. intros H. inversion H as [|? ? ? rest' _ C]; subst. apply IH in C. discriminate.
        -- split; [discriminate|]. intros H. inversion H as [|? ? ? rest' _ C]; subst. apply IH in C. discriminate.
        -- split; [discriminate|]. intros H. inversion H as [|? ? ? rest' _ C]; subst. apply IH in C. discriminate.
      * split; [discriminate|]. intros H. inversion H as [|? ? ? rest' [A B] C]; subst. cbn [fst snd] in A, B. congruence.
    + split; [discriminate|]. intros H. inversion H as [|? ? ? rest' [A B] C]; subst. cbn [fst snd] in A, B. congruence.
Qed.
Lemma find_columns_outcomes info m : (exists c, find_columns info m = Ok c) \/ find_columns info m = Throw.
Proof.
  induction m as [|[nm [fl er]] m IH]; cbn [find_columns]; [eauto|].
  destruct (find_col info fl); [|auto]. destruct (find_col info er); [|auto].
  destruct IH as [[c ->]| ->]; cbn [bind]; eauto.
Qed.
Lemma create_entries_ok p r cols ns cs es :
  create_entries strtod same mag_flux mag_error p r cols ns cs = Ok es ->
  length es = length cols /\
  forall k ij, nth_error cols k = Some ij ->
    exists a b n c x, numbers_at strtod r (fst ij) (snd ij) a b /\ nth_error ns k = Some n /\ nth_error cs k = Some c
      /\ nth_error es k = Some x /\ create_entry same mag_flux mag_error p (snd n) (snd c) a b = Ok x.
Proof.
  revert ns cs es. induction cols as [|[i j] cols IH]; intros ns cs es; cbn [create_entries].
  - intros E. injection E as <-. split; [reflexivity|]. intros [|k] ij H; discriminate.
  - destruct (row_at r i) as [ca| | |] eqn:E1; cbn [bind]; try discriminate.
    destruct (row_at r j) as [cb| | |] eqn:E2; cbn [bind]; try discriminate.
    destruct (cast_double strtod ca) as [a| | |] eqn:E3; cbn [bind]; try discriminate.
    destruct (cast_double strtod cb) as [b| | |] eqn:E4; cbn [bind]; try discriminate.
    destruct ns as [|n ns]; try discriminate. destruct cs as [|c cs]; try discriminate.
    destruct (create_entry _ _ _ _ _ _ _ _) as [x| | |] eqn:E5; cbn [bind]; try discriminate.
    destruct (create_entries _ _ _ _ _ _ cols ns cs) as [xs| | |] eqn:E6; cbn [bind]; try discriminate.
    intros E. injection E as <-. destruct (IH _ _ _ E6) as [L K]. split; [cbn; congruence|].
    intros [|k] ij H; cbn [nth_error] in *.
    + injection H as <-. exists a, b, n, c, x. repeat split; auto. exists ca, cb.
      apply row_at_ok in E1. apply row_at_ok in E2. auto.
    + apply K. exact H.
Qed.
Lemma create_entries_iff p r cols ns cs es : length cols <= length ns -> length cols <= length cs ->
  (create_entries strtod same mag_flux mag_error p r cols ns cs = Ok es <->
   length es = length cols /\
   forall k ij, nth_error cols k = Some ij ->
    exists a b n c x, numbers_at strtod r (fst ij) (snd ij) a b /\ nth_error ns k = Some n /\ nth_error cs k = Some c
      /\ nth_error es k = Some x /\ create_entry same mag_flux mag_error p (snd n) (snd c) a b = Ok x).
Proof.
  intros _ _. split; [apply create_entries_ok|].
  revert ns cs es. induction cols as [|[i j] cols IH]; intros ns cs es [L K].
  - destruct es; [reflexivity | discriminate].
  - destruct (K 0 (i, j) eq_refl) as [a [b [n [c [x [[ca [cb [C1 [C2 [C3 C4]]]]] [E1 [E2 [E3 E4]]]]]]]]].
    cbn [fst snd] in C1, C2. destruct ns as [|n' ns]; [discriminate|]. destruct cs as [|c' cs]; [discriminate|].
    destruct es as [|x' es]; [discriminate|]. cbn [nth_error] in E1, E2, E3. injection E1 as ->. injection E2 as ->. injection E3 as ->.
    cbn [create_entries]. rewrite (proj2 (row_at_ok _ _ _) C1). cbn [bind]. rewrite (proj2 (row_at_ok _ _ _) C2). cbn [bind].
    rewrite C3. cbn [bind]. rewrite C4. cbn [bind]. rewrite E4. cbn [bind].
    rewrite (IH ns cs es); [reflexivity|]. split; [cbn in L; congruence|]. intros k ij H. apply (K (S k) ij H).
Qed.
Lemma create_entries_defined p r cols ns cs : length cols <= length ns -> length cols <= length cs ->
  (exists es, create_entries strtod same mag_flux mag_error p r cols ns cs = Ok es)
  \/ create_entries strtod same mag_flux mag_error p r cols ns cs = Throw.
Proof.
  revert ns cs. induction cols as [|[i j] cols IH]; intros ns cs L1 L2; cbn [create_entries]; [eauto|].
  assert (RA : forall k, (exists c, row_at r k = Ok c) \/ row_at r k = Throw).
  { intros k. destruct (nth_error (r_values r) k) as [c|] eqn:E; [left|right].
    - exists c. apply row_at_ok. exact E.
    - apply row_at_throw. apply nth_error_None. exact E. }
  destruct (RA i) as [[ca ->]| ->]; cbn [bind]; [|auto]. destruct (RA j) as [[cb ->]| ->]; cbn [bind]; [|auto].
  destruct (cast_double_outcomes strtod ca) as [[a ->]| ->]; cbn [bind]; [|auto].
  destruct (cast_double_outcomes strtod cb) as [[b ->]| ->]; cbn [bind]; [|auto].
  destruct ns as [|n ns]; [cbn in L1; lia|]. destruct cs as [|c cs]; [cbn in L2; lia|].
  assert (CE : forall cv, (exists x, create_entry same mag_flux mag_error p (snd n) cv a b = Ok x)
                 \/ create_entry same mag_flux mag_error p (snd n) cv a b = Throw).
  { intros [|]; [rewrite entry_converted|]; apply entry_plain. }
  destruct (CE (snd c)) as [[x ->]| ->]; cbn [bind]; [|auto].
  destruct (IH ns cs) as [[es ->]| ->]; cbn [length] in *; try lia; cbn [bind]; eauto.
Qed.

Lemma phot_scan_spec nms vs name : length nms = length vs ->
  (exists k x, nth_error nms k = Some name /\ nth_error vs k = Some x
     /\ (forall j, j < k -> nth_error nms j <> Some name) /\ phot_scan nms vs name = Ok (Some x))
  \/ (~ In name nms /\ phot_scan nms vs name = Ok None).
Proof.
  revert vs. induction nms as [|n nms IH]; intros [|v vs] L; try discriminate; cbn [phot_scan].
  - right. split; [intros [] | reflexivity].
  - destruct (text_eqb n name) eqn:E.
    + apply text_eqb_iff in E. subst n. left. exists 0, v. repeat split. intros j H. lia.
    + assert (NE : n <> name) by (intros X; apply text_eqb_iff in X; congruence).
      destruct (IH vs) as [[k [x [A [B [C D]]]]]|[A B]]; [cbn in L; congruence| |].
      * left. exists (S k), x. repeat split; auto. intros [|j] H; cbn [nth_error]; [congruence | apply C; lia].
      * right. split; [intros [X|X]; auto | exact B].
Qed.
End Phot.

Lemma create_photometry_ok strtod same mag_flux mag_error p r ph :
  create_photometry strtod same mag_flux mag_error p r = Ok ph ->
  ph_names ph = p_names p /\ length (ph_values ph) = length (p_names p) /\
  create_entries strtod same mag_flux mag_error p r (p_columns p) (p_thresholds p) (p_converts p) = Ok (ph_values ph).
Proof.
  unfold create_photometry, new_photometry. destruct (create_entries _ _ _ _ _ _ _ _ _) as [es| | |]; cbn [bind]; try discriminate.
  destruct (Nat.eqb _ _) eqn:E; [|discriminate]. intros H. injection H as <-. cbn [ph_names ph_values].
  apply Nat.eqb_eq in E. auto.
Qed.

Lemma find_col_named info name i : NoDup (names_of info) -> (find_col info name = Some i <-> column_named info name i).
Proof.
  intros N. rewrite find_col_iff by exact N. unfold column_named, names_of. rewrite nth_error_map.
  destruct (nth_error info i) as [d|]; cbn [option_map]; split.
  - intros E. injection E as <-. eauto.
  - intros [d' [E <-]]. injection E as <-. reflexivity.
  - discriminate.
  - intros [d' [E _]]. discriminate.
Qed.
Lemma entry_unique same mo uo mf uf flux error n x y :
  entry_of same mo uo mf uf flux error n x -> entry_of same mo uo mf uf flux error n y -> x = y.
Proof.
  intros [F [M [U [E1 [E2 [E3 E4]]]]]] [F' [M' [U' [E1' [E2' [E3' E4']]]]]].
  assert (A : f_missing x = f_missing y).
  { destruct (f_missing x), (f_missing y); auto; [symmetry; apply M', M | apply M, M']; reflexivity. }
  assert (B : f_upper x = f_upper y).
  { destruct (f_upper x), (f_upper y); auto; [symmetry; apply U', U | apply U, U']; reflexivity. }
  assert (C : f_error x = f_error y).
  { destruct (f_missing x) eqn:EM.
    - assert (K : is_missing same mo mf flux) by (apply M; reflexivity). rewrite (E1 K), (E1' K). reflexivity.
    - assert (K : ~ is_missing same mo mf flux) by (intros H; apply M in H; discriminate).
      destruct (f_upper x) eqn:EU.
      + assert (L : is_limit same mo uo mf flux error) by (apply U; reflexivity).
        destruct (same error uf) eqn:ES; [rewrite (E2 L eq_refl), (E2' L eq_refl) | rewrite (E3 L eq_refl), (E3' L eq_refl)]; reflexivity.
      + assert (L : ~ is_limit same mo uo mf flux error) by (intros H; apply U in H; discriminate).
        rewrite (E4 K L), (E4' K L). reflexivity. }
  destruct x, y. cbn in *. congruence.
Qed.
Lemma converted_unique same mf me fl uf mag err a b a' b' :
  converted same mf me fl uf mag err a b -> converted same mf me fl uf mag err a' b' -> a = a' /\ b = b'.
Proof.
  intros [[H [-> ->]]|[H [H2 [-> H3]]]] [[K [-> ->]]|[K [K2 [-> K3]]]].
  - auto.
  - exfalso. destruct H; congruence.
  - exfalso. destruct K; congruence.
  - split; [reflexivity|]. destruct H3 as [[X ->]|[X ->]], K3 as [[Y ->]|[Y ->]]; congruence.
Qed.
Lemma create_entry_iff same mf me p n cv a b x :
  create_entry same mf me p n cv a b = Ok x <->
  exists flux error,
    (if cv then converted same mf me (p_missing_flag p) (p_upper_flag p) a b flux error else flux = a /\ error = b)
    /\ ~ rejected same (p_missing_on p) (p_upper_on p) (p_missing_flag p) flux error
    /\ entry_of same (p_missing_on p) (p_upper_on p) (p_missing_flag p) (p_upper_flag p) flux error n x.
Proof.
  assert (K : forall a b, create_entry same mf me p n false a b = Ok x <->
    ~ rejected same (p_missing_on p) (p_upper_on p) (p_missing_flag p) a b
    /\ entry_of same (p_missing_on p) (p_upper_on p) (p_missing_flag p) (p_upper_flag p) a b n x).
  { intros a' b'. destruct (entry_plain same mf me p n a' b') as [R [E O]]. split.
    - intros H. split; [intros X; apply R in X; congruence | apply E; exact H].
    - intros [NR EO]. destruct O as [[y Y]|Y]; [|apply R in Y; contradiction]. rewrite Y. f_equal.
      eapply entry_unique; [apply E; exact Y | exact EO]. }
  destruct cv.
  - rewrite entry_converted, K. assert (C := convert_spec same mf me p a b). split.
    + intros [H1 H2]. eauto.
    + intros [flux [error [C' [H1 H2]]]]. destruct (converted_unique _ _ _ _ _ _ _ _ _ _ _ C C') as [-> ->]. auto.
  - rewrite K. split.
    + intros [H1 H2]. exists a, b. auto.
    + intros [flux [error [[-> ->] H]]]. exact H.
Qed.
Lemma new_pfr_ok info m mo mf uo ns uf cs p : new_pfr info m mo mf uo ns uf cs = Ok p <->
  exists cols, find_columns info m = Ok cols /\
    p = mkPfr (map fst m) cols mo mf uo ns uf (if Nat.eqb (length cs) (length ns) then cs else map (fun p => (fst p, false)) ns).
Proof.
  unfold new_pfr. split.
  - destruct (find_columns info m) as [cols| | |]; cbn [bind]; try discriminate. intros E. injection E as <-. eauto.
  - intros [cols [-> ->]]. reflexivity.
Qed.
Lemma photometry_iff strtod same mag_flux mag_error info m mo mf uo ns uf cs p r ph :
  NoDup (names_of info) -> new_pfr info m mo mf uo ns uf cs = Ok p -> length cs = length ns ->
  (create_photometry strtod same mag_flux mag_error p r = Ok ph <->
   ph_names ph = names m /\ length (ph_values ph) = length m /\
   forall k f, nth_error m k = Some f ->
     exists n c x, nth_error ns k = Some n /\ nth_error cs k = Some c /\ nth_error (ph_values ph) k = Some x
       /\ filter_entry strtod same mag_flux mag_error mo mf uo uf info r f (snd n) (snd c) x).
Proof.
  intros N E L. apply new_pfr_ok in E. destruct E as [cols [C ->]]. rewrite L, Nat.eqb_refl in *.
  apply find_columns_ok in C.
  assert (LC : length cols = length m) by (clear - C; induction C; cbn; congruence).
  assert (NC : forall k f, nth_error m k = Some f -> exists ij, nth_error cols k = Some ij
     /\ find_col info (fst (snd f)) = Some (fst ij) /\ find_col info (snd (snd f)) = Some (snd ij)).
  { clear - C. intros k. revert m cols C. induction k as [|k IH]; intros m cols C f H.
    - destruct C as [|x y m cols A C]; [discriminate|]. injection H as ->. exists y. auto.
    - destruct C as [|x y m cols A C]; [discriminate|]. apply (IH m cols C f H). }
  set (p := mkPfr _ _ _ _ _ _ _ _). split.
  - intros H. apply create_photometry_ok in H. destruct H as [H1 [H2 H3]]. split; [exact H1|]. split.
    { rewrite H2. unfold p. cbn [p_names]. apply map_length. }
    intros k f F. destruct (NC k f F) as [ij [I1 [I2 I3]]]. apply create_entries_ok in H3. destruct H3 as [_ H3].
    destruct (H3 k ij I1) as [a [b [n [c [x [A1 [A2 [A3 [A4 A5]]]]]]]]].
    exists n, c, x. split; [exact A2|]. split; [exact A3|]. split; [exact A4|].
    apply create_entry_iff in A5. destruct A5 as [flux [error [B1 [B2 B3]]]].
    exists (fst ij), (snd ij), a, b, flux, error.
    split; [apply find_col_named; assumption|]. split; [apply find_col_named; assumption|]. auto.
  - intros [H1 [H2 H3]]. unfold create_photometry.
    assert (CE : create_entries strtod same mag_flux mag_error p r (p_columns p) (p_thresholds p) (p_converts p) = Ok (ph_values ph)).
    { assert (LE : length m <= length ns).
      { apply Nat.nlt_ge. intros LT. destruct (nth_error m (length ns)) as [f|] eqn:F.
        - destruct (H3 _ f F) as [n [c [x [X _]]]]. assert (nth_error ns (length ns) = None) by (apply nth_error_None; lia). congruence.
        - apply nth_error_None in F. lia. }
      apply create_entries_iff; unfold p; cbn [p_columns p_thresholds p_converts]; try lia.
      split; [congruence|]. intros k ij I.
      destruct (nth_error m k) as [f|] eqn:F.
      - destruct (NC k f F) as [ij' [I1 [I2 I3]]]. rewrite I in I1. injection I1 as <-.
        destruct (H3 k f F) as [n [c [x [A1 [A2 [A3 [i [j [a [b [flux [error [B1 [B2 [B3 B4]]]]]]]]]]]]]]].
        apply find_col_named in B1; [|exact N]. apply find_col_named in B2; [|exact N].
        assert (i = fst ij) by congruence. assert (j = snd ij) by congruence. subst i j.
        exists a, b, n, c, x. repeat (split; [assumption|]). apply create_entry_iff. exists flux, error. exact B4.
      - apply nth_error_None in F. assert (nth_error cols k <> None) by congruence. apply nth_error_Some in H. lia. }
    rewrite CE. cbn [bind new_photometry]. replace (length (p_names p)) with (length (ph_values ph)).
    + rewrite Nat.eqb_refl. destruct ph. cbn in *. unfold p. cbn [p_names]. rewrite H1. reflexivity.
    + unfold p. cbn [p_names]. rewrite map_length. exact H2.
Qed.
Lemma photometry_defined strtod same mag_flux mag_error info m mo mf uo ns uf cs p r :
  new_pfr info m mo mf uo ns uf cs = Ok p -> length m <= length ns ->
  (exists ph, create_photometry strtod same mag_flux mag_error p r = Ok ph)
  \/ create_photometry strtod same mag_flux mag_error p r = Throw.
Proof.
  intros E L. apply new_pfr_ok in E. destruct E as [cols [C ->]].
  apply find_columns_ok in C.
  assert (LC : length cols = length m) by (clear - C; induction C; cbn; congruence).
  set (cs' := if Nat.eqb (length cs) (length ns) then cs else map (fun p0 => (fst p0, false)) ns).
  assert (LS : length cs' = length ns) by (unfold cs'; destruct (Nat.eqb _ _) eqn:X; [apply Nat.eqb_eq; exact X | apply map_length]).
  clearbody cs'. unfold create_photometry. cbn [p_columns p_thresholds p_converts].
  destruct (create_entries_defined strtod same mag_flux mag_error (mkPfr (map fst m) cols mo mf uo ns uf cs') r cols ns cs') as [[es X]|X].
  - rewrite LC. exact L.
  - rewrite LC, LS. exact L.
  - rewrite X. cbn [bind new_photometry]. destruct (Nat.eqb _ _); [left; eexists; reflexivity | right; reflexivity].
  - right. rewrite X. reflexivity.
Qed.
Lemma new_pfr_iff info m mo mf uo ns uf cs : NoDup (names_of info) ->
  ((exists p, new_pfr info m mo mf uo ns uf cs = Ok p) <->
   forall f, In f m -> In (fst (snd f)) (names_of info) /\ In (snd (snd f)) (names_of info)).
Proof.
  intros N. assert (K : forall nm, In nm (names_of info) <-> exists i, find_col info nm = Some i).
  { intros nm. destruct (find_col info nm) as [i|] eqn:E.
    - split; [eauto|]. intros _. destruct (in_dec text_dec nm (names_of info)) as [Y|Y]; [exact Y|].
      apply find_col_none in Y. congruence.
    - apply find_col_none in E. split; [contradiction|]. intros [i X]. discriminate. }
  split.
  - intros [p E] f I. apply new_pfr_ok in E. destruct E as [cols [C _]]. apply find_columns_ok in C.
    clear - C I K. induction C as [|x y m cols [A B] C IH]; [destruct I|]. destruct I as [->|I]; [|auto].
    split; apply K; eauto.
  - intros F. assert (G : exists cols, find_columns info m = Ok cols).
    { induction m as [|[nm [fl er]] m IH]; cbn [find_columns]; [eauto|].
      destruct (F (nm, (fl, er)) (or_introl eq_refl)) as [A B]. cbn [fst snd] in A, B. apply K in A. apply K in B.
      destruct A as [i ->], B as [j ->]. destruct IH as [cols ->]; [intros f I; apply F; right; exact I|]. cbn [bind]. eauto. }
    destruct G as [cols G]. eexists. apply new_pfr_ok. eauto.
Qed.
Lemma phot_find_ok names_ values p name : new_photometry (Some names_) values = Ok p ->
  (exists k x, nth_error (ph_names p) k = Some name /\ nth_error (ph_values p) k = Some x
     /\ (forall j, j < k -> nth_error (ph_names p) j <> Some name) /\ phot_find p name = Ok (Some x))
  \/ (~ In name (ph_names p) /\ phot_find p name = Ok None).
Proof.
  unfold new_photometry. destruct (Nat.eqb _ _) eqn:E; [|discriminate]. intros H. injection H as <-.
  apply phot_scan_spec. apply Nat.eqb_eq. exact E.
Qed.

(** Equality of entries. *)
Lemma deq_sym a b : deq a b = deq b a.
Proof. destruct a, b; cbn; auto. destruct (Qeq_bool q q0) eqn:E, (Qeq_bool q0 q) eqn:F; auto.
  - apply Qeq_bool_iff in E. symmetry in E. apply Qeq_bool_iff in E. congruence.
  - apply Qeq_bool_iff in F. symmetry in F. apply Qeq_bool_iff in F. congruence.
Qed.
Lemma fep_sym a b : fep_eqb a b = fep_eqb b a.
Proof.
  unfold fep_eqb. rewrite (andb_comm (f_missing a)), (deq_sym (f_flux a)), (deq_sym (f_error a)).
  f_equal. f_equal. destruct (f_upper a), (f_upper b); reflexivity.
Qed.
Lemma deq_refl a : deq a a = true <-> a <> NaN.
Proof. destruct a; cbn; split; try congruence. intros _. apply Qeq_bool_iff. reflexivity. Qed.
Lemma deq_trans a b c : deq a b = true -> deq b c = true -> deq a c = true.
Proof.
  destruct a, b, c; cbn; try congruence. rewrite !Qeq_bool_iff. intros X Y. rewrite X. exact Y.
Qed.
Lemma fep_refl a : fep_eqb a a = true <-> f_missing a = true \/ (f_flux a <> NaN /\ f_error a <> NaN).
Proof.
  unfold fep_eqb. rewrite orb_true_iff, !andb_true_iff, !deq_refl.
  assert (T : Bool.eqb (f_upper a) (f_upper a) = true) by (destruct (f_upper a); reflexivity). rewrite T. tauto.
Qed.
Lemma fep_trans a b c : f_missing a = f_missing b -> f_missing b = f_missing c ->
  fep_eqb a b = true -> fep_eqb b c = true -> fep_eqb a c = true.
Proof.
  unfold fep_eqb. intros A B. rewrite <- B, <- A. destruct (f_missing a); cbn [andb orb]; auto.
  rewrite !andb_true_iff, !Bool.eqb_true_iff. intros [[E1 E2] E3] [[F1 F2] F3].
  repeat split; [eapply deq_trans; eauto .. | congruence].
Qed.

(** Redshifts. *)
Lemma redshift_ok strtod info value error f r z e : NoDup (names_of info) ->
  new_zfr info value error = Ok f ->
  (create_redshift strtod f r = Ok (z, e) <->
   exists i c, column_named info value i /\ nth_error (r_values r) i = Some c /\ cast_double strtod c = Ok z
     /\ match error with
        | None => e = Fin 0%Q
        | Some en => exists j ce, column_named info en j /\ nth_error (r_values r) j = Some ce /\ cast_double strtod ce = Ok e
        end).
Proof.
  intros N. unfold new_zfr. destruct (find_col info value) as [k|] eqn:V; [|discriminate].
  assert (V' := V). apply find_col_named in V'; [|exact N].
  assert (UV : forall i, column_named info value i -> i = k) by (intros i H; apply find_col_named in H; [congruence | exact N]).
  destruct error as [en|].
  - destruct (find_col info en) as [j|] eqn:W; [|discriminate]. intros E. injection E as <-.
    assert (W' := W). apply find_col_named in W'; [|exact N].
    assert (UW : forall i, column_named info en i -> i = j) by (intros i H; apply find_col_named in H; [congruence | exact N]).
    unfold create_redshift. cbn [z_value z_error]. split.
    + destruct (row_at r k) as [c| | |] eqn:R; cbn [bind]; try discriminate.
      destruct (cast_double strtod c) as [z'| | |] eqn:CC; cbn [bind]; try discriminate.
      destruct (row_at r j) as [ce| | |] eqn:R2; cbn [bind]; try discriminate.
      destruct (cast_double strtod ce) as [e'| | |] eqn:CE; cbn [bind]; try discriminate.
      intros E. injection E as <- <-. apply row_at_ok in R. apply row_at_ok in R2.
      exists k, c. repeat (split; [assumption|]). exists j, ce. auto.
    + intros [i [c [A1 [A2 [A3 [j' [ce [B1 [B2 B3]]]]]]]]]. rewrite (UV _ A1) in A2. rewrite (UW _ B1) in B2.
      rewrite (proj2 (row_at_ok _ _ _) A2). cbn [bind]. rewrite A3. cbn [bind].
      rewrite (proj2 (row_at_ok _ _ _) B2). cbn [bind]. rewrite B3. reflexivity.
  - intros E. injection E as <-. unfold create_redshift. cbn [z_value z_error]. split.
    + destruct (row_at r k) as [c| | |] eqn:R; cbn [bind]; try discriminate.
      destruct (cast_double strtod c) as [z'| | |] eqn:CC; cbn [bind]; try discriminate.
      intros E. injection E as <- <-. apply row_at_ok in R. exists k, c. auto.
    + intros [i [c [A1 [A2 [A3 ->]]]]]. rewrite (UV _ A1) in A2.
      rewrite (proj2 (row_at_ok _ _ _) A2). cbn [bind]. rewrite A3. reflexivity.
Qed.
