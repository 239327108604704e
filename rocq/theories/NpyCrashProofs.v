(** Lemmas about dictionaries of npy files cut short and filled with zeros. *)
From Coq Require Import List Arith NArith ZArith Ascii String Bool Lia.
From Verif Require Import Common TextModel TextProofs NdArrayModel NdArraySpec NdArrayProofs NdArrayProofs2 TableModel AsciiModel
  NpyModel NpySpec NpyProofs NpyProofs2 NpyProofs3.
Import ListNotations.
Local Notation length := List.length.
Local Notation concat := (@List.concat _).
Local Open Scope nat_scope.

Local Notation zs n := (repeat zero_byte n).

(** ** Finding a text in a text cut short *)
Lemma find_text_some n s p : find_text n s = Some p ->
  starts_with (skipn p s) n = true /\ forall q, q < p -> starts_with (skipn q s) n = false.
Proof.
  revert p. induction s as [|c s IH]; intros p; cbn [find_text].
  - destruct (starts_with [] n) eqn:E; [|discriminate]. intros H. injection H as <-. split; [exact E | lia].
  - destruct (starts_with (c :: s) n) eqn:E.
    + intros H. injection H as <-. split; [exact E | lia].
    + destruct (find_text n s) as [p'|] eqn:F; [|discriminate]. cbn. intros H. injection H as <-.
      destruct (IH p' eq_refl) as (A & B). split; [exact A|]. intros [|q] L; [exact E | apply B; lia].
Qed.
Lemma find_text_intro n s p : starts_with (skipn p s) n = true -> p <= length s ->
  (forall q, q < p -> starts_with (skipn q s) n = false) -> find_text n s = Some p.
Proof.
  revert p. induction s as [|c s IH]; intros p A L B.
  - cbn in L. assert (p = 0) by lia. subst. cbn [skipn] in A. cbn [find_text]. rewrite A. reflexivity.
  - destruct p as [|p].
    + cbn [skipn] in A. cbn [find_text]. rewrite A. reflexivity.
    + cbn [find_text]. rewrite (B 0 ltac:(lia) : starts_with (c :: s) n = false). cbn in L.
      rewrite (IH p); [reflexivity | exact A | lia | intros q Q; apply (B (S q)); lia].
Qed.
Lemma find_text_none_intro n s : (forall q, q <= length s -> starts_with (skipn q s) n = false) -> find_text n s = None.
Proof.
  induction s as [|c s IH]; intros B; cbn [find_text].
  - rewrite (B 0 ltac:(cbn; lia) : starts_with [] n = false). reflexivity.
  - rewrite (B 0 ltac:(lia) : starts_with (c :: s) n = false). rewrite IH; [reflexivity|].
    intros q Q. apply (B (S q)). cbn. lia.
Qed.
Lemma starts_cut n X j m q : n <> [] -> ~ In zero_byte n ->
  starts_with (skipn q (firstn j X ++ zs m)) n = true -> q + length n <= j /\ starts_with (skipn q X) n = true.
Proof.
  intros Nn Nz H. apply starts_with_iff in H. destruct H as (r & E).
  assert (Q : q + length n <= length (firstn j X)).
  { destruct (le_lt_dec (q + length n) (length (firstn j X))) as [L|L]; [exact L | exfalso].
    destruct n as [|c n'] using rev_ind; [congruence|]. clear IHn'. apply Nz.
    assert (K : nth_error (skipn q (firstn j X ++ zs m)) (length n') = Some c).
    { rewrite E, <- app_assoc, nth_error_app2, Nat.sub_diag; [reflexivity | lia]. }
    rewrite nth_error_skipn in K || (rewrite <- (firstn_skipn q (firstn j X ++ zs m)) in K).
    rewrite app_length in L. cbn in L.
    assert (K2 : nth_error (firstn j X ++ zs m) (q + length n') = Some c).
    { rewrite <- K. clear. generalize (firstn j X ++ zs m) as l. induction q as [|q IH]; intros l; [reflexivity|].
      destruct l as [|x l]; cbn; [destruct (length n'); reflexivity | apply IH]. }
    rewrite nth_error_app2 in K2 by lia. apply nth_error_In in K2. apply repeat_spec in K2. subst c. apply in_or_app. right. left. reflexivity. }
  assert (Lj : length (firstn j X) <= j) by apply firstn_le_length.
  split; [lia|]. apply starts_with_iff.
  assert (K : X = firstn j X ++ skipn j X) by (symmetry; apply firstn_skipn).
  rewrite K. rewrite skipn_app in *. replace (q - length (firstn j X)) with 0 in * by lia. cbn [skipn] in *.
  assert (Ls : length (skipn q (firstn j X)) = length (firstn j X) - q) by apply skipn_length.
  assert (F : skipn q (firstn j X) = n ++ firstn (length (firstn j X) - q - length n) r).
  { assert (G : firstn (length (skipn q (firstn j X))) (skipn q (firstn j X) ++ zs m) = skipn q (firstn j X)) by apply firstn_len.
    rewrite E in G. rewrite <- G at 1. rewrite Ls, firstn_app. f_equal. apply firstn_all2. lia. }
  rewrite F, <- app_assoc. eexists. reflexivity.
Qed.
Lemma starts_keep n X j m q : starts_with (skipn q X) n = true -> q + length n <= j -> j <= length X ->
  starts_with (skipn q (firstn j X ++ zs m)) n = true.
Proof.
  intros H L LX. apply starts_with_iff in H. destruct H as (r & E). apply starts_with_iff.
  assert (Lj : length (firstn j X) = j) by (apply firstn_length_le; exact LX).
  rewrite skipn_app. replace (q - length (firstn j X)) with 0 by lia. cbn [skipn].
  assert (F : skipn q (firstn j X) = firstn (j - q) (skipn q X)).
  { clear. revert q X. induction j as [|j IH]; intros q X; [destruct q; reflexivity|].
    destruct X as [|x X]; [destruct q; cbn; [reflexivity|rewrite firstn_nil; reflexivity]|].
    destruct q as [|q]; [reflexivity|]. cbn [firstn skipn Nat.sub]. apply IH. }
  rewrite F, E, firstn_app, firstn_all2 by lia. rewrite <- app_assoc. eexists. reflexivity.
Qed.
(** The first occurrence in a text cut short. *)
Lemma find_cut n X p j m : n <> [] -> ~ In zero_byte n -> find_text n X = Some p -> j <= length X ->
  find_text n (firstn j X ++ zs m) = if p + length n <=? j then Some p else None.
Proof.
  intros Nn Nz F LX. destruct (find_text_some n X p F) as (A & B).
  destruct (Nat.leb_spec (p + length n) j) as [L|L].
  - apply find_text_intro; [apply starts_keep; assumption | rewrite app_length, firstn_length_le; lia |].
    intros q Q. destruct (starts_with (skipn q (firstn j X ++ zs m)) n) eqn:E; [|reflexivity].
    apply starts_cut in E; [|exact Nn|exact Nz]. rewrite (B q Q) in E. destruct E; discriminate.
  - apply find_text_none_intro. intros q _.
    destruct (starts_with (skipn q (firstn j X ++ zs m)) n) eqn:E; [|reflexivity].
    apply starts_cut in E; [|exact Nn|exact Nz]. destruct E as (Q & E).
    destruct (Nat.lt_ge_cases q p) as [K|K]; [rewrite (B q K) in E; discriminate | lia].
Qed.

(** ** Sizes with strange characters *)
Definition strange (c : ascii) : Prop :=
  is_space c = false /\ is_separator c = false /\ digit_val c = None /\ c <> "-"%char /\ c <> "+"%char.
Lemma strange_zero : strange zero_byte.
Proof. repeat split; try reflexivity; discriminate. Qed.
Lemma strange_colon : strange ":"%char.
Proof. repeat split; try reflexivity; discriminate. Qed.
Lemma in_drop_while p c s : In c s -> p c = false -> In c (drop_while p s).
Proof.
  induction s as [|x s IH]; [intros []|]. cbn [drop_while]. intros [->|I] H.
  - rewrite H. left. reflexivity.
  - destruct (p x); [apply IH; assumption | right; exact I].
Qed.
Lemma in_trim c s : In c s -> is_space c = false -> In c (trim s).
Proof.
  intros I H. unfold trim. apply -> in_rev. apply in_drop_while; [|exact H]. apply -> in_rev.
  apply in_drop_while; assumption.
Qed.
Lemma in_split_compress p c s : In c s -> p c = false -> exists t, In t (split_compress p s) /\ In c t.
Proof.
  induction s as [|x s IH]; [intros []|]. intros I H. cbn [split_compress].
  destruct I as [->|I].
  - rewrite H. destruct (split_compress p s) as [|h t]; eexists; (split; [left; reflexivity | left; reflexivity]).
  - destruct (IH I H) as (t & It & Ic). destruct (p x).
    + destruct s as [|d s]; [destruct I|]. destruct (p d); [exists t; split; assumption|].
      exists t. split; [right; exact It | exact Ic].
    + destruct (split_compress p s) as [|h r]; [destruct It|]. destruct It as [<-|It].
      * eexists. split; [left; reflexivity | right; exact Ic].
      * exists t. split; [right; exact It | exact Ic].
Qed.
Lemma all_digits_strange c s : In c s -> digit_val c = None -> forall z, all_digits z s = None.
Proof.
  intros I H. induction s as [|x s IH]; [destruct I|]. intros z. cbn [all_digits]. destruct I as [->|I].
  - rewrite H. reflexivity.
  - destruct (digit_val x); [apply IH; exact I | reflexivity].
Qed.
Lemma unsigned_strange c s : In c s -> digit_val c = None -> unsigned_text s = None.
Proof. intros I H. unfold unsigned_text. destruct s; [reflexivity|]. apply all_digits_strange with c; assumption. Qed.
Lemma size_strange c s : In c s -> strange c -> size_text s = Throw.
Proof.
  intros I (_ & _ & D & M & P). unfold size_text. destruct s as [|x s]; [destruct I|].
  destruct (Ascii.eqb x "-") eqn:E1.
  - apply Ascii.eqb_eq in E1. subst. destruct I as [I|I]; [congruence|]. rewrite (unsigned_strange c s I D). reflexivity.
  - destruct (Ascii.eqb x "+") eqn:E2.
    + apply Ascii.eqb_eq in E2. subst. destruct I as [I|I]; [congruence|]. rewrite (unsigned_strange c s I D). reflexivity.
    + rewrite (unsigned_strange c (x :: s) I D). reflexivity.
Qed.
Lemma size_defined s : (exists n, size_text s = Ok n) \/ size_text s = Throw.
Proof.
  unfold size_text. destruct s as [|x s]; [right; reflexivity|].
  repeat match goal with |- context [if ?b then _ else _] => destruct b
                       | |- context [match unsigned_text ?t with _ => _ end] => destruct (unsigned_text t) end; eauto.
Qed.
Lemma sizes_strange c s : In c s -> strange c -> string_to_sizes s = Throw.
Proof.
  intros I S. pose proof S as (S1 & S2 & _). unfold string_to_sizes.
  destruct (in_split_compress is_separator c (trim s) (in_trim c s I S1) S2) as (t & It & Ic).
  induction (split_compress is_separator (trim s)) as [|x l IH]; [destruct It|].
  cbn [map_outcome]. destruct It as [->|It].
  - rewrite (size_strange c t Ic S). reflexivity.
  - destruct (size_defined x) as [(n & ->)| ->]; [|reflexivity]. cbn [bind]. rewrite IH by exact It. reflexivity.
Qed.

(** ** Descriptions *)
Definition defined {A} (o : outcome A) : Prop := (exists x, o = Ok x) \/ o = Throw.
Lemma substr_defined s p e : defined (substr s p e).
Proof. unfold substr. destruct (length s <? p); [right; reflexivity | left; eexists; reflexivity]. Qed.
Lemma fortran_defined Y : defined (parse_fortran Y).
Proof.
  unfold parse_fortran. match goal with |- context [substr ?a ?b ?c] => destruct (substr_defined a b c) as [(s & ->)| ->] end.
  - left. eexists. reflexivity.
  - right. reflexivity.
Qed.
Lemma field_loop_defined fields : Forall (fun f => snd f <> []) fields -> forall dtype big attrs,
  (dtype = [] \/ big <> None) -> defined (field_loop fields dtype big attrs).
Proof.
  intros F. induction F as [|[name descr] fields H F IH]; intros dtype big attrs D.
  - left. eexists. reflexivity.
  - cbn [snd] in H. destruct descr as [|c r]; [congruence|]. cbn [field_loop single_value bind fst snd].
    destruct dtype as [|x dtype].
    + apply IH. right. discriminate.
    + destruct big as [b|]; [|destruct D as [D|D]; congruence]. cbn [of_option bind].
      destruct (_ || _); [right; reflexivity|]. apply IH. right. discriminate.
Qed.
(** No type is empty: a quote, a quote and a closing parenthesis never follow each other. *)
Definition qqp : text := txt "'')".
Fixpoint occurs (n s : text) : bool :=
  starts_with s n || match s with [] => false | _ :: r => occurs n r end.
Lemma occurs_suffix n l r : occurs n r = true -> occurs n (l ++ r) = true.
Proof. intros H. induction l as [|x l IH]; [exact H|]. cbn [app occurs]. rewrite IH. apply orb_true_r. Qed.
Lemma occurs_iff n s : n <> [] -> occurs n s = true <-> contains n s.
Proof.
  intros Nn. split.
  - induction s as [|c s IH]; cbn [occurs]; intros H.
    + rewrite orb_false_r in H. apply starts_with_iff in H. destruct H as (r & H). exists [], r. exact H.
    + apply orb_true_iff in H. destruct H as [H|H].
      * apply starts_with_iff in H. destruct H as (r & H). exists [], r. exact H.
      * destruct (IH H) as (l & r & ->). exists (c :: l), r. reflexivity.
  - intros (l & r & ->). apply occurs_suffix. destruct n as [|x n]; [congruence|]. cbn [app occurs].
    assert (K : starts_with ((x :: n) ++ r) (x :: n) = true) by (apply starts_with_iff; eexists; reflexivity).
    cbn [app] in K. rewrite K. reflexivity.
Qed.
Lemma expect_some p s r : expect p s = Some r -> s = p ++ r.
Proof.
  unfold expect. destruct (starts_with s p) eqn:E; [|discriminate]. intros H. injection H as <-.
  apply starts_with_iff in E. destruct E as (q & ->). rewrite skipn_len. reflexivity.
Qed.
Lemma until_quote_eq s a b : until_quote s = (a, b) -> s = a ++ b.
Proof.
  revert a b. induction s as [|c s IH]; intros a b; cbn [until_quote].
  - intros E. injection E as <- <-. reflexivity.
  - destruct (Ascii.eqb c quote); [intros E; injection E as <- <-; reflexivity|].
    destruct (until_quote s) as (u & v). intros E. injection E as <- <-. cbn. f_equal. apply IH. reflexivity.
Qed.
Lemma drop_while_suffix p s : exists l, s = l ++ drop_while p s.
Proof.
  induction s as [|c s (l & IH)]; [exists []; reflexivity|]. cbn [drop_while]. destruct (p c).
  - exists (c :: l). cbn. f_equal. exact IH.
  - exists []. reflexivity.
Qed.
Lemma match_field_inv s name descr r : match_field s = Some (name, descr, r) ->
  exists l, s = l ++ txt "'" ++ descr ++ txt "')" ++ r.
Proof.
  unfold match_field. destruct (expect (txt "('") s) as [r1|] eqn:E1; [|discriminate].
  destruct (until_quote r1) as (nm, r2) eqn:E2. destruct (expect (txt "',") r2) as [r3|] eqn:E3; [|discriminate].
  destruct (expect (txt "'") (drop_while is_space r3)) as [r4|] eqn:E4; [|discriminate].
  destruct (until_quote r4) as (d, r5) eqn:E5. destruct (expect (txt "')") r5) as [r6|] eqn:E6; [|discriminate].
  intros H. injection H as <- <- <-.
  apply expect_some in E1, E3, E4, E6. apply until_quote_eq in E2, E5.
  destruct (drop_while_suffix is_space r3) as (w & E7). subst.
  rewrite E7, E4. exists (txt "('" ++ nm ++ txt "'," ++ w). rewrite <- !app_assoc. reflexivity.
Qed.
Lemma fields_nonempty fuel : forall s, occurs qqp s = false -> Forall (fun f => snd f <> []) (search_fields fuel s).
Proof.
  induction fuel as [|fuel IH]; intros s H; cbn [search_fields]; [constructor|].
  destruct (match_field s) as [[[name descr] r]|] eqn:E.
  - apply match_field_inv in E. destruct E as (l & ->). constructor.
    + intros D. cbn in D. subst descr. apply not_true_iff_false in H. apply H.
      apply occurs_iff; [discriminate|]. exists l, r. reflexivity.
    + apply IH. apply not_true_iff_false. intros K. apply not_true_iff_false in H. apply H.
      rewrite !app_assoc. apply occurs_suffix. exact K.
  - destruct s as [|c s]; [constructor|]. apply IH. cbn [occurs] in H. apply orb_false_iff in H. apply H.
Qed.
Lemma occurs_cut n X j m : n <> [] -> ~ In zero_byte n -> occurs n X = false -> occurs n (firstn j X ++ zs m) = false.
Proof.
  intros Nn Nz H. apply not_true_iff_false. intros K. apply occurs_iff in K; [|exact Nn]. destruct K as (l & r & E).
  assert (S : starts_with (skipn (length l) (firstn j X ++ zs m)) n = true).
  { apply starts_with_iff. exists r. rewrite E, skipn_len. reflexivity. }
  apply starts_cut in S; [|exact Nn|exact Nz]. destruct S as (_ & S). apply starts_with_iff in S. destruct S as (q & S).
  apply not_true_iff_false in H. apply H. apply occurs_iff; [exact Nn|]. exists (firstn (length l) X), q.
  rewrite <- S. symmetry. apply firstn_skipn.
Qed.
Lemma occurs_sub n s p k : n <> [] -> occurs n s = false -> occurs n (firstn k (skipn p s)) = false.
Proof.
  intros Nn H. apply not_true_iff_false. intros K. apply occurs_iff in K; [|exact Nn]. destruct K as (l & r & E).
  apply not_true_iff_false in H. apply H. apply occurs_iff; [exact Nn|].
  exists (firstn p s ++ l), (r ++ skipn k (skipn p s)).
  rewrite <- (firstn_skipn p s) at 1. rewrite <- (firstn_skipn k (skipn p s)) at 1. rewrite E, <- !app_assoc. reflexivity.
Qed.
Lemma occurs_nq l r : ~ In quote l -> occurs qqp (l ++ r) = occurs qqp r.
Proof.
  induction l as [|c l IH]; intros N; [reflexivity|]. cbn [app occurs].
  assert (K : starts_with (c :: l ++ r) qqp = false).
  { change qqp with [quote; quote; ")"%char]. cbn [starts_with]. rewrite ?Ascii.eqb_refl. cbn [andb]. destruct (Ascii.eqb quote c) eqn:E; [|reflexivity]. apply Ascii.eqb_eq in E. subst. exfalso. apply N. left. reflexivity. }
  rewrite K. cbn [orb]. apply IH. intros I. apply N. right. exact I.
Qed.
Lemma occurs_q c r : c <> quote -> occurs qqp (quote :: c :: r) = occurs qqp (c :: r).
Proof.
  intros N. cbn [occurs]. assert (K : starts_with (quote :: c :: r) qqp = false).
  { change qqp with [quote; quote; ")"%char]. cbn [starts_with]. rewrite ?Ascii.eqb_refl. cbn [andb]. destruct (Ascii.eqb quote c) eqn:E; [|reflexivity]. apply Ascii.eqb_eq in E. congruence. }
  rewrite K. reflexivity.
Qed.
Lemma occurs_qq c r : c <> ")"%char -> occurs qqp (quote :: quote :: c :: r) = occurs qqp (quote :: c :: r).
Proof.
  intros N. cbn [occurs]. assert (K : starts_with (quote :: quote :: c :: r) qqp = false).
  { change qqp with [quote; quote; ")"%char]. cbn [starts_with]. rewrite ?Ascii.eqb_refl. cbn [andb]. destruct (Ascii.eqb ")" c) eqn:E; [|reflexivity]. apply Ascii.eqb_eq in E. congruence. }
  rewrite K. reflexivity.
Qed.
