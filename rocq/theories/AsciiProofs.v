(** Proofs about the text layer of the ASCII tables. *)
From Coq Require Import ZArith List Arith Ascii String Bool Lia.
From Verif Require Import Common TextModel TextProofs DblModel TableModel TableSpec TableProofs AsciiModel AsciiSpec.
Import ListNotations.
Local Notation length := List.length.

(** ** Blanks *)
Definition blank (s : text) : Prop := Forall (fun c => is_space c = true) s.
Definition starts_blank (s : text) : Prop := match s with [] => True | c :: _ => is_space c = true end.
Definition solid_head (s : text) : Prop := exists c r, s = c :: r /\ is_space c = false.
Definition solid_last (s : text) : Prop := exists c r, s = r ++ [c] /\ is_space c = false.
Definition rtrim (s : text) : text := rev (drop_while is_space (rev s)).

Lemma blank_repeat n : blank (repeat sp n).
Proof. apply Forall_forall. intros c I. apply repeat_spec in I. subst c. reflexivity. Qed.
Lemma drop_while_blank b s : blank b -> drop_while is_space (b ++ s) = drop_while is_space s.
Proof. intros B. induction B as [|c r H B IH]; [reflexivity|]. simpl. rewrite H. exact IH. Qed.
Lemma drop_while_solid s : solid_head s -> drop_while is_space s = s.
Proof. intros [c [r [-> H]]]. simpl. rewrite H. reflexivity. Qed.
Lemma drop_while_solid_app s r : solid_head s -> drop_while is_space (s ++ r) = s ++ r.
Proof. intros [c [q [-> H]]]. simpl. rewrite H. reflexivity. Qed.
Lemma solid_head_app s r : solid_head s -> solid_head (s ++ r).
Proof. intros [c [q [-> H]]]. exists c, (q ++ r). split; [reflexivity | exact H]. Qed.
Lemma trim_def s : trim s = rtrim (drop_while is_space s).
Proof. reflexivity. Qed.
Lemma solid_last_app a s : solid_last s -> solid_last (a ++ s).
Proof. intros [c [r [-> H]]]. exists c, (a ++ r). split; [apply app_assoc | exact H]. Qed.
Lemma rtrim_keep a r : solid_last a -> rtrim (a ++ r) = a ++ rtrim r.
Proof.
  intros [c [q [-> H]]]. unfold rtrim. rewrite rev_app_distr.
  assert (K : forall x, drop_while is_space (x ++ rev (q ++ [c])) = drop_while is_space x ++ rev (q ++ [c])).
  { induction x as [|y x IH].
    - rewrite rev_app_distr. simpl. rewrite H. reflexivity.
    - simpl. destruct (is_space y); [exact IH | reflexivity]. }
  rewrite K, rev_app_distr, rev_involutive. reflexivity.
Qed.
Lemma rtrim_nil : rtrim [] = [].
Proof. reflexivity. Qed.
Lemma rtrim_solid a : solid_last a -> rtrim a = a.
Proof. intros H. rewrite <- (app_nil_r a) at 1. rewrite rtrim_keep by exact H. rewrite rtrim_nil, app_nil_r. reflexivity. Qed.
Lemma trim_blank_app b s : blank b -> trim (b ++ s) = trim s.
Proof. intros B. rewrite !trim_def, drop_while_blank by exact B. reflexivity. Qed.
Lemma trim_solid s : solid_head s -> solid_last s -> trim s = s.
Proof. intros A B. rewrite trim_def, drop_while_solid, rtrim_solid; auto. Qed.
Lemma trim_keep a r : solid_head a -> solid_last a -> trim (a ++ r) = a ++ rtrim r.
Proof. intros A B. rewrite trim_def, drop_while_solid_app, rtrim_keep; auto. Qed.
Lemma drop_while_suffix p s : exists a, s = a ++ drop_while p s.
Proof.
  induction s as [|c r [a IH]]; [exists []; reflexivity|]. simpl. destruct (p c).
  - exists (c :: a). simpl. rewrite <- IH. reflexivity.
  - exists []. reflexivity.
Qed.
Lemma drop_while_split s : exists a, blank a /\ s = a ++ drop_while is_space s.
Proof.
  induction s as [|c r [a [B IH]]]; [exists []; split; [constructor | reflexivity]|]. simpl. destruct (is_space c) eqn:E.
  - exists (c :: a). split; [constructor; assumption|]. simpl. rewrite <- IH. reflexivity.
  - exists []. split; [constructor | reflexivity].
Qed.
Lemma rtrim_split s : exists b, blank b /\ s = rtrim s ++ b.
Proof.
  destruct (drop_while_split (rev s)) as [a [B E]]. exists (rev a). split.
  - apply Forall_forall. intros c I. apply in_rev in I. rewrite <- E in I || idtac.
    unfold blank in B. rewrite Forall_forall in B. apply B. exact I.
  - unfold rtrim. rewrite <- rev_app_distr, <- E, rev_involutive. reflexivity.
Qed.
Lemma rtrim_prefix s : exists b, s = rtrim s ++ b.
Proof. destruct (rtrim_split s) as [b [_ E]]. exists b. exact E. Qed.
Lemma drop_while_head p s c r : drop_while p s = c :: r -> p c = false.
Proof. induction s as [|x s IH]; simpl; [discriminate|]. destruct (p x) eqn:E; [exact IH|]. intros H. injection H as <- <-. exact E. Qed.
Lemma rtrim_last s : rtrim s = [] \/ solid_last (rtrim s).
Proof.
  unfold rtrim. destruct (drop_while is_space (rev s)) as [|c r] eqn:E; [left; reflexivity|].
  right. exists c, (rev r). split; [reflexivity|]. apply drop_while_head in E. exact E.
Qed.
Lemma rtrim_idem s : rtrim (rtrim s) = rtrim s.
Proof. destruct (rtrim_last s) as [->|H]; [reflexivity | apply rtrim_solid; exact H]. Qed.
Lemma rtrim_starts_blank s : starts_blank s -> starts_blank (rtrim s).
Proof.
  intros H. destruct (rtrim_prefix s) as [b E]. destruct (rtrim s) as [|c r]; [exact I|].
  rewrite E in H. exact H.
Qed.
Lemma trim_nil_iff s : trim s = [] <-> blank s.
Proof.
  split.
  - intros H. rewrite trim_def in H.
    destruct (drop_while is_space s) as [|c r] eqn:E.
    + clear H. induction s as [|x s IH]; [constructor|]. simpl in E. destruct (is_space x) eqn:X; [|discriminate].
      constructor; [exact X | apply IH; exact E].
    + apply drop_while_head in E. change (c :: r) with ([c] ++ r) in H. rewrite rtrim_keep in H.
      * discriminate.
      * exists c, []. split; [reflexivity | exact E].
  - intros B. rewrite <- (app_nil_r s). rewrite trim_blank_app by exact B. reflexivity.
Qed.
Lemma rtrim_blank b : blank b -> rtrim b = [].
Proof.
  intros B. destruct (rtrim_last b) as [E|[c [r [E H]]]]; [exact E|].
  destruct (rtrim_prefix b) as [x F]. exfalso. unfold blank in B. rewrite Forall_forall in B.
  assert (is_space c = true) by (apply B; rewrite F, E, !in_app_iff; left; right; left; reflexivity). congruence.
Qed.
Lemma trim_rtrim s : trim (rtrim s) = trim s.
Proof.
  destruct (rtrim_split s) as [b [B E]]. destruct (rtrim_last s) as [Z|L].
  - rewrite Z in E |- *. simpl in E. subst s. symmetry. rewrite trim_nil_iff. exact B.
  - rewrite E at 2. rewrite !trim_def.
    destruct L as [c [r [L H]]]. rewrite L. clear E L.
    assert (K : forall y, drop_while is_space ((r ++ [c]) ++ y) = drop_while is_space (r ++ [c]) ++ y /\
                          solid_last (drop_while is_space (r ++ [c]))).
    { induction r as [|x r IH]; intros y.
      - simpl. rewrite H. split; [reflexivity | exists c, []; split; [reflexivity | exact H]].
      - cbn [app drop_while]. destruct (is_space x); [apply IH|]. split; [reflexivity|].
        exists c, (x :: r). split; [reflexivity | exact H]. }
    destruct (K b) as [K1 K2]. rewrite K1. rewrite rtrim_keep by exact K2.
    rewrite (rtrim_blank b B), app_nil_r. apply rtrim_solid. exact K2.
Qed.
Lemma trim_head s : trim s = [] \/ solid_head (trim s).
Proof.
  rewrite trim_def. destruct (drop_while is_space s) as [|c r] eqn:E; [left; reflexivity|].
  right. apply drop_while_head in E. change (c :: r) with ([c] ++ r). rewrite rtrim_keep.
  - exists c, (rtrim r). split; [reflexivity | exact E].
  - exists c, []. split; [reflexivity | exact E].
Qed.
Lemma trim_in s c : In c (trim s) -> In c s.
Proof.
  rewrite trim_def. intros I.
  destruct (rtrim_prefix (drop_while is_space s)) as [b E].
  destruct (drop_while_suffix is_space s) as [a F]. rewrite F, E. rewrite !in_app_iff. auto.
Qed.

(** ** The comment indicator *)
Lemma starts_with_refl_app s r : starts_with (s ++ r) s = true.
Proof. apply starts_with_iff. exists r. reflexivity. Qed.
Lemma starts_with_avoids ind s : ind <> [] -> avoids ind s -> starts_with s ind = false.
Proof.
  intros N A. destruct (starts_with s ind) eqn:E; [|reflexivity]. apply starts_with_iff in E.
  destruct E as [r ->]. destruct ind as [|c0 q]; [congruence|]. exfalso. apply (A c0 q eq_refl). left. reflexivity.
Qed.
Lemma avoids_cons ind c s : avoids ind (c :: s) -> avoids ind s.
Proof. intros A c0 r E I. apply (A c0 r E). right. exact I. Qed.
Lemma avoids_app ind a b : avoids ind (a ++ b) <-> avoids ind a /\ avoids ind b.
Proof.
  split.
  - intros A. split; intros c0 r E I; apply (A c0 r E); apply in_app_iff; auto.
  - intros [A B] c0 r E I. apply in_app_iff in I. destruct I as [I|I]; [apply (A c0 r E I) | apply (B c0 r E I)].
Qed.
Lemma find_sub_avoids ind s : ind <> [] -> avoids ind s -> find_sub ind s = None.
Proof.
  intros N. induction s as [|c r IH]; intros A; cbn [find_sub].
  - rewrite starts_with_avoids by assumption. reflexivity.
  - rewrite starts_with_avoids by assumption. rewrite IH; [reflexivity | apply avoids_cons with c; exact A].
Qed.
Lemma clean_avoids ind s : ind <> [] -> avoids ind s -> clean ind s = trim s.
Proof. intros N A. unfold clean. rewrite find_sub_avoids by assumption. reflexivity. Qed.
Lemma clean_comment ind s : ind <> [] -> clean ind (ind ++ s) = [].
Proof.
  intros N. unfold clean. replace (find_sub ind (ind ++ s)) with (Some 0); [reflexivity|].
  destruct ind as [|c r]; [congruence|]. cbn [find_sub app]. change (c :: r ++ s) with ((c :: r) ++ s).
  rewrite starts_with_refl_app. reflexivity.
Qed.
Lemma clean_nil ind : ind <> [] -> clean ind [] = [].
Proof. intros N. destruct ind; [congruence | reflexivity]. Qed.
Lemma remove_all_avoids ind s : ind <> [] -> avoids ind s -> remove_all ind s = s.
Proof.
  intros N. unfold remove_all. induction s as [|c r IH]; intros A; cbn [remove_all_from]; [reflexivity|].
  rewrite starts_with_avoids by assumption. rewrite IH; [reflexivity | apply avoids_cons with c; exact A].
Qed.
Lemma remove_skip ind a s : remove_all_from ind (length a) (a ++ s) = remove_all_from ind 0 s.
Proof. induction a as [|c r IH]; [reflexivity | exact IH]. Qed.
Lemma remove_all_comment ind s : ind <> [] -> avoids ind s -> remove_all ind (ind ++ s) = s.
Proof.
  intros N A. destruct ind as [|c r]; [congruence|].
  unfold remove_all. cbn [app remove_all_from]. change (c :: r ++ s) with ((c :: r) ++ s).
  rewrite starts_with_refl_app. cbn [length]. rewrite Nat.sub_1_r. cbn [Nat.pred].
  rewrite remove_skip. apply remove_all_avoids; assumption.
Qed.

(** ** Quotes *)
Lemma ascii_eqb_refl c : Ascii.eqb c c = true.
Proof. apply ascii_eqb_spec. reflexivity. Qed.
Lemma ascii_eqb_neq a b : Ascii.eqb a b = false <-> a <> b.
Proof. rewrite <- ascii_eqb_spec. destruct (Ascii.eqb a b); split; congruence. Qed.

Lemma read_escaped s r : read_in_quotes (escape s ++ dq :: r) = (s, Some r).
Proof.
  induction s as [|c s IH]; [reflexivity|].
  cbn [escape]. destruct (special c) eqn:E.
  - cbn [app read_in_quotes]. rewrite ascii_eqb_refl. rewrite IH. reflexivity.
  - unfold special in E. apply orb_false_iff in E. destruct E as [E1 E2].
    cbn [app read_in_quotes]. rewrite E1, E2, IH. reflexivity.
Qed.

Lemma needs_quotes_false s : needs_quotes s = false <-> forall c, In c s -> is_space c = false /\ c <> dq.
Proof.
  unfold needs_quotes. split.
  - intros H c I. destruct (is_space c || Ascii.eqb c dq)%bool eqn:E.
    + assert (existsb (fun c => is_space c || Ascii.eqb c dq)%bool s = true)
        by (apply existsb_exists; exists c; split; assumption). congruence.
    + apply orb_false_iff in E. destruct E as [A B]. apply ascii_eqb_neq in B. auto.
  - intros H. destruct (existsb _ s) eqn:E; [|reflexivity].
    apply existsb_exists in E. destruct E as [c [I E]]. destruct (H c I) as [A B].
    rewrite A in E. apply ascii_eqb_neq in B. rewrite B in E. discriminate.
Qed.
Lemma word_quoted s : word s -> quoted s = s.
Proof. intros [_ H]. unfold quoted. replace (needs_quotes s) with false; [reflexivity|]. symmetry. apply needs_quotes_false. exact H. Qed.

Lemma span_word s r : (forall c, In c s -> is_space c = false) -> starts_blank r -> span not_space (s ++ r) = (s, r).
Proof.
  intros H B. induction s as [|c s IH].
  - destruct r as [|c r]; [reflexivity|]. cbn [app span]. unfold not_space. simpl in B. rewrite B. reflexivity.
  - cbn [app span]. unfold not_space at 1. rewrite (H c (or_introl eq_refl)). cbn [negb].
    rewrite IH by (intros x I; apply H; right; exact I). reflexivity.
Qed.

(** [item u t]: the characters [u] are read as the token [t]. *)
Definition item (u t : text) : Prop :=
  solid_head u /\ solid_last u /\
  forall b r, blank b -> starts_blank r -> extract_quoted (b ++ u ++ r) = (t, Some r).

Definition bare (s : text) : Prop :=
  exists c r, s = c :: r /\ c <> dq /\ forall x, In x s -> is_space x = false.
Lemma bare_item s : bare s -> item s s.
Proof.
  intros [c [s1 [-> [Q H]]]].
  assert (S1 : solid_head (c :: s1)) by (exists c, s1; split; [reflexivity | apply H; left; reflexivity]).
  split; [exact S1|]. split.
  - destruct (@exists_last _ (c :: s1)) as [q [x E]]; [discriminate|]. rewrite E. exists x, q. split; [reflexivity|].
    apply H. rewrite E. apply in_app_iff. right. left. reflexivity.
  - intros b r B R. unfold extract_quoted. rewrite drop_while_blank by exact B.
    rewrite drop_while_solid_app by exact S1. cbn [app].
    replace (Ascii.eqb c dq) with false by (symmetry; apply ascii_eqb_neq; exact Q).
    change (c :: s1 ++ r) with ((c :: s1) ++ r). rewrite span_word; auto.
Qed.
Lemma word_bare s : word s -> bare s.
Proof.
  intros [N H]. destruct s as [|c s]; [congruence|]. exists c, s. split; [reflexivity|].
  split; [apply H; left; reflexivity | intros x I; apply H; exact I].
Qed.
Lemma word_item s : word s -> item s s.
Proof. intros W. apply bare_item, word_bare, W. Qed.
Lemma quoted_item s : s <> [] -> item (quoted s) s.
Proof.
  intros N. destruct (needs_quotes s) eqn:E.
  - unfold quoted. rewrite E.
    assert (S1 : solid_head (dq :: escape s ++ [dq])) by (exists dq, (escape s ++ [dq]); split; reflexivity).
    split; [exact S1|]. split; [exists dq, (dq :: escape s); split; reflexivity|].
    intros b r B R. unfold extract_quoted. rewrite drop_while_blank by exact B.
    rewrite drop_while_solid_app by exact S1. cbn [app]. rewrite ascii_eqb_refl.
    rewrite <- app_assoc. apply read_escaped.
  - assert (W : word s) by (split; [exact N | apply needs_quotes_false; exact E]).
    rewrite word_quoted by exact W. apply word_item. exact W.
Qed.

(** ** Tokens *)
Lemma drop_while_length p s : length (drop_while p s) <= length s.
Proof. induction s as [|c r IH]; [auto|]. simpl. destruct (p c); simpl; lia. Qed.
Lemma span_length p s : length (snd (span p s)) <= length s.
Proof. induction s as [|c r IH]; [auto|]. cbn [span]. destruct (p c); [destruct (span p r); simpl in *; lia | simpl; lia]. Qed.
Lemma read_in_quotes_length : forall n s t r, length s <= n -> read_in_quotes s = (t, Some r) -> length r < length s.
Proof.
  induction n as [|n IH]; intros s t r L H.
  - destruct s; [discriminate | simpl in L; lia].
  - destruct s as [|c s]; [discriminate|]. cbn [read_in_quotes] in H.
    destruct (Ascii.eqb c bs).
    + destruct s as [|d s]; [discriminate|]. destruct (read_in_quotes s) as [t0 o] eqn:E.
      injection H as <- ->. apply IH in E; simpl in *; lia.
    + destruct (Ascii.eqb c dq); [injection H as <- <-; simpl; lia|].
      destruct (read_in_quotes s) as [t0 o] eqn:E. injection H as <- ->. apply IH in E; simpl in *; lia.
Qed.
Lemma read_quoted_length s t r : read_quoted s = Some (t, r) -> length r < length s.
Proof.
  unfold read_quoted, extract_quoted. pose proof (drop_while_length is_space s) as L.
  destruct (drop_while is_space s) as [|c q] eqn:E; [discriminate|].
  destruct (Ascii.eqb c dq).
  - destruct (read_in_quotes q) as [t0 [o|]] eqn:R; [|discriminate].
    intros H. injection H as <- <-. apply (read_in_quotes_length (length q)) in R; [|lia]. simpl in L. lia.
  - apply drop_while_head in E. cbn [span]. unfold not_space at 1. rewrite E. cbn [negb].
    pose proof (span_length not_space q) as K. destruct (span not_space q) as [a b].
    intros H. injection H as <- <-. simpl in *. lia.
Qed.
Lemma tokens_fuel_enough : forall n m s, length s <= n -> length s <= m -> tokens_fuel n s = tokens_fuel m s.
Proof.
  assert (K : forall n s, length s <= n -> tokens_fuel n s = tokens_fuel (length s) s).
  { induction n as [n IH] using lt_wf_ind. intros s L.
    destruct n as [|n]; [destruct s; [reflexivity | simpl in L; lia]|].
    destruct s as [|c s]; [reflexivity|]. cbn [length tokens_fuel].
    destruct (read_quoted (c :: s)) as [[t r]|] eqn:E; [|reflexivity].
    apply read_quoted_length in E. cbn [length] in E, L. f_equal.
    rewrite (IH n) by lia. destruct (Nat.eq_dec (length s) n) as [->|]; [symmetry; apply IH; lia|].
    symmetry. apply IH; lia. }
  intros n m s A B. rewrite (K n s A), (K m s B). reflexivity.
Qed.
Lemma tokens_step s : tokens s = match read_quoted s with None => [] | Some (t, r) => t :: tokens r end.
Proof.
  unfold tokens. destruct s as [|c s]; [reflexivity|].
  cbn [length tokens_fuel]. destruct (read_quoted (c :: s)) as [[t r]|] eqn:E; [|reflexivity].
  f_equal. apply read_quoted_length in E. cbn [length] in E. apply tokens_fuel_enough; lia.
Qed.
Lemma tokens_item b u t r : item u t -> blank b -> starts_blank r -> tokens (b ++ u ++ r) = t :: tokens r.
Proof.
  intros [_ [_ I]] B R. rewrite tokens_step. unfold read_quoted. rewrite (I b r B R). reflexivity.
Qed.
Lemma tokens_nil : tokens [] = [].
Proof. reflexivity. Qed.

(** A sequence of padded items. *)
Fixpoint laid (l : list (nat * text)) : text :=
  match l with [] => [] | (n, u) :: r => repeat sp (S n) ++ u ++ laid r end.
Lemma laid_starts_blank l : starts_blank (laid l).
Proof. destruct l as [|[n u] r]; [exact I | reflexivity]. Qed.
Lemma tokens_laid l ts : Forall2 (fun p t => item (snd p) t) l ts -> tokens (laid l) = ts.
Proof.
  intros F. induction F as [|[n u] t l ts I F IH]; [reflexivity|].
  cbn [laid]. rewrite (tokens_item _ _ t); [rewrite IH; reflexivity | exact I | apply blank_repeat | apply laid_starts_blank].
Qed.
Lemma laid_last l : l <> [] -> Forall (fun p => solid_last (snd p)) l -> solid_last (laid l).
Proof.
  induction l as [|[n u] r IH]; intros N F; [congruence|]. inversion F as [|? ? H1 H2]; subst.
  cbn [laid]. apply solid_last_app. destruct r as [|p r].
  - cbn [laid]. rewrite app_nil_r. exact H1.
  - apply solid_last_app. apply IH; [congruence | exact H2].
Qed.
(** Trimming only removes the blanks before the first item. *)
Lemma trim_laid n u r :
  Forall (fun p => solid_head (snd p) /\ solid_last (snd p)) ((n, u) :: r) ->
  trim (laid ((n, u) :: r)) = u ++ laid r.
Proof.
  intros F. inversion F as [|? ? [H1 H2] F2]; subst. cbn [snd] in H1, H2.
  cbn [laid]. rewrite trim_blank_app by apply blank_repeat.
  rewrite trim_keep by assumption. f_equal.
  destruct r as [|p r]; [reflexivity|]. apply rtrim_solid. apply laid_last; [congruence|].
  eapply Forall_impl; [|exact F2]. intros q [_ K]. exact K.
Qed.

(** ** Lines *)
Lemma lines_flat l : Forall (fun s => ~ In nl s) l -> lines_of (flat_map (fun s => s ++ [nl]) l) = l ++ [[]].
Proof.
  intros F. unfold lines_of. induction F as [|s l H F IH]; [reflexivity|].
  cbn [flat_map]. rewrite <- app_assoc. cbn [app]. rewrite split_app by reflexivity. rewrite IH.
  rewrite split_no_sep; [reflexivity|]. apply Forall_forall. intros c I. unfold is_nl.
  apply ascii_eqb_neq. intros ->. contradiction.
Qed.
Lemma lines_no_nl s : Forall (fun l => ~ In nl l) (lines_of s).
Proof.
  eapply Forall_impl; [|apply split_segments]. intros l F I. rewrite Forall_forall in F.
  apply F in I. unfold is_nl in I. rewrite ascii_eqb_refl in I. discriminate.
Qed.

(** ** Numbers *)
Lemma digit_val_char z : (0 <= z < 10)%Z -> digit_val (digit_char z) = Some z.
Proof.
  intros H. unfold digit_char, digit_val, byte.
  rewrite nat_ascii_embedding by lia.
  replace (Nat.leb 48 (48 + Z.to_nat z)) with true by (symmetry; apply Nat.leb_le; lia).
  replace (Nat.leb (48 + Z.to_nat z) 57) with true by (symmetry; apply Nat.leb_le; lia).
  cbn [andb]. f_equal. lia.
Qed.
Lemma digits_fuel_acc n : forall z acc, digits_fuel n z acc = digits_fuel n z [] ++ acc.
Proof.
  induction n as [|n IH]; intros z acc; [reflexivity|].
  cbn [digits_fuel]. destruct (Z.ltb z 10); [reflexivity|].
  rewrite IH. rewrite (IH _ [_]). rewrite <- app_assoc. reflexivity.
Qed.
Lemma all_digits_app a : forall acc b, all_digits acc (a ++ b) =
  match all_digits acc a with Some x => all_digits x b | None => None end.
Proof.
  induction a as [|c a IH]; intros acc b; [reflexivity|].
  cbn [app all_digits]. destruct (digit_val c); [apply IH | reflexivity].
Qed.
Lemma all_digits_fuel n : forall z, (0 <= z < 2 ^ Z.of_nat n)%Z ->
  all_digits 0 (digits_fuel n z []) = Some z.
Proof.
  induction n as [|n IH]; intros z H.
  - cbn. f_equal. simpl in H. lia.
  - cbn [digits_fuel]. destruct (Z.ltb_spec z 10).
    + cbn [all_digits]. rewrite Z.mod_small by lia. rewrite digit_val_char by lia. reflexivity.
    + rewrite digits_fuel_acc, all_digits_app.
      assert (D : (z = 10 * (z / 10) + z mod 10)%Z) by (apply Z_div_mod_eq_full).
      assert (M : (0 <= z mod 10 < 10)%Z) by (apply Z.mod_pos_bound; lia).
      rewrite IH.
      * cbn [all_digits]. rewrite digit_val_char by exact M. f_equal. lia.
      * rewrite Nat2Z.inj_succ, Z.pow_succ_r in H by lia. split; [apply Z.div_pos; lia|].
        apply Z.div_lt_upper_bound; lia.
Qed.
Lemma digits_bound z : (0 <= z)%Z -> (z < 2 ^ Z.of_nat (Z.to_nat (Z.log2 z) + 1))%Z.
Proof.
  intros H. rewrite Nat2Z.inj_add, Z2Nat.id by apply Z.log2_nonneg.
  destruct (Z.eq_dec z 0) as [->|N]; [reflexivity|].
  change (Z.of_nat 1) with 1%Z. rewrite Z.add_1_r. apply Z.log2_spec. lia.
Qed.
Definition is_digit (c : ascii) : Prop := exists d, digit_val c = Some d.
Lemma digits_fuel_digits n : forall z acc, (0 <= z)%Z -> Forall is_digit acc -> Forall is_digit (digits_fuel n z acc).
Proof.
  induction n as [|n IH]; intros z acc H F; [exact F|].
  assert (M : (0 <= z mod 10 < 10)%Z) by (apply Z.mod_pos_bound; lia).
  assert (D : Forall is_digit (digit_char (z mod 10) :: acc))
    by (constructor; [exists (z mod 10)%Z; apply digit_val_char; exact M | exact F]).
  cbn [digits_fuel]. destruct (Z.ltb z 10); [exact D|]. apply IH; [apply Z.div_pos; lia | exact D].
Qed.
Lemma digits_nonempty z : digits z <> [].
Proof.
  unfold digits. rewrite Nat.add_1_r. cbn [digits_fuel]. destruct (Z.ltb z 10); [discriminate|].
  rewrite digits_fuel_acc. destruct (digits_fuel _ _ []); discriminate.
Qed.
Lemma digits_digits z : (0 <= z)%Z -> Forall is_digit (digits z).
Proof. intros H. apply digits_fuel_digits; [exact H | constructor]. Qed.
Lemma unsigned_digits z : (0 <= z)%Z -> unsigned_text (digits z) = Some z.
Proof.
  intros H. unfold unsigned_text. pose proof (digits_nonempty z) as N.
  destruct (digits z) as [|c r] eqn:E; [congruence|]. rewrite <- E. unfold digits.
  apply all_digits_fuel. split; [exact H | apply digits_bound; exact H].
Qed.
Lemma digit_not c d : is_digit c -> digit_val d = None -> c <> d.
Proof. intros [x H] N ->. congruence. Qed.
Lemma signed_int_text z : signed_text (int_text z) = Some z.
Proof.
  unfold int_text. destruct (Z.ltb_spec z 0).
  - cbn [signed_text]. rewrite ascii_eqb_refl, unsigned_digits by lia. cbn. f_equal. lia.
  - pose proof (digits_nonempty z) as N. pose proof (digits_digits z H) as D.
    destruct (digits z) as [|c r] eqn:E; [congruence|]. cbn [signed_text].
    inversion D as [|? ? D1 _]; subst.
    replace (Ascii.eqb c "-") with false by (symmetry; apply ascii_eqb_neq; apply digit_not; [exact D1 | reflexivity]).
    replace (Ascii.eqb c "+") with false by (symmetry; apply ascii_eqb_neq; apply digit_not; [exact D1 | reflexivity]).
    rewrite <- E. apply unsigned_digits. exact H.
Qed.
Lemma lexical_int_text lo hi z : (lo <= z <= hi)%Z -> lexical_int lo hi (int_text z) = Ok z.
Proof.
  intros [A B]. unfold lexical_int. rewrite signed_int_text.
  replace (Z.leb lo z) with true by (symmetry; apply Z.leb_le; exact A).
  replace (Z.leb z hi) with true by (symmetry; apply Z.leb_le; exact B). reflexivity.
Qed.
Lemma is_digit_byte c : is_digit c -> 48 <= byte c <= 57.
Proof.
  intros [d H]. unfold digit_val in H. destruct (Nat.leb 48 (byte c) && Nat.leb (byte c) 57)%bool eqn:E; [|discriminate].
  apply andb_true_iff in E. rewrite !Nat.leb_le in E. exact E.
Qed.
Definition plain_char (c : ascii) : Prop := is_space c = false /\ c <> dq /\ c <> ","%char /\ c <> ">"%char.
Lemma digit_plain c : is_digit c -> plain_char c.
Proof.
  intros D. pose proof (is_digit_byte c D) as B. unfold plain_char, is_space.
  repeat split; try (apply digit_not; [exact D | reflexivity]).
  replace (Nat.eqb (byte c) 32) with false by (symmetry; apply Nat.eqb_neq; lia).
  replace (Nat.leb (byte c) 13) with false by (symmetry; apply Nat.leb_gt; lia).
  rewrite andb_false_r. reflexivity.
Qed.
Lemma int_text_plain z : int_text z <> [] /\ Forall plain_char (int_text z).
Proof.
  unfold int_text. destruct (Z.ltb_spec z 0).
  - split; [discriminate|]. constructor; [repeat split; discriminate|].
    eapply Forall_impl; [apply digit_plain | apply digits_digits; lia].
  - split; [apply digits_nonempty|]. eapply Forall_impl; [apply digit_plain | apply digits_digits; lia].
Qed.
Lemma bool_text_plain b : bool_text b <> [] /\ Forall plain_char (bool_text b).
Proof. destruct b; (split; [discriminate|]); repeat constructor; discriminate. Qed.
Lemma plain_word s : s <> [] -> Forall plain_char s -> word s.
Proof. intros N F. split; [exact N|]. intros c I. rewrite Forall_forall in F. destruct (F c I) as [A [B _]]. auto. Qed.

(** ** Lists separated by commas *)
Lemma comma_tokens_join l : l <> [] -> Forall (fun t => t <> [] /\ ~ In ","%char t) l ->
  comma_tokens (join_comma l) = l.
Proof.
  intros N F. unfold comma_tokens, join_comma. rewrite split_join; [| reflexivity | exact N |].
  - clear N. induction F as [|t l [H _] F IH]; [reflexivity|]. cbn [filter]. destruct t; [congruence|]. rewrite IH. reflexivity.
  - eapply Forall_impl; [|exact F]. intros t [_ H]. apply Forall_forall. intros c I. unfold is_comma.
    apply ascii_eqb_neq. intros ->. contradiction.
Qed.
Lemma join_in sep l c : In c (join sep l) -> c = sep \/ exists t, In t l /\ In c t.
Proof.
  induction l as [|x l IH]; [intros []|]. destruct l as [|y l].
  - cbn [join]. intros I. right. exists x. split; [left; reflexivity | exact I].
  - rewrite join_cons by discriminate. intros I. apply in_app_iff in I. destruct I as [I|[I|I]].
    + right. exists x. split; [left; reflexivity | exact I].
    + left. symmetry. exact I.
    + destruct (IH I) as [E|[t [A B]]]; [left; exact E | right; exists t; split; [right; exact A | exact B]].
Qed.
Lemma join_nonempty sep l : l <> [] -> Forall (fun t => t <> []) l -> join sep l <> [].
Proof.
  intros N F. destruct F as [|x l H F]; [congruence|]. destruct l as [|y l]; [exact H|].
  rewrite join_cons by discriminate. destruct x; discriminate.
Qed.
Lemma map_o_map {A B C} (f : B -> outcome C) (g : A -> B) (h : A -> C) l :
  Forall (fun x => f (g x) = Ok (h x)) l -> map_o f (map g l) = Ok (map h l).
Proof.
  intros F. apply map_o_ok. induction F as [|x l H F IH]; constructor; assumption.
Qed.
