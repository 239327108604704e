(** Proofs about the parsers of dataset files. *)
From Coq Require Import QArith ZArith List Arith Ascii String Bool Lia.
From Verif Require Import Common TextModel TextProofs DblModel TableModel TableSpec TableProofs AsciiModel AsciiSpec
  AsciiProofs AsciiProofs2 AsciiProofs3 FitsModel XYModel XYProofs2 ParserModel ParserSpec.
Import ListNotations.
Local Open Scope nat_scope.
Local Notation length := List.length.

(** ** Blanks *)
Lemma trim_stripped s : stripped s (trim s).
Proof.
  destruct (drop_while_split s) as [a [A E]]. destruct (rtrim_split (drop_while is_space s)) as [b [B F]].
  exists a, b. rewrite trim_def. split; [rewrite E at 1; rewrite F at 1; reflexivity|]. split; [exact A|]. split; [exact B|]. split.
  - intros c r H. destruct (trim_head s) as [N|[d [q [N K]]]]; rewrite trim_def in N; rewrite H in N; [discriminate|].
    injection N as <- <-. exact K.
  - intros c r H. destruct (rtrim_last (drop_while is_space s)) as [N|[d [q [N K]]]]; rewrite H in N.
    + destruct r; discriminate.
    + apply app_inj_tail in N. destruct N as [_ ->]. exact K.
Qed.
Lemma no_space_first_solid v : v <> [] -> no_space_first v -> solid_head v.
Proof. intros N H. destruct v as [|c r]; [congruence|]. exists c, r. split; [reflexivity | apply (H c r eq_refl)]. Qed.
Lemma no_space_last_solid v : v <> [] -> no_space_last v -> solid_last v.
Proof. intros N H. destruct (@exists_last _ v N) as [q [x E]]. exists x, q. split; [exact E | apply (H x q E)]. Qed.
Lemma stripped_trim s v : stripped s v -> v = trim s.
Proof.
  intros [a [b [-> [A [B [F L]]]]]]. rewrite trim_blank_app by exact A. destruct v as [|c r].
  - symmetry. apply trim_nil_iff. exact B.
  - assert (N : c :: r <> []) by discriminate.
    rewrite trim_keep by (try apply no_space_first_solid; try apply no_space_last_solid; assumption).
    rewrite rtrim_blank by exact B. rewrite app_nil_r. reflexivity.
Qed.
Lemma stripped_iff s v : stripped s v <-> v = trim s.
Proof. split; [apply stripped_trim|]. intros ->. apply trim_stripped. Qed.

Lemma after_prefix_iff p : forall s r, after_prefix p s = Some r <-> s = p ++ r.
Proof.
  induction p as [|x p IH]; intros s r.
  - cbn. split; intros H; [injection H as ->; reflexivity | rewrite H; reflexivity].
  - destruct s as [|y s]; cbn [after_prefix app]; [split; discriminate|].
    destruct (Ascii.eqb x y) eqn:E.
    + apply Ascii.eqb_eq in E. subst y. rewrite IH. split; [intros ->; reflexivity | intros H; injection H as ->; reflexivity].
    + split; [discriminate|]. intros H. injection H as -> _. rewrite ascii_eqb_refl in E. discriminate.
Qed.
(** [after_blanks s] starts with the solid text [p]. *)
Lemma after_blanks_iff p s r : no_space_first (p ++ r) ->
  after_blanks s = p ++ r <-> exists a, all_space a /\ s = a ++ p ++ r.
Proof.
  intros N. split.
  - intros H. destruct (drop_while_split s) as [a [A E]]. exists a. split; [exact A|]. unfold after_blanks in H. rewrite <- H. exact E.
  - intros [a [A ->]]. unfold after_blanks. rewrite drop_while_blank by exact A.
    destruct (p ++ r) as [|c q]; [reflexivity|]. cbn. rewrite (N c q eq_refl). reflexivity.
Qed.

Lemma key_value_iff key line v : no_space_first key -> (key_value key line = Some v <-> key_line key line v).
Proof.
  intros NK.
  assert (Nh : forall r, no_space_first ([hash] ++ r)) by (intros r c q H; injection H as <- _; reflexivity).
  assert (Nc : forall r, no_space_first ([colon] ++ r)) by (intros r c q H; injection H as <- _; reflexivity).
  unfold key_value, key_line. split.
  - destruct (after_prefix [hash] (after_blanks line)) as [r1|] eqn:E1; [|discriminate].
    destruct (after_prefix key (after_blanks r1)) as [r2|] eqn:E2; [|discriminate].
    destruct (after_prefix [colon] (after_blanks r2)) as [r3|] eqn:E3; [|discriminate].
    destruct r3 as [|c0 r3]; [discriminate|]. intros H. injection H as <-.
    apply after_prefix_iff in E1, E2, E3.
    apply after_blanks_iff in E1; [|apply Nh]. apply after_blanks_iff in E3; [|apply Nc].
    destruct E1 as [a [A ->]]. destruct E3 as [c [C ->]].
    destruct (drop_while_split r1) as [b [B F]]. unfold after_blanks in E2. rewrite E2 in F. subst r1.
    exists a, b, c, (c0 :: r3). split; [reflexivity|]. repeat (split; [assumption || discriminate|]). apply trim_stripped.
  - intros [a [b [c [r [-> [A [B [C [N T]]]]]]]]]. apply stripped_trim in T. subst v.
    assert (E1 : after_prefix [hash] (after_blanks (a ++ "#"%char :: b ++ key ++ c ++ ":"%char :: r)) =
                 Some (b ++ key ++ c ++ ":"%char :: r)).
    { apply after_prefix_iff. apply after_blanks_iff; [apply Nh|]. exists a. split; [exact A | reflexivity]. }
    rewrite E1.
    destruct key as [|k key].
    + cbn [after_prefix app].
      assert (E2 : after_blanks (b ++ c ++ ":"%char :: r) = ":"%char :: r).
      { apply (after_blanks_iff [colon]); [apply Nc|]. exists (b ++ c). split; [apply Forall_app; split; assumption | rewrite <- app_assoc; reflexivity]. }
      rewrite E2. change (after_blanks (":"%char :: r)) with (":"%char :: r). cbn [after_prefix].
      change (Ascii.eqb colon ":") with true. cbn [after_prefix]. destruct r; [congruence | reflexivity].
    + assert (E2 : after_prefix (k :: key) (after_blanks (b ++ (k :: key) ++ c ++ ":"%char :: r)) = Some (c ++ ":"%char :: r)).
      { apply after_prefix_iff. apply after_blanks_iff; [|exists b; split; [exact B | reflexivity]].
        intros x q H. injection H as <- _. apply (NK k key eq_refl). }
      rewrite E2.
      assert (E3 : after_prefix [colon] (after_blanks (c ++ ":"%char :: r)) = Some r).
      { apply after_prefix_iff. apply after_blanks_iff; [apply Nc|]. exists c. split; [exact C | reflexivity]. }
      rewrite E3. destruct r; [congruence | reflexivity].
Qed.

Lemma values_exist key lines : no_space_first key -> exists vs, values_of key lines vs.
Proof.
  intros N. induction lines as [|l lines [vs IH]]; [exists []; constructor|].
  destruct (key_value key l) as [v|] eqn:E.
  - exists (v :: vs). apply values_here; [apply key_value_iff; assumption | exact IH].
  - exists vs. apply values_other; [|exact IH]. intros v H. apply key_value_iff in H; [congruence | exact N].
Qed.

Lemma join_snoc sep (l : list text) v : l <> [] -> join sep (l ++ [v]) = join sep l ++ sep :: v.
Proof.
  induction l as [|x l IH]; intros N; [congruence|]. destruct l as [|y l]; [reflexivity|].
  change ((x :: y :: l) ++ [v]) with (x :: (y :: l) ++ [v]).
  assert (E : forall t, t <> [] -> join sep (x :: t) = x ++ sep :: join sep t) by (intros t K; destruct t; [congruence | reflexivity]).
  rewrite E by discriminate. rewrite IH by discriminate. rewrite (E (y :: l)) by discriminate. rewrite <- app_assoc. reflexivity.
Qed.
Lemma join_drop_nil (l : list text) : join semicolon (drop_empty l) = [] <-> drop_empty l = [].
Proof.
  induction l as [|x l IH]; [split; reflexivity|]. destruct x as [|c x]; [exact IH|].
  cbn [drop_empty]. split; [|discriminate]. destruct l; cbn; discriminate.
Qed.
Lemma drop_empty_snoc (l : list text) v : drop_empty (l ++ [v]) =
  match drop_empty l with [] => drop_empty [v] | d => d ++ [v] end.
Proof. induction l as [|x l IH]; [reflexivity|]. destruct x; [exact IH | reflexivity]. Qed.
Lemma gather_values key lines vs : no_space_first key -> values_of key lines vs ->
  forall pre, gather key (join semicolon (drop_empty pre)) lines = join semicolon (drop_empty (pre ++ vs)).
Proof.
  intros N H. induction H as [|l v ls vs H _ IH|l ls vs H _ IH]; intros pre.
  - rewrite app_nil_r. reflexivity.
  - cbn [gather]. apply key_value_iff in H; [|exact N]. rewrite H.
    replace (pre ++ v :: vs) with ((pre ++ [v]) ++ vs) by (rewrite <- app_assoc; reflexivity). rewrite <- IH. f_equal.
    rewrite drop_empty_snoc. destruct (drop_empty pre) as [|d dl] eqn:D.
    + cbn. destruct v; reflexivity.
    + destruct (join semicolon (d :: dl)) as [|c q] eqn:J.
      { rewrite <- D in J. apply join_drop_nil in J. congruence. }
      rewrite <- J. rewrite join_snoc by discriminate. rewrite <- app_assoc. reflexivity.
  - cbn [gather]. destruct (key_value key l) as [v|] eqn:E; [exfalso; apply (H v); apply key_value_iff; assumption|]. apply IH.
Qed.

(** ** Names *)
Lemma word_char_iff c : is_word_char c = true <-> word_char c.
Proof.
  unfold word_char. split.
  - intros H. destruct c as [b0 b1 b2 b3 b4 b5 b6 b7].
    destruct b0, b1, b2, b3, b4, b5, b6, b7; vm_compute in H; try discriminate; vm_compute; tauto.
  - intros H. cbn [In txt] in H. unfold txt in H. vm_compute in H.
    repeat (destruct H as [<-|H]; [reflexivity|]). destruct H.
Qed.
Lemma word_not_space c : is_word_char c = true -> is_space c = false.
Proof.
  intros H. apply word_char_iff in H. unfold word_char in H. vm_compute in H.
  repeat (destruct H as [<-|H]; [reflexivity|]). destruct H.
Qed.
Lemma span_split p s a b : span p s = (a, b) ->
  s = a ++ b /\ Forall (fun c => p c = true) a /\ (forall c r, b = c :: r -> p c = false).
Proof.
  revert a b. induction s as [|c s IH]; intros a b H; cbn in H.
  - injection H as <- <-. split; [reflexivity|]. split; [constructor | discriminate].
  - destruct (p c) eqn:E.
    + destruct (span p s) as [x y]. injection H as <- <-. destruct (IH x y eq_refl) as [-> [F G]].
      split; [reflexivity|]. split; [constructor; assumption | exact G].
    + injection H as <- <-. split; [reflexivity|]. split; [constructor|]. intros d r H. injection H as <- <-. exact E.
Qed.
Lemma span_exact p a b : Forall (fun c => p c = true) a -> (forall c r, b = c :: r -> p c = false) -> span p (a ++ b) = (a, b).
Proof.
  intros F G. induction F as [|c a E F IH]; cbn [app span].
  - destruct b as [|c b]; [reflexivity|]. cbn. rewrite (G c b eq_refl). reflexivity.
  - rewrite E, IH. reflexivity.
Qed.
Lemma name_line_iff line w : name_line line = Some w <-> word_line line w.
Proof.
  assert (Nh : forall r, no_space_first ([hash] ++ r)) by (intros r c q H; injection H as <- _; reflexivity).
  unfold name_line, word_line. split.
  - destruct (after_prefix [hash] (after_blanks line)) as [r1|] eqn:E1; [|discriminate].
    destruct (span is_word_char (after_blanks r1)) as [x y] eqn:E2. destruct x as [|x0 x]; [discriminate|].
    destruct (after_blanks y) as [|? ?] eqn:E3; [|discriminate]. intros H. injection H as <-.
    apply after_prefix_iff in E1. apply after_blanks_iff in E1; [|apply Nh]. destruct E1 as [a [A ->]].
    apply span_split in E2. destruct E2 as [E2 [F _]].
    destruct (drop_while_split r1) as [b [B G]]. unfold after_blanks in E2. rewrite E2 in G. subst r1.
    destruct (drop_while_split y) as [c [C G]]. unfold after_blanks in E3. rewrite E3, app_nil_r in G. subst c.
    exists a, b, y. split; [reflexivity|]. repeat (split; [assumption || discriminate|]).
    eapply Forall_impl; [|exact F]. intros z. apply word_char_iff.
  - intros [a [b [c [-> [A [B [C [N F]]]]]]]].
    assert (E1 : after_prefix [hash] (after_blanks (a ++ "#"%char :: b ++ w ++ c)) = Some (b ++ w ++ c)).
    { apply after_prefix_iff. apply after_blanks_iff; [apply Nh|]. exists a. split; [exact A | reflexivity]. }
    rewrite E1.
    assert (F' : Forall (fun z => is_word_char z = true) w).
    { eapply Forall_impl; [|exact F]. intros z. apply word_char_iff. }
    assert (E2 : after_blanks (b ++ w ++ c) = w ++ c).
    { apply after_blanks_iff; [|exists b; split; [exact B | reflexivity]].
      intros x q H. destruct w as [|w0 w]; [congruence|]. injection H as <- _. inversion F'; subst. apply word_not_space. assumption. }
    rewrite E2. rewrite span_exact; [|exact F'|].
    + destruct w as [|w0 w]; [congruence|]. unfold after_blanks.
      replace (drop_while is_space c) with (@nil ascii); [reflexivity|]. symmetry.
      rewrite <- (app_nil_r c). rewrite drop_while_blank by exact C. reflexivity.
    + intros x q ->. inversion C; subst. destruct (is_word_char x) eqn:W; [|reflexivity]. apply word_not_space in W. congruence.
Qed.
Lemma word_line_det l v w : word_line l v -> word_line l w -> v = w.
Proof. intros H K. apply name_line_iff in H, K. congruence. Qed.

(** ** Words *)
Lemma split_on_app p u c b : p c = true -> split_on p (u ++ c :: b) = split_on p u ++ split_on p b.
Proof.
  intros E. induction u as [|x u IH]; cbn [app split_on].
  - rewrite E. reflexivity.
  - destruct (p x); [rewrite IH; reflexivity|]. rewrite IH. destruct (split_on p u) as [|h t] eqn:N; [|reflexivity].
    destruct u as [|y u]; cbn in N; [discriminate|]. destruct (p y); [discriminate|]. destruct (split_on p u); discriminate.
Qed.
Lemma words_app u c b : is_space c = true -> words (u ++ c :: b) = words u ++ words b.
Proof. intros E. unfold words. rewrite split_on_app by exact E. apply filter_app. Qed.
Lemma words_nil : words [] = [].
Proof. reflexivity. Qed.
Lemma words_of_blank b : all_space b -> words b = [].
Proof. intros B. induction B as [|c b E B IH]; [reflexivity|]. change (c :: b) with ([] ++ c :: b). rewrite words_app by exact E. exact IH. Qed.
Lemma words_pre b s : all_space b -> words (b ++ s) = words s.
Proof.
  intros B. induction B as [|c b E B IH]; [reflexivity|]. change ((c :: b) ++ s) with ([] ++ c :: b ++ s).
  rewrite words_app by exact E. exact IH.
Qed.
Lemma words_post s b : all_space b -> words (s ++ b) = words s.
Proof.
  intros B. destruct B as [|c b E B]; [rewrite app_nil_r; reflexivity|]. rewrite words_app by exact E.
  rewrite (words_of_blank b B). apply app_nil_r.
Qed.
Lemma split_on_word p t : Forall (fun c => p c = false) t -> split_on p t = [t].
Proof. intros F. induction F as [|c t E F IH]; [reflexivity|]. cbn. rewrite E, IH. reflexivity. Qed.
Lemma words_word t r : t <> [] -> (forall c, In c t -> is_space c = false) -> starts_blank r -> words (t ++ r) = t :: words r.
Proof.
  intros N F B. assert (W : split_on is_space t = [t]) by (apply split_on_word; apply Forall_forall; exact F).
  destruct r as [|c r].
  - rewrite app_nil_r. unfold words. rewrite W. cbn. destruct t; [congruence | reflexivity].
  - rewrite words_app by exact B. change (words (c :: r)) with (words ([] ++ c :: r)). rewrite words_app by exact B.
    unfold words at 1. rewrite W. cbn. destruct t; [congruence | reflexivity].
Qed.
Lemma trim_split s : exists a b, s = a ++ trim s ++ b /\ all_space a /\ all_space b.
Proof. destruct (trim_stripped s) as [a [b [E [A [B _]]]]]. exists a, b. auto. Qed.
Lemma words_trim s : words (trim s) = words s.
Proof.
  destruct (trim_split s) as [a [b [E [A B]]]]. rewrite E at 2. rewrite words_pre by exact A. rewrite words_post by exact B. reflexivity.
Qed.
(** A text is blank, or has a first word. *)
Lemma words_cases s : (all_space s /\ words s = []) \/
  exists a t r, s = a ++ t ++ r /\ all_space a /\ t <> [] /\ (forall c, In c t -> is_space c = false) /\ starts_blank r /\
    words s = t :: words r /\ drop_while is_space s = t ++ r.
Proof.
  destruct (drop_while_split s) as [a [A E]]. destruct (drop_while is_space s) as [|c q] eqn:D.
  - left. rewrite app_nil_r in E. subst a. split; [exact A | apply words_of_blank; exact A].
  - right. pose proof (drop_while_head _ _ _ _ D) as Hc. destruct (span not_space (c :: q)) as [t r] eqn:S1.
    destruct (span_split _ _ _ _ S1) as [E1 [F G]]. exists a, t, r.
    assert (F' : forall x, In x t -> is_space x = false).
    { intros x I. rewrite Forall_forall in F. specialize (F x I). unfold not_space in F. destruct (is_space x); [discriminate | reflexivity]. }
    assert (R : starts_blank r).
    { destruct r as [|x r]; [exact I|]. specialize (G x r eq_refl). unfold not_space in G. simpl. destruct (is_space x); [reflexivity | discriminate]. }
    assert (N : t <> []).
    { intros ->. cbn in E1. subst r. simpl in R. congruence. }
    rewrite E1 in E. split; [exact E|]. split; [exact A|]. split; [exact N|]. split; [exact F'|]. split; [exact R|]. split; [|rewrite E1; reflexivity].
    rewrite E. rewrite words_pre by exact A. apply words_word; assumption.
Qed.
Lemma words_nil_iff s : words s = [] <-> all_space s.
Proof.
  destruct (words_cases s) as [[A E]|[a [t [r [E [A [N [F [B [W _]]]]]]]]]].
  - split; auto.
  - rewrite W. split; [discriminate|]. intros H. exfalso. rewrite E in H. apply Forall_app in H. destruct H as [_ H].
    destruct t as [|c t]; [congruence|]. inversion H; subst. rewrite (F c (or_introl eq_refl)) in *. discriminate.
Qed.
Lemma words_in s w : In w (words s) -> w <> [] /\ (forall c, In c w -> is_space c = false /\ In c s).
Proof.
  remember (length s) as n eqn:L. revert s L. induction n as [n IH] using lt_wf_ind; intros s L I.
  destruct (words_cases s) as [[_ W]|[a [t [r [E [A [N [F [B [W _]]]]]]]]]]; rewrite W in I; [destruct I|].
  destruct I as [<-|I].
  - split; [exact N|]. intros c H. split; [apply F; exact H|]. rewrite E. rewrite !in_app_iff. auto.
  - destruct (IH (length r)) with (s := r) as [K1 K2]; [|reflexivity | exact I|].
    + subst n s. rewrite !app_length. destruct t; [congruence|]. cbn. lia.
    + split; [exact K1|]. intros c H. destruct (K2 c H). split; [assumption|]. rewrite E. rewrite !in_app_iff. auto.
Qed.

Lemma tokens_words s : ~ In dq s -> tokens s = words s.
Proof.
  remember (length s) as n eqn:L. revert s L. induction n as [n IH] using lt_wf_ind; intros s L Q.
  rewrite tokens_step. unfold read_quoted, extract_quoted.
  destruct (words_cases s) as [[A W]|[a [t [r [E [A [N [F [B [W D]]]]]]]]]]; rewrite W.
  - replace (drop_while is_space s) with (@nil ascii); [reflexivity|]. rewrite <- (app_nil_r s). rewrite drop_while_blank by exact A. reflexivity.
  - rewrite D. destruct t as [|c t]; [congruence|]. cbn [app].
    replace (Ascii.eqb c dq) with false.
    2:{ symmetry. apply ascii_eqb_neq. intros ->. apply Q. rewrite E. rewrite !in_app_iff. cbn. auto. }
    change (c :: t ++ r) with ((c :: t) ++ r). rewrite span_word by assumption. f_equal.
    apply IH with (m := length r); [|reflexivity|].
    + subst n s. rewrite !app_length. cbn. lia.
    + intros I. apply Q. rewrite E. rewrite !in_app_iff. auto.
Qed.
Lemma row_tokens_words s : ~ In dq s -> row_tokens s = words s.
Proof.
  intros Q. unfold row_tokens, read_plain.
  destruct (words_cases s) as [[A W]|[a [t [r [E [A [N [F [B [W D]]]]]]]]]]; rewrite W.
  - replace (drop_while is_space s) with (@nil ascii); [reflexivity|]. rewrite <- (app_nil_r s). rewrite drop_while_blank by exact A. reflexivity.
  - rewrite D. destruct t as [|c t]; [congruence|]. cbn [app].
    change (c :: t ++ r) with ((c :: t) ++ r). rewrite span_word by assumption. f_equal.
    apply tokens_words. intros I. apply Q. rewrite E. rewrite !in_app_iff. auto.
Qed.
Lemma next_word_words s : next_word s = match words s with [] => ([], []) | _ => next_word s end.
Proof.
  unfold next_word, read_plain. destruct (words_cases s) as [[A W]|[a [t [r [E [A [N [F [B [W D]]]]]]]]]]; rewrite W; [|reflexivity].
  replace (drop_while is_space s) with (@nil ascii); [reflexivity|]. rewrite <- (app_nil_r s). rewrite drop_while_blank by exact A. reflexivity.
Qed.
Lemma next_word_spec s : exists r, next_word s = (match words s with [] => [] | w :: _ => w end, r) /\
  words r = match words s with [] => [] | _ :: t => t end.
Proof.
  unfold next_word, read_plain. destruct (words_cases s) as [[A W]|[a [t [r [E [A [N [F [B [W D]]]]]]]]]]; rewrite W.
  - exists []. split; [|reflexivity].
    replace (drop_while is_space s) with (@nil ascii); [reflexivity|]. rewrite <- (app_nil_r s). rewrite drop_while_blank by exact A. reflexivity.
  - exists r. split; [|reflexivity]. rewrite D. destruct t as [|c t]; [congruence|]. cbn [app].
    change (c :: t ++ r) with ((c :: t) ++ r). rewrite span_word by assumption. reflexivity.
Qed.
Lemma words_nonempty s w r : words s = w :: r -> w <> [].
Proof. intros H. apply (words_in s w). rewrite H. left. reflexivity. Qed.
Lemma two_numbers_iff pd line : pd [] = None ->
  (two_numbers pd line = true <-> exists a b, words line = [a; b] /\ pd a <> None /\ pd b <> None).
Proof.
  intros P. unfold two_numbers.
  destruct (next_word_spec line) as [r1 [E1 W1]]. rewrite E1.
  destruct (next_word_spec r1) as [r2 [E2 W2]]. rewrite E2.
  destruct (next_word_spec r2) as [r3 [E3 W3]]. rewrite E3.
  destruct (words line) as [|a l] eqn:Wl; [rewrite P; split; [discriminate|]; intros [a [b [H _]]]; discriminate|].
  rewrite W1. destruct l as [|b l].
  - rewrite P. destruct (pd a); (split; [discriminate|]; intros [a' [b' [H _]]]; discriminate).
  - rewrite W1 in W2. rewrite W2. destruct l as [|c l].
    + destruct (pd a) eqn:Pa; [destruct (pd b) eqn:Pb|].
      * split; [|reflexivity]. intros _. exists a, b. split; [reflexivity|]. split; congruence.
      * split; [discriminate|]. intros [a' [b' [H [H1 H2]]]]. injection H as <- <-. congruence.
      * split; [discriminate|]. intros [a' [b' [H [H1 H2]]]]. injection H as <- <-. congruence.
    + assert (Nc : c <> []) by (eapply words_nonempty; exact W2).
      split; [|intros [a' [b' [H _]]]; discriminate]. destruct c; [congruence|]. destruct (pd a), (pd b); discriminate.
Qed.

(** ** Is it a dataset file? *)
Lemma is_comment_iff l : is_comment l = true <-> exists a r, l = a ++ "#"%char :: r /\ all_space a.
Proof.
  assert (Nh : forall r, no_space_first ([hash] ++ r)) by (intros r c q H; injection H as <- _; reflexivity).
  unfold is_comment. destruct (after_prefix [hash] (after_blanks l)) as [r|] eqn:E.
  - apply after_prefix_iff in E. apply after_blanks_iff in E; [|apply Nh]. destruct E as [a [A E]].
    split; [intros _; exists a, r; split; assumption | reflexivity].
  - split; [discriminate|]. intros [a [r [H A]]].
    assert (E' : after_prefix [hash] (after_blanks l) = Some r).
    { apply after_prefix_iff. apply after_blanks_iff; [apply Nh|]. exists a. split; assumption. }
    congruence.
Qed.
Lemma passed_over_iff l : passed_over l = true <-> skipped l.
Proof.
  unfold passed_over, skipped. destruct l as [|c l]; [split; auto|]. rewrite is_comment_iff. split; [auto|].
  intros [H|H]; [discriminate | exact H].
Qed.
Lemma first_data_iff lines x after : first_data lines = Some (x, after) <->
  exists before, lines = before ++ x :: after /\ Forall skipped before /\ ~ skipped x.
Proof.
  induction lines as [|l lines IH]; cbn [first_data].
  - split; [discriminate|]. intros [b [H _]]. destruct b; discriminate.
  - destruct (passed_over l) eqn:P.
    + apply passed_over_iff in P. rewrite IH. split.
      * intros [b [-> [F N]]]. exists (l :: b). split; [reflexivity|]. split; [constructor; assumption | exact N].
      * intros [b [H [F N]]]. destruct b as [|l' b]; injection H as -> H.
        -- contradiction.
        -- exists b. split; [exact H|]. split; [inversion F; assumption | exact N].
    + assert (NP : ~ skipped l) by (intros S1; apply passed_over_iff in S1; congruence). split.
      * intros H. injection H as <- <-. exists []. split; [reflexivity|]. split; [constructor | exact NP].
      * intros [b [H [F N]]]. destruct b as [|l' b]; injection H as -> H; [rewrite H; reflexivity|].
        inversion F; subst. contradiction.
Qed.
Lemma is_dataset_iff pd file : pd [] = None ->
  (ap_is_dataset pd file = true <->
   exists s before x after, file = Some s /\ lines_of s = before ++ x :: after /\ after <> [] /\ Forall skipped before /\ ~ skipped x /\
     exists a b, words x = [a; b] /\ pd a <> None /\ pd b <> None).
Proof.
  intros P. unfold ap_is_dataset. destruct file as [s|].
  2:{ split; [discriminate|]. intros [s [b [x [r [H _]]]]]. discriminate. }
  split.
  - destruct (first_data (lines_of s)) as [[x [|y after]]|] eqn:F; try discriminate. intros T.
    apply first_data_iff in F. destruct F as [before [E [F N]]]. exists s, before, x, (y :: after).
    repeat (split; [assumption || reflexivity || discriminate|]). apply two_numbers_iff; assumption.
  - intros [s' [before [x [after [H [E [NA [F [N T]]]]]]]]]. injection H as <-.
    assert (D : first_data (lines_of s) = Some (x, after)) by (apply first_data_iff; exists before; auto).
    rewrite D. destruct after as [|y after]; [congruence|]. apply two_numbers_iff; assumption.
Qed.
