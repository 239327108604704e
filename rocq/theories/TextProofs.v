From Coq Require Import List Arith Ascii String Bool Lia.
From Verif Require Import Common TextModel.
Import ListNotations.
Local Notation length := List.length.

Lemma ascii_eqb_spec (x y : ascii) : Ascii.eqb x y = true <-> x = y.
Proof. apply Ascii.eqb_eq. Qed.

Lemma text_eqb_iff a b : text_eqb a b = true <-> a = b.
Proof.
  revert b. induction a as [|x a IH]; intros [|y b]; simpl; split; try discriminate; try reflexivity.
  - rewrite andb_true_iff, ascii_eqb_spec, IH. intros (-> & ->). reflexivity.
  - intros E. injection E as -> ->. rewrite Ascii.eqb_refl. apply IH. reflexivity.
Qed.
Lemma text_eqb_refl a : text_eqb a a = true.
Proof. apply text_eqb_iff. reflexivity. Qed.

Definition text_eq_dec (a b : text) : {a = b} + {a <> b}.
Proof. destruct (text_eqb a b) eqn:E; [left; apply text_eqb_iff; assumption|right; intros H; apply text_eqb_iff in H; congruence]. Defined.

Lemma byte_inj x y : byte x = byte y -> x = y.
Proof. intros H. rewrite <- (ascii_nat_embedding x), <- (ascii_nat_embedding y). unfold byte in H. congruence. Qed.

Lemma text_ltb_irrefl a : text_ltb a a = false.
Proof. induction a as [|x a IH]; [reflexivity|]. simpl. rewrite Nat.ltb_irrefl. assumption. Qed.

Lemma text_ltb_trans a b c : text_ltb a b = true -> text_ltb b c = true -> text_ltb a c = true.
Proof.
  revert b c. induction a as [|x a IH]; intros [|y b] [|z c]; simpl; try discriminate; try reflexivity.
  destruct (Nat.ltb_spec (byte x) (byte y)), (Nat.ltb_spec (byte y) (byte z));
    destruct (Nat.ltb_spec (byte y) (byte x)), (Nat.ltb_spec (byte z) (byte y)); try lia; try discriminate;
    destruct (Nat.ltb_spec (byte x) (byte z)); try reflexivity; try lia;
    destruct (Nat.ltb_spec (byte z) (byte x)); try lia. apply IH.
Qed.

Lemma text_ltb_total a b : text_ltb a b = true \/ a = b \/ text_ltb b a = true.
Proof.
  revert b. induction a as [|x a IH]; intros [|y b]; simpl; auto.
  destruct (Nat.ltb_spec (byte x) (byte y)); [auto|].
  destruct (Nat.ltb_spec (byte y) (byte x)); [auto|].
  assert (x = y) by (apply byte_inj; lia). subst y. destruct (IH b) as [H1|[->|H1]]; auto.
Qed.

(** ** split and join *)
Lemma join_cons sep x r : r <> [] -> join sep (x :: r) = x ++ sep :: join sep r.
Proof. destruct r; [congruence|reflexivity]. Qed.

Lemma split_nonnil p s : split_on p s <> [].
Proof. destruct s as [|c r]; simpl; [discriminate|]. destruct (p c); [discriminate|]. destruct (split_on p r); discriminate. Qed.

Lemma split_cons_no p c r : p c = false -> split_on p (c :: r) = (c :: hd [] (split_on p r)) :: tl (split_on p r).
Proof. intros H. simpl. rewrite H. pose proof (split_nonnil p r). destruct (split_on p r); [congruence|reflexivity]. Qed.

Lemma split_no_sep p s : Forall (fun c => p c = false) s -> split_on p s = [s].
Proof.
  intros H. induction H as [|c r Hc Hr IH]; [reflexivity|]. simpl. rewrite Hc, IH. reflexivity.
Qed.

Lemma split_app p a c b : p c = true -> split_on p (a ++ c :: b) = split_on p a ++ split_on p b.
Proof.
  intros Hc. induction a as [|x a IH]; simpl.
  - rewrite Hc. reflexivity.
  - destruct (p x); rewrite IH; [reflexivity|].
    pose proof (split_nonnil p a). destruct (split_on p a); [congruence|reflexivity].
Qed.

Lemma split_segments p s : Forall (Forall (fun c => p c = false)) (split_on p s).
Proof.
  induction s as [|c r IH]; simpl; [repeat constructor|].
  destruct (p c) eqn:E; [constructor; [constructor|assumption]|].
  destruct (split_on p r); [repeat constructor; assumption|]. inversion IH; subst. constructor; [constructor; assumption|assumption].
Qed.

Lemma join_split p sep s : (forall c, p c = true -> c = sep) -> join sep (split_on p s) = s.
Proof.
  intros Hp. induction s as [|c r IH]; [reflexivity|]. simpl. destruct (p c) eqn:E.
  - rewrite (Hp c E). rewrite join_cons by apply split_nonnil. rewrite IH. reflexivity.
  - pose proof (split_nonnil p r). destruct (split_on p r) as [|h [|t1 t]] eqn:Es; [congruence|..].
    + simpl in *. congruence.
    + rewrite join_cons in IH |- * by discriminate. simpl. simpl in IH. rewrite IH. reflexivity.
Qed.

Lemma split_join p sep l : p sep = true -> l <> [] -> Forall (Forall (fun c => p c = false)) l -> split_on p (join sep l) = l.
Proof.
  intros Hp Hn H. induction H as [|x r Hx Hr IH]; [congruence|].
  destruct r as [|y r]; [apply split_no_sep; assumption|].
  rewrite join_cons by discriminate. rewrite split_app by assumption. rewrite IH by discriminate.
  rewrite split_no_sep by assumption. reflexivity.
Qed.

Lemma contains_char_iff c s : contains_char c s = true <-> In c s.
Proof.
  unfold contains_char. induction s as [|x r IH]; simpl; [split; [discriminate|intros []]|].
  destruct (Ascii.eqb_spec x c) as [->|H].
  - split; auto.
  - destruct (find_char c r); simpl in *.
    + split; [intros _; right; apply IH; reflexivity|reflexivity].
    + split; [discriminate|]. intros [E|E]; [congruence|]. apply IH in E. discriminate.
Qed.

Lemma no_slash_iff s : contains_char slash s = false <-> Forall (fun c => is_slash c = false) s.
Proof.
  rewrite <- not_true_iff_false, contains_char_iff, Forall_forall. unfold is_slash. split.
  - intros H x Hx. apply not_true_iff_false. rewrite ascii_eqb_spec. congruence.
  - intros H Hs. specialize (H _ Hs). rewrite Ascii.eqb_refl in H. discriminate.
Qed.

Lemma is_slash_eq c : is_slash c = true -> c = slash.
Proof. apply ascii_eqb_spec. Qed.
Lemma is_slash_slash : is_slash slash = true.
Proof. reflexivity. Qed.

(** ** starts_with *)
Lemma starts_with_iff s p : starts_with s p = true <-> exists r, s = p ++ r.
Proof.
  revert s. induction p as [|x p IH]; intros s; simpl; [split; [intros _; exists s; reflexivity|destruct s; reflexivity]|].
  destruct s as [|y s]; [split; [discriminate|intros (r & E); discriminate]|].
  cbn [starts_with]. rewrite andb_true_iff, ascii_eqb_spec, IH. split.
  - intros (-> & r & ->). exists r. reflexivity.
  - intros (r & E). injection E as -> ->. split; [reflexivity|exists r; reflexivity].
Qed.

Lemma starts_with_nil s : starts_with s [] = true.
Proof. destruct s; reflexivity. Qed.
