From Coq Require Import List Arith Bool Lia Sorted Permutation.
From Verif Require Import FilePoolModel FilePoolSpec.
Import ListNotations.

(** * Logs *)

Lemma mem_In : forall i l, mem i l = true <-> In i l.
Proof.
  intros i l. unfold mem. rewrite existsb_exists. split.
  - intros (x & Hx & He). apply Nat.eqb_eq in He. subst; auto.
  - intros H. exists i. rewrite Nat.eqb_refl. auto.
Qed.
Lemma mem_not_In : forall i l, mem i l = false <-> ~ In i l.
Proof.
  intros i l. rewrite <- mem_In. destruct (mem i l); split; congruence.
Qed.
Lemma remove_In : forall i j l, In j (remove i l) <-> In j l /\ j <> i.
Proof.
  intros i j l. unfold remove. rewrite filter_In, negb_true_iff, Nat.eqb_neq. reflexivity.
Qed.
Lemma remove_length : forall i l, NoDup l -> In i l -> length (remove i l) = pred (length l).
Proof.
  intros i l Hnd. induction Hnd as [|x l Hx Hnd IH]; intros Hin; [destruct Hin|].
  cbn. destruct (Nat.eqb_spec x i) as [->|Hne]; cbn.
  - assert (Hr : filter (fun j => negb (j =? i)) l = l).
    { clear IH Hin Hnd. induction l as [|y l IHl]; auto. cbn. destruct (Nat.eqb_spec y i) as [->|Hn]; cbn.
      - exfalso; apply Hx; left; auto.
      - f_equal. apply IHl. intros C; apply Hx; right; auto. }
    rewrite Hr. auto.
  - destruct Hin as [->|Hin]; [congruence|]. unfold remove in IH. rewrite IH by auto.
    destruct l; [destruct Hin|]. auto.
Qed.
Lemma remove_NoDup : forall i l, NoDup l -> NoDup (remove i l).
Proof. intros. apply NoDup_filter. auto. Qed.

Definition lru_step (l : list fid) (e : event) : list fid :=
  match e with
  | EOpen i _ _ _ => l ++ [i]
  | EUse i => remove i l ++ [i]
  | EClose i => remove i l
  end.
Definition lru (log : list event) : list fid := fold_left lru_step log [].

Lemma open_ids_snoc : forall log e, open_ids (log ++ [e]) = open_step (open_ids log) e.
Proof. intros. unfold open_ids. rewrite fold_left_app. reflexivity. Qed.
Lemma opened_snoc : forall log e i, opened (log ++ [e]) i = opened_step i (opened log i) e.
Proof. intros. unfold opened. rewrite fold_left_app. reflexivity. Qed.
Lemma lru_snoc : forall log e, lru (log ++ [e]) = lru_step (lru log) e.
Proof. intros. unfold lru. rewrite fold_left_app. reflexivity. Qed.
Lemma last_use_from_snoc : forall log n e i,
  last_use_from n (log ++ [e]) i = if touches i e then S (n + length log) else last_use_from n log i.
Proof.
  induction log as [|x log IH]; intros n e i; cbn [app last_use_from length].
  - rewrite Nat.add_0_r. destruct (touches i e); lia.
  - rewrite IH. destruct (touches i e), (touches i x); cbn; lia.
Qed.
Lemma last_use_snoc : forall log e i,
  last_use (log ++ [e]) i = if touches i e then S (length log) else last_use log i.
Proof. intros. unfold last_use. rewrite last_use_from_snoc. reflexivity. Qed.
Lemma last_use_from_bound : forall log n i, last_use_from n log i <= n + length log.
Proof.
  induction log as [|x log IH]; intros n i; cbn [last_use_from length]; [lia|].
  specialize (IH (S n) i). destruct (touches i x); lia.
Qed.
Lemma last_use_bound : forall log i, last_use log i <= length log.
Proof. intros. apply (last_use_from_bound log 0). Qed.

(** Logs the manager can produce. *)
Inductive legal (lim : nat) : list event -> Prop :=
| legal_nil : legal lim []
| legal_open : forall log i h ty w, legal lim log -> ~ In i (open_ids log) -> length (open_ids log) < lim ->
    legal lim (log ++ [EOpen i h ty w])
| legal_use : forall log i, legal lim log -> In i (open_ids log) -> legal lim (log ++ [EUse i])
| legal_close : forall log i, legal lim log -> In i (open_ids log) -> legal lim (log ++ [EClose i]).

Lemma legal_NoDup : forall lim log, legal lim log -> NoDup (open_ids log).
Proof.
  intros lim log H. induction H; rewrite ?open_ids_snoc; cbn; auto using NoDup_nil, NoDup_cons, NoDup_filter.
Qed.
Lemma lru_perm : forall lim log, legal lim log -> Permutation (lru log) (open_ids log).
Proof.
  intros lim log H. induction H; rewrite ?open_ids_snoc, ?lru_snoc; cbn [lru_step open_step]; auto.
  - rewrite Permutation_app_comm. cbn. constructor. auto.
  - assert (Hin : In i (lru log)) by (eapply Permutation_in; [symmetry; eassumption|]; auto).
    assert (Hnd : NoDup (lru log)) by (eapply Permutation_NoDup; [symmetry; eassumption|]; eapply legal_NoDup; eauto).
    rewrite <- IHlegal. apply NoDup_Permutation; auto.
    + apply NoDup_app_remove_r with (l' := []) || idtac.
      rewrite Permutation_app_comm. cbn. constructor.
      * rewrite remove_In. tauto.
      * apply remove_NoDup; auto.
    + intros x. rewrite in_app_iff, remove_In. cbn. destruct (Nat.eq_dec x i); subst; tauto || (split; [intros [?|[?|[]]]; [tauto|congruence]|tauto]).
  - apply NoDup_Permutation.
    + apply remove_NoDup. eapply Permutation_NoDup; [symmetry; eassumption|]; eapply legal_NoDup; eauto.
    + apply NoDup_filter. eapply legal_NoDup; eauto.
    + intros x. fold (remove i (open_ids log)). rewrite !remove_In.
      split; intros [Hx Hn]; split; auto; [eapply Permutation_in; [exact IHlegal|auto]|eapply Permutation_in; [apply Permutation_sym; exact IHlegal|auto]].
Qed.
Lemma lru_In : forall lim log, legal lim log -> forall i, In i (lru log) <-> In i (open_ids log).
Proof.
  intros lim log H i. split; intros Hi; eapply Permutation_in; try exact Hi; [|symmetry]; eapply lru_perm; eauto.
Qed.
Lemma lru_NoDup : forall lim log, legal lim log -> NoDup (lru log).
Proof. intros lim log H. eapply Permutation_NoDup; [symmetry; eapply lru_perm; eauto|]. eapply legal_NoDup; eauto. Qed.

Lemma legal_prefix : forall lim log, legal lim log -> forall pre suf, log = pre ++ suf -> legal lim pre.
Proof.
  intros lim log H. induction H; intros pre suf He.
  - destruct pre; [constructor|discriminate].
  - destruct suf as [|x suf] using rev_ind.
    + rewrite app_nil_r in He. subst pre. constructor; auto.
    + clear IHsuf. rewrite app_assoc in He. apply app_inj_tail in He as [He _]. eauto.
  - destruct suf as [|x suf] using rev_ind.
    + rewrite app_nil_r in He. subst pre. constructor; auto.
    + clear IHsuf. rewrite app_assoc in He. apply app_inj_tail in He as [He _]. eauto.
  - destruct suf as [|x suf] using rev_ind.
    + rewrite app_nil_r in He. subst pre. constructor; auto.
    + clear IHsuf. rewrite app_assoc in He. apply app_inj_tail in He as [He _]. eauto.
Qed.
Lemma legal_bound : forall lim log, legal lim log -> length (open_ids log) <= lim.
Proof.
  intros lim log H. induction H; rewrite ?open_ids_snoc; cbn [open_step length]; try lia.
  - cbn; lia.
  - fold (remove i (open_ids log)). rewrite remove_length; auto; [|eapply legal_NoDup; eauto].
    eapply Nat.le_trans; [apply Nat.le_pred_l|auto].
Qed.
Lemma lru_sorted : forall lim log, legal lim log ->
  StronglySorted (fun i j => last_use log i < last_use log j) (lru log).
Proof.
  intros lim log H.
  assert (Hsnoc : forall (R : nat -> nat -> Prop) l x, StronglySorted R l -> (forall y, In y l -> R y x) -> StronglySorted R (l ++ [x])).
  { intros R l x Hs. induction Hs as [|a l Hs IH Hf]; intros Hy; cbn.
    - repeat constructor.
    - constructor.
      + apply IH. intros; apply Hy; right; auto.
      + apply Forall_app. split; auto. constructor; auto. apply Hy; left; auto. }
  assert (Hfil : forall (R : nat -> nat -> Prop) f l, StronglySorted R l -> StronglySorted R (filter f l)).
  { intros R f l Hs. induction Hs as [|a l Hs IH Hf]; cbn; [constructor|].
    destruct (f a); auto. constructor; auto. rewrite Forall_forall in *. intros x Hx. apply Hf. apply filter_In in Hx. tauto. }
  assert (Hmono : forall (R R' : nat -> nat -> Prop) l, (forall x y, In x l -> In y l -> R x y -> R' x y) -> StronglySorted R l -> StronglySorted R' l).
  { intros R R' l Hm Hs. induction Hs as [|a l Hs IH Hf]; constructor.
    - apply IH. intros; apply Hm; auto; right; auto.
    - rewrite Forall_forall in *. intros x Hx. apply Hm; auto; [left|right]; auto. }
  induction H; rewrite ?lru_snoc; cbn [lru_step].
  - constructor.
  - apply Hsnoc.
    + eapply Hmono; [|exact IHlegal]. intros x y Hx Hy Hr. rewrite !last_use_snoc. cbn.
      apply (lru_In lim) in Hx; auto. apply (lru_In lim) in Hy; auto.
      destruct (Nat.eqb_spec i x); [subst; tauto|]. destruct (Nat.eqb_spec i y); [subst; tauto|]. auto.
    + intros y Hy. apply (lru_In lim) in Hy; auto. rewrite !last_use_snoc. cbn. rewrite Nat.eqb_refl.
      destruct (Nat.eqb_spec i y); [subst; tauto|]. pose proof (last_use_bound log y). lia.
  - apply Hsnoc.
    + eapply Hmono; [|apply Hfil; exact IHlegal]. intros x y Hx Hy Hr. rewrite !last_use_snoc. cbn.
      apply remove_In in Hx as [_ Hx]. apply remove_In in Hy as [_ Hy].
      destruct (Nat.eqb_spec i x); [subst; tauto|]. destruct (Nat.eqb_spec i y); [subst; tauto|]. auto.
    + intros y Hy. apply remove_In in Hy as [_ Hy]. rewrite !last_use_snoc. cbn. rewrite Nat.eqb_refl.
      destruct (Nat.eqb_spec i y); [subst; tauto|]. pose proof (last_use_bound log y). lia.
  - apply Hfil. eapply Hmono; [|exact IHlegal]. intros x y Hx Hy Hr. rewrite !last_use_snoc. cbn. auto.
Qed.
Lemma opened_In : forall lim log, legal lim log -> forall i, opened log i <> None <-> In i (open_ids log).
Proof.
  intros lim log H. induction H; intros j; rewrite ?open_ids_snoc, ?opened_snoc; cbn [open_step opened_step].
  - cbn. tauto.
  - destruct (Nat.eqb_spec i j); cbn; [subst; split; auto; intros; discriminate|]. rewrite IHlegal. tauto.
  - apply IHlegal.
  - fold (remove i (open_ids log)). rewrite remove_In, <- IHlegal.
    destruct (Nat.eqb_spec i j); [subst; tauto|]. split; [intros; split; auto|tauto].
Qed.
