(** Invariants of the file pool used by several threads. *)
From Coq Require Import List Arith Bool Lia.
From Verif Require Import FPThreadsModel.
Import ListNotations.

Definition cnt (l : list nat) (x : nat) : nat := count_occ Nat.eq_dec l x.
Lemma cnt_app a b x : cnt (a ++ b) x = cnt a x + cnt b x.
Proof. apply count_occ_app. Qed.
Lemma cnt_in l x : In x l <-> 0 < cnt l x.
Proof. unfold cnt. rewrite (count_occ_In Nat.eq_dec). lia. Qed.
Lemma cnt_cons a l x : cnt (a :: l) x = (if a =? x then 1 else 0) + cnt l x.
Proof. unfold cnt. cbn. destruct (Nat.eq_dec a x) as [->|N]; [rewrite Nat.eqb_refl; reflexivity|]. apply Nat.eqb_neq in N. rewrite N. reflexivity. Qed.
Lemma cnt_nil x : cnt [] x = 0.
Proof. reflexivity. Qed.
Lemma cnt_remove i l x : cnt (remove i l) x = if x =? i then 0 else cnt l x.
Proof.
  unfold remove. induction l as [|a l IH]; [cbn; destruct (x =? i); reflexivity|]. cbn [filter].
  destruct (Nat.eqb_spec a i) as [E|N]; cbn [negb]; rewrite ?cnt_cons, IH; destruct (Nat.eqb_spec x i), (Nat.eqb_spec a x); subst; try congruence; lia.
Qed.
Lemma cnt_unlist i l x : cnt (map snd (unlist i l)) x = if x =? i then 0 else cnt (map snd l) x.
Proof.
  unfold unlist. induction l as [|a l IH]; [cbn; destruct (x =? i); reflexivity|]. cbn [filter map].
  destruct (Nat.eqb_spec (snd a) i) as [E|N]; cbn [negb map]; rewrite ?cnt_cons, IH; destruct (Nat.eqb_spec x i), (Nat.eqb_spec (snd a) x); subst; try congruence; lia.
Qed.
Lemma mem_in i l : mem i l = true <-> In i l.
Proof. unfold mem. rewrite existsb_exists. split; [intros (y & H & E); apply Nat.eqb_eq in E; subst; exact H|intros H; exists i; split; [exact H|apply Nat.eqb_refl]]. Qed.
Lemma mem_cnt i l : mem i l = true <-> 0 < cnt l i.
Proof. rewrite mem_in. apply cnt_in. Qed.
Lemma cnt_insert i l x : ~ In i l -> cnt (insert i l) x = (if i =? x then 1 else 0) + cnt l x.
Proof.
  induction l as [|a l IH]; intros H; [cbn [insert]; rewrite !cnt_cons; lia|]. cbn [insert]. destruct (i <? a); [rewrite !cnt_cons; lia|].
  destruct (Nat.eqb_spec i a) as [->|N]; [exfalso; apply H; left; reflexivity|]. rewrite !cnt_cons, IH; [lia|]. intros Q. apply H. right. exact Q.
Qed.
Lemma length_insert i l : length (insert i l) <= S (length l).
Proof. induction l as [|a l IH]; cbn [insert length]; [lia|]. destruct (i <? a); cbn [length]; [lia|]. destruct (i =? a); cbn [length]; lia. Qed.
Lemma length_remove i l : length (remove i l) <= length l.
Proof. unfold remove. induction l as [|a l IH]; cbn [filter length]; [lia|]. destruct (negb (a =? i)); cbn [length]; lia. Qed.

Lemma upd_eq {A} (f : nat -> A) i a : upd f i a i = a.
Proof. unfold upd. rewrite Nat.eqb_refl. reflexivity. Qed.
Lemma upd_neq {A} (f : nat -> A) i a j : j <> i -> upd f i a j = f j.
Proof. unfold upd. intros H. apply Nat.eqb_neq in H. rewrite H. reflexivity. Qed.

(** Sums over the threads. *)
Definition over (n : nat) (g : tpc -> list nat) (f : nat -> tpc) : list nat := flat_map (fun t => g (f t)) (seq 0 n).
Lemma over_upd n (f : nat -> tpc) g t a x : t < n -> cnt (over n g (upd f t a)) x + cnt (g (f t)) x = cnt (over n g f) x + cnt (g a) x.
Proof.
  unfold over. intros H. replace n with (t + (1 + (n - t - 1))) by lia. rewrite (seq_app t), !flat_map_app, !cnt_app.
  rewrite (seq_app 1), !flat_map_app, !cnt_app. change (seq (0 + t) 1) with [t]. cbn [flat_map]. rewrite upd_eq, !app_nil_r.
  assert (E : forall l, ~ In t l -> flat_map (fun i => g (upd f t a i)) l = flat_map (fun i => g (f i)) l).
  { induction l as [|y l IH]; intros Hn; [reflexivity|]. cbn [flat_map]. rewrite IH, upd_neq; [reflexivity| |].
    - intros ->. apply Hn. left. reflexivity.
    - intros Hi. apply Hn. right. assumption. }
  rewrite !E; [lia| |]; rewrite in_seq; lia.
Qed.
Lemma over_in n g f x : In x (over n g f) <-> exists t, t < n /\ In x (g (f t)).
Proof. unfold over. rewrite in_flat_map. split; intros (w & A & B); exists w; (split; [|assumption]); apply in_seq in A || apply in_seq; lia. Qed.
Lemma over_le n (g g1 g2 : tpc -> list nat) f x : (forall t, t < n -> cnt (g (f t)) x <= cnt (g1 (f t)) x + cnt (g2 (f t)) x) ->
  cnt (over n g f) x <= cnt (over n g1 f) x + cnt (over n g2 f) x.
Proof.
  unfold over. intros H. assert (K : forall l, (forall t, In t l -> t < n) -> cnt (flat_map (fun t => g (f t)) l) x <= cnt (flat_map (fun t => g1 (f t)) l) x + cnt (flat_map (fun t => g2 (f t)) l) x).
  { induction l as [|t l IH]; intros L; [cbn; lia|]. cbn [flat_map]. rewrite !cnt_app. specialize (IH (fun u Q => L u (or_intror Q))). specialize (H t (L t (or_introl eq_refl))). lia. }
  apply K. intros t Q. apply in_seq in Q. lia.
Qed.
Lemma over_one n g f x t : t < n -> cnt (g (f t)) x <= cnt (over n g f) x.
Proof.
  intros H. unfold over. destruct (in_split t (seq 0 n) ltac:(apply in_seq; lia)) as (l1 & l2 & E). rewrite E, flat_map_app, cnt_app. cbn [flat_map]. rewrite cnt_app. lia.
Qed.
Lemma over_two n g f x t u : t < n -> u < n -> t <> u -> cnt (g (f t)) x + cnt (g (f u)) x <= cnt (over n g f) x.
Proof.
  intros H1 H2 N.
  assert (P : forall l, NoDup l -> In t l -> In u l -> cnt (g (f t)) x + cnt (g (f u)) x <= cnt (flat_map (fun v => g (f v)) l) x).
  { induction l as [|v l IH]; intros D A B; [destruct A|]. inversion D as [|? ? D1 D2]; subst. cbn [flat_map]. rewrite cnt_app.
    assert (O : forall y l0, In y l0 -> cnt (g (f y)) x <= cnt (flat_map (fun v => g (f v)) l0) x).
    { intros y l0 Q. apply in_split in Q. destruct Q as (l1 & l2 & ->). rewrite flat_map_app, cnt_app. cbn [flat_map]. rewrite cnt_app. lia. }
    destruct A as [->|A], B as [B|B]; [congruence| | |].
    - specialize (O u l B). lia.
    - subst. specialize (O t l A). lia.
    - specialize (IH D2 A B). lia. }
  unfold over. apply P; [apply seq_NoDup|apply in_seq; lia|apply in_seq; lia].
Qed.
