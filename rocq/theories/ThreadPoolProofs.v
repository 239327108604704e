(** Invariants of the thread pool. *)
From Coq Require Import List Arith Bool Lia.
From Verif Require Import ThreadPoolModel ThreadPoolSpec.
Import ListNotations.

Definition cnt (l : list nat) (t : nat) : nat := count_occ Nat.eq_dec l t.
Lemma cnt_app a b t : cnt (a ++ b) t = cnt a t + cnt b t.
Proof. apply count_occ_app. Qed.
Lemma cnt_in l t : In t l <-> 0 < cnt l t.
Proof. unfold cnt. rewrite (count_occ_In Nat.eq_dec). lia. Qed.
Lemma cnt_nodup l : NoDup l <-> forall t, cnt l t <= 1.
Proof. apply NoDup_count_occ. Qed.

Lemma upd_eq {A} (f : nat -> A) i a : upd f i a i = a.
Proof. unfold upd. rewrite Nat.eqb_refl. reflexivity. Qed.
Lemma upd_neq {A} (f : nat -> A) i a j : j <> i -> upd f i a j = f j.
Proof. unfold upd. intros H. apply Nat.eqb_neq in H. rewrite H. reflexivity. Qed.

(** Sum over the workers. *)
Definition over (n : nat) (g : nat -> list nat) : list nat := flat_map g (seq 0 n).
Lemma over_upd {A} n (f : nat -> A) (g : A -> list nat) w a t : w < n ->
  cnt (over n (fun i => g (upd f w a i))) t + cnt (g (f w)) t = cnt (over n (fun i => g (f i))) t + cnt (g a) t.
Proof.
  unfold over. intros H. replace n with (w + (1 + (n - w - 1))) by lia. rewrite (seq_app w), !flat_map_app, !cnt_app.
  rewrite (seq_app 1), !flat_map_app, !cnt_app. change (seq (0 + w) 1) with [w]. cbn [flat_map]. rewrite upd_eq, !app_nil_r.
  assert (E : forall l, ~ In w l -> flat_map (fun i => g (upd f w a i)) l = flat_map (fun i => g (f i)) l).
  { induction l as [|x l IH]; intros Hn; [reflexivity|]. cbn [flat_map]. rewrite IH, upd_neq; [reflexivity| |].
    - intros ->. apply Hn. left. reflexivity.
    - intros Hi. apply Hn. right. assumption. }
  rewrite !E; [lia| |]; rewrite in_seq; lia.
Qed.
Lemma over_in n g t : In t (over n g) <-> exists w, w < n /\ In t (g w).
Proof.
  unfold over. rewrite in_flat_map. split; intros (w & A & B); exists w; (split; [|assumption]); apply in_seq in A || apply in_seq; lia.
Qed.

Definition have (p : wpc) : list task := match p with WHave t => [t] | _ => [] end.
Definition runs (p : wpc) : list task := match p with WRun t => [t] | _ => [] end.
Definition slept (p : wpc) : bool := match p with WAsleep | WExit2 | WExit3 | WEnd => true | _ => false end.
Definition gone (p : wpc) : bool := match p with WExit3 | WEnd => true | _ => false end.
Definition busy (p : wpc) (t : task) : Prop := p = WHave t \/ p = WRun t \/ p = WSetExc t.

Lemma flat_app {A B} (f : A -> list B) a b : flat_map f (a ++ b) = flat_map f a ++ flat_map f b.
Proof. apply flat_map_app. Qed.

Section Inv.
  Variable n : nat.
  Variable fails : task -> bool.
  Notation step := (step n fails).
  Notation exec := (exec n fails).

  Record inv (s : pool) : Prop := {
    i_sub : submitted (tr s) = seq 0 (next s);
    i_asg : assigned (tr s) ++ queue s = seq 0 (next s);
    i_have : forall t, cnt (assigned (tr s)) t = cnt (started (tr s)) t + cnt (over n (fun w => have (pc s w))) t;
    i_runs : forall t, cnt (started (tr s)) t = cnt (ended (tr s)) t + cnt (over n (fun w => runs (pc s w))) t;
    i_ends : forall t, cnt (ended (tr s)) t = cnt (finished (tr s)) t + cnt (failed (tr s)) t;
    i_slp : forall w, w < n -> sleeping s w = slept (pc s w);
    i_don : forall w, w < n -> done s w = gone (pc s w);
    i_fail : 0 < n -> forall t, In t (failed (tr s)) -> exc s <> None \/ exists w, w < n /\ pc s w = WSetExc t;
    i_set : forall w t, w < n -> pc s w = WSetExc t -> In t (failed (tr s));
    i_exc : forall t, exc s = Some t -> 0 < n /\ In t (failed (tr s));
    i_zero : n = 0 -> queue s = []
  }.

  Lemma inv_new : inv new_pool.
  Proof.
    split; cbn; try reflexivity; try (intros; reflexivity); try discriminate; try (intros; contradiction).
    - intros t. unfold over. induction (seq 0 n); [reflexivity|assumption].
    - intros t. unfold over. induction (seq 0 n); [reflexivity|assumption].
  Qed.

  Ltac flat := unfold submitted, assigned, started, finished, failed, ended in *; rewrite ?flat_app in *; cbn [flat_map app] in *; rewrite ?app_nil_r in *.

  (** A transition of worker [w] to position [p] that adds [es] to the history. *)
  Lemma inv_move s s' w p es : inv s -> w < n -> pc s' = upd (pc s) w p -> tr s' = tr s ++ es -> next s' = next s ->
    submitted es = [] -> assigned es ++ queue s' = queue s ->
    (forall t, cnt (assigned es) t + cnt (have (pc s w)) t = cnt (started es) t + cnt (have p) t) ->
    (forall t, cnt (started es) t + cnt (runs (pc s w)) t = cnt (ended es) t + cnt (runs p) t) ->
    (forall t, cnt (ended es) t = cnt (finished es) t + cnt (failed es) t) ->
    (forall v, v <> w -> sleeping s' v = sleeping s v) -> sleeping s' w = slept p ->
    (forall v, v <> w -> done s' v = done s v) -> done s' w = gone p ->
    (forall t, In t (failed es) <-> p = WSetExc t) ->
    ((exc s' = exc s /\ forall t, pc s w <> WSetExc t) \/ (exists t, exc s' = Some t /\ pc s w = WSetExc t)) ->
    inv s'.
  Proof.
    intros [I1 I2 I3 I4 I5 I6 I7 I8 I9 I10 I11] Hw Ep Et En E1 E2 E3 E4 E5 S1 S2 D1 D2 F X. split.
    - rewrite Et, En. unfold submitted in *. rewrite flat_app, E1, app_nil_r. assumption.
    - rewrite Et, En. unfold assigned in *. rewrite flat_app, <- app_assoc, E2. assumption.
    - intros t. rewrite Et, Ep. unfold assigned, started in *. rewrite !flat_app, !cnt_app, I3. specialize (E3 t).
      pose proof (over_upd n (pc s) have w p t Hw). lia.
    - intros t. rewrite Et, Ep. unfold ended, started in *. rewrite !flat_app, !cnt_app, I4. specialize (E4 t).
      pose proof (over_upd n (pc s) runs w p t Hw). lia.
    - intros t. rewrite Et. unfold ended, finished, failed in *. rewrite !flat_app, !cnt_app, I5, E5. lia.
    - intros v Hv. rewrite Ep. destruct (Nat.eq_dec v w) as [->|Ne]; [rewrite upd_eq; assumption|rewrite upd_neq, S1 by assumption; auto].
    - intros v Hv. rewrite Ep. destruct (Nat.eq_dec v w) as [->|Ne]; [rewrite upd_eq; assumption|rewrite upd_neq, D1 by assumption; auto].
    - intros Hn t Ht. rewrite Et in Ht. unfold failed in Ht. rewrite flat_app, in_app_iff in Ht. rewrite Ep. destruct Ht as [Ht|Ht].
      + destruct (I8 Hn t Ht) as [H|(v & Hv & H)].
        * left. destruct X as [(-> & _)|(u & -> & _)]; [assumption|discriminate].
        * destruct (Nat.eq_dec v w) as [->|Ne]; [|right; exists v; split; [assumption|]; rewrite upd_neq; assumption].
          destruct X as [(_ & H')|(u & -> & _)]; [exfalso; eapply H'; exact H|left; discriminate].
      + right. exists w. split; [assumption|]. rewrite upd_eq. apply F. exact Ht.
    - intros v t Hv. rewrite Ep, Et. unfold failed. rewrite flat_app, in_app_iff. destruct (Nat.eq_dec v w) as [->|Ne].
      + rewrite upd_eq. intros H. right. apply F. exact H.
      + rewrite upd_neq by assumption. intros H. left. apply (I9 v t Hv H).
    - intros t H. rewrite Et. unfold failed. rewrite flat_app, in_app_iff. destruct X as [(E & _)|(u & E & H')].
      + rewrite E in H. destruct (I10 t H). split; [assumption|left; assumption].
      + rewrite E in H. injection H as ->. split; [lia|]. left. apply (I9 w t Hw H').
    - intros ->. lia.
  Qed.

  Ltac pick := match goal with
    | |- forall _, _ <> _ -> _ => intros; cbn [goto log set_queue set_run set_exc set_sleeping set_done sleeping done]; first [reflexivity | apply upd_neq; assumption]
    | |- sleeping _ _ = _ => cbn [goto log set_queue set_run set_exc set_sleeping set_done sleeping done]; first [assumption | apply upd_eq]
    | |- done _ _ = _ => cbn [goto log set_queue set_run set_exc set_sleeping set_done sleeping done]; first [assumption | apply upd_eq]
    | |- tr _ = tr _ ++ [] => symmetry; apply app_nil_r
    | |- upd _ _ _ _ = _ => apply upd_eq
    | |- forall _, _ <-> _ => intros; cbn; split; [intros; intuition congruence|intros Q; try discriminate Q; injection Q as ->; left; reflexivity]
    | |- _ \/ _ => first [ left; split; [first [reflexivity|cbn; congruence]|congruence] | right; eexists; split; [reflexivity|first [assumption|reflexivity]] ]
    | |- _ => first [ reflexivity | intros; reflexivity | intros; cbn; repeat match goal with |- context [Nat.eq_dec ?a ?b] => destruct (Nat.eq_dec a b) end; lia ]
    end.

  Lemma inv_work s w s' : inv s -> w < n -> work fails s w = Some s' -> inv s'.
  Proof.
    intros I Hw. pose proof (i_slp _ I w Hw) as Sw. pose proof (i_don _ I w Hw) as Dw.
    unfold work. destruct (pc s w) as [| | |t|t|t| | | | | |] eqn:Ep; intros E; cbn [slept gone] in Sw, Dw.
    - injection E as <-. eapply (inv_move s _ w _ []); try reflexivity; try eassumption; rewrite ?Ep; destruct (run s w); pick || (cbn; assumption).
    - injection E as <-. eapply (inv_move s _ w _ []); try reflexivity; try eassumption; rewrite ?Ep; destruct (exc s) eqn:Ex; pick || (cbn; assumption).
    - destruct (queue s) as [|t q] eqn:Eq; injection E as <-.
      + eapply (inv_move s _ w _ []); try reflexivity; try eassumption; rewrite ?Ep; pick || (cbn; assumption) || (cbn; rewrite Eq; reflexivity).
      + eapply (inv_move s _ w _ [Assigned t w]); try reflexivity; try eassumption; rewrite ?Ep; pick || (cbn; assumption) || (cbn; rewrite Eq; reflexivity).
    - injection E as <-. eapply (inv_move s _ w _ [Started t w]); try reflexivity; try eassumption; rewrite ?Ep; pick || (cbn; assumption).
    - destruct (fails t); injection E as <-.
      + eapply (inv_move s _ w _ [Failed t w]); try reflexivity; try eassumption; rewrite ?Ep; pick || (cbn; assumption).
      + eapply (inv_move s _ w _ [Finished t w]); try reflexivity; try eassumption; rewrite ?Ep; pick || (cbn; assumption).
    - injection E as <-. eapply (inv_move s _ w _ []); try reflexivity; try eassumption; rewrite ?Ep; pick || (cbn; assumption).
    - injection E as <-. eapply (inv_move s _ w _ []); try reflexivity; try eassumption; rewrite ?Ep; pick || (cbn; assumption).
    - injection E as <-. eapply (inv_move s _ w _ []); try reflexivity; try eassumption; rewrite ?Ep; pick || (cbn; assumption).
    - injection E as <-. eapply (inv_move s _ w _ []); try reflexivity; try eassumption; rewrite ?Ep; pick || (cbn; assumption).
    - injection E as <-. eapply (inv_move s _ w _ []); try reflexivity; try eassumption; rewrite ?Ep; pick || (cbn; assumption).
    - injection E as <-. eapply (inv_move s _ w _ []); try reflexivity; try eassumption; rewrite ?Ep; pick || (cbn; assumption).
    - discriminate.
  Qed.

  (** Transitions that leave the tasks and the workers alone. *)
  Lemma inv_same s s' : inv s -> queue s' = queue s -> next s' = next s -> exc s' = exc s -> pc s' = pc s ->
    sleeping s' = sleeping s -> done s' = done s -> tr s' = tr s -> inv s'.
  Proof.
    intros [I1 I2 I3 I4 I5 I6 I7 I8 I9 I10 I11] E1 E2 E3 E4 E5 E6 E7. split; rewrite ?E1, ?E2, ?E3, ?E4, ?E5, ?E6, ?E7; assumption.
  Qed.
  Lemma client_same s s' : client_step n s = Some s' -> queue s' = queue s /\ next s' = next s /\ exc s' = exc s /\ pc s' = pc s /\
    sleeping s' = sleeping s /\ done s' = done s /\ tr s' = tr s.
  Proof.
    unfold client_step. destruct (client s) as [|e| |i| | |t|i|i|i|]; try discriminate.
    - intros E. injection E as <-. repeat split.
    - intros E. injection E as <-. repeat split.
    - destruct (i <? n); [destruct (sleeping s i)|]; intros E; injection E as <-; repeat split.
    - intros E. injection E as <-. repeat split.
    - destruct (i <? n); intros E; injection E as <-; repeat split.
    - destruct (i <? n); [destruct (done s i)|]; intros E; injection E as <-; repeat split.
    - destruct (i <? n); [destruct (pc s i); try discriminate|]; intros E; injection E as <-; repeat split.
  Qed.

  Lemma inv_submit s : inv s -> inv (submit n fails s).
  Proof.
    intros [I1 I2 I3 I4 I5 I6 I7 I8 I9 I10 I11]. unfold submit.
    assert (Hs : seq 0 (S (next s)) = seq 0 (next s) ++ [next s]) by (rewrite seq_S; reflexivity).
    destruct (Nat.eqb_spec n 0) as [En|En].
    - specialize (I11 En). split; cbn [log queue next exc pc sleeping done client tr]; try assumption.
      + unfold submitted in *. rewrite !flat_app. destruct (fails (next s)); cbn; rewrite app_nil_r, I1, <- seq_S; reflexivity.
      + rewrite I11, app_nil_r in *. unfold assigned in *. rewrite !flat_app. destruct (fails (next s)); cbn; rewrite app_nil_r, I2, <- seq_S; reflexivity.
      + intros t. unfold assigned, started in *. rewrite !flat_app, !cnt_app, I3. destruct (fails (next s)); cbn; destruct (Nat.eq_dec (next s) t); lia.
      + intros t. unfold ended, started in *. rewrite !flat_app, !cnt_app, I4. destruct (fails (next s)); cbn; destruct (Nat.eq_dec (next s) t); lia.
      + intros t. unfold ended, finished, failed in *. rewrite !flat_app, !cnt_app, I5. destruct (fails (next s)); cbn; destruct (Nat.eq_dec (next s) t); lia.
      + intros; lia.
      + intros; lia.
      + intros t H. destruct (I10 t H). lia.
      + intros _. exact I11.
    - split; cbn [set_queue log queue next exc pc sleeping done client tr]; try assumption.
      + unfold submitted in *. rewrite flat_app. cbn. rewrite I1, <- seq_S. reflexivity.
      + unfold assigned in *. rewrite flat_app. cbn. rewrite app_nil_r, app_assoc, I2, <- seq_S. reflexivity.
      + intros t. unfold assigned, started in *. rewrite !flat_app, !cnt_app, I3. cbn. lia.
      + intros t. unfold ended, started in *. rewrite !flat_app, !cnt_app, I4. cbn. lia.
      + intros t. unfold ended, finished, failed in *. rewrite !flat_app, !cnt_app, I5. cbn. lia.
      + intros Hn t. unfold failed. rewrite flat_app. cbn. rewrite app_nil_r. apply I8. assumption.
      + intros w t Hw H. unfold failed. rewrite flat_app. cbn. rewrite app_nil_r. eapply I9; eassumption.
      + intros t H. unfold failed. rewrite flat_app. cbn. rewrite app_nil_r. apply I10. assumption.
      + intros; contradiction.
  Qed.

  Lemma inv_step s a s' : inv s -> step s a = Some s' -> inv s'.
  Proof.
    intros I. destruct a as [w| | | |]; cbn [ThreadPoolModel.step].
    - destruct (Nat.ltb_spec w n); [|discriminate]. apply inv_work; assumption.
    - destruct (client s); intros E; try discriminate; injection E as <-; apply inv_submit; assumption.
    - destruct (idle (client s)); [|discriminate]. intros E; injection E as <-. eapply inv_same; [exact I|reflexivity..].
    - destruct (idle (client s)); [|discriminate]. intros E; injection E as <-. eapply inv_same; [exact I|reflexivity..].
    - intros E. apply client_same in E. destruct E as (E1 & E2 & E3 & E4 & E5 & E6 & E7). eapply inv_same; eassumption.
  Qed.

  (** Induction over executions. *)
  Lemma exec_ind_inv (P : pool -> Prop) : (forall s a s', inv s -> P s -> step s a = Some s' -> P s') ->
    forall l s s', inv s -> P s -> exec s l = Some s' -> P s' /\ inv s'.
  Proof.
    intros H. induction l as [|a l IH]; intros s s' I Hp E; cbn [ThreadPoolModel.exec] in E; [injection E as <-; auto|].
    destruct (step s a) as [s1|] eqn:Es; [|discriminate]. eapply IH; [eapply inv_step; eassumption|eapply H; eassumption|exact E].
  Qed.
  Lemma exec_inv l s s' : inv s -> exec s l = Some s' -> inv s'.
  Proof. intros I E. destruct (exec_ind_inv (fun _ => True) (fun _ _ _ _ _ _ => Logic.I) l s s' I Logic.I E). assumption. Qed.
  Lemma exec_app a : forall b s, exec s (a ++ b) = match exec s a with Some s1 => exec s1 b | None => None end.
  Proof. induction a as [|x a IH]; intros b s; cbn [app ThreadPoolModel.exec]; [reflexivity|]. destruct (step s x); [apply IH|reflexivity]. Qed.

  (** ** C25 *)
  Lemma nodup_assigned s : inv s -> NoDup (assigned (tr s)).
  Proof.
    intros I. pose proof (i_asg _ I) as H. assert (Nd : NoDup (assigned (tr s) ++ queue s)) by (rewrite H; apply seq_NoDup).
    revert Nd. generalize (assigned (tr s)). intros l. rewrite !cnt_nodup. intros Nd t. specialize (Nd t). rewrite cnt_app in Nd. lia.
  Qed.
  Lemma nodup_started s : inv s -> NoDup (started (tr s)).
  Proof.
    intros I. pose proof (nodup_assigned s I) as H. rewrite cnt_nodup in *. intros t. specialize (H t). pose proof (i_have _ I t). lia.
  Qed.
  Lemma nodup_ended s : inv s -> NoDup (ended (tr s)).
  Proof.
    intros I. pose proof (nodup_started s I) as H. rewrite cnt_nodup in *. intros t. specialize (H t). pose proof (i_runs _ I t). lia.
  Qed.

  Definition one (s : pool) : Prop := n = 1 -> assigned (tr s) = started (tr s) ++ have (pc s 0).
  Lemma one_step s a s' : inv s -> one s -> step s a = Some s' -> one s'.
  Proof.
    intros I H E En. specialize (H En). destruct a as [w| | | |]; cbn [ThreadPoolModel.step] in E.
    - destruct (Nat.ltb_spec w n) as [Hw|]; [|discriminate]. assert (w = 0) by lia. subst w. unfold work in E.
      destruct (pc s 0) as [| | |t|t|t| | | | | |] eqn:Ep; try discriminate; cbn [have] in H; rewrite ?app_nil_r in H.
      all: try (injection E as <-; cbn [goto log set_sleeping set_done set_run set_exc tr pc]; unfold assigned, started in *; rewrite ?flat_app, ?upd_eq; cbn; rewrite ?app_nil_r; solve [assumption | destruct (run s 0); cbn; rewrite app_nil_r; assumption | destruct (exc s); cbn; rewrite app_nil_r; assumption]).
      + destruct (queue s); injection E as <-; cbn [goto log set_queue tr pc]; unfold assigned, started in *; rewrite ?flat_app, ?upd_eq; cbn; rewrite ?app_nil_r; [assumption|rewrite H; reflexivity].
      + destruct (fails t); injection E as <-; cbn [goto log tr pc]; unfold assigned, started in *; rewrite ?flat_app, ?upd_eq; cbn; rewrite ?app_nil_r; assumption.
    - destruct (client s); try discriminate; injection E as <-; unfold submit; rewrite En; cbn [Nat.eqb set_queue tr pc]; unfold assigned, started in *; rewrite !flat_app; cbn; rewrite !app_nil_r; assumption.
    - destruct (idle (client s)); [|discriminate]. injection E as <-. exact H.
    - destruct (idle (client s)); [|discriminate]. injection E as <-. exact H.
    - apply client_same in E. destruct E as (_ & _ & _ & -> & _ & _ & ->). exact H.
  Qed.
End Inv.
