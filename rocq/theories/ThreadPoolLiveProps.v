(** C134, C135, C136: under a fair scheduler every task is run, the destructor ends and block() ends. *)
From Coq Require Import List Arith Bool Lia.
From Verif Require Import ThreadPoolModel ThreadPoolSpec ThreadPoolLiveSpec ThreadPoolProofs ThreadPoolProofs2 ThreadPoolProofs3 ThreadPoolLiveProofs ThreadPoolLiveProofs2.
Import ListNotations.

Lemma reach n fails l s : exec n fails new_pool l = Some s -> inv n s /\ leave n s /\ destroys n s.
Proof.
  intros E. destruct (exec_ind_inv n fails (leave n) (fun s a s' _ => leave_step n fails s a s') l new_pool s (inv_new n)) as (L & I); [|exact E|].
  - intros _ w _. cbn. split; [auto|discriminate].
  - destruct (exec_ind_inv n fails (destroys n) (fun s a s' _ => destroys_step n fails s a s') l new_pool s (inv_new n) Logic.I E) as (D & _). auto.
Qed.

(** ** C134: whatever state the pool has reached and however a fair scheduler goes on, every
    task submitted now or later is run to its end, unless some task throws. *)
Theorem C134_every_task_is_run : forall n fails l s sched, 0 < n -> exec n fails new_pool l = Some s -> ~ in_destructor s -> client s <> CDestroyed ->
  fair n sched -> (forall k, sched k <> CallDestructor) ->
  forall k t, In t (submitted (tr (state_at n fails s sched k))) ->
  exists j, k <= j /\ (In t (ended (tr (state_at n fails s sched j))) \/ exists u, In u (failed (tr (state_at n fails s sched j)))).
Proof.
  intros n fails l s sched Hn E N1 N2 F Nd k t Ht. destruct (reach n fails l s E) as (I & L & _).
  apply (task_ends n fails s sched F I L t k Hn Nd); [|exact Ht].
  assert (K : forall k, stays (state_at n fails s sched k)).
  { intros i. induction i as [|i IH].
    - cbn. unfold stays, in_destructor in *. destruct (client s); cbn; try reflexivity; try (exfalso; apply N1; exact Logic.I). congruence.
    - destruct (st_step n fails s sched i) as [-> |Q]; [exact IH|]. exact (stays_step n fails _ _ _ IH (Nd i) Q). }
  apply K.
Qed.
(** Without failing tasks, every task is run to its normal end. *)
Theorem C134_every_task_finishes : forall n fails l s sched, 0 < n -> (forall t, fails t = false) -> exec n fails new_pool l = Some s -> ~ in_destructor s -> client s <> CDestroyed ->
  fair n sched -> (forall k, sched k <> CallDestructor) ->
  forall k t, In t (submitted (tr (state_at n fails s sched k))) -> exists j, k <= j /\ In t (finished (tr (state_at n fails s sched j))).
Proof.
  intros n fails l s sched Hn Hf E N1 N2 F Nd k t Ht.
  assert (Z : forall j, failed (tr (state_at n fails s sched j)) = []).
  { assert (S1 : forall s a s', failed (tr s) = [] -> step n fails s a = Some s' -> failed (tr s') = []).
    { intros a b c H Q. assert (W : tr c = tr a \/ exists es, tr c = tr a ++ es /\ failed es = []).
      { destruct b as [v| | | |]; cbn [step] in Q.
        - destruct (v <? n); [|discriminate]. unfold work in Q. destruct (pc a v) as [| | |u|u|u| | | | | |]; try discriminate.
          3: destruct (queue a). 6: rewrite Hf in Q. all: injection Q as <-; cbn; auto; right; eexists; split; reflexivity.
        - assert (Q' : Some (submit n fails a) = Some c) by (destruct (client a); try discriminate; exact Q). injection Q' as <-. right. unfold submit. destruct (n =? 0); cbn.
          + rewrite Hf, <- app_assoc. eexists. split; reflexivity.
          + eexists. split; reflexivity.
        - destruct (idle (client a)); [|discriminate]. injection Q as <-. auto.
        - destruct (idle (client a)); [|discriminate]. injection Q as <-. auto.
        - apply client_same in Q. left. apply Q. }
      destruct W as [->|(es & -> & W)]; [exact H|]. rewrite failed_app, H, W. reflexivity. }
    assert (S2 : failed (tr s) = []).
    { destruct (exec_ind_inv n fails (fun s => failed (tr s) = []) (fun s a s' _ => S1 s a s') l new_pool s (inv_new n) eq_refl E) as (D & _). exact D. }
    intros j. apply (keep n fails s sched (fun s => failed (tr s) = []) S1 0 j (Nat.le_0_l j)). exact S2. }
  destruct (C134_every_task_is_run n fails l s sched Hn E N1 N2 F Nd k t Ht) as (j & L & [H|(u & H)]); [|rewrite Z in H; contradiction].
  exists j. split; [exact L|]. destruct (reach n fails l s E) as (I & _). pose proof (i_ends _ _ (inv_st n fails s sched I j) t) as C. apply cnt_in in H. apply cnt_in. rewrite Z in C. cbn in C. lia.
Qed.
Print Assumptions C134_every_task_is_run.
Print Assumptions C134_every_task_finishes.

(** A fair scheduler: the workers in turn, the caller between any two. *)
Definition alternate (n : nat) : schedule := fun k => if Nat.even k then Work (k / 2 mod n) else Client.
Lemma alternate_work n w q : w < n -> alternate n (2 * (n * q + w)) = Work w.
Proof.
  intros H. unfold alternate. rewrite Nat.even_mul. cbn [Nat.even orb]. f_equal. rewrite (Nat.mul_comm 2), Nat.div_mul by discriminate. rewrite Nat.add_comm, Nat.mul_comm, Nat.mod_add by lia. apply Nat.mod_small, H.
Qed.
Lemma alternate_client n q : alternate n (2 * q + 1) = Client.
Proof. unfold alternate. rewrite Nat.even_add, Nat.even_mul. reflexivity. Qed.
Example C134_fair_case : forall n, fair n (alternate n) /\ forall k, alternate n k <> CallDestructor.
Proof.
  intros n. split; [split|].
  - intros w k H. exists (2 * (n * k + w)). split; [nia|]. apply alternate_work, H.
  - intros k. exists (2 * k + 1). split; [lia|]. apply alternate_client.
  - intros k. unfold alternate. destruct (Nat.even k); discriminate.
Qed.
(** Two workers and three tasks: all of them are over after forty moments. *)
Example C134_case : exists s, exec 2 (fun _ => false) new_pool [Submit; Submit; Submit] = Some s /\ ~ in_destructor s /\ client s <> CDestroyed /\
  submitted (tr (state_at 2 (fun _ => false) s (alternate 2) 0)) = [0; 1; 2] /\ finished (tr (state_at 2 (fun _ => false) s (alternate 2) 40)) = [0; 1; 2].
Proof. eexists. split; [reflexivity|]. split; [intros []|]. split; [discriminate|]. split; vm_compute; reflexivity. Qed.
(** After a failure the tasks in the queue are never run. *)
Theorem C134_after_failure_refuted : exists fails l s sched, exec 1 fails new_pool l = Some s /\ client s = CIdle /\ fair 1 sched /\ (forall k, sched k <> CallDestructor) /\
  In 1 (submitted (tr s)) /\ forall k, ~ In 1 (started (tr (state_at 1 fails s sched k))).
Proof.
  exists (fun t => t =? 0), ([Submit; Submit] ++ repeat (Work 0) 11). eexists. exists (alternate 1). split; [vm_compute; reflexivity|]. split; [reflexivity|].
  split; [apply C134_fair_case|]. split; [apply C134_fair_case|]. split; [cbn; auto|].
  match goal with |- forall k, ~ In 1 (started (tr (state_at _ ?f ?x _ k))) =>
    assert (K : forall k, let s := state_at 1 f x (alternate 1) k in pc s 0 = WEnd /\ client s = CIdle /\ tr s = tr x) end.
  { induction k as [|k IH]; [cbn; auto|]. cbv zeta in *. destruct IH as (A & B & C). cbn [state_at].
    assert (V : alternate 1 k = Work 0 \/ alternate 1 k = Client) by (unfold alternate; destruct (Nat.even k); [left; f_equal; apply Nat.mod_1_r|auto]). destruct V as [->| ->].
    - cbn [step Nat.ltb Nat.leb]. unfold work. rewrite A. auto.
    - cbn [step]. unfold client_step. rewrite B. auto. }
  intros k H. destruct (K k) as (_ & _ & T). rewrite T in H. cbn in H. destruct H as [H|[]]. discriminate.
Qed.
Print Assumptions C134_after_failure_refuted.

(** ** C135: the destructor ends, however a fair scheduler goes on and whatever is submitted meanwhile. *)
Theorem C135_destructor_ends : forall n fails l s sched, exec n fails new_pool l = Some s -> in_destructor s -> fair n sched ->
  exists j, client (state_at n fails s sched j) = CDestroyed.
Proof.
  intros n fails l s sched E D F. destruct (reach n fails l s E) as (I & L & Ds).
  destruct (destructor_ends n fails s sched F I Ds 0) as (j & _ & H); [|exists j; exact H]. cbn. unfold in_destructor in D. destruct (client s); tauto.
Qed.
Print Assumptions C135_destructor_ends.
Example C135_case : let fails := fun t => t =? 1 in
  match exec 2 fails new_pool [Submit; Submit; Submit; Work 0; Work 0; Work 0; CallDestructor] with
  | Some s => in_destructor s /\ client (state_at 2 fails s (alternate 2) 60) = CDestroyed
  | None => False
  end.
Proof. vm_compute. auto. Qed.

(** ** C136: block() throws under every fair scheduler once an exception is recorded. *)
Theorem C136_block_throws : forall n fails l s sched, exec n fails new_pool l = Some s -> in_block s -> has_exception s = true -> fair n sched ->
  exists j t, client (state_at n fails s sched j) = CThrew t /\ In t (failed (tr (state_at n fails s sched j))).
Proof.
  intros n fails l s sched E B X F. destruct (reach n fails l s E) as (I & L & _).
  destruct (block_throws n fails s sched F I 0 B) as (j & _ & t & H).
  - cbn. unfold has_exception in X. destruct (exc s); discriminate.
  - exists j, t. split; [exact H|].
    assert (K : inv n (state_at n fails s sched j) /\ forall u, client (state_at n fails s sched j) = CThrew u -> In u (failed (tr (state_at n fails s sched j)))); [|apply K, H].
    apply (keep n fails s sched (fun s => inv n s /\ forall u, client s = CThrew u -> In u (failed (tr s)))) with (k := 0); [|lia|].
    + intros a b c (Ia & Ta) Q. split; [exact (inv_step n fails _ _ _ Ia Q)|]. intros u Hu.
      destruct (action_dec b Client) as [->|Ne].
      * cbn [step] in Q. pose proof (client_same n _ _ Q) as (_ & _ & _ & _ & _ & _ & ->). unfold client_step in Q. destruct (client a) as [|e| |i| | |v|i|i|i|] eqn:Ec; try discriminate.
        -- injection Q as <-. cbn in Hu. destruct e; [discriminate|]. destruct (exc a); discriminate.
        -- injection Q as <-. discriminate.
        -- destruct (i <? n); [destruct (sleeping a i)|]; injection Q as <-; cbn in Hu; congruence.
        -- injection Q as <-. cbn in Hu. destruct (exc a) as [v|] eqn:Ex; [|discriminate]. injection Hu as <-. apply (i_exc _ _ Ia), Ex.
        -- destruct (i <? n); injection Q as <-; discriminate.
        -- destruct (i <? n); [destruct (done a i)|]; injection Q as <-; cbn in Hu; congruence.
        -- destruct (i <? n); [destruct (pc a i); try discriminate|]; injection Q as <-; discriminate.
      * apply (tr_keep n fails _ _ _ failed u failed_app Q). apply Ta. destruct (idle (client a)) eqn:Ei.
        -- destruct b as [v| | | |]; cbn [step] in Q; try congruence.
           ++ destruct (v <? n); [|discriminate]. apply work_facts in Q. destruct Q as (_ & <- & _). exact Hu.
           ++ assert (Q' : Some (submit n fails a) = Some c) by (destruct (client a); try discriminate; exact Q). injection Q' as <-. destruct (submit_facts n fails a) as (_ & <- & _). exact Hu.
           ++ rewrite Ei in Q. injection Q as <-. discriminate.
           ++ rewrite Ei in Q. injection Q as <-. discriminate.
        -- rewrite <- (other_client n fails _ _ _ Q Ei Ne). exact Hu.
    + cbn. split; [exact I|]. intros u Hu. unfold in_block in B. rewrite Hu in B. contradiction.
Qed.
Print Assumptions C136_block_throws.
(** With a scheduler that also lets the caller look while a worker sleeps, block() ends when no
    more tasks are submitted. *)
Theorem C136_block_ends : forall n fails l s sched, exec n fails new_pool l = Some s -> in_block s -> fair n sched -> observant n fails s sched ->
  (exists m, forall k, m <= k -> sched k <> Submit) ->
  exists j, block_ended (state_at n fails s sched j).
Proof.
  intros n fails l s sched E B F O (m & Q). destruct (reach n fails l s E) as (I & L & _). apply (block_ends_late n fails s sched m F O I L Q B).
Qed.
Print Assumptions C136_block_ends.
(** Letting the caller move between any two transitions of workers is enough. *)
Theorem C136_alternating_is_observant : forall n fails s sched, (forall q, sched (2 * q + 1) = Client) -> observant n fails s sched.
Proof.
  intros n fails s sched A w Hw H k. destruct (H (S k)) as (j & L & E). destruct (Nat.Even_or_Odd j) as [(q & ->)|(q & ->)].
  - destruct q as [|q]; [lia|]. exists (2 * q + 1). split; [lia|]. split; [apply A|]. replace (2 * S q) with (S (2 * q + 1)) in E by lia. cbn [state_at] in E. rewrite A in E.
    destruct (step n fails (state_at n fails s sched (2 * q + 1)) Client) as [s'|] eqn:Q; [|exact E]. cbn [step] in Q. apply client_same in Q. destruct Q as (_ & _ & _ & _ & Q & _). rewrite <- Q. exact E.
  - exists (2 * q + 1). split; [lia|]. auto.
Qed.
Print Assumptions C136_alternating_is_observant.
Example C136_case : let fails := fun _ => false in
  match exec 2 fails new_pool [Submit; Submit; Submit; CallBlock] with
  | Some s => in_block s /\ client (state_at 2 fails s (alternate 2) 60) = CReturned
  | None => False
  end /\ forall s, observant 2 fails s (alternate 2).
Proof. split; [vm_compute; auto|]. intros s. apply C136_alternating_is_observant. intros; apply alternate_client. Qed.
Example C136_throws_case : let fails := fun t => t =? 1 in
  match exec 2 fails new_pool ([Submit; Submit; Submit; CallBlock] ++ repeat (Work 0) 12) with
  | Some s => in_block s /\ has_exception s = true /\ client (state_at 2 fails s (alternate 2) 60) = CThrew 1
  | None => False
  end.
Proof. vm_compute. auto. Qed.
(** Fairness alone is not enough: the caller may look at the flag of a worker only at moments
    when it is not asleep, and then block() never returns although there is nothing to do. *)
Definition blind : schedule := fun k => if k mod 6 =? 0 then Client else Work 0.
Theorem C136_fairness_alone_refuted : exists l s, exec 1 (fun _ => false) new_pool l = Some s /\ submitted (tr s) = [] /\ in_block s /\ fair 1 blind /\ (forall k, blind k <> Submit) /\
  forall k, in_block (state_at 1 (fun _ => false) s blind k).
Proof.
  exists [CallBlock; Client; Client; Client]. eexists. split; [reflexivity|]. split; [reflexivity|]. split; [exact I|]. split; [split|split].
  - intros w k H. replace w with 0 by lia. exists (k * 6 + 1). split; [lia|]. unfold blind. rewrite Nat.add_comm, Nat.mod_add by discriminate. reflexivity.
  - intros k. exists (k * 6). split; [lia|]. unfold blind. rewrite Nat.mod_mul by discriminate. reflexivity.
  - intros k. unfold blind. destruct (k mod 6 =? 0); discriminate.
  - set (f := fun _ => false).
    pose (J := fun p sl s => client s = BWait 0 /\ queue s = [] /\ exc s = None /\ run s 0 = true /\ sleeping s 0 = sl /\ pc s 0 = p).
    match goal with |- forall k, in_block (state_at _ _ ?x _ k) => set (x0 := x) end.
    pose (P := fun r s => match r with 0 | 1 => J WCheckRun false s | 2 => J WCheckExc false s | 3 => J WPop false s | 4 => J WSleepSet false s | _ => J WAsleep true s end).
    assert (K : forall k, P (k mod 6) (state_at 1 f x0 blind k)).
    { induction k as [|k IH]; [unfold P, J; cbn; repeat split|].
      assert (R : exists r, r < 6 /\ k mod 6 = r /\ S k mod 6 = (if r =? 5 then 0 else S r)).
      { exists (k mod 6). pose proof (Nat.mod_upper_bound k 6 ltac:(lia)) as U. split; [exact U|]. split; [reflexivity|]. pose proof (Nat.div_mod k 6 ltac:(lia)) as V.
        destruct (Nat.eqb_spec (k mod 6) 5) as [Q|Q].
        - symmetry. apply Nat.mod_unique with (q := S (k / 6)); lia.
        - symmetry. apply Nat.mod_unique with (q := k / 6); lia. }
      destruct R as (r & Hr & E1 & E2). rewrite E2. rewrite E1 in IH. cbn [state_at].
      assert (Eb : blind k = if r =? 0 then Client else Work 0) by (unfold blind; rewrite E1; reflexivity). rewrite Eb. clear E1 E2 Eb.
      generalize dependent (state_at 1 f x0 blind k). intros s H.
      destruct r as [|[|[|[|[|[|r]]]]]]; [| | | | | |lia]; cbn [P Nat.eqb] in *; unfold J in *; destruct H as (H1 & H2 & H3 & H4 & H5 & H6); cbn [step Nat.ltb Nat.leb]; unfold client_step, work; rewrite ?H1, ?H6.
      - cbn [Nat.ltb Nat.leb]. rewrite H5. auto 10.
      - rewrite H4. cbn. auto 10.
      - rewrite H3. cbn. auto 10.
      - rewrite H2. cbn. auto 10.
      - cbn. auto 10.
      - cbn. auto 10. }
    intros k. specialize (K k). pose proof (Nat.mod_upper_bound k 6 ltac:(lia)) as U. unfold in_block.
    destruct (k mod 6) as [|[|[|[|[|[|r]]]]]]; [| | | | | |lia]; destruct K as (-> & _); exact Logic.I.
Qed.
Print Assumptions C136_fairness_alone_refuted.
