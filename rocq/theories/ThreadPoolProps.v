(** Properties of the thread pool: every number of workers, every interleaving. *)
From Coq Require Import List Arith Bool Lia Permutation.
From Verif Require Import ThreadPoolModel ThreadPoolSpec ThreadPoolProofs ThreadPoolProofs2 ThreadPoolProofs3.
Import ListNotations.

(** Makes the transitions of a list that can be made, for the examples. *)
Fixpoint enabled (n : nat) (fails : task -> bool) (s : pool) (l : list action) : list action :=
  match l with
  | [] => []
  | a :: r => match step n fails s a with Some s1 => a :: enabled n fails s1 r | None => enabled n fails s r end
  end.
Definition rounds (k : nat) (l : list action) : list action := concat (repeat l k).
Definition none_fails (t : task) : bool := false.
Definition state_of (o : option pool) : pool := match o with Some s => s | None => new_pool end.

(** ** C25 *)

(** Tasks leave the queue in the order of submission, a prefix of them; a task
    is taken at most once, started at most once and ends at most once. *)
Theorem C25_order_and_at_most_once : forall n fails l s, exec n fails new_pool l = Some s ->
  prefix (assigned (tr s)) (submitted (tr s)) /\ NoDup (submitted (tr s)) /\
  NoDup (started (tr s)) /\ incl (started (tr s)) (assigned (tr s)) /\
  NoDup (ended (tr s)) /\ incl (ended (tr s)) (started (tr s)).
Proof.
  intros n fails l s E. assert (I : inv n s) by (eapply exec_inv; [apply inv_new|exact E]).
  split; [exists (queue s); rewrite (i_sub _ _ I), (i_asg _ _ I); reflexivity|]. split; [rewrite (i_sub _ _ I); apply seq_NoDup|].
  split; [eapply nodup_started; eassumption|]. split; [intros t; rewrite !cnt_in, (i_have _ _ I t); lia|].
  split; [eapply nodup_ended; eassumption|]. intros t; rewrite !cnt_in, (i_runs _ _ I t); lia.
Qed.
(** With one thread, or none, tasks also start in the order of submission. *)
Theorem C25_single_thread_order : forall n fails l s, n <= 1 -> exec n fails new_pool l = Some s ->
  prefix (started (tr s)) (submitted (tr s)).
Proof.
  intros n fails l s Hn E. destruct (Nat.eq_dec n 0) as [->|].
  - assert (forall l s s', exec 0 fails s l = Some s' -> started (tr s) = submitted (tr s) -> started (tr s') = submitted (tr s')) as G.
    { clear. induction l as [|a l IH]; intros s s' E H; cbn [exec] in E; [injection E as <-; assumption|].
      destruct (step 0 fails s a) as [s1|] eqn:Es; [|discriminate]. apply (IH s1 s' E). destruct a as [w| | | |]; cbn [step] in Es.
      - discriminate.
      - assert (E' : Some (submit 0 fails s) = Some s1) by (destruct (client s); try discriminate; exact Es). injection E' as <-.
        unfold submit. cbn. unfold started, submitted in *. rewrite !flat_app, H. cbn. destruct (fails (next s)); cbn; rewrite !app_nil_r; reflexivity.
      - destruct (idle (client s)); [|discriminate]. injection Es as <-. exact H.
      - destruct (idle (client s)); [|discriminate]. injection Es as <-. exact H.
      - apply client_same in Es. destruct Es as (_ & _ & _ & _ & _ & _ & ->). exact H. }
    exists []. rewrite app_nil_r. symmetry. apply (G l new_pool s E). reflexivity.
  - destruct (exec_ind_inv n fails (one n) (one_step n fails) l new_pool s (inv_new n)) as (O & I); [|exact E|].
    + intros _. reflexivity.
    + exists (have (pc s 0) ++ queue s). rewrite app_assoc, <- (O ltac:(lia)), (i_asg _ _ I), (i_sub _ _ I). reflexivity.
Qed.
(** With two threads the calls may be inverted: the second task taken may be
    called first. *)
Theorem C25_two_threads_start_order_refuted : exists l s, exec 2 none_fails new_pool l = Some s /\
  submitted (tr s) = [0; 1] /\ started (tr s) = [1; 0].
Proof.
  exists [Submit; Submit; Work 0; Work 0; Work 0; Work 1; Work 1; Work 1; Work 1; Work 0]. eexists. split; [vm_compute; reflexivity|]. split; reflexivity.
Qed.
Example C25_case : let l := [Submit; Submit; Submit] ++ rounds 20 [Work 0; Work 1; Work 2] in
  let s := state_of (exec 3 none_fails new_pool l) in
  assigned (tr s) = [0; 1; 2] /\ finished (tr s) = [0; 1; 2] /\ queued s = 0.
Proof. vm_compute. auto. Qed.

(** ** C26 *)

(** When block() returns every task submitted before the call is over, and with
    at least one thread it ended without exception. Other threads and tasks
    may submit meanwhile. *)
Theorem C26_block_waits : forall n fails l1 s0 s1 l2 s2,
  exec n fails new_pool l1 = Some s0 -> step n fails s0 CallBlock = Some s1 -> exec n fails s1 l2 = Some s2 ->
  client s2 = CReturned ->
  forall t, In t (submitted (tr s0)) -> In t (ended (tr s2)) /\ (0 < n -> In t (finished (tr s2)) /\ ~ In t (failed (tr s2))).
Proof.
  intros n fails l1 s0 s1 l2 s2 E1 E2 E3 Hc t Ht. destruct (block_waits n fails l1 s0 s1 l2 s2 E1 E2 E3 Hc t Ht) as (A & B).
  split; [assumption|]. intros Hn. split; [auto|]. intros Hf.
  assert (I : inv n s2) by (eapply exec_inv; [eapply inv_step; [eapply exec_inv; [apply inv_new|exact E1]|exact E2]|exact E3]).
  pose proof (nodup_ended n s2 I) as Nd. rewrite cnt_nodup in Nd. specialize (Nd t). pose proof (i_ends _ _ I t) as Hs.
  specialize (B Hn). rewrite cnt_in in B, Hf. lia.
Qed.
(** Tasks submitted while block() waits, here by a running task, may still be
    running when it returns. *)
Theorem C26_task_submitted_during_block_refuted : exists l1 s0 s1 l2 s2 t,
  exec 2 none_fails new_pool l1 = Some s0 /\ step 2 none_fails s0 CallBlock = Some s1 /\ exec 2 none_fails s1 l2 = Some s2 /\
  client s2 = CReturned /\ In t (submitted (tr s2)) /\ In t (started (tr s2)) /\ ~ In t (ended (tr s2)).
Proof.
  (* worker 0 sleeps, worker 1 runs task 0, which submits task 1 *)
  exists [Work 0; Work 0; Work 0; Work 0; Submit; Work 1; Work 1; Work 1; Work 1]. eexists. eexists.
  exists [Client; Client; Client; Client; Submit; Work 0; Work 0; Work 0; Work 0; Work 0;
          Work 1; Work 1; Work 1; Work 1; Work 1; Client; Client; Client]. eexists. exists 1.
  split; [vm_compute; reflexivity|]. split; [vm_compute; reflexivity|]. split; [vm_compute; reflexivity|].
  split; [reflexivity|]. split; [right; left; reflexivity|]. split; [right; left; reflexivity|]. intros [H|[]]; discriminate.
Qed.
(** block() is never stuck: whatever happened before, the workers and the
    caller can make it end. *)
Theorem C26_block_can_end : forall n fails l s, exec n fails new_pool l = Some s ->
  match client s with BLoop _ | BQuery | BWait _ | BFinal => True | _ => False end ->
  exists l' s', Forall (fun a => match a with Work _ | Client => True | _ => False end) l' /\
    exec n fails s l' = Some s' /\ (client s' = CReturned \/ exists t, client s' = CThrew t).
Proof. exact block_can_end. Qed.
Example C26_case : let l := enabled 2 none_fails new_pool ([Submit; Submit; Submit; CallBlock] ++ rounds 25 [Work 0; Client; Work 1; Client]) in
  let s := state_of (exec 2 none_fails new_pool l) in client s = CReturned /\ length (finished (tr s)) = 3.
Proof. vm_compute. auto. Qed.

(** ** C27 *)

(** Once checkForException() reports an exception each worker takes at most
    one more task from the queue, whatever is submitted. *)
Theorem C27_each_worker_takes_at_most_one_more : forall n fails l s l' s',
  exec n fails new_pool l = Some s -> has_exception s = true -> exec n fails s l' = Some s' ->
  exists es, tr s' = tr s ++ es /\ NoDup (takers es) /\ (forall w, In w (takers es) -> w < n) /\ has_exception s' = true.
Proof.
  intros n fails l s l' s' E Hx E'. assert (I : inv n s) by (eapply exec_inv; [apply inv_new|exact E]).
  unfold has_exception in *. destruct (exc s) as [t|] eqn:Ex; [|discriminate]. destruct (i_exc _ _ I t Ex) as (Hn & _).
  assert (S : stopped n s) by (intros w _; left; congruence).
  destruct (at_most_one_more n fails l' s s' Hn S E') as (es & A & B & C). exists es. repeat split; try assumption.
  assert (G : forall l s s', exc s <> None -> exec n fails s l = Some s' -> exc s' <> None).
  { clear. induction l as [|a l IH]; intros s s' H E; cbn [exec] in E; [injection E as <-; assumption|].
    destruct (step n fails s a) as [s1|] eqn:Es; [|discriminate]. apply (IH s1 s'); [|assumption]. apply step_facts in Es. apply Es. assumption. }
  specialize (G l' s s' ltac:(congruence) E'). destruct (exc s'); [reflexivity|congruence].
Qed.
(** If a task submitted before the call has thrown, block() does not return
    normally; the exception it throws is the one of a task that failed. *)
Theorem C27_block_rethrows : forall n fails l1 s0 s1 l2 s2, 0 < n ->
  exec n fails new_pool l1 = Some s0 -> step n fails s0 CallBlock = Some s1 -> exec n fails s1 l2 = Some s2 ->
  (forall t, In t (submitted (tr s0)) -> In t (failed (tr s2)) -> client s2 <> CReturned) /\
  (forall t, client s2 = CThrew t -> In t (failed (tr s2)) /\ has_exception s2 = true).
Proof.
  intros n fails l1 s0 s1 l2 s2 Hn E1 E2 E3. split.
  - intros t Hs Hf Hc. destruct (C26_block_waits n fails l1 s0 s1 l2 s2 E1 E2 E3 Hc t Hs) as (_ & H). apply (proj2 (H Hn)). assumption.
  - intros t Hc.
    assert (E : exec n fails new_pool (l1 ++ CallBlock :: l2) = Some s2) by (rewrite exec_app, E1; cbn [exec]; rewrite E2; exact E3).
    destruct (exec_ind_inv n fails threw (threw_step n fails) _ new_pool s2 (inv_new n) Logic.I E) as (T & I). unfold threw in T. rewrite Hc in T. split; [assumption|].
    assert (G : (client s2 <> CThrew t) \/ exc s2 <> None).
    { clear - E. assert (P : forall l s s', (match client s with CThrew _ => exc s <> None | _ => True end) -> exec n fails s l = Some s' ->
        match client s' with CThrew _ => exc s' <> None | _ => True end).
      { induction l as [|a l IH]; intros s s' H Ex; cbn [exec] in Ex; [injection Ex as <-; assumption|].
        destruct (step n fails s a) as [sa|] eqn:Es; [|discriminate]. apply (IH sa s'); [|assumption]. pose proof (step_facts n fails _ _ _ Es) as (_ & Hx & _).
        destruct a as [w| | | |]; cbn [step] in Es.
        - destruct (w <? n); [|discriminate]. apply work_facts in Es. destruct Es as (_ & -> & _). destruct (client s); auto.
        - assert (E' : Some (submit n fails s) = Some sa) by (destruct (client s); try discriminate; exact Es). injection E' as <-.
          destruct (submit_facts n fails s) as (_ & -> & _). destruct (client s); auto.
        - destruct (idle (client s)); [|discriminate]. injection Es as <-. exact Logic.I.
        - destruct (idle (client s)); [|discriminate]. injection Es as <-. exact Logic.I.
        - unfold client_step in Es. destruct (client s) as [|e| |i| | |u|i|i|i|] eqn:Ec; try discriminate.
          + injection Es as <-. cbn. destruct e; [exact Logic.I|destruct (exc s); exact Logic.I].
          + injection Es as <-. exact Logic.I.
          + destruct (i <? n); [destruct (sleeping s i)|]; injection Es as <-; cbn; try rewrite Ec; exact Logic.I.
          + injection Es as <-. cbn. destruct (exc s) eqn:Ex0; [congruence|exact Logic.I].
          + destruct (i <? n); injection Es as <-; exact Logic.I.
          + destruct (i <? n); [destruct (done s i)|]; injection Es as <-; cbn; try rewrite Ec; exact Logic.I.
          + destruct (i <? n); [destruct (pc s i); try discriminate|]; injection Es as <-; exact Logic.I. }
      specialize (P _ new_pool s2 Logic.I E). destruct (client s2); try (left; discriminate). right. assumption. }
    destruct G as [G|G]; [contradiction|]. unfold has_exception. destruct (exc s2); [reflexivity|congruence].
Qed.
(** When block() throws, and nothing was submitted while it waited, no task is
    running and no task submitted so far will ever start. *)
Theorem C27_nothing_runs_after_block_throws : forall n fails l1 s0 s1 l2 s2 t0,
  exec n fails new_pool l1 = Some s0 -> step n fails s0 CallBlock = Some s1 -> exec n fails s1 l2 = Some s2 ->
  ~ In Submit l2 -> client s2 = CThrew t0 ->
  (forall t, In t (started (tr s2)) -> In t (ended (tr s2))) /\
  (forall l3 s3, exec n fails s2 l3 = Some s3 ->
     forall t, In t (submitted (tr s2)) -> In t (started (tr s3)) -> In t (ended (tr s2))).
Proof. exact block_throws. Qed.
(** A task submitted while block() waits may still be running when it throws. *)
Theorem C27_task_submitted_during_block_refuted : exists l1 s0 s1 l2 s2 t,
  let fails := fun t => t =? 0 in
  exec 2 fails new_pool l1 = Some s0 /\ step 2 fails s0 CallBlock = Some s1 /\ exec 2 fails s1 l2 = Some s2 /\
  client s2 = CThrew 0 /\ In t (started (tr s2)) /\ ~ In t (ended (tr s2)).
Proof.
  exists [Work 0; Work 0; Work 0; Work 0; Submit; Work 1; Work 1; Work 1; Work 1]. eexists. eexists.
  exists [Client; Client; Client; Client; Submit; Work 0; Work 0; Work 0; Work 0; Work 0;
          Work 1; Work 1; Work 1; Work 1; Work 1; Client; Client; Client]. eexists. exists 1. cbv zeta.
  split; [vm_compute; reflexivity|]. split; [vm_compute; reflexivity|]. split; [vm_compute; reflexivity|].
  split; [reflexivity|]. split; [right; left; reflexivity|]. intros [H|[]]; discriminate.
Qed.
Example C27_case : let fails := fun t => t =? 1 in
  let l := enabled 2 fails new_pool ([Submit; Submit; Submit; Submit; Submit; Submit; CallBlock] ++ rounds 25 [Work 0; Client; Work 1; Client]) in
  let s := state_of (exec 2 fails new_pool l) in client s = CThrew 1 /\ ended (tr s) = [0; 1] /\ queued s = 4.
Proof. vm_compute. auto. Qed.

(** ** C28 *)

(** When the destructor returns all threads have ended, every started task is
    over, the tasks left in the queue were not started and no transition is
    possible any more. *)
Theorem C28_destructor : forall n fails l s, exec n fails new_pool l = Some s -> client s = CDestroyed ->
  (forall t, In t (started (tr s)) -> In t (ended (tr s))) /\
  (forall t, In t (submitted (tr s)) -> In t (assigned (tr s)) \/ (In t (queue s) /\ ~ In t (started (tr s)))) /\
  (forall t, In t (assigned (tr s)) -> In t (ended (tr s))) /\
  active_threads n s = 0 /\
  (forall a, step n fails s a = None).
Proof.
  intros n fails l s E Hc. destruct (destroyed_end n fails l s E Hc) as (A & B & C). assert (I : inv n s) by (eapply exec_inv; [apply inv_new|exact E]).
  split; [assumption|]. split; [|split; [|split; [|assumption]]].
  - intros t Ht. rewrite (i_sub _ _ I), <- (i_asg _ _ I) in Ht. apply in_app_or in Ht. destruct Ht as [Ht|Ht]; [auto|]. right. split; [assumption|].
    assert (Nd : NoDup (assigned (tr s) ++ queue s)) by (rewrite (i_asg _ _ I); apply seq_NoDup). rewrite cnt_nodup in Nd. specialize (Nd t). rewrite cnt_app in Nd.
    pose proof (i_have _ _ I t). rewrite cnt_in in *. lia.
  - intros t Ht. apply B. rewrite cnt_in in *. pose proof (i_have _ _ I t). destruct (cnt (over n (fun w => have (pc s w))) t) eqn:Ec; [lia|]. exfalso.
    assert (In t (over n (fun w => have (pc s w)))) as Hi by (apply cnt_in; lia). apply over_in in Hi. destruct Hi as (w & Hw & Hi). rewrite (A w Hw) in Hi. destruct Hi.
  - unfold active_threads. replace (filter (done s) (seq 0 n)) with (seq 0 n); [rewrite seq_length; lia|]. symmetry.
    assert (forall m k, m + k = n -> filter (done s) (seq m k) = seq m k) as G.
    { intros m k. revert m. induction k as [|k IH]; intros m Hk; [reflexivity|]. cbn [seq filter]. rewrite (i_don _ _ I m), (A m) by lia. cbn. rewrite IH by lia. reflexivity. }
    apply G. reflexivity.
Qed.
(** Once the run flags are cleared each worker takes at most one more task. *)
Theorem C28_at_most_one_more_task : forall n fails l s i l' s', 0 < n -> exec n fails new_pool l = Some s -> client s = DWait i ->
  exec n fails s l' = Some s' -> exists es, tr s' = tr s ++ es /\ NoDup (takers es) /\ forall w, In w (takers es) -> w < n.
Proof.
  intros n fails l s i l' s' Hn E Hc E'.
  destruct (exec_ind_inv n fails (destroys n) (fun s a s' _ => destroys_step n fails s a s') l new_pool s (inv_new n) Logic.I E) as (D & I).
  unfold destroys in D. rewrite Hc in D. apply (at_most_one_more n fails l' s s' Hn); [|exact E']. intros w Hw. right. apply D. assumption.
Qed.
(** The destructor is never stuck. *)
Theorem C28_destructor_can_end : forall n fails l s, exec n fails new_pool l = Some s ->
  match client s with DFill _ | DWait _ | DJoin _ => True | _ => False end ->
  exists l' s', Forall (fun a => match a with Work _ | Client => True | _ => False end) l' /\
    exec n fails s l' = Some s' /\ client s' = CDestroyed.
Proof. intros n fails l s E Hc. apply (destructor_can_end n fails l s E). destruct (client s); try contradiction; reflexivity. Qed.
Example C28_case :
  let l := enabled 2 none_fails new_pool ([Submit; Submit; Submit; Submit; Work 0; Work 0; Work 0; Work 1; Work 1; CallDestructor] ++ rounds 25 [Work 0; Client; Work 1; Client]) in
  let s := state_of (exec 2 none_fails new_pool l) in client s = CDestroyed /\ ended (tr s) = [0; 1] /\ queued s = 2.
Proof. vm_compute. auto. Qed.

(** ** C72 *)

(** queued() is the number of tasks submitted and not taken; running() is at
    least the number of tasks being executed; an exception is reported only
    after a task failed. *)
Theorem C72_counters : forall n fails l s, exec n fails new_pool l = Some s ->
  length (submitted (tr s)) = length (assigned (tr s)) + queued s /\
  length (started (tr s)) <= length (ended (tr s)) + running n s /\ running n s <= n /\ active_threads n s <= n /\
  (has_exception s = true -> exists t, In t (failed (tr s))).
Proof.
  intros n fails l s E. assert (I : inv n s) by (eapply exec_inv; [apply inv_new|exact E]). split; [|split; [|split; [|split]]].
  - rewrite (i_sub _ _ I), <- (i_asg _ _ I), app_length. reflexivity.
  - assert (P : Permutation (started (tr s)) (ended (tr s) ++ over n (fun w => runs (pc s w)))).
    { apply (Permutation_count_occ Nat.eq_dec). intros t. change (cnt (started (tr s)) t = cnt (ended (tr s) ++ over n (fun w => runs (pc s w))) t).
      rewrite cnt_app. apply (i_runs _ _ I). }
    apply Permutation_length in P. rewrite P, app_length. apply Nat.add_le_mono_l. unfold running, over.
    assert (G : forall l, (forall w, In w l -> w < n) -> length (flat_map (fun w => runs (pc s w)) l) + length (filter (sleeping s) l) <= length l).
    { induction l0 as [|w l0 IH]; intros H; [apply le_n|]. cbn [flat_map filter]. rewrite app_length.
      assert (Hw : w < n) by (apply H; left; reflexivity). specialize (IH (fun v Hv => H v (or_intror Hv))). rewrite (i_slp _ _ I w Hw).
      destruct (pc s w); cbn [runs slept length app] in *; lia. }
    specialize (G (seq 0 n) ltac:(intros w Hw; apply in_seq in Hw; lia)). rewrite seq_length in G. assert (Sub : forall a b c, a + b <= c -> a <= c - b) by (intros; lia). apply Sub. exact G.
  - unfold running. lia.
  - unfold active_threads. lia.
  - unfold has_exception. destruct (exc s) as [t|] eqn:Ex; [|discriminate]. intros _. exists t. apply (i_exc _ _ I t Ex).
Qed.
(** When no thread is active no task runs and none will ever start. *)
Theorem C72_no_active_threads : forall n fails l s l' s', 0 < n -> exec n fails new_pool l = Some s -> active_threads n s = 0 ->
  exec n fails s l' = Some s' ->
  (forall t, In t (started (tr s)) -> In t (ended (tr s))) /\ started (tr s') = started (tr s).
Proof.
  intros n fails l s l' s' Hn E Ha E'. assert (I : inv n s) by (eapply exec_inv; [apply inv_new|exact E]).
  assert (G : forall w, w < n -> gone (pc s w) = true).
  { intros w Hw. rewrite <- (i_don _ _ I w Hw). unfold active_threads in Ha.
    pose proof (filter_negb (done s) (seq 0 n)) as Hf. rewrite seq_length in Hf.
    destruct (done s w) eqn:Ed; [reflexivity|]. exfalso.
    assert (In w (filter (fun x => negb (done s x)) (seq 0 n))) as Hi by (apply filter_In; rewrite Ed; split; [apply in_seq; lia|reflexivity]).
    destruct (filter (fun x => negb (done s x)) (seq 0 n)); [destruct Hi|]. cbn in Hf. lia. }
  split.
  - apply (no_busy_ended n); [assumption|]. intros w t Hw Hp. specialize (G w Hw). rewrite Hp in G. discriminate.
  - clear - Hn G E'. revert s s' G E'. induction l' as [|a l' IH]; intros s s' G E; cbn [exec] in E; [injection E as <-; reflexivity|].
    destruct (step n fails s a) as [s1|] eqn:Es; [|discriminate].
    assert (started (tr s1) = started (tr s) /\ forall w, w < n -> gone (pc s1 w) = true) as (A & B).
    { destruct a as [v| | | |]; cbn [step] in Es.
      - destruct (Nat.ltb_spec v n) as [Hv|]; [|discriminate]. pose proof (G v Hv) as Gv. unfold work in Es. destruct (pc s v) eqn:Ep; try discriminate.
        injection Es as <-. split; [reflexivity|]. intros w Hw. cbn. destruct (Nat.eq_dec w v) as [->|Ne]; [rewrite upd_eq; reflexivity|rewrite upd_neq by assumption; auto].
      - assert (E' : Some (submit n fails s) = Some s1) by (destruct (client s); try discriminate; exact Es). injection E' as <-.
        unfold submit. destruct (Nat.eqb_spec n 0); [lia|]. cbn. unfold started. rewrite flat_app. cbn. rewrite app_nil_r. auto.
      - destruct (idle (client s)); [|discriminate]. injection Es as <-. auto.
      - destruct (idle (client s)); [|discriminate]. injection Es as <-. auto.
      - apply client_same in Es. destruct Es as (_ & _ & _ & -> & _ & _ & ->). auto. }
    rewrite (IH s1 s' B E). assumption.
Qed.
Example C72_case :
  let s1 := state_of (exec 2 none_fails new_pool [Submit; Submit; Submit; Work 0; Work 0; Work 0; Work 0]) in
  queued s1 = 2 /\ running 2 s1 = 2 /\ length (started (tr s1)) = 1 /\
  let fails := fun t => t =? 0 in
  let s2 := state_of (exec 2 fails new_pool (enabled 2 fails new_pool ([Submit; Submit; Submit] ++ rounds 20 [Work 0; Work 1]))) in
  active_threads 2 s2 = 0 /\ has_exception s2 = true /\ queued s2 = 1.
Proof. vm_compute. repeat split. Qed.

Print Assumptions C25_order_and_at_most_once.
Print Assumptions C25_single_thread_order.
Print Assumptions C25_two_threads_start_order_refuted.
Print Assumptions C26_block_waits.
Print Assumptions C26_task_submitted_during_block_refuted.
Print Assumptions C26_block_can_end.
Print Assumptions C27_each_worker_takes_at_most_one_more.
Print Assumptions C27_block_rethrows.
Print Assumptions C27_nothing_runs_after_block_throws.
Print Assumptions C27_task_submitted_during_block_refuted.
Print Assumptions C28_destructor.
Print Assumptions C28_at_most_one_more_task.
Print Assumptions C28_destructor_can_end.
Print Assumptions C72_counters.
Print Assumptions C72_no_active_threads.
