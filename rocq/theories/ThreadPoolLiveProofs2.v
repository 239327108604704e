(** Liveness of the thread pool under fair schedules: tasks and block(). *)
From Coq Require Import List Arith Bool Lia.
From Verif Require Import ThreadPoolModel ThreadPoolSpec ThreadPoolLiveSpec ThreadPoolProofs ThreadPoolProofs2 ThreadPoolProofs3 ThreadPoolLiveProofs.
Import ListNotations.

Fixpoint pos (t : task) (q : list task) : nat := match q with [] => 0 | x :: r => if x =? t then 0 else S (pos t r) end.
Lemma pos_app t q r : In t q -> pos t (q ++ r) = pos t q.
Proof. induction q as [|x q IH]; [intros []|]. cbn. destruct (Nat.eqb_spec x t); [reflexivity|]. intros [E|E]; [congruence|]. rewrite IH by exact E. reflexivity. Qed.
Lemma exc_dec (o : option task) : o <> None \/ o = None.
Proof. destruct o; [left; discriminate|auto]. Qed.

Section Live2.
  Variable n : nat.
  Variable fails : task -> bool.
  Notation step := (step n fails).
  Notation inv := (inv n).
  Variable s0 : pool.
  Variable sched : schedule.
  Notation st := (state_at n fails s0 sched).
  Variable F : fair n sched.
  Variable I0 : inv s0.
  Variable L0 : leave n s0.

  Lemma leave_st k : leave n (st k).
  Proof. apply (keep n fails s0 sched (leave n) (fun s a s' I E => leave_step n fails s a s' I E) 0 k (Nat.le_0_l k)). exact L0. Qed.
  Notation inv_st := (inv_st n fails s0 sched I0).

  (** ** Tasks *)
  Definition rankA (p : wpc) : nat :=
    match p with WSleepSet | WHave _ => 5 | WAsleep | WRun _ => 4 | WCheckRun => 3 | WCheckExc => 2 | WPop => 1 | _ => 0 end.
  Definition stays (s : pool) : Prop := destroying (client s) = false.
  Lemma stays_step s b s' : stays s -> b <> CallDestructor -> step s b = Some s' -> stays s'.
  Proof.
    unfold stays. intros H Nb E. destruct b as [v| | | |]; cbn [ThreadPoolModel.step] in E; try congruence.
    - destruct (v <? n); [|discriminate]. apply work_facts in E. destruct E as (_ & -> & _). exact H.
    - assert (E' : Some (submit n fails s) = Some s') by (destruct (client s); try discriminate; exact E). injection E' as <-.
      destruct (submit_facts n fails s) as (_ & -> & _). exact H.
    - destruct (idle (client s)); [|discriminate]. injection E as <-. reflexivity.
    - unfold client_step in E. destruct (client s) as [|e| |i| | |t|i|i|i|] eqn:Ec; try discriminate.
      + injection E as <-. cbn. destruct e; [reflexivity|]. destruct (exc s); reflexivity.
      + injection E as <-. reflexivity.
      + destruct (i <? n); [destruct (sleeping s i) eqn:Es|]; injection E as <-; try reflexivity. rewrite Ec. reflexivity.
      + injection E as <-. cbn. destruct (exc s); reflexivity.
  Qed.
  (** What a transition of worker [0] does while task [t] is queued. *)
  Lemma rankA_work s w t s' : leave n s -> stays s -> w < n -> exc s = None -> In t (queue s) -> work fails s w = Some s' ->
    exc s' <> None \/ In t (assigned (tr s')) \/
    (In t (queue s') /\ pos t (queue s') <= pos t (queue s) /\ 6 * pos t (queue s') + rankA (pc s' w) < 6 * pos t (queue s) + rankA (pc s w)).
  Proof.
    intros L D Hw X Q E. destruct (L D w Hw) as (L1 & L2). unfold work in E. destruct (pc s w) as [| | |u|u|u| | | | | |] eqn:Ep.
    all: try (exfalso; apply L2; [reflexivity|exact X]).
    all: try (injection E as <-; right; right; cbn; rewrite ?upd_eq; cbn; split; [exact Q|lia]).
    - destruct L1 as [L1|]; [|discriminate]. rewrite L1 in E. injection E as <-. right. right. cbn. rewrite upd_eq. cbn. split; [exact Q|lia].
    - rewrite X in E. injection E as <-. right. right. cbn. rewrite upd_eq. cbn. split; [exact Q|lia].
    - destruct (queue s) as [|q0 q] eqn:Eq; [contradiction|]. injection E as <-. right. cbn. rewrite upd_eq. cbn. destruct Q as [->|Q].
      + left. unfold assigned. rewrite flat_map_app. apply in_or_app. right. left. reflexivity.
      + destruct (Nat.eqb_spec q0 t) as [->|Ne]; [left; unfold assigned; rewrite flat_map_app; apply in_or_app; right; left; reflexivity|]. right. split; [exact Q|lia].
    - destruct (fails u); injection E as <-; right; right; cbn; rewrite upd_eq; cbn; (split; [exact Q|lia]).
    - injection E as <-. left. discriminate.
  Qed.
  (** The other transitions do not move a queued task back. *)
  Lemma queue_step s b s' t : 0 < n -> In t (queue s) -> step s b = Some s' ->
    In t (assigned (tr s')) \/ (In t (queue s') /\ pos t (queue s') <= pos t (queue s)).
  Proof.
    intros Hn Q E. destruct b as [v| | | |]; cbn [ThreadPoolModel.step] in E.
    - destruct (v <? n); [|discriminate]. unfold work in E. destruct (pc s v) as [| | |u|u|u| | | | | |] eqn:Ep; try discriminate.
      3: { destruct (queue s) as [|q0 q] eqn:Eq; [contradiction|]. injection E as <-. cbn. destruct Q as [->|Q].
        - left. unfold assigned. rewrite flat_map_app. apply in_or_app. right. left. reflexivity.
        - destruct (Nat.eqb_spec q0 t) as [->|Ne]; [left; unfold assigned; rewrite flat_map_app; apply in_or_app; right; left; reflexivity|]. right. split; [exact Q|lia]. }
      4: destruct (fails u).
      all: injection E as <-; right; cbn; (split; [exact Q|lia]).
    - assert (E' : Some (submit n fails s) = Some s') by (destruct (client s); try discriminate; exact E). injection E' as <-.
      unfold submit. destruct (Nat.eqb_spec n 0) as [Z|Z]; [lia|]. cbn. right. split; [apply in_or_app; auto|]. rewrite pos_app by exact Q. lia.
    - destruct (idle (client s)); [|discriminate]. injection E as <-. auto.
    - destruct (idle (client s)); [|discriminate]. injection E as <-. auto.
    - apply client_same in E. destruct E as (-> & _). auto.
  Qed.

  Lemma tr_keep s b s' (g : list event -> list task) t : (forall a c, g (a ++ c) = g a ++ g c) -> step s b = Some s' -> In t (g (tr s)) -> In t (g (tr s')).
  Proof. intros G E H. apply step_facts in E. destruct E as (_ & _ & _ & _ & (es & ->) & _). rewrite G. apply in_or_app. auto. Qed.
  Lemma assigned_app a c : assigned (a ++ c) = assigned a ++ assigned c.
  Proof. apply flat_map_app. Qed.
  Lemma ended_app a c : ended (a ++ c) = ended a ++ ended c.
  Proof. apply flat_map_app. Qed.
  Lemma failed_app a c : failed (a ++ c) = failed a ++ failed c.
  Proof. apply flat_map_app. Qed.

  Lemma task_assigned t k : 0 < n -> (forall j, sched j <> CallDestructor) -> stays (st k) -> In t (submitted (tr (st k))) ->
    exists j, k <= j /\ (exc (st j) <> None \/ In t (assigned (tr (st j)))).
  Proof.
    intros Hn Nd D Hs.
    apply (leads n fails s0 sched (Work 0) (fun s => leave n s /\ stays s /\ (In t (queue s) \/ In t (assigned (tr s)))) (fun s => exc s <> None \/ In t (assigned (tr s)))
             (fun s => 6 * pos t (queue s) + rankA (pc s 0))).
    - intros s. destruct (exc_dec (exc s)) as [X|X]; [auto|]. destruct (in_dec Nat.eq_dec t (assigned (tr s))) as [Y|Y]; [auto|]. right. tauto.
    - intros s b s' (L & Ds & Q) N (i & Hb) E. assert (X : exc s = None) by (destruct (exc_dec (exc s)); tauto). destruct Q as [Q|Q]; [|tauto].
      assert (Nb : b <> CallDestructor) by (rewrite <- Hb; apply Nd).
      destruct (action_dec b (Work 0)) as [->|Ne].
      + apply step_work in E as E1. destruct (rankA_work s 0 t s' L Ds Hn X Q E1) as [Y|[Y|(Y1 & Y2 & Y3)]]; [auto|auto|]. right.
        split; [split; [exact (leave_step n fails _ _ _ L E)|split; [exact (stays_step _ _ _ Ds Nb E)|auto]]|lia].
      + rewrite (other_pc n fails _ _ _ _ E Ne). destruct (queue_step s b s' t Hn Q E) as [Y|(Y1 & Y2)]; [auto|]. right.
        split; [split; [exact (leave_step n fails _ _ _ L E)|split; [exact (stays_step _ _ _ Ds Nb E)|auto]]|lia].
    - intros s (L & Ds & Q) N. assert (X : exc s = None) by (destruct (exc_dec (exc s)); tauto). destruct Q as [Q|Q]; [|tauto].
      assert (E : exists s', work fails s 0 = Some s').
      { destruct (L Ds 0 Hn) as (L1 & L2). unfold work. destruct (pc s 0) as [| | |u|u|u| | | | | |] eqn:Ep; try (eexists; reflexivity).
        - destruct (queue s); eexists; reflexivity.
        - destruct (fails u); eexists; reflexivity.
        - exfalso. apply L2; [reflexivity|exact X]. }
      destruct E as (s' & E). exists s'. split; [apply work_step; assumption|]. destruct (rankA_work s 0 t s' L Ds Hn X Q E) as [Y|[Y|(Y1 & Y2 & Y3)]]; [auto|auto|right; exact Y3].
    - intros i. apply F, Hn.
    - split; [apply leave_st|]. split; [exact D|]. pose proof (inv_st k) as I. rewrite (i_sub _ _ I) in Hs. rewrite <- (i_asg _ _ I) in Hs. apply in_app_or in Hs. tauto.
  Qed.
  Definition rankB (p : wpc) : nat := match p with WHave _ => 1 | _ => 0 end.
  Definition holds (w : nat) (t : task) (s : pool) : Prop := pc s w = WHave t \/ pc s w = WRun t.
  Lemma holds_work w t s : holds w t s -> exists s', work fails s w = Some s' /\ (In t (ended (tr s')) \/ (holds w t s' /\ rankB (pc s' w) < rankB (pc s w))).
  Proof.
    unfold holds, work. intros [E|E]; rewrite E.
    - eexists. split; [reflexivity|]. right. cbn. rewrite upd_eq. cbn. auto.
    - destruct (fails t); (eexists; split; [reflexivity|]; left; cbn; rewrite ended_app; apply in_or_app; right; left; reflexivity).
  Qed.
  Lemma task_runs t k : In t (assigned (tr (st k))) -> 0 < n -> exists j, k <= j /\ In t (ended (tr (st j))).
  Proof.
    intros A Hn. pose proof (inv_st k) as I. pose proof (i_have _ _ I t) as H1. pose proof (i_runs _ _ I t) as H2. apply cnt_in in A.
    destruct (in_dec Nat.eq_dec t (ended (tr (st k)))) as [Y|Y]; [exists k; auto|]. assert (Z : cnt (ended (tr (st k))) t = 0) by (rewrite cnt_in in Y; lia).
    assert (W : exists w, w < n /\ holds w t (st k)).
    { destruct (cnt (over n (fun w => have (pc (st k) w))) t) eqn:C.
      - assert (R : In t (over n (fun w => runs (pc (st k) w)))) by (apply cnt_in; lia). apply over_in in R. destruct R as (w & Hw & R). exists w. split; [exact Hw|].
        destruct (pc (st k) w) eqn:Ep; try contradiction. destruct R as [->|[]]. right. exact Ep.
      - assert (R : In t (over n (fun w => have (pc (st k) w)))) by (apply cnt_in; lia). apply over_in in R. destruct R as (w & Hw & R). exists w. split; [exact Hw|].
        destruct (pc (st k) w) eqn:Ep; try contradiction. destruct R as [->|[]]. left. exact Ep. }
    destruct W as (w & Hw & W).
    apply (leads n fails s0 sched (Work w) (holds w t) (fun s => In t (ended (tr s))) (fun s => rankB (pc s w))).
    - intros s. destruct (in_dec Nat.eq_dec t (ended (tr s))); auto.
    - intros s b s' G N _ E. destruct (action_dec b (Work w)) as [->|Ne].
      + apply step_work in E. destruct (holds_work w t s G) as (s1 & E1 & [X|(X1 & X2)]); rewrite E in E1; injection E1 as <-; [auto|right; split; [exact X1|lia]].
      + right. unfold holds. rewrite (other_pc n fails _ _ _ _ E Ne). split; [exact G|lia].
    - intros s G N. destruct (holds_work w t s G) as (s1 & E1 & X). exists s1. split; [apply work_step; assumption|]. tauto.
    - intros i. apply F, Hw.
    - exact W.
  Qed.
  Lemma task_ends t k : 0 < n -> (forall j, sched j <> CallDestructor) -> stays (st k) -> In t (submitted (tr (st k))) ->
    exists j, k <= j /\ (In t (ended (tr (st j))) \/ exists u, In u (failed (tr (st j)))).
  Proof.
    intros Hn Nd D Hs. destruct (task_assigned t k Hn Nd D Hs) as (j & L & [X|X]).
    - exists j. split; [exact L|]. right. destruct (exc (st j)) as [u|] eqn:Ex; [|congruence]. exists u. apply (i_exc _ _ (inv_st j)), Ex.
    - destruct (task_runs t j X Hn) as (i & Li & Y). exists i. split; [lia|auto].
  Qed.

  (** ** block() *)
  Lemma in_block_not_idle s : in_block s -> idle (client s) = false.
  Proof. unfold in_block. destruct (client s); tauto. Qed.
  Lemma in_block_stays s : in_block s -> stays s.
  Proof. unfold in_block, stays. destruct (client s); cbn; tauto. Qed.
  Lemma block_step s b s' : in_block s -> step s b = Some s' -> in_block s' \/ (block_ended s' /\ (exc s <> None -> exists t, client s' = CThrew t)).
  Proof.
    intros B E. destruct (action_dec b Client) as [->|Ne].
    - cbn [ThreadPoolModel.step] in E. unfold client_step, in_block, block_ended in *. destruct (client s) as [|e| |i| | |t|i|i|i|] eqn:Ec; try contradiction.
      + injection E as <-. left. cbn. destruct e; [exact I|]. destruct (exc s); exact I.
      + injection E as <-. left. exact I.
      + left. destruct (i <? n); [destruct (sleeping s i)|]; injection E as <-; cbn; rewrite ?Ec; exact I.
      + injection E as <-. right. cbn. destruct (exc s) as [t|]; [split; [right|]; eauto|split; [auto|congruence]].
    - left. unfold in_block in *. rewrite (other_client n fails _ _ _ E (in_block_not_idle _ B) Ne). exact B.
  Qed.
  Lemma block_until k j : k <= j -> in_block (st k) -> in_block (st j) \/ exists i, k <= i /\ i <= j /\ block_ended (st i) /\ (exc (st k) <> None -> exists t, client (st i) = CThrew t).
  Proof.
    intros L B. induction L as [|j L IH]; [auto|]. destruct IH as [IH|(i & H1 & H2 & H3)]; [|right; exists i; split; [exact H1|split; [lia|exact H3]]].
    destruct (st_step n fails s0 sched j) as [E|E]; [rewrite E; auto|]. destruct (block_step _ _ _ IH E) as [X|(X & Y)]; [auto|]. right. exists (S j). split; [lia|]. split; [lia|]. split; [exact X|].
    intros Hx. apply Y. apply (keep n fails s0 sched (fun s => exc s <> None)) with (2 := L); [|exact Hx]. intros s a s' P Q. apply (step_facts n fails _ _ _ Q), P.
  Qed.
  Definition rankC (c : cpc) : nat := match c with BQuery => n + 4 | BLoop _ => n + 3 | BWait i => S (S (n - i)) | BFinal => 1 | _ => 0 end.
  (** With an exception. *)
  Lemma block_throws k : in_block (st k) -> exc (st k) <> None -> exists j, k <= j /\ exists t, client (st j) = CThrew t.
  Proof.
    intros B X. destruct (all_end n fails s0 sched k (fun w Hw => worker_fails n fails s0 sched F w Hw k X) n (le_n n)) as (k2 & L2 & P2).
    destruct (block_until k k2 L2 B) as [B2|(i & H1 & _ & _ & H3)]; [|exists i; split; [exact H1|apply H3, X]].
    assert (X2 : exc (st k2) <> None) by (apply (keep n fails s0 sched (fun s => exc s <> None)) with (2 := L2); [intros s a s' P Q; apply (step_facts n fails _ _ _ Q), P|exact X]).
    destruct (leads n fails s0 sched Client (fun s => inv s /\ (forall w, w < n -> pc s w = WEnd) /\ in_block s /\ exc s <> None) (fun s => exists t, client s = CThrew t) (fun s => rankC (client s))) with (k := k2) as (j & Lj & Tj).
    - intros s. destruct (client s) eqn:Ec; try (right; intros (u & Q); discriminate). left. eauto.
    - intros s b s' (I & P & Bs & Xs) Nt _ E. pose proof (inv_step n fails _ _ _ I E) as I'.
      assert (P' : forall w, w < n -> pc s' w = WEnd) by (intros w Hw; apply (end_step n fails s b s' w Hw (P w Hw) E)).
      assert (X' : exc s' <> None) by (apply (step_facts n fails _ _ _ E), Xs).
      destruct (block_step _ _ _ Bs E) as [Y|(_ & Y)]; [|left; apply Y, Xs]. right. split; [auto|].
      destruct (action_dec b Client) as [->|Ne]; [|rewrite (other_client n fails _ _ _ E (in_block_not_idle _ Bs) Ne); lia].
      cbn [ThreadPoolModel.step] in E. unfold client_step, in_block in *. destruct (client s) as [|e| |i| | |t|i|i|i|] eqn:Ec; try contradiction.
      + injection E as <-. cbn. destruct e; [cbn; lia|]. destruct (exc s); [cbn; lia|congruence].
      + injection E as <-. cbn. lia.
      + destruct (Nat.ltb_spec i n) as [Hi|Hi]; [rewrite (i_slp _ _ I i Hi), (P i Hi) in E; cbn [slept] in E|]; injection E as <-; cbn; lia.
      + injection E as <-. cbn. destruct (exc s); cbn; lia.
    - intros s (I & P & Bs & Xs) Nt. cbn [ThreadPoolModel.step]. unfold client_step, in_block in *. destruct (client s) as [|e| |i| | |t|i|i|i|] eqn:Ec; try contradiction.
      + eexists. split; [reflexivity|]. right. cbn. destruct e; [cbn; lia|]. destruct (exc s); [cbn; lia|congruence].
      + eexists. split; [reflexivity|]. right. cbn. lia.
      + destruct (Nat.ltb_spec i n) as [Hi|Hi]; [rewrite (i_slp _ _ I i Hi), (P i Hi); cbn [slept]|]; (eexists; split; [reflexivity|]); right; cbn; lia.
      + eexists. split; [reflexivity|]. left. cbn. destruct (exc s); [eauto|congruence].
    - apply F.
    - split; [apply inv_st|]. split; [exact P2|]. auto.
    - exists j. split; [lia|exact Tj].
  Qed.

  (** Without new tasks every worker sleeps again and again. *)
  Variable Q0 : forall k, sched k <> Submit.
  Definition rankD (p : wpc) : nat :=
    match p with WHave _ => 7 | WRun _ => 6 | WSetExc _ => 5 | WCheckRun => 4 | WCheckExc => 3 | WPop => 2 | WSleepSet | WExit1 => 1 | _ => 0 end.
  Lemma queue_shrinks s b s' : b <> Submit -> step s b = Some s' -> length (queue s') <= length (queue s).
  Proof.
    intros Nb E. destruct b as [v| | | |]; cbn [ThreadPoolModel.step] in E; try congruence.
    - destruct (v <? n); [|discriminate]. unfold work in E. destruct (pc s v) as [| | |u|u|u| | | | | |]; try discriminate.
      3: destruct (queue s) as [|q0 q] eqn:Eq.
      6: destruct (fails u).
      all: injection E as <-; cbn; rewrite ?Eq; cbn; lia.
    - destruct (idle (client s)); [|discriminate]. injection E as <-. cbn. lia.
    - destruct (idle (client s)); [|discriminate]. injection E as <-. cbn. lia.
    - apply client_same in E. destruct E as (-> & _). lia.
  Qed.
  Lemma rankD_work s w : slept (pc s w) = false -> exists s', work fails s w = Some s' /\
    6 * length (queue s') + rankD (pc s' w) < 6 * length (queue s) + rankD (pc s w).
  Proof.
    intros H. unfold work. destruct (pc s w) as [| | |u|u|u| | | | | |] eqn:Ep; try discriminate H.
    1: destruct (run s w).
    4: destruct (queue s) as [|q0 q] eqn:Eq.
    7: destruct (fails u).
    all: eexists; split; [reflexivity|]; cbn; rewrite upd_eq, ?Eq; cbn; try lia. destruct (exc s); cbn; lia.
  Qed.
  Lemma worker_sleeps w k : w < n -> exists j, k <= j /\ sleeping (st j) w = true.
  Proof.
    intros Hw. destruct (leads n fails s0 sched (Work w) (fun _ => True) (fun s => slept (pc s w) = true) (fun s => 6 * length (queue s) + rankD (pc s w))) with (k := k) as (j & L & H).
    - intros s. destruct (slept (pc s w)); auto.
    - intros s b s' _ N (i & Hb) E. right. split; [exact I|]. apply not_true_is_false in N. destruct (action_dec b (Work w)) as [->|Ne].
      + apply step_work in E. destruct (rankD_work s w N) as (s1 & E1 & X). rewrite E in E1. injection E1 as <-. lia.
      + rewrite (other_pc n fails _ _ _ _ E Ne). assert (Nb : b <> Submit) by (rewrite <- Hb; apply Q0). pose proof (queue_shrinks _ _ _ Nb E). lia.
    - intros s _ N. apply not_true_is_false in N. destruct (rankD_work s w N) as (s1 & E1 & X). exists s1. split; [apply work_step; assumption|auto].
    - intros i. apply F, Hw.
    - exact I.
    - exists j. split; [exact L|]. rewrite (i_slp _ _ (inv_st j) w Hw). exact H.
  Qed.
  Variable O : observant n fails s0 sched.
  Lemma wait_next i k : i < n -> client (st k) = BWait i -> exists j, k <= j /\ client (st j) = BWait (S i).
  Proof.
    intros Hi Hc. destruct (O i Hi (fun k => worker_sleeps i k Hi) k) as (j & L & A & Sl).
    assert (U : forall j, k <= j -> client (st j) = BWait i \/ exists m, k <= m /\ client (st m) = BWait (S i)).
    { clear j L A Sl. intros j L. induction L as [|j L IH]; [auto|]. destruct IH as [IH|IH]; [|auto]. destruct (st_step n fails s0 sched j) as [E|E]; [rewrite E; auto|].
      destruct (action_dec (sched j) Client) as [Ea|Ne]; [|left; rewrite (other_client n fails _ _ _ E); [exact IH|rewrite IH; reflexivity|exact Ne]].
      remember (st (S j)) as s1 eqn:E1. rewrite Ea in E. cbn [ThreadPoolModel.step] in E. unfold client_step in E. rewrite IH in E. apply Nat.ltb_lt in Hi. rewrite Hi in E. destruct (sleeping (st j) i); injection E as E.
      - right. exists (S j). split; [lia|]. rewrite <- E1, <- E. reflexivity.
      - left. rewrite <- E. exact IH. }
    destruct (U j L) as [X|X]; [|exact X]. exists (S j). split; [lia|]. cbn [state_at]. rewrite A. cbn [ThreadPoolModel.step]. unfold client_step. rewrite X.
    apply Nat.ltb_lt in Hi. rewrite Hi, Sl. reflexivity.
  Qed.
  Lemma wait_all k : forall m i, n - i <= m -> client (st k) = BWait i -> forall k', k' = k -> exists j, k' <= j /\ exists i', n <= i' /\ client (st j) = BWait i'.
  Proof.
    intros m. revert k. induction m as [|m IH]; intros k i Hm Hc k' ->.
    - exists k. split; [lia|]. exists i. split; [lia|exact Hc].
    - destruct (le_lt_dec n i) as [Hi|Hi]; [exists k; split; [lia|]; exists i; auto|]. destruct (wait_next i k Hi Hc) as (j & L & E).
      destruct (IH j (S i) ltac:(lia) E j eq_refl) as (j2 & L2 & X). exists j2. split; [lia|exact X].
  Qed.
  Lemma client_moves c k : client (st k) = c -> idle c = false -> exists j, k <= j /\ sched j = Client /\ client (st j) = c.
  Proof.
    intros Hc Hi. destruct (proj2 F k) as (j & L & A).
    assert (U : forall d j, j = k + d -> client (st j) = c \/ exists m, k <= m /\ sched m = Client /\ client (st m) = c).
    { induction d as [|d IH]; intros i ->; [left; rewrite Nat.add_0_r; exact Hc|]. destruct (IH (k + d) eq_refl) as [X|X]; [|auto]. rewrite Nat.add_succ_r.
      destruct (action_dec (sched (k + d)) Client) as [Ea|Ne]; [right; exists (k + d); split; [lia|auto]|]. left.
      destruct (st_step n fails s0 sched (k + d)) as [E|E]; [rewrite E; exact X|]. rewrite (other_client n fails _ _ _ E); [exact X|rewrite X; exact Hi|exact Ne]. }
    destruct (U (j - k) j ltac:(lia)) as [X|X]; [exists j; auto|exact X].
  Qed.
  Lemma final_ends k : client (st k) = BFinal -> exists j, k <= j /\ block_ended (st j).
  Proof.
    intros H. destruct (client_moves BFinal k H eq_refl) as (j & L & A & C). exists (S j). split; [lia|]. cbn [state_at]. rewrite A. cbn [ThreadPoolModel.step]. unfold client_step. rewrite C.
    unfold block_ended. cbn. destruct (exc (st j)); eauto.
  Qed.
  Lemma wait_ends i k : client (st k) = BWait i -> exists j, k <= j /\ block_ended (st j).
  Proof.
    intros H. destruct (wait_all k (n - i) i (le_n _) H k eq_refl) as (j & L & i' & Hi & C). destruct (client_moves _ j C eq_refl) as (j2 & L2 & A & C2).
    destruct (final_ends (S j2)) as (j3 & L3 & X); [|exists j3; split; [lia|exact X]].
    cbn [state_at]. rewrite A. cbn [ThreadPoolModel.step]. unfold client_step. rewrite C2. apply Nat.ltb_ge in Hi. rewrite Hi. reflexivity.
  Qed.
  (** The queue empties. *)
  Lemma queue_empties k : in_block (st k) -> exists j, k <= j /\ (exc (st j) <> None \/ queue (st j) = [] \/ block_ended (st j)).
  Proof.
    intros B. destruct (Nat.eq_dec n 0) as [Z|Z]; [exists k; split; [lia|]; right; left; apply (i_zero _ _ (inv_st k) Z)|]. assert (Hn : 0 < n) by lia.
    apply (leads n fails s0 sched (Work 0) (fun s => leave n s /\ in_block s) (fun s => exc s <> None \/ queue s = [] \/ block_ended s) (fun s => 6 * length (queue s) + rankA (pc s 0))).
    - intros s. destruct (exc_dec (exc s)) as [X|X]; [auto|]. destruct (queue s) eqn:Eq; [auto|]. unfold block_ended. destruct (client s); try (right; intros [Q|[Q|[Q|(u & Q)]]]; congruence); left; eauto.
    - intros s b s' (L & Bs) N (i & Hb) E. assert (X : exc s = None) by (destruct (exc_dec (exc s)); tauto).
      destruct (block_step _ _ _ Bs E) as [Y|(Y & _)]; [|auto]. destruct (exc_dec (exc s')) as [X'|X']; [auto|]. right. split; [split; [exact (leave_step n fails _ _ _ L E)|exact Y]|].
      assert (Nb : b <> Submit) by (rewrite <- Hb; apply Q0). destruct (action_dec b (Work 0)) as [->|Ne].
      + apply step_work in E. destruct (L (in_block_stays _ Bs) 0 Hn) as (L1 & L2). unfold work in E. destruct (pc s 0) as [| | |u|u|u| | | | | |] eqn:Ep; try (exfalso; apply L2; [reflexivity|exact X]).
        * destruct L1 as [L1|]; [|discriminate]. rewrite L1 in E. injection E as <-. cbn. rewrite ?upd_eq. cbn. lia.
        * rewrite X in E. injection E as <-. cbn. rewrite ?upd_eq. cbn. lia.
        * destruct (queue s) as [|q0 q] eqn:Eq; [tauto|]. injection E as <-. cbn. rewrite ?upd_eq. cbn. lia.
        * injection E as <-. cbn. rewrite ?upd_eq. cbn. lia.
        * destruct (fails u); injection E as <-; cbn; rewrite ?upd_eq; cbn; lia.
        * injection E as <-. discriminate X'.
        * injection E as <-. cbn. rewrite ?upd_eq. cbn. lia.
        * injection E as <-. cbn. rewrite ?upd_eq. cbn. lia.
      + rewrite (other_pc n fails _ _ _ _ E Ne). pose proof (queue_shrinks _ _ _ Nb E). lia.
    - intros s (L & Bs) N. assert (X : exc s = None) by (destruct (exc_dec (exc s)); tauto). destruct (L (in_block_stays _ Bs) 0 Hn) as (L1 & L2).
      assert (W : exists s', work fails s 0 = Some s' /\ (exc s' <> None \/ 6 * length (queue s') + rankA (pc s' 0) < 6 * length (queue s) + rankA (pc s 0))).
      { unfold work. destruct (pc s 0) as [| | |u|u|u| | | | | |] eqn:Ep; try (exfalso; apply L2; [reflexivity|exact X]).
        * destruct L1 as [L1|]; [|discriminate]. rewrite L1. eexists. split; [reflexivity|]. cbn. rewrite ?upd_eq. cbn. lia.
        * rewrite X. eexists. split; [reflexivity|]. cbn. rewrite ?upd_eq. cbn. lia.
        * destruct (queue s) as [|q0 q] eqn:Eq; [tauto|]. eexists. split; [reflexivity|]. cbn. rewrite ?upd_eq. cbn. lia.
        * eexists. split; [reflexivity|]. cbn. rewrite ?upd_eq. cbn. lia.
        * destruct (fails u); (eexists; split; [reflexivity|]); cbn; rewrite ?upd_eq; cbn; lia.
        * eexists. split; [reflexivity|]. left. discriminate.
        * eexists. split; [reflexivity|]. cbn. rewrite ?upd_eq. cbn. lia.
        * eexists. split; [reflexivity|]. cbn. rewrite ?upd_eq. cbn. lia. }
      destruct W as (s' & E & H). exists s'. split; [apply work_step; assumption|]. tauto.
    - intros i. apply F, Hn.
    - split; [apply leave_st|exact B].
  Qed.
  Lemma loop_ends k : in_block (st k) -> queue (st k) = [] -> exists j, k <= j /\ block_ended (st j).
  Proof.
    intros B Q. destruct (leads n fails s0 sched Client (fun s => in_block s /\ queue s = []) (fun s => block_ended s \/ client s = BFinal \/ exists i, client s = BWait i)
      (fun s => match client s with BLoop false => 3 | BQuery => 2 | BLoop true => 1 | _ => 0 end)) with (k := k) as (j & L & H).
    - intros s. unfold block_ended. destruct (client s); try (right; intros [[X|(u & X)]|[X|(u & X)]]; discriminate); left; eauto.
    - intros s b s' (Bs & Qs) N (i & Hb) E. assert (Nb : b <> Submit) by (rewrite <- Hb; apply Q0).
      assert (Q' : queue s' = []).
      { pose proof (queue_shrinks _ _ _ Nb E) as H. rewrite Qs in H. destruct (queue s'); [reflexivity|cbn in H; lia]. }
      destruct (block_step _ _ _ Bs E) as [Y|(Y & _)]; [|auto]. destruct (action_dec b Client) as [->|Ne].
      + cbn [ThreadPoolModel.step] in E. unfold client_step, in_block in *. destruct (client s) as [|e| |m| | |t|m|m|m|] eqn:Ec; try contradiction.
        * destruct e; [|destruct (exc s)]; injection E as <-; [left; right; right; eexists; reflexivity|left; right; right; eexists; reflexivity|right]. cbn. split; [split; [exact I|exact Q']|lia].
        * injection E as <-. right. cbn in *. split; [split; [exact I|exact Q']|]. rewrite Qs. lia.
        * exfalso. apply N. right. right. eauto.
        * exfalso. apply N. auto.
      + right. unfold in_block in *. rewrite (other_client n fails _ _ _ E (in_block_not_idle _ Bs) Ne). auto.
    - intros s (Bs & Qs) N. cbn [ThreadPoolModel.step]. unfold client_step, in_block in *. destruct (client s) as [|e| |m| | |t|m|m|m|] eqn:Ec; try contradiction.
      + destruct e; [|destruct (exc s)]; (eexists; split; [reflexivity|]); [left; right; right; eexists; reflexivity|left; right; right; eexists; reflexivity|right]. cbn. lia.
      + eexists. split; [reflexivity|]. right. cbn. rewrite Qs. lia.
      + exfalso. apply N. right. right. eauto.
      + exfalso. apply N. auto.
    - apply F.
    - auto.
    - destruct H as [H|[H|(i & H)]]; [exists j; auto| |].
      + destruct (final_ends j H) as (j2 & L2 & X). exists j2. split; [lia|exact X].
      + destruct (wait_ends i j H) as (j2 & L2 & X). exists j2. split; [lia|exact X].
  Qed.
  Lemma block_ends k : in_block (st k) -> exists j, k <= j /\ block_ended (st j).
  Proof.
    intros B. destruct (queue_empties k B) as (j & L & H). destruct (block_until k j L B) as [Bj|(i & H1 & _ & H2 & _)]; [|exists i; auto].
    destruct H as [H|[H|H]].
    - destruct (block_throws j Bj H) as (i & Li & X). exists i. split; [lia|]. right. exact X.
    - destruct (loop_ends j Bj H) as (i & Li & X). exists i. split; [lia|exact X].
    - exists j. auto.
  Qed.
End Live2.

(** Executions seen from a later moment. *)
Definition shift (m : nat) (sched : schedule) : schedule := fun k => sched (m + k).
Lemma state_shift n fails s sched m k : state_at n fails s sched (m + k) = state_at n fails (state_at n fails s sched m) (shift m sched) k.
Proof.
  induction k as [|k IH]; [rewrite Nat.add_0_r; reflexivity|]. rewrite Nat.add_succ_r. cbn [state_at]. rewrite <- IH. reflexivity.
Qed.
Lemma fair_shift n sched m : fair n sched -> fair n (shift m sched).
Proof.
  intros (A & B). split.
  - intros w k Hw. destruct (A w (m + k) Hw) as (j & L & E). exists (j - m). split; [lia|]. unfold shift. replace (m + (j - m)) with j by lia. exact E.
  - intros k. destruct (B (m + k)) as (j & L & E). exists (j - m). split; [lia|]. unfold shift. replace (m + (j - m)) with j by lia. exact E.
Qed.
Lemma observant_shift n fails s sched m : observant n fails s sched -> observant n fails (state_at n fails s sched m) (shift m sched).
Proof.
  intros H w Hw A k. destruct (H w Hw) with (k := m + k) as (j & L & E1 & E2).
  - intros i. destruct (A i) as (j & L & E). exists (m + j). split; [lia|]. rewrite state_shift. exact E.
  - exists (j - m). split; [lia|]. unfold shift at 1. rewrite <- state_shift. replace (m + (j - m)) with j by lia. auto.
Qed.
Lemma block_ends_late n fails s sched m : fair n sched -> observant n fails s sched -> inv n s -> leave n s -> (forall k, m <= k -> sched k <> Submit) ->
  in_block s -> exists j, block_ended (state_at n fails s sched j).
Proof.
  intros F O I L Q B. destruct (block_until n fails s sched 0 m (Nat.le_0_l _) B) as [Bm|(i & _ & _ & X & _)]; [|exists i; exact X].
  destruct (block_ends n fails (state_at n fails s sched m) (shift m sched)) with (k := 0) as (j & _ & X).
  - apply fair_shift, F.
  - apply inv_st, I.
  - apply leave_st, L.
  - intros k. apply Q. lia.
  - apply observant_shift, O.
  - exact Bm.
  - exists (m + j). rewrite state_shift. exact X.
Qed.
