(** Proofs about block(), failing tasks and the destructor. *)
From Coq Require Import List Arith Bool Lia.
From Verif Require Import ThreadPoolModel ThreadPoolSpec ThreadPoolProofs.
Import ListNotations.

Section P.
  Variable n : nat.
  Variable fails : task -> bool.
  Notation step := (step n fails).
  Notation exec := (exec n fails).
  Notation inv := (inv n).

  Definition calm (p : wpc) : bool :=
    match p with WCheckRun | WCheckExc | WAsleep | WExit1 | WExit2 | WExit3 | WEnd => true | _ => false end.
  Definition exiting (p : wpc) : bool := match p with WExit1 | WExit2 | WExit3 | WEnd => true | _ => false end.

  Lemma slept_not_busy p t : slept p = true -> ~ busy p t.
  Proof. destruct p; try discriminate; intros _ [H|[H|H]]; discriminate. Qed.
  Lemma calm_not_busy p t : calm p = true -> ~ busy p t.
  Proof. destruct p; try discriminate; intros _ [H|[H|H]]; discriminate. Qed.
  Lemma slept_calm p : slept p = true -> calm p = true.
  Proof. destruct p; reflexivity || discriminate. Qed.

  (** What one transition may change. *)
  Lemma work_facts s w s' : work fails s w = Some s' ->
    next s' = next s /\ client s' = client s /\ (exc s <> None -> exc s' <> None) /\
    (forall t, In t (queue s') -> In t (queue s)) /\
    (forall j, j <> w -> pc s' j = pc s j) /\
    (forall t, busy (pc s' w) t -> busy (pc s w) t \/ In t (queue s)) /\
    (exists es, tr s' = tr s ++ es) /\
    (exc s <> None -> calm (pc s w) = true -> calm (pc s' w) = true /\ tr s' = tr s) /\
    (forall j, run s j = false -> run s' j = false).
  Proof.
    unfold work. destruct (pc s w) as [| | |t|t|t| | | | | |] eqn:Ep; intros E; try discriminate.
    3: destruct (queue s) as [|q0 q] eqn:Eq.
    6: destruct (fails t).
    all: injection E as <-; cbn [goto log set_queue set_exc set_run set_sleeping set_done next client exc queue pc tr ThreadPoolModel.run].
    all: repeat split; auto; try discriminate; try (intros; apply upd_neq; assumption); try rewrite !upd_eq.
    all: try (exists []; symmetry; apply app_nil_r); try (eexists; reflexivity).
    all: try (intros u H; right; assumption).
    all: try (intros u [H|[H|H]]; discriminate).
    all: try (intros u [H|[H|H]]; try discriminate; injection H as ->; first [left; unfold busy; solve [auto]|right; left; reflexivity]).
    all: try (destruct (run s w); reflexivity).
    all: try (intros u; destruct (run s w); intros [H|[H|H]]; discriminate).
    all: try (intros u; destruct (exc s); intros [H|[H|H]]; discriminate).
    all: try (destruct (exc s); [reflexivity|congruence]).
    all: try (rewrite Eq; intros; assumption || (right; assumption)).
    intros j H. unfold upd. destruct (j =? w); [reflexivity|assumption].
  Qed.

  Lemma submit_facts s : next (submit n fails s) = S (next s) /\ client (submit n fails s) = client s /\ exc (submit n fails s) = exc s /\
    (forall t, In t (queue (submit n fails s)) -> In t (queue s) \/ t = next s) /\ pc (submit n fails s) = pc s /\
    run (submit n fails s) = run s /\ sleeping (submit n fails s) = sleeping s /\ done (submit n fails s) = done s /\
    (exists es, tr (submit n fails s) = tr s ++ es).
  Proof.
    unfold submit. destruct (n =? 0); cbn; repeat split; auto.
    - rewrite <- app_assoc. eexists. reflexivity.
    - intros t H. apply in_app_or in H. destruct H as [H|[H|[]]]; auto.
    - eexists. reflexivity.
  Qed.
  Lemma client_run s s' : client_step n s = Some s' -> forall j, run s j = false -> run s' j = false.
  Proof.
    unfold client_step. destruct (client s) as [|e| |i| | |t|i|i|i|]; try discriminate.
    - intros E. injection E as <-. auto.
    - intros E. injection E as <-. auto.
    - destruct (i <? n); [destruct (sleeping s i)|]; intros E; injection E as <-; auto.
    - intros E. injection E as <-. auto.
    - destruct (i <? n); intros E; injection E as <-; auto. intros j H. cbn. unfold upd. destruct (j =? i); auto.
    - destruct (i <? n); [destruct (done s i)|]; intros E; injection E as <-; auto.
    - destruct (i <? n); [destruct (pc s i); try discriminate|]; intros E; injection E as <-; auto.
  Qed.

  Lemma step_facts s a s' : step s a = Some s' ->
    next s <= next s' /\ (exc s <> None -> exc s' <> None) /\
    (forall t, In t (queue s') -> In t (queue s) \/ next s <= t) /\
    (forall j t, busy (pc s' j) t -> busy (pc s j) t \/ In t (queue s)) /\
    (exists es, tr s' = tr s ++ es) /\
    (forall j, run s j = false -> run s' j = false).
  Proof.
    destruct a as [w| | | |]; cbn [ThreadPoolModel.step].
    - destruct (w <? n); [|discriminate]. intros E. apply work_facts in E. destruct E as (A1 & _ & A2 & A3 & A4 & A5 & A6 & A7 & A8).
      repeat split; auto; [lia| ]. intros j t H. destruct (Nat.eq_dec j w) as [->|Ne]; [auto|]. rewrite A4 in H by assumption. auto.
    - intros E. assert (E' : Some (submit n fails s) = Some s') by (destruct (client s); try discriminate; exact E). injection E' as <-. clear E.
      destruct (submit_facts s) as (A1 & A2 & A3 & A4 & A5 & A6 & _ & _ & A9). rewrite A1, A3, A5, A6. repeat split; auto.
      intros t H. apply A4 in H. destruct H as [H| ->]; auto.
    - destruct (idle (client s)); [|discriminate]. intros E; injection E as <-. cbn. repeat split; auto. exists []. symmetry. apply app_nil_r.
    - destruct (idle (client s)); [|discriminate]. intros E; injection E as <-. cbn. repeat split; auto. exists []. symmetry. apply app_nil_r.
    - intros E. pose proof (client_run _ _ E) as R. apply client_same in E. destruct E as (-> & -> & -> & -> & _ & _ & ->). repeat split; auto.
      exists []. symmetry. apply app_nil_r.
  Qed.

  (** *** C26 *)
  Definition settled (K i : nat) (s : pool) : Prop :=
    exc s <> None \/ ((forall t, In t (queue s) -> K <= t) /\ forall j t, j < i -> busy (pc s j) t -> K <= t).
  Lemma settled_step K i s a s' : K <= next s -> settled K i s -> step s a = Some s' -> settled K i s'.
  Proof.
    intros HK H E. apply step_facts in E. destruct E as (A1 & A2 & A3 & A4 & _). destruct H as [H|(H1 & H2)]; [left; auto|]. right. split.
    - intros t Ht. apply A3 in Ht. destruct Ht as [Ht|Ht]; [auto|lia].
    - intros j t Hj Hb. apply A4 in Hb. destruct Hb as [Hb|Hb]; [eapply H2; eassumption|auto].
  Qed.

  Definition over_before (K : nat) (s : pool) : Prop := forall t, t < K -> In t (ended (tr s)) /\ (0 < n -> In t (finished (tr s))).
  Definition waits (K : nat) (s : pool) : Prop :=
    K <= next s /\
    match client s with
    | BLoop true => settled K 0 s
    | BWait i => settled K i s
    | BFinal => settled K n s
    | CReturned => over_before K s
    | _ => True
    end.

  Lemma all_over K s : inv s -> K <= next s -> exc s = None -> settled K n s -> over_before K s.
  Proof.
    intros I HK He [H|(H1 & H2)]; [congruence|]. intros t Ht.
    assert (Ha : In t (assigned (tr s))).
    { assert (In t (assigned (tr s) ++ queue s)) as Hi by (rewrite (i_asg _ _ I); apply in_seq; lia).
      apply in_app_or in Hi. destruct Hi as [Hi|Hi]; [assumption|]. apply H1 in Hi. lia. }
    assert (Hb : forall w, w < n -> ~ busy (pc s w) t) by (intros w Hw Hb; specialize (H2 w t Hw Hb); lia).
    assert (Hz : forall g, (forall p, In t (g p) -> busy p t) -> cnt (over n (fun w => g (pc s w))) t = 0).
    { intros g Hg. destruct (cnt (over n (fun w => g (pc s w))) t) eqn:Ec; [reflexivity|]. exfalso.
      assert (In t (over n (fun w => g (pc s w)))) as Hi by (apply cnt_in; lia). apply over_in in Hi. destruct Hi as (w & Hw & Hi). apply (Hb w Hw), Hg, Hi. }
    assert (Zh := Hz have ltac:(intros [] Hp; cbn in Hp; try contradiction; destruct Hp as [->|[]]; left; reflexivity)).
    assert (Zr := Hz runs ltac:(intros [] Hp; cbn in Hp; try contradiction; destruct Hp as [->|[]]; right; left; reflexivity)).
    pose proof (i_have _ _ I t). pose proof (i_runs _ _ I t). pose proof (i_ends _ _ I t). apply cnt_in in Ha.
    split; [apply cnt_in; lia|]. intros Hn. apply cnt_in. destruct (cnt (failed (tr s)) t) eqn:Ef; [lia|]. exfalso.
    assert (Hf : In t (failed (tr s))) by (apply cnt_in; lia). destruct (i_fail _ _ I Hn t Hf) as [Hx|(w & Hw & Hx)]; [congruence|].
    apply (Hb w Hw). right. right. assumption.
  Qed.

  Lemma waits_step K s a s' : inv s -> waits K s -> step s a = Some s' -> waits K s'.
  Proof.
    intros I (HK & H) E. pose proof (step_facts _ _ _ E) as (A1 & A2 & A3 & A4 & (es & A5) & _). split; [lia|].
    assert (Hst : forall i, settled K i s -> settled K i s') by (intros i Hi; eapply settled_step; eassumption).
    assert (Hov : over_before K s -> over_before K s').
    { intros Ho t Ht. destruct (Ho t Ht) as (O1 & O2). rewrite A5. unfold ended, finished. rewrite !flat_app. split; [|intros Hn]; apply in_or_app; auto. }
    assert (Keep : client s' = client s -> match client s' with BLoop true => settled K 0 s' | BWait i => settled K i s' | BFinal => settled K n s' | CReturned => over_before K s' | _ => True end).
    { intros ->. destruct (client s) as [|[]| | | | | | | | |]; auto. }
    destruct a as [w| | | |]; cbn [ThreadPoolModel.step] in E.
    - apply Keep. destruct (w <? n); [|discriminate]. apply work_facts in E. apply E.
    - apply Keep. assert (E' : Some (submit n fails s) = Some s') by (destruct (client s); try discriminate; exact E). injection E' as <-. apply submit_facts.
    - destruct (idle (client s)); [|discriminate]. injection E as <-. exact Logic.I.
    - destruct (idle (client s)); [|discriminate]. injection E as <-. exact Logic.I.
    - unfold client_step in E. destruct (client s) as [|e| |i| | |t|i|i|i|] eqn:Ec; try discriminate.
      + injection E as <-. cbn [set_client client]. destruct e; [exact H|]. destruct (exc s) eqn:Ex; [left; cbn; congruence|exact Logic.I].
      + injection E as <-. cbn [set_client client]. destruct (queue s) eqn:Eq; [|exact Logic.I]. right. cbn. rewrite Eq. split; [intros t []|intros; lia].
      + destruct (Nat.ltb_spec i n) as [Hi|Hi].
        * destruct (sleeping s i) eqn:Es; injection E as <-; [|rewrite Ec; exact H]. cbn [set_client client].
          destruct H as [H|(H1 & H2)]; [left; exact H|]. right. split; [exact H1|]. cbn. intros j t Hj Hb.
          destruct (Nat.eq_dec j i) as [->|Ne]; [|apply (H2 j t); [lia|assumption]]. exfalso. rewrite (i_slp _ _ I i Hi) in Es. eapply slept_not_busy; eassumption.
        * injection E as <-. cbn [set_client client]. destruct H as [H|(H1 & H2)]; [left; exact H|]. right. split; [exact H1|]. cbn. intros j t Hj. apply H2. lia.
      + injection E as <-. cbn [set_client client]. destruct (exc s) eqn:Ex; [exact Logic.I|].
        intros t Ht. cbn [set_client tr]. eapply (all_over K s); eassumption.
      + destruct (i <? n); injection E as <-; exact Logic.I.
      + destruct (i <? n); [destruct (done s i)|]; injection E as <-; cbn; try rewrite Ec; exact Logic.I.
      + destruct (i <? n); [destruct (pc s i); try discriminate|]; injection E as <-; exact Logic.I.
  Qed.

  Lemma block_waits l1 s0 s1 l2 s2 : exec new_pool l1 = Some s0 -> step s0 CallBlock = Some s1 -> exec s1 l2 = Some s2 ->
    client s2 = CReturned -> forall t, In t (submitted (tr s0)) -> In t (ended (tr s2)) /\ (0 < n -> In t (finished (tr s2))).
  Proof.
    intros E1 E2 E3 Hc t Ht. assert (I0 : inv s0) by (eapply exec_inv; [apply inv_new|exact E1]).
    assert (I1 : inv s1) by (eapply inv_step; eassumption).
    destruct (exec_ind_inv n fails (waits (next s0)) (waits_step (next s0)) l2 s1 s2 I1) as ((_ & W) & _); [|exact E3|].
    - cbn [ThreadPoolModel.step] in E2. destruct (idle (client s0)); [|discriminate]. injection E2 as <-. split; [cbn; lia|exact Logic.I].
    - rewrite Hc in W. apply W. rewrite (i_sub _ _ I0) in Ht. apply in_seq in Ht. lia.
  Qed.

  (** *** C27 *)
  (** From any state with an exception, or with the run flags cleared, a worker
      takes at most one more task. *)
  Definition stopped (s : pool) : Prop := forall w, w < n -> exc s <> None \/ run s w = false.
  Definition may_take (s : pool) (w : nat) : nat :=
    match pc s w with WCheckExc => match exc s with None => 1 | Some _ => 0 end | WPop => 1 | _ => 0 end.
  Lemma stopped_step s a s' : stopped s -> step s a = Some s' -> stopped s'.
  Proof. intros H E w Hw. apply step_facts in E. destruct E as (_ & A2 & _ & _ & _ & A6). destruct (H w Hw); auto. Qed.

  Lemma may_take_same s s' w : pc s' w = pc s w -> (exc s <> None -> exc s' <> None) -> may_take s' w <= may_take s w.
  Proof.
    intros E H. unfold may_take. rewrite E. destruct (pc s w); auto. destruct (exc s), (exc s'); auto. exfalso. apply H; congruence.
  Qed.
  Lemma takers_app a b : takers (a ++ b) = takers a ++ takers b.
  Proof. apply flat_app. Qed.

  Lemma takes_step s a s' : 0 < n -> stopped s -> step s a = Some s' -> exists es, tr s' = tr s ++ es /\
    forall w, cnt (takers es) w + may_take s' w <= may_take s w /\ (n <= w -> cnt (takers es) w = 0).
  Proof.
    intros Hn Hs E. pose proof (step_facts _ _ _ E) as (_ & Hx & _).
    assert (Q : tr s' = tr s -> (forall w, pc s' w = pc s w) -> exists es, tr s' = tr s ++ es /\
      forall w, cnt (takers es) w + may_take s' w <= may_take s w /\ (n <= w -> cnt (takers es) w = 0)).
    { intros Et Ep. exists []. split; [rewrite app_nil_r; assumption|]. intros w. cbn. split; [apply may_take_same; auto|reflexivity]. }
    destruct a as [v| | | |]; cbn [ThreadPoolModel.step] in E.
    - destruct (Nat.ltb_spec v n) as [Hv|]; [|discriminate]. specialize (Hs v Hv).
      pose proof (work_facts _ _ _ E) as (_ & _ & _ & _ & Hp & _).
      assert (G : forall es, tr s' = tr s ++ es -> (forall w, w <> v -> cnt (takers es) w = 0) ->
        cnt (takers es) v + may_take s' v <= may_take s v -> exists es, tr s' = tr s ++ es /\
        forall w, cnt (takers es) w + may_take s' w <= may_take s w /\ (n <= w -> cnt (takers es) w = 0)).
      { intros es Et Hw Hc. exists es. split; [assumption|]. intros w. destruct (Nat.eq_dec w v) as [->|Ne].
        - split; [assumption|lia].
        - rewrite Hw by assumption. split; [cbn; apply may_take_same; auto|reflexivity]. }
      clear Q. unfold work in E. unfold may_take in *. destruct (pc s v) as [| | |t|t|t| | | | | |] eqn:Ep; try discriminate.
      1: { injection E as <-. apply (G []); cbn [goto pc exc tr]; [symmetry; apply app_nil_r|reflexivity|]. rewrite upd_eq. cbn.
           destruct (run s v); [|lia]. destruct Hs as [Hs|Hs]; [|discriminate]. destruct (exc s); [lia|congruence]. }
      1: { injection E as <-. apply (G []); cbn [goto pc exc tr]; [symmetry; apply app_nil_r|reflexivity|]. rewrite upd_eq. cbn. destruct (exc s); lia. }
      1: { destruct (queue s) as [|q0 q]; injection E as <-.
           - apply (G []); cbn [goto pc exc tr]; [symmetry; apply app_nil_r|reflexivity|]. rewrite upd_eq. cbn. lia.
           - apply (G [Assigned q0 v]); cbn [goto log set_queue pc exc tr]; [reflexivity| |rewrite upd_eq; cbn; destruct (Nat.eq_dec v v); lia].
             intros w Hw. cbn. destruct (Nat.eq_dec v w); [congruence|reflexivity]. }
      1: { injection E as <-. apply (G [Started t v]); cbn [goto log pc exc tr]; [reflexivity|reflexivity|]. rewrite upd_eq. cbn. lia. }
      1: { destruct (fails t); injection E as <-.
           - apply (G [Failed t v]); cbn [goto log pc exc tr]; [reflexivity|reflexivity|]. rewrite upd_eq. cbn. lia.
           - apply (G [Finished t v]); cbn [goto log pc exc tr]; [reflexivity|reflexivity|]. rewrite upd_eq. cbn. lia. }
      all: injection E as <-; apply (G []); cbn [goto set_sleeping set_done set_run set_exc pc exc tr]; [symmetry; apply app_nil_r|reflexivity|]; rewrite upd_eq; cbn; lia.
    - assert (E' : Some (submit n fails s) = Some s') by (destruct (client s); try discriminate; exact E). injection E' as <-.
      unfold submit in *. destruct (Nat.eqb_spec n 0); [lia|]. exists [Submitted (next s)]. split; [reflexivity|]. intros w. cbn. split; [apply le_n|reflexivity].
    - destruct (idle (client s)); [|discriminate]. injection E as <-. apply Q; reflexivity.
    - destruct (idle (client s)); [|discriminate]. injection E as <-. apply Q; reflexivity.
    - apply client_same in E. destruct E as (_ & _ & _ & Ep & _ & _ & Et). apply Q; [assumption|intros; rewrite Ep; reflexivity].
  Qed.
  Lemma takes_exec l : forall s s', 0 < n -> stopped s -> exec s l = Some s' -> exists es, tr s' = tr s ++ es /\
    forall w, cnt (takers es) w + may_take s' w <= may_take s w /\ (n <= w -> cnt (takers es) w = 0).
  Proof.
    induction l as [|a l IH]; intros s s' Hn Hs E; cbn [ThreadPoolModel.exec] in E.
    - injection E as <-. exists []. split; [symmetry; apply app_nil_r|]. intros w. cbn. split; [apply le_n|reflexivity].
    - destruct (step s a) as [s1|] eqn:Es; [|discriminate]. destruct (takes_step _ _ _ Hn Hs Es) as (e1 & T1 & C1).
      destruct (IH s1 s' Hn (stopped_step _ _ _ Hs Es) E) as (e2 & T2 & C2). exists (e1 ++ e2). split; [rewrite T2, T1, app_assoc; reflexivity|].
      intros w. rewrite takers_app, cnt_app. specialize (C1 w). specialize (C2 w). lia.
  Qed.
  Lemma at_most_one_more l s s' : 0 < n -> stopped s -> exec s l = Some s' -> exists es, tr s' = tr s ++ es /\ NoDup (takers es) /\ forall w, In w (takers es) -> w < n.
  Proof.
    intros Hn Hs E. destruct (takes_exec l s s' Hn Hs E) as (es & T & C). exists es. split; [assumption|]. split.
    - apply cnt_nodup. intros w. specialize (C w). unfold may_take in C. destruct (pc s w), (exc s); lia.
    - intros w Hw. apply cnt_in in Hw. specialize (C w). destruct (Nat.lt_ge_cases w n); [assumption|]. destruct C as (_ & C). specialize (C H). lia.
  Qed.

  (** block() throws: nothing runs. *)
  Definition quiet_upto (i : nat) (s : pool) : Prop :=
    (exc s <> None /\ forall j, j < i -> j < n -> calm (pc s j) = true) \/ (queue s = [] /\ forall j t, j < i -> j < n -> ~ busy (pc s j) t).
  Definition calms (s : pool) : Prop :=
    match client s with
    | BLoop true => queue s = []
    | BWait i => quiet_upto i s
    | BFinal => quiet_upto n s
    | CThrew _ => quiet_upto n s
    | _ => True
    end.
  Lemma quiet_step i s a s' : a <> Submit -> quiet_upto i s -> step s a = Some s' -> quiet_upto i s'.
  Proof.
    intros Ha H E. pose proof (step_facts _ _ _ E) as (_ & A2 & _ & A4 & _).
    assert (Hq : queue s = [] -> queue s' = []).
    { intros Hq. destruct a as [w| | | |]; cbn [ThreadPoolModel.step] in E; try congruence.
      - destruct (w <? n); [|discriminate]. apply work_facts in E. destruct E as (_ & _ & _ & A & _). rewrite Hq in A. destruct (queue s') as [|t q]; [reflexivity|]. destruct (A t (or_introl eq_refl)).
      - destruct (idle (client s)); [|discriminate]. injection E as <-. exact Hq.
      - destruct (idle (client s)); [|discriminate]. injection E as <-. exact Hq.
      - apply client_same in E. destruct E as (-> & _). exact Hq. }
    destruct H as [(H1 & H2)|(H1 & H2)].
    - left. split; [auto|]. intros j Hj Hn. specialize (H2 j Hj Hn). destruct a as [w| | | |]; cbn [ThreadPoolModel.step] in E; try congruence.
      + destruct (w <? n); [|discriminate]. apply work_facts in E. destruct E as (_ & _ & _ & _ & A & _ & _ & B & _).
        destruct (Nat.eq_dec j w) as [->|Ne]; [apply B; assumption|rewrite A; assumption].
      + destruct (idle (client s)); [|discriminate]. injection E as <-. exact H2.
      + destruct (idle (client s)); [|discriminate]. injection E as <-. exact H2.
      + apply client_same in E. destruct E as (_ & _ & _ & -> & _). exact H2.
    - right. split; [auto|]. intros j t Hj Hn Hb. apply A4 in Hb. rewrite H1 in Hb. destruct Hb as [Hb|[]]. eapply H2; eassumption.
  Qed.
  Lemma calms_step s a s' : a <> Submit -> inv s -> calms s -> step s a = Some s' -> calms s'.
  Proof.
    intros Ha I H E. pose proof (fun i Hi => quiet_step i s a s' Ha Hi E) as Hst. unfold calms in *.
    destruct a as [w| | | |]; cbn [ThreadPoolModel.step] in E; try congruence.
    - destruct (w <? n); [|discriminate]. apply work_facts in E. destruct E as (_ & -> & _ & A & _).
      destruct (client s) as [|[]| | | | | | | | |]; auto. rewrite H in A. destruct (queue s') as [|t q]; [reflexivity|]. destruct (A t (or_introl eq_refl)).
    - destruct (idle (client s)); [|discriminate]. injection E as <-. exact Logic.I.
    - destruct (idle (client s)); [|discriminate]. injection E as <-. exact Logic.I.
    - unfold client_step in E. destruct (client s) as [|e| |i| | |t|i|i|i|] eqn:Ec; try discriminate.
      + injection E as <-. cbn [set_client client]. destruct e; [right; split; [exact H|intros; lia]|].
        destruct (exc s) eqn:Ex; [|exact Logic.I]. left. split; [cbn; congruence|intros; lia].
      + injection E as <-. cbn [set_client client]. destruct (queue s) eqn:Eq; [exact Eq|exact Logic.I].
      + destruct (Nat.ltb_spec i n) as [Hi|Hi].
        * destruct (sleeping s i) eqn:Es; injection E as <-; [|rewrite Ec; exact H]. cbn [set_client client].
          rewrite (i_slp _ _ I i Hi) in Es. destruct H as [(H1 & H2)|(H1 & H2)]; [left|right]; (split; [exact H1|]); cbn [set_client pc].
          -- intros j Hj Hn. destruct (Nat.eq_dec j i) as [->|Ne]; [apply slept_calm; assumption|apply H2; lia].
          -- intros j t Hj Hn. destruct (Nat.eq_dec j i) as [->|Ne]; [apply slept_not_busy; assumption|apply H2; lia].
        * injection E as <-. cbn [set_client client]. destruct H as [(H1 & H2)|(H1 & H2)]; [left|right]; (split; [exact H1|]); cbn [set_client pc].
          -- intros j Hj Hn. apply H2; lia.
          -- intros j t Hj Hn. apply H2; lia.
      + injection E as <-. cbn [set_client client]. destruct (exc s); [|exact Logic.I]. exact H.
      + destruct (i <? n); injection E as <-; exact Logic.I.
      + destruct (i <? n); [destruct (done s i)|]; injection E as <-; cbn; try rewrite Ec; exact Logic.I.
      + destruct (i <? n); [destruct (pc s i); try discriminate|]; injection E as <-; exact Logic.I.
  Qed.
  Lemma calms_exec l : forall s s', ~ In Submit l -> inv s -> calms s -> exec s l = Some s' -> calms s' /\ inv s'.
  Proof.
    induction l as [|a l IH]; intros s s' Hl I H E; cbn [ThreadPoolModel.exec] in E; [injection E as <-; auto|].
    destruct (step s a) as [s1|] eqn:Es; [|discriminate]. apply (IH s1 s').
    - intros Hi. apply Hl. right. assumption.
    - eapply inv_step; eassumption.
    - eapply calms_step; try eassumption. intros ->. apply Hl. left. reflexivity.
    - exact E.
  Qed.

  (** With no busy worker, started tasks are over. *)
  Lemma no_busy_ended s : inv s -> (forall w t, w < n -> pc s w <> WRun t) -> forall t, In t (started (tr s)) -> In t (ended (tr s)).
  Proof.
    intros I Hb t Ht. apply cnt_in in Ht. apply cnt_in. pose proof (i_runs _ _ I t).
    destruct (cnt (over n (fun w => runs (pc s w))) t) eqn:Ec; [lia|]. exfalso.
    assert (In t (over n (fun w => runs (pc s w)))) as Hi by (apply cnt_in; lia). apply over_in in Hi. destruct Hi as (w & Hw & Hi).
    specialize (Hb w t Hw). destruct (pc s w); cbn in Hi; try contradiction. destruct Hi as [->|[]]. congruence.
  Qed.
  (** With an exception and all workers calm, no task starts any more. *)
  Lemma calm_forever l : 0 < n -> forall s s', exc s <> None -> (forall w, w < n -> calm (pc s w) = true) -> exec s l = Some s' ->
    started (tr s') = started (tr s).
  Proof.
    intros Hn. induction l as [|a l IH]; intros s s' Hx Hc E; cbn [ThreadPoolModel.exec] in E; [injection E as <-; reflexivity|].
    destruct (step s a) as [s1|] eqn:Es; [|discriminate].
    assert (started (tr s1) = started (tr s) /\ exc s1 <> None /\ forall w, w < n -> calm (pc s1 w) = true) as (A & B & C).
    { pose proof (step_facts _ _ _ Es) as (_ & Hx1 & _). specialize (Hx1 Hx). destruct a as [v| | | |]; cbn [ThreadPoolModel.step] in Es.
      - destruct (Nat.ltb_spec v n) as [Hv|]; [|discriminate]. apply work_facts in Es. destruct Es as (_ & _ & _ & _ & A & _ & _ & B & _).
        destruct (B Hx (Hc v Hv)) as (B1 & B2). rewrite B2. split; [reflexivity|]. split; [assumption|]. intros w Hw.
        destruct (Nat.eq_dec w v) as [->|Ne]; [assumption|rewrite A by assumption; auto].
      - assert (E' : Some (submit n fails s) = Some s1) by (destruct (client s); try discriminate; exact Es). injection E' as <-.
        destruct (submit_facts s) as (_ & _ & _ & _ & -> & _). split; [|split; assumption]. unfold submit. destruct (Nat.eqb_spec n 0); [lia|].
        cbn. unfold started. rewrite flat_app. cbn. apply app_nil_r.
      - destruct (idle (client s)); [|discriminate]. injection Es as <-. auto.
      - destruct (idle (client s)); [|discriminate]. injection Es as <-. auto.
      - apply client_same in Es. destruct Es as (_ & _ & _ & -> & _ & _ & ->). auto. }
    rewrite (IH s1 s' B C E). assumption.
  Qed.

  Lemma block_throws l1 s0 s1 l2 s2 t0 : exec new_pool l1 = Some s0 -> step s0 CallBlock = Some s1 -> exec s1 l2 = Some s2 ->
    ~ In Submit l2 -> client s2 = CThrew t0 ->
    (forall t, In t (started (tr s2)) -> In t (ended (tr s2))) /\
    (forall l3 s3, exec s2 l3 = Some s3 -> forall t, In t (submitted (tr s2)) -> In t (started (tr s3)) -> In t (ended (tr s2))).
  Proof.
    intros E1 E2 E3 Hl Hc. assert (I0 : inv s0) by (eapply exec_inv; [apply inv_new|exact E1]).
    assert (I1 : inv s1) by (eapply inv_step; eassumption).
    assert (C1 : calms s1) by (cbn [ThreadPoolModel.step] in E2; destruct (idle (client s0)); [|discriminate]; injection E2 as <-; exact Logic.I).
    destruct (calms_exec l2 s1 s2 Hl I1 C1 E3) as (C2 & I2). unfold calms in C2. rewrite Hc in C2.
    assert (Nb : forall w t, w < n -> pc s2 w <> WRun t).
    { intros w t Hw Hp. destruct C2 as [(_ & C2)|(_ & C2)].
      - specialize (C2 w Hw Hw). rewrite Hp in C2. discriminate.
      - apply (C2 w t Hw Hw). right. left. assumption. }
    split; [apply no_busy_ended; assumption|]. intros l3 s3 E4 t Hs Ht.
    destruct C2 as [(X & C2)|(Q & C2)].
    - assert (Hn : 0 < n) by (destruct (exc s2) eqn:Ex; [apply (i_exc _ _ I2 _ Ex)|congruence]).
      rewrite (calm_forever l3 Hn s2 s3 X (fun w Hw => C2 w Hw Hw) E4) in Ht. apply no_busy_ended; assumption.
    - assert (Ha : In t (assigned (tr s2))) by (pose proof (i_asg _ _ I2) as A; rewrite Q, app_nil_r in A; rewrite A, <- (i_sub _ _ I2); assumption).
      apply no_busy_ended; [assumption|assumption|]. apply cnt_in. apply cnt_in in Ha. pose proof (i_have _ _ I2 t).
      destruct (cnt (over n (fun w => have (pc s2 w))) t) eqn:Ec; [lia|]. exfalso.
      assert (In t (over n (fun w => have (pc s2 w)))) as Hi by (apply cnt_in; lia). apply over_in in Hi. destruct Hi as (w & Hw & Hi).
      apply (C2 w t Hw Hw). left. destruct (pc s2 w); cbn in Hi; try contradiction. destruct Hi as [->|[]]. reflexivity.
  Qed.

  (** The exception block() throws is the one of a task that failed. *)
  Definition threw (s : pool) : Prop := match client s with CThrew t => In t (failed (tr s)) | _ => True end.
  Lemma threw_step s a s' : inv s -> threw s -> step s a = Some s' -> threw s'.
  Proof.
    intros I H E. pose proof (step_facts _ _ _ E) as (_ & _ & _ & _ & (es & A5) & _). unfold threw in *.
    assert (K : client s' = client s -> match client s' with CThrew t => In t (failed (tr s')) | _ => True end).
    { intros ->. destruct (client s); auto. rewrite A5. unfold failed. rewrite flat_app. apply in_or_app. left. exact H. }
    destruct a as [w| | | |]; cbn [ThreadPoolModel.step] in E.
    - apply K. destruct (w <? n); [|discriminate]. apply work_facts in E. apply E.
    - apply K. assert (E' : Some (submit n fails s) = Some s') by (destruct (client s); try discriminate; exact E). injection E' as <-. apply submit_facts.
    - destruct (idle (client s)); [|discriminate]. injection E as <-. exact Logic.I.
    - destruct (idle (client s)); [|discriminate]. injection E as <-. exact Logic.I.
    - unfold client_step in E. destruct (client s) as [|e| |i| | |t|i|i|i|] eqn:Ec; try discriminate.
      + injection E as <-. cbn. destruct e; [exact Logic.I|destruct (exc s); exact Logic.I].
      + injection E as <-. exact Logic.I.
      + destruct (i <? n); [destruct (sleeping s i)|]; injection E as <-; cbn; try rewrite Ec; exact Logic.I.
      + injection E as <-. cbn. destruct (exc s) eqn:Ex; [|exact Logic.I]. apply (i_exc _ _ I _ Ex).
      + destruct (i <? n); injection E as <-; exact Logic.I.
      + destruct (i <? n); [destruct (done s i)|]; injection E as <-; cbn; try rewrite Ec; exact Logic.I.
      + destruct (i <? n); [destruct (pc s i); try discriminate|]; injection E as <-; exact Logic.I.
  Qed.

  (** *** C28 *)
  Definition destroys (s : pool) : Prop :=
    match client s with
    | DFill i => forall j, j < i -> j < n -> run s j = false
    | DWait _ => forall j, j < n -> run s j = false
    | DJoin i => (forall j, j < n -> run s j = false) /\ forall j, j < i -> j < n -> pc s j = WEnd
    | CDestroyed => forall j, j < n -> pc s j = WEnd
    | _ => True
    end.
  Lemma end_step s a s' j : j < n -> pc s j = WEnd -> step s a = Some s' -> pc s' j = WEnd.
  Proof.
    intros Hj Hp E. destruct a as [w| | | |]; cbn [ThreadPoolModel.step] in E.
    - destruct (w <? n); [|discriminate]. destruct (Nat.eq_dec j w) as [->|Ne]; [unfold work in E; rewrite Hp in E; discriminate|].
      apply work_facts in E. destruct E as (_ & _ & _ & _ & A & _). rewrite A; assumption.
    - assert (E' : Some (submit n fails s) = Some s') by (destruct (client s); try discriminate; exact E). injection E' as <-.
      destruct (submit_facts s) as (_ & _ & _ & _ & -> & _). exact Hp.
    - destruct (idle (client s)); [|discriminate]. injection E as <-. exact Hp.
    - destruct (idle (client s)); [|discriminate]. injection E as <-. exact Hp.
    - apply client_same in E. destruct E as (_ & _ & _ & -> & _). exact Hp.
  Qed.
  Lemma destroys_step s a s' : destroys s -> step s a = Some s' -> destroys s'.
  Proof.
    intros H E. pose proof (step_facts _ _ _ E) as (_ & _ & _ & _ & _ & R). pose proof (fun j Hj Hp => end_step s a s' j Hj Hp E) as W.
    unfold destroys in *.
    assert (K : client s' = client s -> match client s' with
       | DFill i => forall j, j < i -> j < n -> run s' j = false | DWait _ => forall j, j < n -> run s' j = false
       | DJoin i => (forall j, j < n -> run s' j = false) /\ forall j, j < i -> j < n -> pc s' j = WEnd
       | CDestroyed => forall j, j < n -> pc s' j = WEnd | _ => True end).
    { intros ->. destruct (client s); auto. destruct H as (H1 & H2). split; auto. }
    destruct a as [w| | | |]; cbn [ThreadPoolModel.step] in E.
    - apply K. destruct (w <? n); [|discriminate]. apply work_facts in E. apply E.
    - apply K. assert (E' : Some (submit n fails s) = Some s') by (destruct (client s); try discriminate; exact E). injection E' as <-. apply submit_facts.
    - destruct (idle (client s)); [|discriminate]. injection E as <-. exact Logic.I.
    - destruct (idle (client s)); [|discriminate]. injection E as <-. cbn. intros; lia.
    - unfold client_step in E. destruct (client s) as [|e| |i| | |t|i|i|i|] eqn:Ec; try discriminate.
      + injection E as <-. cbn. destruct e; [exact Logic.I|destruct (exc s); exact Logic.I].
      + injection E as <-. exact Logic.I.
      + destruct (i <? n); [destruct (sleeping s i)|]; injection E as <-; cbn; try rewrite Ec; exact Logic.I.
      + injection E as <-. cbn. destruct (exc s) eqn:Ex; exact Logic.I.
      + destruct (Nat.ltb_spec i n); injection E as <-; cbn [set_client set_run client ThreadPoolModel.run].
        * intros j Hj Hn. destruct (Nat.eq_dec j i) as [->|Ne]; [apply upd_eq|rewrite upd_neq by assumption; apply H; lia].
        * intros j Hj. apply H; lia.
      + destruct (i <? n); [destruct (done s i)|]; injection E as <-; cbn [set_client client pc ThreadPoolModel.run]; try rewrite Ec; try exact H.
        split; [exact H|intros; lia].
      + destruct (Nat.ltb_spec i n); [destruct (pc s i) eqn:Ep; try discriminate|]; injection E as <-; cbn [set_client client pc ThreadPoolModel.run]; destruct H as (H1 & H2).
        * split; [exact H1|]. intros j Hj Hn. destruct (Nat.eq_dec j i) as [->|Ne]; [assumption|apply H2; lia].
        * intros j Hj. apply H2; lia.
  Qed.
  Lemma destroyed_end l s : exec new_pool l = Some s -> client s = CDestroyed ->
    (forall w, w < n -> pc s w = WEnd) /\ (forall t, In t (started (tr s)) -> In t (ended (tr s))) /\ (forall a, step s a = None).
  Proof.
    intros E Hc. destruct (exec_ind_inv n fails destroys (fun s a s' _ => destroys_step s a s') l new_pool s (inv_new n) Logic.I E) as (D & I).
    unfold destroys in D. rewrite Hc in D. split; [exact D|]. split.
    - apply no_busy_ended; [assumption|]. intros w t Hw. rewrite (D w Hw). discriminate.
    - intros [w| | | |]; cbn [ThreadPoolModel.step].
      + destruct (Nat.ltb_spec w n) as [Hw|]; [|reflexivity]. unfold work. rewrite (D w Hw). reflexivity.
      + rewrite Hc. reflexivity.
      + rewrite Hc. reflexivity.
      + rewrite Hc. reflexivity.
      + unfold client_step. rewrite Hc. reflexivity.
  Qed.
End P.
