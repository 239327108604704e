(** The thread pool is never stuck: block() and the destructor can always end. *)
From Coq Require Import List Arith Bool Lia.
From Verif Require Import ThreadPoolModel ThreadPoolSpec ThreadPoolProofs ThreadPoolProofs2.
Import ListNotations.

Section Progress.
  Variable n : nat.
  Variable fails : task -> bool.
  Notation step := (step n fails).
  Notation exec := (exec n fails).
  Notation inv := (inv n).

  Definition destroying (c : cpc) : bool := match c with DFill _ | DWait _ | DJoin _ | CDestroyed => true | _ => false end.
  (** Outside the destructor workers only leave because of an exception. *)
  Definition leave (s : pool) : Prop := destroying (client s) = false ->
    forall w, w < n -> (run s w = true \/ pc s w = WEnd) /\ (exiting (pc s w) = true -> exc s <> None).
  Lemma leave_step s a s' : leave s -> step s a = Some s' -> leave s'.
  Proof.
    intros H E Hd w Hw. pose proof (step_facts n fails _ _ _ E) as (_ & Hx & _). destruct a as [v| | | |]; cbn [ThreadPoolModel.step] in E.
    - destruct (Nat.ltb_spec v n) as [Hv|]; [|discriminate]. pose proof (work_facts fails _ _ _ E) as (_ & Hc & _ & _ & Hp & _).
      rewrite Hc in Hd. destruct (H Hd w Hw) as (H1 & H2). destruct (Nat.eq_dec w v) as [->|Ne].
      + unfold work in E. destruct (pc s v) as [| | |t|t|t| | | | | |] eqn:Ep; try discriminate.
        1: { injection E as <-. cbn. rewrite upd_eq. destruct H1 as [H1|]; [|discriminate]. rewrite H1. split; [auto|discriminate]. }
        1: { injection E as <-. cbn. rewrite upd_eq. destruct H1 as [H1|]; [|discriminate]. split; [auto|]. destruct (exc s); [congruence|discriminate]. }
        1: { destruct H1 as [H1|]; [|discriminate]. destruct (queue s); injection E as <-; cbn; rewrite upd_eq; (split; [auto|discriminate]). }
        2: { destruct H1 as [H1|]; [|discriminate]. destruct (fails t); injection E as <-; cbn; rewrite upd_eq; (split; [auto|discriminate]). }
        all: injection E as <-; cbn; rewrite ?upd_eq; cbn in H2; (destruct H1 as [H1|]; [|discriminate]); (split; [auto|first [exact H2|discriminate]]).
      + rewrite (Hp w Ne). split; [|intros; apply Hx; auto]. destruct H1 as [H1|H1]; [|auto]. left.
        unfold work in E. destruct (pc s v); try discriminate; try (injection E as <-; cbn; auto).
        * destruct (queue s); injection E as <-; assumption.
        * destruct (fails t); injection E as <-; assumption.
        * rewrite upd_neq by assumption. assumption.
    - assert (E' : Some (submit n fails s) = Some s') by (destruct (client s); try discriminate; exact E). injection E' as <-.
      destruct (submit_facts n fails s) as (_ & Ec & Ex & _ & Ep & Er & _). rewrite Ec in Hd. rewrite Ex, Ep, Er. apply H; assumption.
    - destruct (idle (client s)) eqn:Ei; [|discriminate]. injection E as <-. apply H; [|assumption]. destruct (client s); try discriminate; reflexivity.
    - destruct (idle (client s)) eqn:Ei; [|discriminate]. injection E as <-. cbn in Hd. discriminate.
    - assert (Hd0 : destroying (client s) = false /\ run s' = run s).
      { unfold client_step in E. destruct (client s) as [|e| |i| | |t|i|i|i|] eqn:Ec; try discriminate.
        - injection E as <-. auto.
        - injection E as <-. auto.
        - destruct (i <? n); [destruct (sleeping s i)|]; injection E as <-; auto.
        - injection E as <-. auto.
        - destruct (i <? n); injection E as <-; discriminate.
        - destruct (i <? n); [destruct (done s i)|]; injection E as <-; cbn in Hd; try rewrite Ec in Hd; discriminate.
        - destruct (i <? n); [destruct (pc s i); try discriminate|]; injection E as <-; discriminate. }
      destruct Hd0 as (Hd0 & ->). apply client_same in E. destruct E as (_ & _ & -> & -> & _). apply H; assumption.
  Qed.

  (** Running one worker alone. *)
  Definition same_else (w : nat) (s s' : pool) : Prop := client s' = client s /\ (forall j, j <> w -> pc s' j = pc s j) /\ (forall j, j <> w -> run s' j = run s j).
  Lemma work_same s w s' : work fails s w = Some s' -> same_else w s s'.
  Proof.
    intros E. pose proof (work_facts fails _ _ _ E) as (_ & Hc & _ & _ & Hp & _). split; [assumption|]. split; [assumption|]. intros j Hj.
    unfold work in E. destruct (pc s w); try discriminate; try (injection E as <-; reflexivity).
    - destruct (queue s); injection E as <-; reflexivity.
    - destruct (fails t); injection E as <-; reflexivity.
    - injection E as <-. cbn. apply upd_neq. assumption.
  Qed.
  Lemma same_trans w a b c : same_else w a b -> same_else w b c -> same_else w a c.
  Proof. intros (A1 & A2 & A3) (B1 & B2 & B3). split; [congruence|]. split; intros j Hj; [rewrite B2, A2|rewrite B3, A3]; auto. Qed.

  Definition rank (p : wpc) : nat :=
    match p with
    | WEnd | WAsleep => 0 | WExit3 => 1 | WExit2 => 2 | WExit1 => 3 | WSleepSet => 4 | WPop => 5 | WCheckExc => 6 | WCheckRun => 7
    | WSetExc _ => 8 | WRun _ => 9 | WHave _ => 10
    end.
  Definition measure (s : pool) (w : nat) : nat := 11 * length (queue s) + rank (pc s w).
  Lemma work_dec s w : pc s w <> WEnd -> pc s w <> WAsleep -> exists s', work fails s w = Some s' /\ measure s' w < measure s w /\
    (length (queue s') <= length (queue s)) /\ (pc s' w = WAsleep -> pc s w = WSleepSet) /\ (pc s' w = WSleepSet -> queue s' = []) /\ (pc s w = WSleepSet -> queue s' = queue s).
  Proof.
    intros H1 H2. unfold work, measure. destruct (pc s w) as [| | |t|t|t| | | | | |] eqn:Ep; try congruence.
    1: eexists; split; [reflexivity|]; cbn; rewrite upd_eq; destruct (run s w); cbn; repeat split; try lia; try discriminate.
    1: eexists; split; [reflexivity|]; cbn; rewrite upd_eq; destruct (exc s); cbn; repeat split; try lia; try discriminate.
    1: destruct (queue s) as [|q0 q] eqn:Eq; (eexists; split; [reflexivity|]); cbn; rewrite upd_eq; rewrite ?Eq; cbn; repeat split; try lia; try discriminate; auto.
    2: destruct (fails t); (eexists; split; [reflexivity|]); cbn; rewrite upd_eq; cbn; repeat split; try lia; try discriminate; auto.
    all: (eexists; split; [reflexivity|]); cbn; rewrite upd_eq; cbn; repeat split; try lia; try discriminate; auto.
  Qed.
  Lemma drive_aux w : w < n -> forall m s, measure s w <= m -> (pc s w = WSleepSet -> queue s = []) ->
    pc s w <> WAsleep -> exists k s', exec s (repeat (Work w) k) = Some s' /\ same_else w s s' /\
      (pc s' w = WEnd \/ (pc s' w = WAsleep /\ queue s' = [])) /\ length (queue s') <= length (queue s).
  Proof.
    intros Hw. induction m as [|m IH]; intros s Hm Hq Ha.
    - exists 0, s. split; [reflexivity|]. split; [split; auto|]. split; [|lia]. unfold measure in Hm. destruct (pc s w); cbn in Hm; try lia; auto. congruence.
    - assert (D : pc s w = WEnd \/ pc s w <> WEnd) by (destruct (pc s w); auto; right; discriminate). destruct D as [D|D].
      + exists 0, s. split; [reflexivity|]. split; [split; auto|]. auto.
      + destruct (work_dec s w D Ha) as (s1 & E1 & M1 & L1 & A1 & Q1 & Q2).
        assert (Es : step s (Work w) = Some s1) by (cbn [ThreadPoolModel.step]; apply Nat.ltb_lt in Hw; rewrite Hw; exact E1).
        assert (B : pc s1 w = WAsleep \/ pc s1 w <> WAsleep) by (destruct (pc s1 w); auto; right; discriminate). destruct B as [B|B].
        * exists 1, s1. cbn [repeat ThreadPoolModel.exec]. rewrite Es. split; [reflexivity|]. split; [apply work_same; assumption|]. split; [|lia].
          right. split; [assumption|]. specialize (A1 B). rewrite (Q2 A1). auto.
        * destruct (IH s1) as (k & s' & E' & S' & P' & L'); [lia|assumption|assumption|]. exists (S k), s'. cbn [repeat ThreadPoolModel.exec]. rewrite Es.
          split; [assumption|]. split; [eapply same_trans; [apply work_same; exact E1|exact S']|]. split; [assumption|lia].
  Qed.
  (** A worker alone empties the queue and falls asleep, or ends. *)
  Lemma drive w s : w < n -> exists k s', exec s (repeat (Work w) k) = Some s' /\ same_else w s s' /\
    (pc s' w = WEnd \/ (pc s' w = WAsleep /\ queue s' = [])) /\ length (queue s') <= length (queue s).
  Proof.
    intros Hw.
    assert (Start : forall s, pc s w <> WAsleep -> pc s w <> WSleepSet -> exists k s', exec s (repeat (Work w) k) = Some s' /\ same_else w s s' /\
      (pc s' w = WEnd \/ (pc s' w = WAsleep /\ queue s' = [])) /\ length (queue s') <= length (queue s)).
    { intros s0 H1 H2. apply (drive_aux w Hw (measure s0 w) s0); [lia|congruence|assumption]. }
    assert (Wake : forall s, pc s w = WAsleep -> exists k s', exec s (repeat (Work w) k) = Some s' /\ same_else w s s' /\
      (pc s' w = WEnd \/ (pc s' w = WAsleep /\ queue s' = [])) /\ length (queue s') <= length (queue s)).
    { intros s0 H0. pose (s1 := goto (set_sleeping s0 w false) w WCheckRun).
      assert (E1 : work fails s0 w = Some s1) by (unfold work; rewrite H0; reflexivity).
      assert (Es : step s0 (Work w) = Some s1) by (cbn [ThreadPoolModel.step]; apply Nat.ltb_lt in Hw; rewrite Hw; exact E1).
      destruct (Start s1) as (k & s' & E' & S' & P' & L'); [cbn; rewrite upd_eq; discriminate|cbn; rewrite upd_eq; discriminate|].
      exists (S k), s'. cbn [repeat ThreadPoolModel.exec]. rewrite Es. split; [assumption|]. split; [eapply same_trans; [apply work_same; exact E1|exact S']|]. auto. }
    destruct (pc s w) eqn:Ep; try (apply Start; rewrite Ep; discriminate).
    - pose (s1 := goto (set_sleeping s w true) w WAsleep).
      assert (E1 : work fails s w = Some s1) by (unfold work; rewrite Ep; reflexivity).
      assert (Es : step s (Work w) = Some s1) by (cbn [ThreadPoolModel.step]; apply Nat.ltb_lt in Hw; rewrite Hw; exact E1).
      destruct (Wake s1) as (k & s' & E' & S' & P' & L'); [cbn; apply upd_eq|].
      exists (S k), s'. cbn [repeat ThreadPoolModel.exec]. rewrite Es. split; [assumption|]. split; [eapply same_trans; [apply work_same; exact E1|exact S']|]. auto.
    - apply Wake. assumption.
  Qed.

  Definition own (a : action) : Prop := match a with Work _ | Client => True | _ => False end.
  Lemma own_repeat w k : Forall own (repeat (Work w) k).
  Proof. induction k; constructor; [exact I|assumption]. Qed.

  (** All workers one after the other. *)
  Lemma drive_all s : forall i, i <= n -> exists l s', Forall own l /\ exec s l = Some s' /\ client s' = client s /\
    (forall w, w < i -> slept (pc s' w) = true) /\ (0 < i -> (exists w, w < i /\ pc s' w = WEnd) \/ queue s' = []).
  Proof.
    induction i as [|i IH]; intros Hi.
    - exists [], s. split; [constructor|]. split; [reflexivity|]. split; [reflexivity|]. split; intros; lia.
    - destruct IH as (l & s1 & O1 & E1 & C1 & P1 & _); [lia|]. destruct (drive i s1) as (k & s2 & E2 & (C2 & S2 & _) & P2 & _); [lia|].
      exists (l ++ repeat (Work i) k), s2. split; [apply Forall_app; split; [assumption|apply own_repeat]|].
      split; [rewrite exec_app, E1; exact E2|]. split; [congruence|]. split.
      + intros w Hw. destruct (Nat.eq_dec w i) as [->|Ne]; [destruct P2 as [->|(-> & _)]; reflexivity|rewrite S2 by assumption; apply P1; lia].
      + intros _. destruct P2 as [P2|(_ & P2)]; [left; exists i; split; [lia|assumption]|auto].
  Qed.

  (** The client alone, when all workers sleep. *)
  Lemma client_end s : (forall w, w < n -> sleeping s w = true) -> (exc s <> None \/ queue s = []) ->
    match client s with BLoop _ | BQuery | BWait _ | BFinal => True | _ => False end ->
    exists k s', exec s (repeat Client k) = Some s' /\ (client s' = CReturned \/ exists t, client s' = CThrew t).
  Proof.
    intros Hs Hq Hc.
    assert (Fin : forall s, client s = BFinal -> exists k s', exec s (repeat Client k) = Some s' /\ (client s' = CReturned \/ exists t, client s' = CThrew t)).
    { intros s0 H0. exists 1. eexists. cbn [repeat ThreadPoolModel.exec ThreadPoolModel.step]. unfold client_step. rewrite H0. split; [reflexivity|].
      cbn. destruct (exc s0); eauto. }
    assert (Wait : forall m i s, n - i <= m -> (forall w, w < n -> sleeping s w = true) -> client s = BWait i ->
      exists k s', exec s (repeat Client k) = Some s' /\ (client s' = CReturned \/ exists t, client s' = CThrew t)).
    { induction m as [|m IH]; intros i s0 Hm Hs0 H0.
      - destruct (Fin (set_client s0 BFinal) eq_refl) as (k & s' & E & H). exists (S k), s'. cbn [repeat ThreadPoolModel.exec ThreadPoolModel.step]. unfold client_step.
        rewrite H0. destruct (Nat.ltb_spec i n); [lia|]. auto.
      - destruct (Nat.ltb_spec i n) as [Hi|Hi].
        + destruct (IH (S i) (set_client s0 (BWait (S i)))) as (k & s' & E & H); [lia|exact Hs0|reflexivity|]. exists (S k), s'.
          cbn [repeat ThreadPoolModel.exec ThreadPoolModel.step]. unfold client_step. rewrite H0. apply Nat.ltb_lt in Hi. rewrite Hi. apply Nat.ltb_lt in Hi. rewrite (Hs0 i Hi). auto.
        + destruct (Fin (set_client s0 BFinal) eq_refl) as (k & s' & E & H). exists (S k), s'. cbn [repeat ThreadPoolModel.exec ThreadPoolModel.step]. unfold client_step.
          rewrite H0. destruct (Nat.ltb_spec i n); [lia|]. auto. }
    assert (LoopT : forall s, (forall w, w < n -> sleeping s w = true) -> client s = BLoop true ->
      exists k s', exec s (repeat Client k) = Some s' /\ (client s' = CReturned \/ exists t, client s' = CThrew t)).
    { intros s0 Hs0 H0. destruct (Wait n 0 (set_client s0 (BWait 0))) as (k & s' & E & H); [lia|exact Hs0|reflexivity|]. exists (S k), s'.
      cbn [repeat ThreadPoolModel.exec ThreadPoolModel.step]. unfold client_step. rewrite H0. auto. }
    assert (Loop : forall s, (forall w, w < n -> sleeping s w = true) -> (exc s <> None \/ queue s = []) -> client s = BLoop false ->
      exists k s', exec s (repeat Client k) = Some s' /\ (client s' = CReturned \/ exists t, client s' = CThrew t)).
    { intros s0 Hs0 Hq0 H0. destruct (exc s0) as [e|] eqn:Ex.
      - destruct (Wait n 0 (set_client s0 (BWait 0))) as (k & s' & E & H); [lia|exact Hs0|reflexivity|]. exists (S k), s'.
        cbn [repeat ThreadPoolModel.exec ThreadPoolModel.step]. unfold client_step. rewrite H0, Ex. auto.
      - destruct Hq0 as [Hq0|Hq0]; [congruence|]. destruct (LoopT (set_client (set_client s0 BQuery) (BLoop true))) as (k & s' & E & H); [exact Hs0|reflexivity|].
        exists (S (S k)), s'. cbn [repeat ThreadPoolModel.exec ThreadPoolModel.step]. unfold client_step. rewrite H0, Ex. cbn [set_client client queue]. rewrite Hq0. auto. }
    destruct (client s) as [|[]| |i| | |t|i|i|i|] eqn:Ec; try contradiction.
    - apply LoopT; assumption.
    - apply Loop; assumption.
    - pose (s1 := set_client s (BLoop (match queue s with [] => true | _ => false end))).
      assert (E1 : step s Client = Some s1) by (cbn [ThreadPoolModel.step]; unfold client_step; rewrite Ec; reflexivity).
      assert (exists k s', exec s1 (repeat Client k) = Some s' /\ (client s' = CReturned \/ exists t, client s' = CThrew t)) as (k & s' & E & H).
      { unfold s1. destruct (queue s) eqn:Eq; [apply LoopT; [exact Hs|reflexivity]|apply Loop; [exact Hs| |reflexivity]].
        destruct Hq as [Hq|Hq]; [left; exact Hq|discriminate]. }
      exists (S k), s'. cbn [repeat ThreadPoolModel.exec]. rewrite E1. auto.
    - apply (Wait (n - i) i); auto.
    - apply Fin; assumption.
  Qed.

  Lemma block_can_end l s : exec new_pool l = Some s ->
    match client s with BLoop _ | BQuery | BWait _ | BFinal => True | _ => False end ->
    exists l' s', Forall own l' /\ exec s l' = Some s' /\ (client s' = CReturned \/ exists t, client s' = CThrew t).
  Proof.
    intros E Hc. destruct (drive_all s n (le_n n)) as (l1 & s1 & O1 & E1 & C1 & P1 & Q1).
    assert (E01 : exec new_pool (l ++ l1) = Some s1) by (rewrite exec_app, E; exact E1).
    assert (I1 : inv s1) by (eapply exec_inv; [apply inv_new|exact E01]).
    assert (L1 : leave s1).
    { destruct (exec_ind_inv n fails leave (fun s a s' _ => leave_step s a s') (l ++ l1) new_pool s1 (inv_new n)) as (L & _); [|exact E01|exact L].
      intros _ w Hw. split; [left; reflexivity|discriminate]. }
    destruct (client_end s1) as (k & s' & E' & H).
    - intros w Hw. rewrite (i_slp _ _ I1 w Hw). apply P1. assumption.
    - destruct (Nat.eq_dec n 0) as [En|En]; [right; apply (i_zero _ _ I1); assumption|]. destruct Q1 as [(w & Hw & Hp)|Hq]; [lia| |auto].
      left. apply (L1 ltac:(rewrite C1; destruct (client s); try contradiction; reflexivity) w Hw). rewrite Hp. reflexivity.
    - rewrite C1. exact Hc.
    - exists (l1 ++ repeat Client k), s'. split; [apply Forall_app; split; [assumption|]|split; [rewrite exec_app, E1; exact E'|exact H]].
      clear. induction k; constructor; [exact I|assumption].
  Qed.

  (** ** Destructor *)
  Definition rank2 (p : wpc) : nat :=
    match p with
    | WEnd => 0 | WExit3 => 1 | WExit2 => 2 | WExit1 => 3 | WCheckRun => 4 | WAsleep => 5 | WSetExc _ => 5 | WSleepSet => 6 | WRun _ => 6 | WHave _ => 7
    | WPop => 8 | WCheckExc => 9
    end.
  Lemma work_dec2 s w : pc s w <> WEnd -> run s w = false -> exists s', work fails s w = Some s' /\ rank2 (pc s' w) < rank2 (pc s w).
  Proof.
    intros H1 H2. unfold work. destruct (pc s w) as [| | |t|t|t| | | | | |] eqn:Ep; try congruence.
    1: rewrite H2.
    3: destruct (queue s).
    6: destruct (fails t).
    all: eexists; split; [reflexivity|]; cbn; rewrite upd_eq; cbn; try lia. destruct (exc s); cbn; lia.
  Qed.
  Lemma drive_end w : w < n -> forall m s, rank2 (pc s w) <= m -> run s w = false ->
    exists k s', exec s (repeat (Work w) k) = Some s' /\ same_else w s s' /\ pc s' w = WEnd.
  Proof.
    intros Hw. induction m as [|m IH]; intros s Hm Hr.
    - exists 0, s. split; [reflexivity|]. split; [split; auto|]. destruct (pc s w); cbn in Hm; lia || reflexivity.
    - assert (D : pc s w = WEnd \/ pc s w <> WEnd) by (destruct (pc s w); auto; right; discriminate). destruct D as [D|D].
      + exists 0, s. split; [reflexivity|]. split; [split; auto|assumption].
      + destruct (work_dec2 s w D Hr) as (s1 & E1 & M1).
        assert (Es : step s (Work w) = Some s1) by (cbn [ThreadPoolModel.step]; apply Nat.ltb_lt in Hw; rewrite Hw; exact E1).
        destruct (IH s1) as (k & s' & E' & S' & P'); [lia|apply (work_facts fails _ _ _ E1); assumption|].
        exists (S k), s'. cbn [repeat ThreadPoolModel.exec]. rewrite Es. split; [assumption|]. split; [eapply same_trans; [apply work_same; exact E1|exact S']|assumption].
  Qed.
  Lemma exec_run_false l : forall s s' j, run s j = false -> exec s l = Some s' -> run s' j = false.
  Proof.
    induction l as [|a l IH]; intros s s' j H E; cbn [ThreadPoolModel.exec] in E; [injection E as <-; assumption|].
    destruct (step s a) as [s1|] eqn:Es; [|discriminate]. apply (IH s1 s' j); [|assumption]. apply step_facts in Es. apply Es. assumption.
  Qed.
  Lemma drive_all_end s : (forall w, w < n -> run s w = false) -> forall i, i <= n -> exists l s', Forall own l /\ exec s l = Some s' /\ client s' = client s /\
    (forall w, w < i -> pc s' w = WEnd) /\ (forall w, w < n -> run s' w = false).
  Proof.
    intros Hr. induction i as [|i IH]; intros Hi.
    - exists [], s. split; [constructor|]. split; [reflexivity|]. split; [reflexivity|]. split; [intros; lia|assumption].
    - destruct IH as (l & s1 & O1 & E1 & C1 & P1 & R1); [lia|]. destruct (drive_end i ltac:(lia) _ s1 (le_n _) (R1 i ltac:(lia))) as (k & s2 & E2 & (C2 & S2 & S3) & P2).
      exists (l ++ repeat (Work i) k), s2. split; [apply Forall_app; split; [assumption|apply own_repeat]|].
      split; [rewrite exec_app, E1; exact E2|]. split; [congruence|]. split.
      + intros w Hw. destruct (Nat.eq_dec w i) as [->|Ne]; [assumption|rewrite S2 by assumption; apply P1; lia].
      + intros w Hw. destruct (Nat.eq_dec w i) as [->|Ne]; [|rewrite S3 by assumption; auto].
        apply (exec_run_false _ s1 s2 i (R1 i Hw) E2).
  Qed.

  Lemma fill_end m : forall i s, n - i <= m -> client s = DFill i -> (forall j, j < i -> j < n -> run s j = false) ->
    exists k s', exec s (repeat Client k) = Some s' /\ client s' = DWait 0 /\ forall j, j < n -> run s' j = false.
  Proof.
    induction m as [|m IH]; intros i s Hm Hc Hr; destruct (Nat.ltb_spec i n) as [Hi|Hi]; try lia.
    1,3: exists 1, (set_client s (DWait 0)); cbn [repeat ThreadPoolModel.exec ThreadPoolModel.step]; unfold client_step; rewrite Hc;
      (destruct (Nat.ltb_spec i n); [lia|]); split; [reflexivity|]; split; [reflexivity|]; intros j Hj; apply Hr; lia.
    destruct (IH (S i) (set_client (set_run s i false) (DFill (S i)))) as (k & s' & E & H); [lia|reflexivity| |].
    - intros j Hj Hn. cbn. destruct (Nat.eq_dec j i) as [->|Ne]; [apply upd_eq|rewrite upd_neq by assumption; apply Hr; lia].
    - exists (S k), s'. cbn [repeat ThreadPoolModel.exec ThreadPoolModel.step]. unfold client_step. rewrite Hc. apply Nat.ltb_lt in Hi. rewrite Hi. auto.
  Qed.
  Lemma join_end m : forall i s, n - i <= m -> client s = DJoin i -> (forall j, j < n -> pc s j = WEnd) ->
    exists k s', exec s (repeat Client k) = Some s' /\ client s' = CDestroyed.
  Proof.
    induction m as [|m IH]; intros i s Hm Hc Hr; destruct (Nat.ltb_spec i n) as [Hi|Hi]; try lia.
    1,3: exists 1, (set_client s CDestroyed); cbn [repeat ThreadPoolModel.exec ThreadPoolModel.step]; unfold client_step; rewrite Hc;
      (destruct (Nat.ltb_spec i n); [lia|]); split; reflexivity.
    destruct (IH (S i) (set_client s (DJoin (S i)))) as (k & s' & E & H); [lia|reflexivity|exact Hr|].
    exists (S k), s'. cbn [repeat ThreadPoolModel.exec ThreadPoolModel.step]. unfold client_step. rewrite Hc, (Hr i Hi). apply Nat.ltb_lt in Hi. rewrite Hi. auto.
  Qed.
  Lemma wait_end m : forall i s, n - i <= m -> client s = DWait i -> (forall j, j < n -> pc s j = WEnd) -> (forall j, j < n -> done s j = true) ->
    exists k s', exec s (repeat Client k) = Some s' /\ client s' = CDestroyed.
  Proof.
    induction m as [|m IH]; intros i s Hm Hc Hr Hd; destruct (Nat.ltb_spec i n) as [Hi|Hi]; try lia.
    1,3: destruct (join_end n 0 (set_client s (DJoin 0))) as (k & s' & E & H); [lia|reflexivity|exact Hr|]; exists (S k), s';
      cbn [repeat ThreadPoolModel.exec ThreadPoolModel.step]; unfold client_step; rewrite Hc; (destruct (Nat.ltb_spec i n); [lia|]); auto.
    destruct (IH (S i) (set_client s (DWait (S i)))) as (k & s' & E & H); [lia|reflexivity|exact Hr|exact Hd|].
    exists (S k), s'. cbn [repeat ThreadPoolModel.exec ThreadPoolModel.step]. unfold client_step. rewrite Hc, (Hd i Hi). apply Nat.ltb_lt in Hi. rewrite Hi. auto.
  Qed.

  Lemma own_client k : Forall own (repeat Client k).
  Proof. induction k; constructor; [exact I|assumption]. Qed.

  (** From the point where all run flags are cleared. *)
  Lemma rest_end l s : exec new_pool l = Some s -> (forall w, w < n -> run s w = false) ->
    match client s with DWait _ | DJoin _ | CDestroyed => True | _ => False end ->
    exists l' s', Forall own l' /\ exec s l' = Some s' /\ client s' = CDestroyed.
  Proof.
    intros E Hr Hc. destruct (drive_all_end s Hr n (le_n n)) as (l1 & s1 & O1 & E1 & C1 & P1 & R1).
    assert (E01 : exec new_pool (l ++ l1) = Some s1) by (rewrite exec_app, E; exact E1).
    assert (I1 : inv s1) by (eapply exec_inv; [apply inv_new|exact E01]).
    assert (Hd : forall j, j < n -> done s1 j = true) by (intros j Hj; rewrite (i_don _ _ I1 j Hj), (P1 j Hj); reflexivity).
    assert (exists k s', exec s1 (repeat Client k) = Some s' /\ client s' = CDestroyed) as (k & s' & E' & H).
    { destruct (client s) as [|e| |i| | |t|i|i|i|] eqn:Ec; try contradiction.
      - apply (wait_end (n - i) i); auto.
      - apply (join_end (n - i) i); auto.
      - exists 0, s1. auto. }
    exists (l1 ++ repeat Client k), s'. split; [apply Forall_app; split; [assumption|apply own_client]|]. split; [rewrite exec_app, E1; exact E'|exact H].
  Qed.
  Lemma destructor_can_end l s : exec new_pool l = Some s -> destroying (client s) = true ->
    exists l' s', Forall own l' /\ exec s l' = Some s' /\ client s' = CDestroyed.
  Proof.
    intros E Hc.
    destruct (exec_ind_inv n fails (destroys n) (fun s a s' _ => destroys_step n fails s a s') l new_pool s (inv_new n) Logic.I E) as (D & I0).
    unfold destroys in D. destruct (client s) as [|e| |i| | |t|i|i|i|] eqn:Ec; try discriminate.
    - destruct (fill_end (n - i) i s (le_n _) Ec D) as (k & s1 & E1 & C1 & R1).
      assert (E01 : exec new_pool (l ++ repeat Client k) = Some s1) by (rewrite exec_app, E; exact E1).
      destruct (rest_end _ s1 E01 R1) as (l' & s' & O' & E' & H'); [rewrite C1; exact Logic.I|].
      exists (repeat Client k ++ l'), s'. split; [apply Forall_app; split; [apply own_client|assumption]|]. split; [rewrite exec_app, E1; exact E'|exact H'].
    - apply (rest_end l s E D). rewrite Ec. exact Logic.I.
    - apply (rest_end l s E (proj1 D)). rewrite Ec. exact Logic.I.
    - exists [], s. split; [constructor|]. split; [reflexivity|assumption].
  Qed.

  (** ** Counters *)
  Lemma count_filter_le (f g : nat -> bool) l : (forall x, In x l -> f x = true -> g x = true) -> length (filter f l) <= length (filter g l).
  Proof.
    induction l as [|x l IH]; intros H; [apply le_n|]. cbn [filter]. assert (IH' := IH (fun y Hy => H y (or_intror Hy))).
    specialize (H x (or_introl eq_refl)). destruct (f x); [rewrite H by reflexivity; cbn; lia|]. destruct (g x); cbn; lia.
  Qed.
  Lemma filter_negb (f : nat -> bool) l : length (filter f l) + length (filter (fun x => negb (f x)) l) = length l.
  Proof. induction l as [|x l IH]; [reflexivity|]. cbn [filter]. destruct (f x); cbn [negb length]; lia. Qed.
End Progress.
