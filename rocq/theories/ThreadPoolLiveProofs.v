(** Liveness of the thread pool under fair schedules. *)
From Coq Require Import List Arith Bool Lia.
From Verif Require Import ThreadPoolModel ThreadPoolSpec ThreadPoolLiveSpec ThreadPoolProofs ThreadPoolProofs2 ThreadPoolProofs3.
Import ListNotations.

Section Live.
  Variable n : nat.
  Variable fails : task -> bool.
  Notation step := (step n fails).
  Notation inv := (inv n).
  Variable s0 : pool.
  Variable sched : schedule.
  Notation st := (state_at n fails s0 sched).

  Lemma st_step k : st (S k) = st k \/ step (st k) (sched k) = Some (st (S k)).
  Proof. cbn [state_at]. destruct (step (st k) (sched k)); auto. Qed.
  (** Properties that every transition keeps. *)
  Lemma keep (P : pool -> Prop) : (forall s a s', P s -> step s a = Some s' -> P s') -> forall k j, k <= j -> P (st k) -> P (st j).
  Proof.
    intros H k j L. induction L as [|j L IH]; [auto|]. intros X. specialize (IH X). destruct (st_step j) as [-> |E]; [exact IH|exact (H _ _ _ IH E)].
  Qed.
  (** A measure that no transition increases and that one action, taken again and again,
      decreases, reaches the target. *)
  Lemma leads (a : action) (G : pool -> Prop) (T : pool -> Prop) (m : pool -> nat) :
    (forall s, T s \/ ~ T s) ->
    (forall s b s', G s -> ~ T s -> (exists k, sched k = b) -> step s b = Some s' -> T s' \/ (G s' /\ m s' <= m s)) ->
    (forall s, G s -> ~ T s -> exists s', step s a = Some s' /\ (T s' \/ m s' < m s)) ->
    (forall k, exists j, k <= j /\ sched j = a) ->
    forall k, G (st k) -> exists j, k <= j /\ T (st j).
  Proof.
    intros D N H F.
    assert (W : forall d k, G (st k) -> exists j, (k <= j /\ T (st j)) \/ (j = k + d /\ G (st j) /\ ~ T (st j) /\ m (st j) <= m (st k))).
    { induction d as [|d IH]; intros k Hg.
      - exists k. destruct (D (st k)); [left; auto|right; split; [lia|auto]].
      - destruct (IH k Hg) as (j & [X|(E & Gj & Nj & M)]); [exists j; left; exact X|]. destruct (D (st (S j))) as [X|X]; [exists (S j); left; split; [lia|exact X]|].
        exists (S j). right. split; [lia|]. destruct (st_step j) as [Q|Q]; [rewrite Q; auto|]. destruct (N _ _ _ Gj Nj (ex_intro _ j eq_refl) Q) as [Y|(Y1 & Y2)]; [contradiction|]. split; [exact Y1|]. split; [exact X|lia]. }
    assert (R : forall b k, m (st k) <= b -> G (st k) -> exists j, k <= j /\ T (st j)).
    { induction b as [|b IH]; intros k B Hg.
      all: destruct (F k) as (j & L & A); destruct (W (j - k) k Hg) as (j' & [X|(E & Gj & Nj & M)]); [exists j'; exact X|].
      all: replace (k + (j - k)) with j in E by lia; subst j'.
      all: destruct (H _ Gj Nj) as (s' & Es & Ds); rewrite <- A in Es.
      all: assert (E1 : st (S j) = s') by (cbn [state_at]; rewrite Es; reflexivity).
      all: destruct Ds as [Y|Y]; [exists (S j); rewrite E1; split; [lia|exact Y]|]. 1: lia.
      destruct (N _ _ _ Gj Nj (ex_intro _ j eq_refl) Es) as [Z|(Z1 & Z2)]; [exists (S j); rewrite E1; split; [lia|exact Z]|].
      destruct (IH (S j)) as (i & Li & Ti); [rewrite E1; lia|rewrite E1; exact Z1|]. exists i. split; [lia|exact Ti]. }
    intros k Hg. apply (R (m (st k)) k (le_n _) Hg).
  Qed.

  Lemma other_pc s b s' w : step s b = Some s' -> b <> Work w -> pc s' w = pc s w.
  Proof.
    intros E Nb. destruct b as [v| | | |]; cbn [ThreadPoolModel.step] in E.
    - destruct (v <? n); [|discriminate]. apply work_facts in E. apply E. congruence.
    - assert (E' : Some (submit n fails s) = Some s') by (destruct (client s); try discriminate; exact E). injection E' as <-.
      destruct (submit_facts n fails s) as (_ & _ & _ & _ & -> & _). reflexivity.
    - destruct (idle (client s)); [|discriminate]. injection E as <-. reflexivity.
    - destruct (idle (client s)); [|discriminate]. injection E as <-. reflexivity.
    - apply client_same in E. destruct E as (_ & _ & _ & -> & _). reflexivity.
  Qed.
  Lemma work_step s w s' : w < n -> work fails s w = Some s' -> step s (Work w) = Some s'.
  Proof. intros L E. cbn [ThreadPoolModel.step]. apply Nat.ltb_lt in L. rewrite L. exact E. Qed.
  Lemma step_work s w s' : step s (Work w) = Some s' -> work fails s w = Some s'.
  Proof. cbn [ThreadPoolModel.step]. destruct (w <? n); [auto|discriminate]. Qed.
  Lemma wpc_end p : p = WEnd \/ p <> WEnd.
  Proof. destruct p; auto; right; discriminate. Qed.
  Lemma action_dec (a b : action) : a = b \/ a <> b.
  Proof. destruct a as [v| | | |], b as [w| | | |]; try (left; reflexivity); try (right; discriminate). destruct (Nat.eq_dec v w) as [->|Ne]; [auto|right; congruence]. Qed.

  Variable F : fair n sched.

  (** A worker that is told to stop ends. *)
  Lemma worker_ends w : w < n -> forall k, run (st k) w = false -> exists j, k <= j /\ pc (st j) w = WEnd.
  Proof.
    intros Hw k R. apply (leads (Work w) (fun s => run s w = false) (fun s => pc s w = WEnd) (fun s => rank2 (pc s w))).
    - intros s. apply wpc_end.
    - intros s b s' G N _ E. right. split; [apply (step_facts n fails _ _ _ E); exact G|]. destruct (action_dec b (Work w)) as [->|Ne]; [|rewrite (other_pc _ _ _ _ E Ne); lia].
      apply step_work in E. destruct (work_dec2 fails s w N G) as (s1 & E1 & L). rewrite E in E1. injection E1 as <-. lia.
    - intros s G N. destruct (work_dec2 fails s w N G) as (s1 & E1 & L). exists s1. split; [apply work_step; assumption|right; exact L].
    - intros i. apply F, Hw.
    - exact R.
  Qed.
  (** A worker that can see an exception ends. *)
  Definition rank3 (p : wpc) : nat :=
    match p with
    | WEnd => 0 | WExit3 => 1 | WExit2 => 2 | WExit1 => 3 | WCheckExc => 4 | WCheckRun => 5 | WAsleep => 6 | WSetExc _ => 6 | WSleepSet => 7 | WRun _ => 7 | WHave _ => 8
    | WPop => 9
    end.
  Lemma work_dec3 s w : pc s w <> WEnd -> exc s <> None -> exists s', work fails s w = Some s' /\ rank3 (pc s' w) < rank3 (pc s w).
  Proof.
    intros H1 H2. unfold work. destruct (pc s w) as [| | |t|t|t| | | | | |] eqn:Ep; try congruence.
    1: destruct (run s w).
    4: destruct (queue s).
    7: destruct (fails t).
    all: eexists; split; [reflexivity|]; cbn; rewrite upd_eq; cbn; try lia. destruct (exc s); [cbn; lia|congruence].
  Qed.
  Lemma worker_fails w : w < n -> forall k, exc (st k) <> None -> exists j, k <= j /\ pc (st j) w = WEnd.
  Proof.
    intros Hw k R. apply (leads (Work w) (fun s => exc s <> None) (fun s => pc s w = WEnd) (fun s => rank3 (pc s w))).
    - intros s. apply wpc_end.
    - intros s b s' G N _ E. right. split; [apply (step_facts n fails _ _ _ E); exact G|]. destruct (action_dec b (Work w)) as [->|Ne]; [|rewrite (other_pc _ _ _ _ E Ne); lia].
      apply step_work in E. destruct (work_dec3 s w N G) as (s1 & E1 & L). rewrite E in E1. injection E1 as <-. lia.
    - intros s G N. destruct (work_dec3 s w N G) as (s1 & E1 & L). exists s1. split; [apply work_step; assumption|right; exact L].
    - intros i. apply F, Hw.
    - exact R.
  Qed.
  Lemma ended_stays w k j : w < n -> k <= j -> pc (st k) w = WEnd -> pc (st j) w = WEnd.
  Proof. intros Hw L. apply (keep (fun s => pc s w = WEnd)); [|exact L]. intros s a s' P E. apply (end_step n fails s a s' w Hw P E). Qed.
  Lemma all_end k : (forall w, w < n -> exists j, k <= j /\ pc (st j) w = WEnd) -> forall i, i <= n -> exists j, k <= j /\ forall w, w < i -> pc (st j) w = WEnd.
  Proof.
    intros H. induction i as [|i IH]; intros L; [exists k; split; [lia|intros; lia]|]. destruct (IH ltac:(lia)) as (j & Lj & P). destruct (H i ltac:(lia)) as (j' & Lj' & P').
    exists (Nat.max j j'). split; [lia|]. intros w Hw. destruct (Nat.eq_dec w i) as [->|Ne].
    - apply (ended_stays i j'); [lia|lia|exact P'].
    - apply (ended_stays w j); [lia|lia|apply P; lia].
  Qed.

  Variable I0 : inv s0.
  Lemma inv_st k : inv (st k).
  Proof. apply (keep inv (fun s a s' I E => inv_step n fails s a s' I E) 0 k (Nat.le_0_l k)). exact I0. Qed.

  (** ** Destructor *)
  Variable D0 : destroys n s0.
  Lemma destroys_st k : destroys n (st k).
  Proof. apply (keep (destroys n) (fun s a s' I E => destroys_step n fails s a s' I E) 0 k (Nat.le_0_l k)). exact D0. Qed.
  Lemma other_client s b s' : step s b = Some s' -> idle (client s) = false -> b <> Client -> client s' = client s.
  Proof.
    intros E Hi Nb. destruct b as [v| | | |]; cbn [ThreadPoolModel.step] in E; try congruence.
    - destruct (v <? n); [|discriminate]. apply work_facts in E. apply E.
    - assert (E' : Some (submit n fails s) = Some s') by (destruct (client s); try discriminate; exact E). injection E' as <-. apply submit_facts.
    - rewrite Hi in E. discriminate.
    - rewrite Hi in E. discriminate.
  Qed.
  Definition fill_rank (c : cpc) : nat := match c with DFill i => S (n - i) | _ => 0 end.
  Definition filling (s : pool) : Prop := match client s with DFill _ => True | _ => False end.
  Lemma fill_ends k : destroying (client (st k)) = true -> exists j, k <= j /\ destroying (client (st j)) = true /\ ~ filling (st j).
  Proof.
    intros Hd. apply (leads Client (fun s => destroying (client s) = true) (fun s => destroying (client s) = true /\ ~ filling s) (fun s => fill_rank (client s))).
    - intros s. unfold filling. destruct (client s); cbn; try (right; intros [H _]; discriminate); try (left; split; [reflexivity|tauto]). right. tauto.
    - intros s b s' G N _ E. destruct (action_dec b Client) as [->|Ne].
      + cbn [ThreadPoolModel.step] in E. unfold client_step in E. unfold filling in *. destruct (client s) as [|e| |i| | |t|i|i|i|] eqn:Ec; try discriminate G; try (exfalso; apply N; split; [reflexivity|rewrite ?Ec; tauto]).
        destruct (Nat.ltb_spec i n); injection E as <-; cbn.
        * right. split; [reflexivity|lia].
        * left. split; [reflexivity|tauto].
      + right. rewrite (other_client _ _ _ E) by (try assumption; destruct (client s); reflexivity || discriminate G). split; [exact G|lia].
    - intros s G N. unfold filling in N. cbn [ThreadPoolModel.step]. unfold client_step. destruct (client s) as [|e| |i| | |t|i|i|i|] eqn:Ec; try discriminate G; try (exfalso; apply N; split; [reflexivity|rewrite ?Ec; tauto]).
      destruct (Nat.ltb_spec i n); (eexists; split; [reflexivity|]); cbn.
      + right. lia.
      + left. unfold filling. cbn. split; [reflexivity|tauto].
    - apply F.
    - exact Hd.
  Qed.
  Definition wait_rank (c : cpc) : nat := match c with DWait i => n + 3 + (n - i) | DJoin i => S (n - i) | _ => 0 end.
  Lemma destructor_ends k : destroying (client (st k)) = true -> exists j, k <= j /\ client (st j) = CDestroyed.
  Proof.
    intros Hd. destruct (fill_ends k Hd) as (k1 & L1 & H1 & N1).
    assert (R : client (st k1) = CDestroyed \/ forall w, w < n -> run (st k1) w = false).
    { pose proof (destroys_st k1) as D. unfold destroys, filling in *. destruct (client (st k1)); try discriminate H1; try contradiction; auto. right. apply D. }
    destruct R as [R|R]; [exists k1; auto|].
    destruct (all_end k1 (fun w Hw => worker_ends w Hw k1 (R w Hw)) n (le_n n)) as (k2 & L2 & P2).
    assert (H2 : destroying (client (st k2)) = true /\ ~ filling (st k2)).
    { apply (keep (fun s => destroying (client s) = true /\ ~ filling s)) with (2 := L2); [|auto]. clear. intros s a s' (G & N) E.
      unfold filling in *. destruct (action_dec a Client) as [->|Ne].
      - cbn [ThreadPoolModel.step] in E. unfold client_step in E. destruct (client s) as [|e| |i| | |t|i|i|i|] eqn:Ec; try discriminate G; try discriminate E; try (exfalso; apply N; exact I).
        + destruct (i <? n); [destruct (done s i)|]; injection E as <-; cbn; rewrite ?Ec; auto.
        + destruct (i <? n); [destruct (pc s i); try discriminate|]; injection E as <-; cbn; auto.
      - rewrite (other_client _ _ _ E) by (try assumption; destruct (client s); reflexivity || discriminate G). auto. }
    destruct (leads Client (fun s => inv s /\ (forall w, w < n -> pc s w = WEnd) /\ destroying (client s) = true /\ ~ filling s) (fun s => client s = CDestroyed) (fun s => wait_rank (client s))) with (k := k2) as (j & Lj & Tj).
    - intros s. destruct (client s); auto; right; discriminate.
    - intros s b s' (I & P & G & N) Nt _ E. pose proof (inv_step n fails _ _ _ I E) as I'.
      assert (P' : forall w, w < n -> pc s' w = WEnd) by (intros w Hw; apply (end_step n fails s b s' w Hw (P w Hw) E)).
      destruct (action_dec b Client) as [->|Ne].
      + cbn [ThreadPoolModel.step] in E. unfold client_step, filling in *. destruct (client s) as [|e| |i| | |t|i|i|i|] eqn:Ec; try discriminate G; try (exfalso; apply N; exact Logic.I); try congruence.
        * destruct (Nat.ltb_spec i n) as [Hi|Hi]; [rewrite (i_don _ _ I i Hi), (P i Hi) in E; cbn [gone] in E|]; injection E as <-; right; (split; [split; [exact I'|split; [exact P'|cbn; tauto]]|cbn; lia]).
        * destruct (Nat.ltb_spec i n) as [Hi|Hi]; [rewrite (P i Hi) in E|]; injection E as <-; [right|left; reflexivity]. split; [split; [exact I'|split; [exact P'|cbn; tauto]]|cbn; lia].
      + assert (Ec : client s' = client s) by (apply (other_client _ _ _ E); [destruct (client s); reflexivity || discriminate G|assumption]).
        right. unfold filling in *. rewrite Ec. split; [auto|lia].
    - intros s (I & P & G & N) Nt. cbn [ThreadPoolModel.step]. unfold client_step, filling in *. destruct (client s) as [|e| |i| | |t|i|i|i|] eqn:Ec; try discriminate G; try (exfalso; apply N; exact Logic.I); try congruence.
      + destruct (Nat.ltb_spec i n) as [Hi|Hi]; [rewrite (i_don _ _ I i Hi), (P i Hi); cbn [gone]|]; (eexists; split; [reflexivity|]); cbn; right; lia.
      + destruct (Nat.ltb_spec i n) as [Hi|Hi]; [rewrite (P i Hi)|]; (eexists; split; [reflexivity|]); cbn; [right; lia|left; reflexivity].
    - apply F.
    - split; [apply inv_st|]. split; [exact P2|exact H2].
    - exists j. split; [lia|exact Tj].
  Qed.
End Live.
