(** Number of open files, waiting and undefined behaviour of the file pool used
    by several threads. *)
From Coq Require Import List Arith Bool Lia.
From Verif Require Import FPThreadsModel FPThreadsProofs FPThreadsProofs2 FPThreadsSpec FPThreadsProofs3.
Import ListNotations.

Lemma after_in nd l : forall r, after nd l = Some r -> forall q, In q r -> In q l.
Proof. induction l as [|p l IH]; intros r Ea q Hq; [discriminate|]. cbn [after] in Ea. destruct (fst p =? nd); [injection Ea as <-; right; exact Hq|right; eapply IH; eassumption]. Qed.

Section Bounds.
  Variables limit n : nat.
  Notation run := (run limit).
  Notation step := (step limit n).
  Notation exec := (exec limit n).
  Notation inv := (inv n).
  Notation sum g s := (cnt (over n g (pcs s))).
  Ltac st := cbn [files nodes next_node next_fid next_key opened avail rdonly owner writable hlock shared excl pcs accs
                  set_files set_nodes set_opened set_avail set_rdonly set_owner set_writable set_hlock set_shared set_excl set_accs goto unlock_file].

  (** Threads between the check of the limit and the registration of the file. *)
  Definition passing (p : tpc) : list nat := match p with GOpen _ _ | GInsert _ _ _ => [0] | _ => [] end.
  Definition within (s : state) : Prop := length (files s) + sum passing s 0 <= limit + (n - 1).
  Lemma over_max g (f : nat -> tpc) x : (forall p, cnt (g p) x <= 1) -> cnt (over n g f) x <= n.
  Proof.
    intros H. unfold over. assert (K : forall l, cnt (flat_map (fun t => g (f t)) l) x <= length l).
    { induction l as [|t l IH]; [cbn; lia|]. cbn [flat_map length]. rewrite cnt_app. specialize (H (f t)). lia. }
    specialize (K (seq 0 n)). rewrite seq_length in K. exact K.
  Qed.
  (** How a transition changes the number of files and the position. *)
  Lemma run_files t ok s s' : run t ok s = Next s' -> exists p, pcs s' = upd (pcs s) t p /\
    ((exists h w i, pcs s t = GInsert h w i /\ p = GList h w i /\ length (files s') = S (length (files s)))
     \/ (exists h w, pcs s t = GIntent h w /\ p = GOpen h w /\ files s' = files s /\ length (files s) < limit)
     \/ ((forall h w i, pcs s t <> GInsert h w i) /\ length (files s') <= length (files s) /\ length (passing p) <= length (passing (pcs s t)))).
  Proof.
    unfold FPThreadsModel.run. destruct (pcs s t) as [|h w|h w|h w|h w i|h w|h w|h w nd i o|h w nd i o|h w i o|h w nd|h w|h w i|h w i|h w i|h w i|h w|k|h w|l|l i o|l i o|l i o] eqn:Ep; intros E; try discriminate.
    all: unfold shut, erase, visit in E.
    all: repeat match type of E with
      | (if ?b then _ else _) = _ => destruct b eqn:?
      | match ?x with _ => _ end = _ => destruct x eqn:?
      | _ => idtac end; try discriminate; injection E as <-.
    all: try (eexists; split; [destruct w; st; reflexivity|]; right; right; split; [discriminate|]; split; [destruct w; st; try lia; apply length_remove|cbn; lia]).
    all: try (eexists; split; [st; reflexivity|]; right; right; split; [discriminate|]; split; [st; try lia; apply length_remove|cbn; lia]).
    - eexists; split; [st; reflexivity|]. right. left. exists h, w. repeat split. apply Nat.ltb_lt. assumption.
    - eexists; split; [st; reflexivity|]. left. exists h, w, i. repeat split.
  Qed.
  Lemma step_within s a s' : inv s -> within s -> step s a = Next s' -> within s'.
  Proof.
    intros I W. unfold within in *. destruct a as [t r|t ok]; cbn [FPThreadsModel.step]; destruct (Nat.ltb_spec t n) as [L|]; try discriminate; intros E.
    - apply call_pc in E. destruct E as (Ep & p & -> & Q). st. pose proof (over_upd n (pcs s) passing t p 0 L) as U. rewrite Ep in U. assert (Pp : passing p = []) by (destruct r; subst p; reflexivity). rewrite Pp in U. cbn [passing] in U. lia.
    - apply run_files in E. destruct E as (p & E & H). rewrite E. pose proof (over_upd n (pcs s) passing t p 0 L) as U. destruct H as [(h & w & i & A & B & C)|[(h & w & A & B & C & D)|(A & B & C)]].
      + rewrite A, B in U. cbn [passing] in U. rewrite cnt_cons, cnt_nil in U. cbn [Nat.eqb] in U. subst p. lia.
      + pose proof (over_max passing (upd (pcs s) t p) 0 ltac:(intros []; cbn [passing]; rewrite ?cnt_cons, ?cnt_nil; cbn; lia)). rewrite C. lia.
      + assert (X : forall q, cnt (passing q) 0 = length (passing q)) by (intros []; reflexivity). rewrite !X in U. lia.
  Qed.
  Lemma reached_within s : reached limit n s -> inv s /\ within s.
  Proof.
    apply exec_ind; [|exact step_within]. unfold within. cbn [files start length]. assert (Z : cnt (over n passing (fun _ => Idle)) 0 = 0); [|change (pcs start) with (fun _ : nat => Idle); lia].
    unfold over. induction (seq 0 n); auto.
  Qed.
  Lemma nodup_opened s : inv s -> NoDup (opened s).
  Proof. intros I. apply (NoDup_count_occ Nat.eq_dec). intros x. change (count_occ Nat.eq_dec (opened s) x) with (cnt (opened s) x). pose proof (v_one _ _ I x). lia. Qed.
  Lemma over_length g g2 (f : nat -> tpc) : (forall p, length (g p) <= cnt (g2 p) 0) -> length (over n g f) <= cnt (over n g2 f) 0.
  Proof. intros H. unfold over. induction (seq 0 n) as [|t l IH]; [cbn; lia|]. cbn [flat_map]. rewrite app_length, cnt_app. specialize (H (f t)). lia. Qed.
  Lemma opened_bound s : reached limit n s -> length (opened s) <= limit + (n - 1).
  Proof.
    intros R. apply reached_within in R. destruct R as (I & W). unfold within in W.
    assert (Q : length (opened s) <= length (files s ++ over n uninserted (pcs s))).
    { apply NoDup_incl_length; [apply nodup_opened; exact I|]. intros x Hx. apply cnt_in in Hx. apply cnt_in. rewrite cnt_app. pose proof (v_file _ _ I x). lia. }
    rewrite app_length in Q. pose proof (over_length uninserted passing (pcs s) ltac:(intros []; cbn; lia)). lia.
  Qed.

  (** Undefined behaviour: where it may come from. *)
  Lemma undefined_where s t ok : inv s -> t < n -> run t ok s = Undefined ->
    (exists h w nd, pcs s t = GNext h w nd /\ after nd (nodes s) = None) \/ (exists i l, pcs s t = CList (i :: l) /\ ~ In i (files s)).
  Proof.
    intros I Ht.
    assert (SH : forall h i k, In i (avail s h) -> shut s h i k <> Undefined).
    { intros h i k A. unfold shut. destruct (shut_facts n s h i I A) as (_ & _ & _ & _ & _ & _ & _ & _ & B & _). destruct (listed i (nodes s)) eqn:El; [discriminate|]. exfalso. assert (listed i (nodes s) = true) by (apply mem_cnt; lia). congruence. }
    assert (ER : forall i k, In i (dying (pcs s t)) -> erase s i k <> Undefined).
    { intros i k A. unfold erase. pose proof (over_one n dying (pcs s) i t Ht) as O. apply cnt_in in A. pose proof (v_file _ _ I i) as B. pose proof (v_one _ _ I i) as C. assert (U : sum uninserted s i <= sum flight s i + cnt (over n (fun _ => []) (pcs s)) i) by (apply over_le; intros u _; destruct (pcs s u); cbn [uninserted flight]; rewrite ?cnt_cons, ?cnt_nil; lia).
      assert (Z : cnt (over n (fun _ => []) (pcs s)) i = 0) by (unfold over; induction (seq 0 n); auto).
      pose proof (v_place _ _ I i). destruct (mem i (files s)) eqn:El; [discriminate|]. exfalso. assert (mem i (files s) = true) by (apply mem_cnt; lia). congruence. }
    assert (NF : forall i, In i (map snd (nodes s)) -> mem i (files s) = true).
    { intros i A. apply cnt_in in A. pose proof (v_node _ _ I i) as B. pose proof (v_one _ _ I i) as C. pose proof (v_file _ _ I i) as D.
      assert (U : sum uninserted s i <= sum unlisted s i + cnt (over n (fun _ => []) (pcs s)) i) by (apply over_le; intros u _; destruct (pcs s u); cbn [uninserted unlisted]; rewrite ?cnt_cons, ?cnt_nil; lia).
      assert (Z : cnt (over n (fun _ => []) (pcs s)) i = 0) by (unfold over; induction (seq 0 n); auto). apply mem_cnt. lia. }
    assert (VI : forall h w l, (forall p, In p l -> In p (nodes s)) -> visit s t h w l <> Undefined).
    { intros h w l A. unfold visit. destruct l as [|(nd, i) r]; [discriminate|]. rewrite NF; [discriminate|]. apply in_map_iff. exists (nd, i). split; [reflexivity|]. apply A. left. reflexivity. }
    unfold FPThreadsModel.run. destruct (pcs s t) as [|h w|h w|h w|h w i|h w|h w|h w nd i o|h w nd i o|h w i o|h w nd|h w|h w i|h w i|h w i|h w i|h w|k|h w|l|l i o|l i o|l i o] eqn:Ep; intros E; try discriminate.
    - destruct w; repeat match type of E with (if ?b then _ else _) = _ => destruct b end; discriminate.
    - destruct (hlock s h); discriminate.
    - destruct (Bool.eqb (rdonly s h) w); [|discriminate]. destruct (avail s h) as [|i r] eqn:Ea; [discriminate|]. exfalso. eapply SH; [|exact E]. rewrite Ea. left. reflexivity.
    - exfalso. eapply ER; [|exact E]. left. reflexivity.
    - destruct (avail s h); discriminate.
    - destruct (length (files s) <? limit); [discriminate|]. exfalso. eapply VI; [|exact E]. auto.
    - destruct (hlock s o); discriminate.
    - destruct (mem i (avail s o)) eqn:Em; [|discriminate]. exfalso. eapply SH; [|exact E]. apply mem_in. exact Em.
    - exfalso. eapply ER; [|exact E]. left. reflexivity.
    - destruct (after nd (nodes s)) as [r|] eqn:Ea; [|left; exists h, w, nd; auto]. exfalso. eapply VI; [|exact E]. exact (after_in _ _ _ Ea).
    - destruct ok; discriminate.
    - destruct (flight_facts n s t i I Ht ltac:(rewrite Ep; left; reflexivity)) as (F0 & F1 & F2 & F3 & F4).
      assert (A : listed i (nodes s) = true).
      { apply mem_cnt. pose proof (v_node _ _ I i) as B. enough (sum unlisted s i = 0) by lia. pose proof (over_upd n (pcs s) unlisted t Idle i Ht) as U1. pose proof (over_upd n (pcs s) flight t Idle i Ht) as U2. rewrite Ep in U1, U2. cbn [unlisted flight] in U1, U2. rewrite cnt_cons, Nat.eqb_refl, cnt_nil in *.
        assert (U : cnt (over n unlisted (upd (pcs s) t Idle)) i <= cnt (over n flight (upd (pcs s) t Idle)) i + cnt (over n (fun _ => []) (upd (pcs s) t Idle)) i) by (apply over_le; intros u _; destruct (upd (pcs s) t Idle u); cbn [unlisted flight]; rewrite ?cnt_cons, ?cnt_nil; lia).
        assert (Z : cnt (over n (fun _ => []) (upd (pcs s) t Idle)) i = 0) by (unfold over; induction (seq 0 n); auto). lia. }
      rewrite NF, A in E; [discriminate|]. apply mem_in. exact A.
    - destruct (find (fun a => a_key a =? k) (accs s)) as [a|] eqn:Ef; [destruct (hlock s (a_handler a)); discriminate|]. exfalso. pose proof (v_rel _ _ I k) as R. pose proof (over_one n rel (pcs s) k t Ht) as O. rewrite Ep in O. cbn [rel] in O. rewrite cnt_cons, Nat.eqb_refl in O.
      assert (A : In k (keys (accs s))) by (apply cnt_in; lia). apply in_flat_map in A. destruct A as (a & A1 & A2). destruct A2 as [A2|[]]. pose proof (find_none _ _ Ef a A1) as A3. cbn in A3. rewrite A2, Nat.eqb_refl in A3. discriminate.
    - destruct l as [|i l]; [discriminate|]. destruct (mem i (files s)) eqn:Em; [discriminate|]. right. exists i, l. split; [reflexivity|]. intros A. apply mem_in in A. congruence.
    - destruct (hlock s o); discriminate.
    - destruct (mem i (avail s o)) eqn:Em; [|discriminate]. exfalso. eapply SH; [|exact E]. apply mem_in. exact Em.
    - exfalso. eapply ER; [|exact E]. left. reflexivity.
  Qed.

  (** Who holds the mutex of a handler can move, unless it evicts. *)
  Lemma holder s h u : inv s -> hlock s h = Some u -> exists t, t < n /\ In h (holds (pcs s t)).
  Proof. intros I E. pose proof (v_hold _ _ I h) as H. rewrite E in H. apply over_in. apply cnt_in. lia. Qed.
  Lemma holder_moves s t h : In h (holds (pcs s t)) -> (forall h w nd i o, pcs s t <> GCall h w nd i o) -> run t true s <> Blocked.
  Proof.
    intros H N. unfold FPThreadsModel.run. destruct (pcs s t) as [|h0 w|h0 w|h0 w|h0 w i|h0 w|h0 w|h0 w nd i o|h0 w nd i o|h0 w i o|h0 w nd|h0 w|h0 w i|h0 w i|h0 w i|h0 w i|h0 w|k|h0 w|l|l i o|l i o|l i o] eqn:Ep; cbn [holds] in H; try contradiction; unfold shut, erase, visit;
      try (exfalso; eapply N; reflexivity);
      repeat match goal with |- (if ?b then _ else _) <> _ => destruct b | |- match ?x with _ => _ end <> _ => destruct x end; discriminate.
  Qed.
  (** Who has the lock of a file and is inside a call can move, or waits for the
      mutex of the handler. *)
  Lemma locker_moves s t h w : locked (pcs s t) = Some (h, w) -> pcs s t <> GHand h w -> (forall h w nd i o, pcs s t <> GCall h w nd i o) -> run t true s <> Blocked.
  Proof.
    intros H M N. unfold FPThreadsModel.run. destruct (pcs s t) as [|h0 w0|h0 w0|h0 w0|h0 w0 i|h0 w0|h0 w0|h0 w0 nd i o|h0 w0 nd i o|h0 w0 i o|h0 w0 nd|h0 w0|h0 w0 i|h0 w0 i|h0 w0 i|h0 w0 i|h0 w0|k|h0 w0|l|l i o|l i o|l i o] eqn:Ep; cbn [locked] in H; try discriminate; injection H as -> ->; unfold shut, erase, visit;
      try (exfalso; eapply N; reflexivity); try congruence;
      repeat match goal with |- (if ?b then _ else _) <> _ => destruct b | |- match ?x with _ => _ end <> _ => destruct x end; discriminate.
  Qed.
  Lemma stuck_why s : inv s -> stuck limit n s -> (forall t h w nd i o, t < n -> pcs s t <> GCall h w nd i o) ->
    forall t, t < n -> pcs s t = Idle \/ waits_for_accessor t s.
  Proof.
    intros I (_ & B) NC t Ht.
    assert (HL : forall h, hlock s h = None).
    { intros h. destruct (hlock s h) as [u|] eqn:E; [|reflexivity]. exfalso. destruct (holder s h u I E) as (v & V1 & V2). apply (holder_moves s v h V2); [intros; apply NC; exact V1|].
      destruct (B v V1) as [Q|(_ & Q)]; [rewrite Q in V2; destruct V2|apply Q]. }
    assert (LK : forall u h w, u < n -> locked (pcs s u) = Some (h, w) -> False).
    { intros u h w Hu E. destruct (B u Hu) as [Q|(_ & Q)]; [rewrite Q in E; discriminate|]. destruct (pcs s u) as [|h0 w0|h0 w0|h0 w0|h0 w0 i|h0 w0|h0 w0|h0 w0 nd i o|h0 w0 nd i o|h0 w0 i o|h0 w0 nd|h0 w0|h0 w0 i|h0 w0 i|h0 w0 i|h0 w0 i|h0 w0|k|h0 w0|l|l i o|l i o|l i o] eqn:Ep; try discriminate.
      1: { specialize (Q true). unfold FPThreadsModel.run in Q. rewrite Ep, HL in Q. discriminate. }
      all: eapply (locker_moves s u); [rewrite Ep; exact E|rewrite Ep; discriminate|intros; apply NC; exact Hu|apply Q]. }
    destruct (B t Ht) as [Q|(Q1 & Q2)]; [left; exact Q|right]. specialize (Q2 true).
    destruct (pcs s t) as [|h w|h w|h w|h w i|h w|h w|h w nd i o|h w nd i o|h w i o|h w nd|h w|h w i|h w i|h w i|h w i|h w|k|h w|l|l i o|l i o|l i o] eqn:Ep; try (exfalso; eapply (LK t); [exact Ht|rewrite Ep; reflexivity]).
    - congruence.
    - (* GFile *) assert (Z : forall g, (forall p x, In x (g p) -> exists w, locked p = Some (x, w)) -> sum g s h = 0).
      { intros g G. destruct (sum g s h) eqn:E; [reflexivity|]. exfalso. assert (A : In h (over n g (pcs s))) by (apply cnt_in; lia). apply over_in in A. destruct A as (u & U1 & U2). apply G in U2. destruct U2 as (w2 & U2). exact (LK u h w2 U1 U2). }
      assert (Zr : sum rd s h = 0) by (apply Z; intros p x; unfold rd; destruct (locked p) as [(h1, [])|]; cbn; intros []; subst; eauto; contradiction).
      assert (Zw : sum wr s h = 0) by (apply Z; intros p x; unfold wr; destruct (locked p) as [(h1, [])|]; cbn; intros []; subst; eauto; contradiction).
      pose proof (v_rd _ _ I h) as R. pose proof (v_wr _ _ I h) as W. rewrite Zr in R. rewrite Zw in W.
      unfold FPThreadsModel.run in Q2. rewrite Ep in Q2.
      assert (KW : excl s h = true -> exists a, In a (accs s) /\ a_handler a = h /\ a_write a = true).
      { intros X. rewrite X in W. assert (A : In h (wrs (accs s))) by (apply cnt_in; lia). apply in_flat_map in A. destruct A as (a & A1 & A2). exists a. destruct (a_write a); [|destruct A2]. destruct A2 as [A2|[]]. auto. }
      destruct w.
      + destruct (excl s h) eqn:X; [destruct (KW eq_refl) as (a & A1 & A2 & A3); exists h, true, a; auto|]. rewrite andb_true_r in Q2. destruct (Nat.eqb_spec (shared s h) 0) as [Y|Y]; [discriminate|].
        assert (A : In h (rds (accs s))) by (apply cnt_in; lia). apply in_flat_map in A. destruct A as (a & A1 & A2). exists h, true, a. destruct (a_write a); [destruct A2|]. destruct A2 as [A2|[]]. auto.
      + destruct (excl s h) eqn:X; [destruct (KW eq_refl) as (a & A1 & A2 & A3); exists h, false, a; auto|]. discriminate.
    - exfalso. unfold FPThreadsModel.run in Q2. rewrite Ep in Q2. destruct (find (fun a => a_key a =? k) (accs s)) as [a|]; [|discriminate]. rewrite HL in Q2. discriminate.
    - exfalso. unfold FPThreadsModel.run in Q2. rewrite Ep in Q2. destruct l as [|i l]; [discriminate|]. destruct (mem i (files s)); discriminate.
    - exfalso. unfold FPThreadsModel.run in Q2. rewrite Ep in Q2. rewrite HL in Q2. discriminate.
    - exfalso. apply (holder_moves s t o); [rewrite Ep; left; reflexivity|intros; rewrite Ep; discriminate|exact Q2].
    - exfalso. apply (holder_moves s t o); [rewrite Ep; left; reflexivity|intros; rewrite Ep; discriminate|exact Q2].
  Qed.

  (** With few calls no file is ever evicted. *)
  Definition asking (p : tpc) : list nat := match p with GFile _ _ | GHand _ _ | GMode _ _ | GShut _ _ _ | GPick _ _ | GIntent _ _ | GOpen _ _ | GInsert _ _ _ => [0] | _ => [] end.
  Definition evicting (p : tpc) : bool := match p with GCall _ _ _ _ _ | GEvict _ _ _ _ _ | GErase _ _ _ _ | GNext _ _ _ => true | _ => false end.
  Definition few (g : nat) (s : state) : Prop := length (files s) + sum asking s 0 <= g /\ forall t, t < n -> evicting (pcs s t) = false.
  Lemma run_few t ok s s' g : few g s -> g <= limit -> t < n -> run t ok s = Next s' -> few g s'.
  Proof.
    intros (F1 & F2) G Ht. specialize (F2 t Ht) as F3. unfold FPThreadsModel.run.
    assert (K : forall s2 p, pcs s2 = upd (pcs s) t p -> length (files s2) + length (asking p) <= length (files s) + length (asking (pcs s t)) -> evicting p = false -> few g s2).
    { intros s2 p P1 P2 P3. split; rewrite P1.
      - pose proof (over_upd n (pcs s) asking t p 0 Ht) as U. assert (X : forall q, cnt (asking q) 0 = length (asking q)) by (intros []; reflexivity). rewrite !X in U. lia.
      - intros u Hu. rewrite upd_if. destruct (u =? t); [exact P3|apply F2; exact Hu]. }
    destruct (pcs s t) as [|h w|h w|h w|h w i|h w|h w|h w nd i o|h w nd i o|h w i o|h w nd|h w|h w i|h w i|h w i|h w i|h w|k|h w|l|l i o|l i o|l i o] eqn:Ep; intros E; try discriminate.
    6: { pose proof (over_one n asking (pcs s) 0 t Ht) as O. rewrite Ep in O. cbn [asking] in O. rewrite cnt_cons, cnt_nil in O. cbn [Nat.eqb] in O. assert (L : (length (files s) <? limit) = true) by (apply Nat.ltb_lt; lia). rewrite L in E. injection E as <-. eapply K; [st; reflexivity|st; cbn; lia|reflexivity]. }
    all: unfold shut, erase, visit in E.
    all: repeat match type of E with
      | (if ?b then _ else _) = _ => destruct b eqn:?
      | match ?x with _ => _ end = _ => destruct x eqn:?
      | _ => idtac end; try discriminate; injection E as <-.
    all: try (eapply K; [destruct w; st; reflexivity|destruct w; st; cbn [asking length]; try lia; pose proof (length_remove i (files s)); lia|reflexivity]).
    all: try (eapply K; [st; reflexivity|st; cbn [asking length]; try lia; pose proof (length_remove i (files s)); lia|reflexivity]).
  Qed.
  Lemma exec_few l : forall s g s', inv s -> few g s -> g + gets l <= limit -> exec s l = Some s' -> few (g + gets l) s'.
  Proof.
    induction l as [|a l IH]; intros s g s' I F G E; cbn [FPThreadsModel.exec] in E; [injection E as <-; unfold gets; cbn; rewrite Nat.add_0_r; exact F|].
    destruct (step s a) as [s1| |] eqn:Es; try discriminate. pose proof (step_inv _ _ _ _ _ I Es) as I1.
    assert (Q : gets (a :: l) = (match a with Call _ (Get _ _) => 1 | _ => 0 end) + gets l) by (unfold gets; cbn [filter]; destruct a as [? []|]; reflexivity).
    rewrite Q in *. set (c := match a with Call _ (Get _ _) => 1 | _ => 0 end) in *. rewrite Nat.add_assoc. apply (IH s1); [exact I1| |lia|exact E]. unfold c in *. clear c Q E.
    destruct a as [t r|t ok]; cbn [FPThreadsModel.step] in Es; destruct (Nat.ltb_spec t n) as [L|]; try discriminate.
    - apply call_pc in Es. destruct Es as (Ep & p & -> & Q). destruct F as (F1 & F2). split; st.
      + pose proof (over_upd n (pcs s) asking t p 0 L) as U. rewrite Ep in U. change (asking Idle) with (@nil nat) in U. rewrite cnt_nil in U.
        destruct r; subst p; cbn [asking] in U; rewrite ?cnt_cons, ?cnt_nil in U; cbn [Nat.eqb] in U; lia.
      + intros u Hu. rewrite upd_if. destruct (u =? t); [destruct r; subst p; reflexivity|apply F2; exact Hu].
    - rewrite Nat.add_0_r. eapply run_few; try eassumption. lia.
  Qed.
  Lemma few_start : few 0 start.
  Proof. split; [|reflexivity]. cbn [files start length]. assert (Z : cnt (over n asking (fun _ => Idle)) 0 = 0); [|change (pcs start) with (fun _ : nat => Idle); lia]. unfold over. induction (seq 0 n); auto. Qed.
  Lemma no_eviction l s t : exec start l = Some s -> gets l <= limit -> t < n -> evicting (pcs s t) = false.
  Proof. intros E G Ht. apply (exec_few l start 0 s (inv_start n) few_start G E). exact Ht. Qed.

  (** Without closeAll no thread is inside it. *)
  Definition closing (p : tpc) : bool := match p with CList _ | CCall _ _ _ | CEvict _ _ _ | CErase _ _ _ => true | _ => false end.
  Lemma run_closing t ok s s' : run t ok s = Next s' -> closing (pcs s t) = false -> exists p, pcs s' = upd (pcs s) t p /\ closing p = false.
  Proof.
    unfold FPThreadsModel.run. destruct (pcs s t) as [|h w|h w|h w|h w i|h w|h w|h w nd i o|h w nd i o|h w i o|h w nd|h w|h w i|h w i|h w i|h w i|h w|k|h w|l|l i o|l i o|l i o] eqn:Ep; intros E Q; try discriminate.
    all: unfold shut, erase, visit in E.
    all: repeat match type of E with
      | (if ?b then _ else _) = _ => destruct b eqn:?
      | match ?x with _ => _ end = _ => destruct x eqn:?
      | _ => idtac end; try discriminate; injection E as <-.
    all: try (eexists; split; [destruct w; st; reflexivity|reflexivity]).
    all: eexists; split; [st; reflexivity|reflexivity].
  Qed.
  Lemma exec_closing l : forall s s', (forall t, closing (pcs s t) = false) -> no_close_all l -> exec s l = Some s' -> forall t, closing (pcs s' t) = false.
  Proof.
    induction l as [|a l IH]; intros s s' C N E; cbn [FPThreadsModel.exec] in E; [injection E as <-; exact C|]. destruct (step s a) as [s1| |] eqn:Es; try discriminate.
    apply (IH s1); [|intros t Q; apply (N t); right; exact Q|exact E]. intros u. destruct a as [t r|t ok]; cbn [FPThreadsModel.step] in Es; destruct (Nat.ltb_spec t n) as [L|]; try discriminate.
    - apply call_pc in Es. destruct Es as (Ep & p & -> & Q). st. rewrite upd_if. destruct (u =? t); [|apply C]. destruct r; subst p; try reflexivity. exfalso. apply (N t). left. reflexivity.
    - apply run_closing in Es; [|apply C]. destruct Es as (p & P1 & P2). rewrite P1, upd_if. destruct (u =? t); [exact P2|apply C].
  Qed.
End Bounds.
