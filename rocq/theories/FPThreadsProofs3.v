(** Calls keep the invariant; access modes, number of open files. *)
From Coq Require Import List Arith Bool Lia.
From Verif Require Import FPThreadsModel FPThreadsProofs FPThreadsProofs2 FPThreadsSpec.
Import ListNotations.

Section More.
  Variables limit n : nat.
  Notation run := (run limit).
  Notation step := (step limit n).
  Notation exec := (exec limit n).
  Notation inv := (inv n).
  Notation sum g s := (cnt (over n g (pcs s))).

  Lemma call_inv t r s s' : inv s -> t < n -> call n t r s = Next s' -> inv s'.
  Proof.
    intros I Ht. unfold call. destruct (pcs s t) eqn:Ep; try discriminate.
    assert (K : forall p, flight p = [] -> unlisted p = [] -> uninserted p = [] -> dying p = [] -> holds p = [] -> rd p = [] -> wr p = [] -> flight_of p = [] -> moded p = None -> opening p = None -> given p = None ->
      (forall k, cnt (rel p) k + sum rel s k <= cnt (keys (accs s)) k) -> inv (goto s t p)).
    { intros p P1 P2 P3 P4 P5 P6 P7 P8 P9 P10 P11 P12.
      assert (Z : forall g x, g Idle = [] -> g p = [] -> cnt (over n g (upd (pcs s) t p)) x = sum g s x).
      { intros g x G1 G2. pose proof (over_upd n (pcs s) g t p x Ht) as U. rewrite Ep, G1, G2 in U. lia. }
      split; cbn [files nodes next_node next_fid next_key opened avail rdonly owner writable hlock shared excl pcs accs goto]; intros; rewrite ?Z by assumption || reflexivity; try (apply I; assumption).
      - pose proof (over_upd n (pcs s) rel t p k Ht) as U. rewrite Ep in U. cbn [rel] in U. rewrite cnt_nil in U. specialize (P12 k). lia.
      - rewrite upd_if in H0. destruct (Nat.eqb_spec t0 t); [congruence|]. eapply (v_mode _ _ I); eassumption.
      - apply (v_acc _ _ I). assumption.
      - rewrite upd_if in H0. destruct (Nat.eqb_spec t0 t); [congruence|]. eapply (v_given _ _ I); eassumption.
      - rewrite upd_if in H0. destruct (Nat.eqb_spec t0 t); [congruence|]. eapply (v_empty _ _ I); eassumption. }
    destruct r as [h w|k|]; intros E.
    - injection E as <-. apply K; try reflexivity. intros k. apply (v_rel _ _ I).
    - destruct (existsb (fun a => a_key a =? k) (accs s) && negb (existsb (fun u => releasing k (pcs s u)) (seq 0 n))) eqn:C; [|discriminate]. injection E as <-. apply K; try reflexivity.
      apply andb_prop in C. destruct C as (C1 & C2). apply existsb_exists in C1. destruct C1 as (a & A1 & A2). apply Nat.eqb_eq in A2.
      intros j. cbn [rel]. rewrite cnt_cons, cnt_nil. destruct (Nat.eqb_spec k j) as [Q|N]; [|pose proof (v_rel _ _ I j); lia]. subst j.
      assert (Z : sum rel s k = 0).
      { destruct (sum rel s k) eqn:Q; [reflexivity|]. exfalso. assert (W : In k (over n rel (pcs s))) by (apply cnt_in; lia). apply over_in in W. destruct W as (u & U1 & U2).
        apply negb_true_iff in C2. assert (T : existsb (fun u => releasing k (pcs s u)) (seq 0 n) = true); [|congruence]. apply existsb_exists. exists u. split; [apply in_seq; lia|].
        destruct (pcs s u); cbn [rel] in U2; try contradiction. destruct U2 as [->|[]]. cbn. apply Nat.eqb_refl. }
      rewrite Z. assert (0 < cnt (keys (accs s)) k); [|lia]. apply cnt_in, in_flat_map. exists a. split; [exact A1|left; exact A2].
    - injection E as <-. apply K; try reflexivity. intros k. apply (v_rel _ _ I).
  Qed.
  Lemma step_inv a s s' : inv s -> step s a = Next s' -> inv s'.
  Proof.
    intros I. destruct a as [t r|t ok]; cbn [FPThreadsModel.step]; destruct (Nat.ltb_spec t n) as [L|]; try discriminate; intros E; [exact (call_inv _ _ _ _ I L E)|exact (run_inv _ _ _ _ _ _ I L E)].
  Qed.

  (** An invariant kept by the transitions holds in every reached state. *)
  Lemma exec_ind (P : state -> Prop) : P start -> (forall s a s', inv s -> P s -> step s a = Next s' -> P s') -> forall s, reached limit n s -> inv s /\ P s.
  Proof.
    intros H0 HS s (l & E). assert (G : forall l s, inv s -> P s -> forall s', exec s l = Some s' -> inv s' /\ P s').
    { induction l0 as [|a r IH]; intros s0 I Q s' R; cbn [FPThreadsModel.exec] in R; [injection R as <-; auto|]. destruct (step s0 a) as [s1| |] eqn:Es; try discriminate. apply (IH s1); [eapply step_inv; eassumption|eapply HS; eassumption|exact R]. }
    apply (G l start); auto. apply inv_start.
  Qed.
  Lemma reached_inv s : reached limit n s -> inv s.
  Proof. intros R. apply (exec_ind (fun _ => True)); auto. Qed.

  (** Access modes. *)
  Definition handed (p : tpc) : option (nat * bool) := match p with GInsert _ w i | GList _ w i | GUse _ w i | GGive _ w i => Some (i, w) | _ => None end.
  Record modes (s : state) : Prop := {
    m_acc : forall a, In a (accs s) -> rdonly s (a_handler a) = negb (a_write a) /\ writable s (a_fid a) = a_write a;
    m_avail : forall i h, In i (avail s h) -> writable s i = negb (rdonly s h);
    m_fly : forall t i w, t < n -> handed (pcs s t) = Some (i, w) -> writable s i = w
  }.
  Ltac st := cbn [files nodes next_node next_fid next_key opened avail rdonly owner writable hlock shared excl pcs accs
                  set_files set_nodes set_opened set_avail set_rdonly set_owner set_writable set_hlock set_shared set_excl set_accs goto unlock_file].
  (** Transitions that leave descriptors and modes alone. *)
  Lemma modes_same s s' t p : modes s -> (forall a, In a (accs s') -> In a (accs s)) -> (forall h i, In i (avail s' h) -> In i (avail s h)) -> rdonly s' = rdonly s -> writable s' = writable s -> pcs s' = upd (pcs s) t p ->
    (handed p = None \/ handed p = handed (pcs s t)) -> modes s'.
  Proof.
    intros M A1 A2 A3 A4 A5 A6. split; rewrite ?A3, ?A4, ?A5.
    - intros a Ha. apply (m_acc _ M). auto.
    - intros i h H. apply (m_avail _ M). auto.
    - intros u i w Hu H. rewrite upd_if in H. destruct (Nat.eqb_spec u t); [subst u; destruct A6 as [A6|A6]; [congruence|]; rewrite A6 in H|]; eapply (m_fly _ M); eassumption.
  Qed.
  Lemma upd_remove_in (av : nat -> list nat) h i h0 j : In j (upd av h (remove i (av h)) h0) -> In j (av h0).
  Proof. rewrite upd_if. destruct (Nat.eqb_spec h0 h); [subst; intros H; apply filter_In in H; apply H|auto]. Qed.
  Lemma acc_places s a : inv s -> In a (accs s) -> cnt (opened s) (a_fid a) = 1 /\ cnt (fids (accs s)) (a_fid a) = 1 /\ cnt (avail s (owner s (a_fid a))) (a_fid a) = 0 /\ sum flight s (a_fid a) = 0 /\ sum dying s (a_fid a) = 0.
  Proof.
    intros I Ha. assert (F : 0 < cnt (fids (accs s)) (a_fid a)) by (apply cnt_in, in_flat_map; exists a; split; [exact Ha|left; reflexivity]).
    pose proof (v_place _ _ I (a_fid a)). pose proof (v_one _ _ I (a_fid a)). repeat split; lia.
  Qed.
  Lemma switch_none s t h w a : inv s -> modes s -> t < n -> pcs s t = GMode h w -> rdonly s h = w -> In a (accs s) -> a_handler a <> h.
  Proof.
    intros I M Ht Ep R Ha Q. destruct (m_acc _ M a Ha) as (A & _). rewrite Q, R in A. pose proof (lock_mode n s t h w I Ht ltac:(rewrite Ep; reflexivity)) as X. destruct w.
    - destruct (alone n s t h I Ht) as (B & _); [rewrite Ep; reflexivity|rewrite Ep; reflexivity|]. assert (0 < cnt (of_h (accs s)) h); [|lia]. apply cnt_in, in_flat_map. exists a. split; [exact Ha|left; exact Q].
    - pose proof (v_wr _ _ I h) as B. rewrite X in B. assert (0 < cnt (wrs (accs s)) h); [|lia]. apply cnt_in, in_flat_map. exists a. split; [exact Ha|]. destruct (a_write a); [left; exact Q|discriminate].
  Qed.
  Lemma run_modes t ok s s' : inv s -> modes s -> t < n -> run t ok s = Next s' -> modes s'.
  Proof.
    intros I M Ht. unfold FPThreadsModel.run. destruct (pcs s t) as [|h w|h w|h w|h w i|h w|h w|h w nd i o|h w nd i o|h w i o|h w nd|h w|h w i|h w i|h w i|h w i|h w|k|h w|l|l i o|l i o|l i o] eqn:Ep; intros E; try discriminate.
    all: try (destruct w; []).
    3: { (* GMode *) destruct (Bool.eqb (rdonly s h) w) eqn:Em; [apply Bool.eqb_prop in Em; destruct (avail s h) as [|i r] eqn:Ea|injection E as <-; eapply modes_same with (t := t); [exact M| | |st; reflexivity|st; reflexivity|st; reflexivity|left; reflexivity]; st; auto].
      - injection E as <-. split; st.
        + intros a Ha. rewrite upd_neq by (eapply switch_none; eassumption). exact (m_acc _ M a Ha).
        + intros i h0 Hi. rewrite upd_if. destruct (Nat.eqb_spec h0 h) as [Q|N]; [subst h0; rewrite Ea in Hi; destruct Hi|exact (m_avail _ M i h0 Hi)].
        + intros u i w0 Hu H. rewrite upd_if in H. destruct (Nat.eqb_spec u t); [discriminate|]. exact (m_fly _ M u i w0 Hu H).
      - unfold shut in E. destruct (listed i (nodes s)); [|discriminate]. injection E as <-. eapply modes_same with (t := t); [exact M| | |st; reflexivity|st; reflexivity|st; reflexivity|left; reflexivity]; st; auto. intros; eapply upd_remove_in; eassumption. }
    4: { (* GPick *) assert (Md : rdonly s h = negb w) by (apply (v_mode _ _ I t); [exact Ht|rewrite Ep; reflexivity]).
      destruct (avail s h) as [|i r] eqn:Ea; injection E as <-; [eapply modes_same with (t := t); [exact M| | |st; reflexivity|st; reflexivity|st; reflexivity|left; reflexivity]; st; auto|].
      split; st.
      - exact (m_acc _ M).
      - intros j h0 Hj. apply (m_avail _ M). rewrite upd_if in Hj. destruct (Nat.eqb_spec h0 h) as [Q|N]; [subst h0; rewrite Ea; right; destruct w; [destruct Hj|exact Hj]|exact Hj].
      - intros u j w0 Hu H. rewrite upd_if in H. destruct (Nat.eqb_spec u t); [|exact (m_fly _ M u j w0 Hu H)]. cbn [handed] in H. injection H as <- <-. rewrite (m_avail _ M i h) by (rewrite Ea; left; reflexivity). rewrite Md. apply negb_involutive. }
    9: { (* GOpen *) destruct ok; injection E as <-; [|eapply modes_same with (t := t); [exact M| | |st; reflexivity|st; reflexivity|st; reflexivity|left; reflexivity]; st; auto].
      pose proof (v_fresh _ _ I (next_fid s) (Nat.le_refl _)) as Fr. split; st.
      - intros a Ha. rewrite upd_neq; [exact (m_acc _ M a Ha)|]. intros Q. destruct (acc_places s a I Ha) as (A & _). rewrite Q in A. lia.
      - intros i h0 Hi. rewrite upd_neq; [exact (m_avail _ M i h0 Hi)|]. intros ->. destruct (shut_facts n s h0 (next_fid s) I Hi) as (_ & A & _). lia.
      - intros u i w0 Hu H. rewrite upd_if in H. destruct (Nat.eqb_spec u t); [cbn [handed] in H; injection H as <- <-; apply upd_eq|]. rewrite upd_neq; [exact (m_fly _ M u i w0 Hu H)|].
        intros ->. destruct (flight_facts n s u (next_fid s) I Hu) as (_ & A & _); [|lia]. destruct (pcs s u); try discriminate; cbn [handed] in H; injection H as -> ->; left; reflexivity. }
    12: { (* GGive *) injection E as <-. split; st.
      - intros a [<-|Ha]; [|exact (m_acc _ M a Ha)]. cbn [a_handler a_fid a_write]. split; [apply (v_mode _ _ I t); [exact Ht|rewrite Ep; reflexivity]|apply (m_fly _ M t); [exact Ht|rewrite Ep; reflexivity]].
      - exact (m_avail _ M).
      - intros u i0 w0 Hu H. rewrite upd_if in H. destruct (Nat.eqb_spec u t); [discriminate|]. exact (m_fly _ M u i0 w0 Hu H). }
    13: { (* RHand *) destruct (find (fun a => a_key a =? k) (accs s)) as [a|] eqn:Ef; [|discriminate]. destruct (hlock s (a_handler a)); [discriminate|]. injection E as <-. pose proof (find_some _ _ Ef) as (Ha & _). destruct (m_acc _ M a Ha) as (A1 & A2).
      split; st.
      - intros b Hb. apply filter_In in Hb. apply (m_acc _ M). apply Hb.
      - intros i h0 Hi. rewrite upd_if in Hi. destruct (Nat.eqb_spec h0 (a_handler a)) as [Q|N]; [subst h0|exact (m_avail _ M i h0 Hi)].
        destruct (Nat.eq_dec i (a_fid a)) as [Q|N]; [subst i; rewrite A1, A2; symmetry; apply negb_involutive|]. apply (m_avail _ M). apply cnt_in in Hi. apply cnt_in. rewrite cnt_insert in Hi.
        + destruct (Nat.eqb_spec (a_fid a) i); [congruence|]. exact Hi.
        + intros B. destruct (acc_places s a I Ha) as (_ & _ & B2 & _). rewrite (v_own _ _ I _ _ B) in B2. apply cnt_in in B. lia.
      - intros u i0 w0 Hu H. rewrite upd_if in H. destruct (Nat.eqb_spec u t); [discriminate|]. exact (m_fly _ M u i0 w0 Hu H). }
    all: unfold shut, erase, visit in E.
    all: repeat match type of E with
      | (if ?b then _ else _) = _ => destruct b eqn:?
      | match ?x with _ => _ end = _ => destruct x eqn:?
      | _ => idtac end; try discriminate; injection E as <-.
    all: try (destruct w).
    all: try solve [eapply modes_same with (t := t); [exact M| | |st; reflexivity|st; reflexivity|st; reflexivity|left; reflexivity]; st; auto; intros; eapply upd_remove_in; eassumption].
    all: try solve [eapply modes_same with (t := t); [exact M| | |st; reflexivity|st; reflexivity|st; reflexivity|right; rewrite Ep; reflexivity]; st; auto; intros; eapply upd_remove_in; eassumption].
  Qed.
  Lemma call_pc t r s s' : call n t r s = Next s' -> pcs s t = Idle /\ exists p, s' = goto s t p /\
    (match r with Get h w => p = GFile h w | Release k => p = RHand k | CloseAll => p = CList (files s) end).
  Proof.
    unfold call. destruct (pcs s t) eqn:Ep; try discriminate. intros E. split; [reflexivity|]. destruct r as [h w|k|]; [| |]; try (injection E as <-; eexists; split; reflexivity).
    destruct (existsb (fun a => a_key a =? k) (accs s) && negb (existsb (fun u => releasing k (pcs s u)) (seq 0 n))); [|discriminate]. injection E as <-. eexists; split; reflexivity.
  Qed.
  Lemma step_modes s a s' : inv s -> modes s -> step s a = Next s' -> modes s'.
  Proof.
    intros I M. destruct a as [t r|t ok]; cbn [FPThreadsModel.step]; destruct (Nat.ltb_spec t n) as [L|]; try discriminate; intros E; [|exact (run_modes _ _ _ _ I M L E)].
    apply call_pc in E. destruct E as (Ep & p & -> & Q). eapply modes_same with (t := t) (p := p); [exact M| | |st; reflexivity|st; reflexivity|st; reflexivity|left]; st; auto. destruct r; subst p; reflexivity.
  Qed.
  Lemma reached_modes s : reached limit n s -> modes s.
  Proof.
    intros R. apply (exec_ind modes); [|exact step_modes|exact R]. split; cbn; intros; try contradiction; discriminate.
  Qed.
End More.
