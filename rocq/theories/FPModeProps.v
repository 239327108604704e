(** Property C150: the mode of a file handler. *)
From Coq Require Import List Arith Bool Lia.
From Verif Require Import FilePoolModel FilePoolSpec FilePoolProofs FilePoolProofs2 FilePoolProofs3 FilePoolProofs4 FPModeModel.
Import ListNotations.

(** Statements that change no mode. *)
Definition keeps (a : act) : Prop := forall s r s', a s = (r, s') -> forall h, readonly (hs s' h) = readonly (hs s h).
Lemma keeps_seq a b : keeps a -> keeps b -> keeps (seq a b).
Proof.
  intros A B s r s' H h. unfold seq in H. destruct (a s) as [[x|] s1] eqn:E; [injection H as <- <-; apply (A _ _ _ E)|].
  rewrite (B _ _ _ H), (A _ _ _ E). reflexivity.
Qed.
Lemma avail_mode s h l h' : readonly (hs (set_avail s h l) h') = readonly (hs s h').
Proof. cbn. unfold upd. destruct (Nat.eqb_spec h' h) as [->|]; reflexivity. Qed.
Lemma keeps_avail f h : keeps (modify (fun s => set_avail s h (f s))).
Proof. intros s r s' H h'. injection H as <- <-. apply avail_mode. Qed.
Lemma keeps_close_file i : keeps (close_file i).
Proof. intros s r s' H h. unfold close_file in H. destruct (mem i (sorted s)); injection H as <- <-; reflexivity. Qed.
Lemma keeps_close_avail h : keeps (close_avail h).
Proof.
  intros s r s' H. refine (keeps_seq _ _ _ (keeps_avail (fun _ => []) h) s r s' H). clear.
  induction (avail (hs s h)) as [|p l IH]; [intros s0 r s' H h'; injection H as <- <-; reflexivity|].
  apply keeps_seq; [apply keeps_close_file | exact IH].
Qed.
Lemma keeps_handler_close h i s b r s' : handler_close h i s = (b, (r, s')) -> forall h', readonly (hs s' h') = readonly (hs s h').
Proof.
  unfold handler_close. destruct (mem i (map fst (avail (hs s h)))); intros H h'.
  - injection H as <- H. eapply keeps_seq; [apply keeps_close_file | | exact H]. apply keeps_avail.
  - injection H as <- <- <-. reflexivity.
Qed.
Lemma keeps_evict own ids : forall s b r s', evict own ids s = (b, (r, s')) -> forall h, readonly (hs s' h) = readonly (hs s h).
Proof.
  induction ids as [|i ids IH]; intros s b r s' H h; cbn [evict] in H; [injection H as <- <- <-; reflexivity|].
  destruct (negb (mem i (files s))); [injection H as <- <- <-; reflexivity|].
  destruct (owner s i =? own); [injection H as <- <- <-; reflexivity|].
  destruct (handler_close (owner s i) i s) as [[] [x s1]] eqn:E.
  - injection H as <- <- <-. apply (keeps_handler_close _ _ _ _ _ _ E).
  - destruct x as [x|]; [injection H as <- <- <-; apply (keeps_handler_close _ _ _ _ _ _ E)|].
    rewrite (IH _ _ _ _ H), (keeps_handler_close _ _ _ _ _ _ E). reflexivity.
Qed.
Lemma keeps_intent own : forall fuel, keeps (intent fuel own).
Proof.
  induction fuel as [|fuel IH]; intros s r s' H h; cbn [intent] in H; destruct (limit s <=? length (files s));
    try (injection H as <- <-; reflexivity).
  destruct (evict own (sorted s) s) as [[] [[x|] s1]] eqn:E; try (injection H as <- <-; apply (keeps_evict _ _ _ _ _ _ E)).
  rewrite (IH _ _ _ H), (keeps_evict _ _ _ _ _ _ E). reflexivity.
Qed.
Lemma keeps_open h ty w i ok : keeps (open_file h ty w i ok).
Proof.
  intros s r s' H. refine (keeps_seq _ _ (keeps_intent h _) _ s r s' H). clear. intros s r s' H h'.
  destruct (ok && negb (mem i (files s))); injection H as <- <-; reflexivity.
Qed.
Lemma keeps_hand_out h i ty w l : keeps (hand_out h i ty w l).
Proof.
  intros s r s' H h'. unfold hand_out in H. rewrite <- (avail_mode s h l h').
  refine (keeps_seq _ _ _ _ (set_avail s h l) r s' H h').
  - intros s0 r0 s0' H0 h0. unfold notify_used in H0. destruct (mem i (sorted s0)); injection H0 as <- <-; reflexivity.
  - intros s0 r0 s0' H0 h0. injection H0 as <- <-. reflexivity.
Qed.

Lemma get_mode lim s h ty w i ok r s' : reachable lim s -> get_ready s h w -> step s (Get h ty w false i ok) = (r, s') ->
  forall h', readonly (hs s' h') = if h' =? h then negb w else readonly (hs s h').
Proof.
  intros HR Rd H h'.
  assert (M : forall s0, mode_stmt h w s = (None, s0) -> readonly (hs s0 h') = if h' =? h then negb w else readonly (hs s h')).
  { intros s0 M. apply reachable_inv in HR as [HI _]. destruct (mode_spec None s h w HI) as (s1 & E1 & _ & _ & _ & _ & _ & _ & M1 & _ & M2); [intros ->; exact Rd | intros ->; exact Rd|].
    rewrite M in E1. injection E1 as <-.
    destruct (Nat.eqb_spec h' h) as [->|N]; [exact M1 | rewrite (M2 h' N); reflexivity]. }
  destruct (get_inv _ _ _ _ _ _ _ _ _ _ HR H) as [(_ & _ & s0 & E & _)|[(_ & X & _)|(X & _)]]; [|discriminate|contradiction].
  rewrite <- (M s0 E). clear M. unfold step in H. cbn [call] in H.
  destruct w.
  - assert (G : exists o, call (Get h ty true false i ok) s = (o, s')) by (cbn [call]; destruct (get_write h ty false i ok s) as [[x|] s1]; injection H as <- <-; eauto).
    destruct G as [o G]. cbn [call] in G. unfold get_write in G.
    destruct (negb (length (live h s) =? 0)) eqn:L.
    + exfalso. apply negb_true_iff, Nat.eqb_neq in L. apply L. unfold live. cbn in Rd. clear -Rd.
      induction (accs s) as [|a l IH]; [reflexivity|]. cbn. destruct (Nat.eqb_spec (a_handler a) h) as [X|X]; [exfalso; apply (Rd a); [left; reflexivity | exact X]|].
      apply IH. intros b I. apply Rd. right. exact I.
    + unfold seq at 1 in G. unfold mode_stmt in E. replace (Bool.eqb (readonly (hs s h)) true) with (readonly (hs s h)) in E by (destruct (readonly (hs s h)); reflexivity).
      cbn [negb] in E. rewrite E in G. clear E. revert G.
      set (s2 := match avail (hs s0 h) with (j, ty') :: _ => if ty' =? ty then s0 else set_avail s0 h [] | [] => s0 end).
      assert (S2 : readonly (hs s2 h') = readonly (hs s0 h')).
      { unfold s2. destruct (avail (hs s0 h)) as [|[j ty'] q]; [reflexivity|]. destruct (ty' =? ty); [reflexivity | apply avail_mode]. }
      rewrite <- S2. destruct (avail (hs s2 h)) as [|[j ty'] q]; intros G; [|apply (keeps_hand_out _ _ _ _ _ _ _ _ G)].
      eapply keeps_seq; [apply keeps_open | apply keeps_hand_out | exact G].
  - assert (G : exists o, call (Get h ty false false i ok) s = (o, s')) by (cbn [call]; destruct (get_read h ty false i ok s) as [[x|] s1]; injection H as <- <-; eauto).
    destruct G as [o G]. cbn [call] in G. unfold get_read in G.
    destruct (negb (length (writers h s) =? 0)) eqn:L.
    + exfalso. apply negb_true_iff, Nat.eqb_neq in L. apply L. unfold writers, live. cbn in Rd. clear -Rd.
      induction (accs s) as [|a l IH]; [reflexivity|]. cbn. destruct (Nat.eqb_spec (a_handler a) h) as [X|X].
      * cbn. rewrite (Rd a (or_introl eq_refl) X). apply IH. intros b I. apply Rd. right. exact I.
      * apply IH. intros b I. apply Rd. right. exact I.
    + unfold seq at 1 in G. unfold mode_stmt in E. replace (Bool.eqb (readonly (hs s h)) false) with (negb (readonly (hs s h))) in E by (destruct (readonly (hs s h)); reflexivity).
      cbn [negb] in E. rewrite E in G. clear E.
      destruct (first_of_type ty (avail (hs s0 h))) as [j|]; [apply (keeps_hand_out _ _ _ _ _ _ _ _ G)|].
      eapply keeps_seq; [apply keeps_open | | exact G]. intros s3 r3 s3' G3. apply (keeps_hand_out _ _ _ _ _ _ _ _ G3).
Qed.

(** isReadOnly() of every handler, after any call: a request that gets the lock of the file
    sets it to the mode it asks for, whether it then succeeds or not; nothing else changes it. *)
Theorem C150_mode : forall lim s o r s' h, reachable lim s -> step s o = (r, s') ->
  is_read_only s' h = true <->
  match o with
  | Get h' ty w try_lock i ok =>
      (h' = h /\ try_lock = false /\ get_ready s h w /\ w = false) \/
      (~ (h' = h /\ try_lock = false /\ get_ready s h w) /\ is_read_only s h = true)
  | _ => is_read_only s h = true
  end.
Proof.
  intros lim s o r s' h HR H. unfold is_read_only. destruct o as [h0 ty w tr i ok|k| |h0].
  - destruct tr.
    + destruct (get_inv _ _ _ _ _ _ _ _ _ _ HR H) as [(_ & X & _)|[(_ & _ & _ & ->)|(_ & _ & ->)]]; [discriminate | |]; split; try tauto;
        try (intros X; right; split; [intros (_ & Y & _); discriminate | exact X]); intros [(_ & X & _)|(_ & X)]; [discriminate | exact X | discriminate | exact X].
    + destruct (get_inv _ _ _ _ _ _ _ _ _ _ HR H) as [(Rd & _ & _)|[(_ & X & _)|(NR & _ & ->)]]; [|discriminate|].
      * rewrite (get_mode lim s h0 ty w i ok r s' HR Rd H h). destruct (Nat.eqb_spec h h0) as [->|N].
        -- destruct w; cbn [negb]; split; try discriminate; try tauto; intros [(_ & _ & _ & X)|(X & _)]; [discriminate | tauto].
        -- split; [intros X; right; split; [intros (Y & _); congruence | exact X]|]. intros [(Y & _)|(_ & X)]; [congruence | exact X].
      * split; [intros X; right; split; [intros (-> & _ & Y); contradiction | exact X]|]. intros [(-> & _ & Y & _)|(_ & X)]; [contradiction | exact X].
  - unfold step, call, release in H. destruct (find (fun a => a_key a =? k) (accs s)) as [a|]; injection H as <- <-; [|tauto].
    change (readonly (hs (set_avail s (a_handler a) (insert (a_fid a, a_type a) (avail (hs s (a_handler a))))) h) = true <-> readonly (hs s h) = true).
    rewrite avail_mode. tauto.
  - assert (G : exists o, close_all s = (o, s')) by (unfold step in H; cbn [call] in H; destruct (close_all s) as [[x|] s1]; injection H as <- <-; eauto).
    destruct G as [o G]. rewrite (fun K => keeps_seq _ _ K (fun s r s' (E : fail RDone s = (r, s')) h => ltac:(injection E as <- <-; reflexivity)) s o s' G h); [tauto|].
    clear. induction (files s) as [|i l IH]; [intros s0 r s' H h; injection H as <- <-; reflexivity|].
    apply keeps_seq; [|exact IH]. intros s0 r s' H. destruct (handler_close (owner s0 i) i s0) as [b [x s1]] eqn:E. cbn [snd] in H.
    injection H as <- <-. apply (keeps_handler_close _ _ _ _ _ _ E).
  - assert (G : exists o, drop_handler h0 s = (o, s')) by (unfold step in H; cbn [call] in H; destruct (drop_handler h0 s) as [[x|] s1]; injection H as <- <-; eauto).
    destruct G as [o G]. unfold drop_handler in G. destruct (negb (length (live h0 s) =? 0)); [injection G as <- <-; tauto|].
    rewrite (keeps_seq _ _ (keeps_close_avail h0) (fun s r s' (E : fail RDone s = (r, s')) h => ltac:(injection E as <- <-; reflexivity)) s o s' G h). tauto.
Qed.
Print Assumptions C150_mode.

(** A handler that has not been used is read only, and as long as an accessor lives the
    mode is that of the accessor. *)
Theorem C150_new_handler : forall lim h, is_read_only (new_pool lim) h = true.
Proof. reflexivity. Qed.
Print Assumptions C150_new_handler.
Theorem C150_mode_of_accessors : forall lim s a, reachable lim s -> In a (accs s) ->
  is_read_only s (a_handler a) = negb (a_write a).
Proof. intros lim s a HR I. apply reachable_inv in HR as [HI _]. apply (iv_accs _ _ _ HI a I). Qed.
Print Assumptions C150_mode_of_accessors.

(** A request for writing that fails makes the handler writable all the same. *)
Theorem C150_failed_request_refuted : exists lim s s' h ty i, reachable lim s /\ is_read_only s h = true /\
  step s (Get h ty true false i false) = (RThrow, s') /\ is_read_only s' h = false.
Proof.
  exists 5, (new_pool 5), (snd (step (new_pool 5) (Get 0 7 true false 3 false))), 0, 7, 3. split; [exists [], []; reflexivity|]. split; [reflexivity|]. split; reflexivity.
Qed.
Print Assumptions C150_failed_request_refuted.

Definition case_calls : list op := [Get 0 7 true false 3 true; Release 0; Get 1 7 false false 4 true].
Definition case_pool : pool := snd (run (new_pool 5) case_calls).
Lemma case_reachable : reachable 5 case_pool.
Proof. exists case_calls, (fst (run (new_pool 5) case_calls)). unfold case_pool. apply surjective_pairing. Qed.
Lemma case_accs : accs case_pool = [mkA 1 1 4 7 false].
Proof. vm_compute. reflexivity. Qed.
Example C150_case : reachable 5 case_pool /\ is_read_only case_pool 0 = false /\ is_read_only case_pool 1 = true /\
  get_ready case_pool 0 false /\ is_read_only (snd (step case_pool (Get 0 7 false false 5 true))) 0 = true.
Proof.
  split; [exact case_reachable|]. split; [vm_compute; reflexivity|]. split; [vm_compute; reflexivity|].
  split; [|vm_compute; reflexivity]. intros a. rewrite case_accs. intros [<-|[]]. reflexivity.
Qed.
