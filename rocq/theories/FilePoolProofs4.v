From Coq Require Import List Arith Bool Lia Sorted Permutation.
From Verif Require Import FilePoolModel FilePoolSpec FilePoolProofs FilePoolProofs2 FilePoolProofs3.
Import ListNotations.
Local Arguments opened : simpl never.
Local Arguments open_ids : simpl never.
Local Arguments lru : simpl never.
Local Arguments last_use : simpl never.

Lemma reach_step : forall lim s o r s', reachable lim s -> step s o = (r, s') -> reachable lim s'.
Proof.
  intros lim s o r s' (ops & rs & H) Hs. exists (ops ++ [o]), (rs ++ [r]). revert H. generalize (new_pool lim). clear lim. revert rs s Hs.
  induction ops as [|x ops IH]; intros rs s Hs p H; cbn in *.
  - inversion H; subst. rewrite Hs. reflexivity.
  - destruct (step p x) as [y p1]. destruct (run p1 ops) as [ys p2] eqn:E. inversion H; subst. rewrite (IH ys s Hs p1 E). reflexivity.
Qed.

(** ** The limit *)

Lemma within_limit : forall lim s, reachable lim s -> forall pre suf, log s = pre ++ suf -> length (open_ids pre) <= lim.
Proof.
  intros lim s H pre suf E. apply reachable_inv in H as [HI Hl]. subst lim. apply legal_bound. eapply legal_prefix; eauto. eapply iv_legal; eauto.
Qed.
Lemma used_available : forall lim s, reachable lim s ->
  get_used s = length (open_ids (log s)) /\ get_used s + get_available s = lim.
Proof.
  intros lim s H. pose proof (within_limit lim s H (log s) [] ltac:(rewrite app_nil_r; auto)) as Hb.
  apply reachable_inv in H as [HI Hl]. unfold get_used, get_available. rewrite Hl.
  assert (E : length (sorted s) = length (open_ids (log s))).
  { rewrite (iv_sorted _ _ _ HI). apply Permutation_length. eapply lru_perm. eapply iv_legal; eauto. }
  split; [auto|]. rewrite E. lia.
Qed.

Lemma close_no_open : forall C e, In e (map EClose C) -> ~ is_open_event e.
Proof. intros C e H (i & h & ty & w & E). apply in_map_iff in H as (x & Hx & _). congruence. Qed.

Lemma mode_fields : forall s h w s0, Inv None [] s -> get_ready s h w -> mode_stmt h w s = (None, s0) ->
  Inv None [] s0 /\ log s0 = log s ++ map EClose (mode_change s h w) /\ accs s0 = accs s /\ owner s0 = owner s /\ limit s0 = limit s
   /\ next_key s0 = next_key s /\ (forall h', h' <> h -> hs s0 h' = hs s h').
Proof.
  intros s h w s0 HI Rd M. destruct (mode_spec None s h w HI) as (s0' & M1 & M2 & M3 & M4 & M5 & M6 & M7 & M8 & M9 & M10).
  - intros ->. exact Rd.
  - intros ->. exact Rd.
  - rewrite M in M1. inversion M1; subst. auto 10.
Qed.

Lemma get_inv : forall lim s h ty w tr i ok r s', reachable lim s -> step s (Get h ty w tr i ok) = (r, s') ->
  (get_ready s h w /\ tr = false /\ exists s0, mode_stmt h w s = (None, s0) /\ get_result None h ty w i ok s0 (Some r, s'))
  \/ (get_ready s h w /\ tr = true /\ r = RThrow /\ s' = s)
  \/ (~ get_ready s h w /\ r = (if tr then RNull else RBlocked) /\ s' = s).
Proof.
  intros lim s h ty w tr i ok r s' HR H. apply reachable_inv in HR as [HI _]. unfold step in H.
  destruct (get_cases None s h ty w tr i ok HI ltac:(discriminate)) as [(Rd & -> & s0 & M & B)|[(Rd & Et & B)|(Rd & B)]].
  - left. split; [auto|split; [auto|]]. exists s0. split; auto.
    assert (Hx : fst (call (Get h ty w false i ok) s) <> None) by (destruct B; cbn; discriminate).
    destruct (call (Get h ty w false i ok) s) as [[r0|] s1]; [|cbn in Hx; congruence]. inversion H; subst. exact B.
  - right; left. rewrite B in H. inversion H; subst; auto.
  - right; right. rewrite B in H. inversion H; subst; auto.
Qed.

(** What a call adds to the log. *)
Lemma step_log : forall lim s o r s', reachable lim s -> step s o = (r, s') ->
  (exists C, log s' = log s ++ map EClose C /\ (forall a, r <> RAcc a) )
  \/ (exists h ty w i ok j, o = Get h ty w false i ok /\ r = RAcc (mkA (next_key s) h j ty w)
       /\ log s' = log s ++ map EClose (mode_change s h w) ++ [EUse j])
  \/ (exists h ty w i V s0 s2 s1, o = Get h ty w false i true /\ r = RAcc (mkA (next_key s) h i ty w)
       /\ mode_stmt h w s = (None, s0) /\ same_but h s0 s2 /\ Inv None [] s2 /\ room s2 h V s1 /\ ~ In i (files s1)
       /\ log s' = log s ++ map EClose (mode_change s h w) ++ map EClose V ++ [EOpen i h ty w; EUse i]).
Proof.
  intros lim s o r s' HR H. pose proof (proj1 (reachable_inv _ _ HR)) as HI. destruct o as [h ty w tr i ok|k| |h].
  - destruct (get_inv _ _ _ _ _ _ _ _ _ _ HR H) as [(Rd & -> & s0 & M & B)|[(_ & _ & -> & ->)|(_ & -> & ->)]].
    + destruct (mode_fields _ _ _ _ HI Rd M) as (M0 & M2 & _ & _ & _ & M3 & _).
      inversion B as [j s1 A1 A2 A3 A4 A5 A6 E|V s2 s1 s3 A1 A2 A3 A4 A5 A6 A7 A8 A9 E|V s2 s1 A1 A2 A3 A4 A5 A6 A7 A8 E|s2 A1 A2 A3 A4 A5 E|s2 v A1 A2 A3 A4 A5 E]; subst.
      * right; left. exists h, ty, w, i, ok, j. rewrite M3 in *. rewrite A3, M2, <- app_assoc. auto.
      * right; right. exists h, ty, w, i, V, s0, s2, s1. rewrite M3 in *. rewrite A8, M2, <- app_assoc. auto 10.
      * left. exists (mode_change s h w ++ V). rewrite map_app, A7, M2, <- app_assoc. split; [auto|]. intros a C; discriminate.
      * left. exists (mode_change s h w). rewrite (proj1 A2), M2. split; [auto|]. intros a C; discriminate.
      * left. exists (mode_change s h w). rewrite (proj1 A2), M2. split; [auto|]. intros a C; discriminate.
    + left. exists []. cbn. rewrite app_nil_r. split; [auto|]. intros a C; discriminate.
    + left. exists []. cbn. rewrite app_nil_r. split; [auto|]. intros a C; destruct tr; discriminate.
  - unfold step in H. cbn [call] in H. unfold release in H. left. exists []. cbn. rewrite app_nil_r.
    destruct (find (fun a => a_key a =? k) (accs s)); inversion H; subst; split; auto; intros; discriminate.
  - unfold step in H. cbn [call] in H. unfold close_all in H. unfold seq at 1 in H. destruct (close_all_inv None (files s) s HI) as (s1 & A & B & C & (L & D)).
    rewrite A in H. inversion H; subst. left. exists L. split; auto; intros; discriminate.
  - unfold step in H. cbn [call] in H. unfold drop_handler in H. destruct (negb (length (live h s) =? 0)).
    + inversion H; subst. left. exists []. cbn. rewrite app_nil_r. split; auto; intros; discriminate.
    + unfold seq at 1 in H. destruct (close_avail_spec None s h HI) as (s1 & A & B & C & _). rewrite A in H. inversion H; subst.
      left. eexists. split; [eauto|]. intros; discriminate.
Qed.

Lemma only_success_opens : forall lim s o r s' evs, reachable lim s -> step s o = (r, s') -> log s' = log s ++ evs ->
  forall i h ty w, In (EOpen i h ty w) evs -> exists k, o = Get h ty w false i true /\ r = RAcc (mkA k h i ty w).
Proof.
  intros lim s o r s' evs HR H El i h ty w Hin.
  destruct (step_log _ _ _ _ _ HR H) as [(C & A & _)|[(h' & ty' & w' & i' & ok & j & A1 & A2 & A3)|(h' & ty' & w' & i' & V & s0 & s2 & s1 & A1 & A2 & A3 & A4 & A5 & A6 & A7 & A8)]].
  - rewrite A in El. apply app_inv_head in El. subst evs. apply close_no_open in Hin. exfalso. apply Hin. repeat eexists.
  - rewrite A3 in El. apply app_inv_head in El. subst evs. apply in_app_iff in Hin as [Hin|[Hin|[]]]; [|discriminate].
    apply close_no_open in Hin. exfalso. apply Hin. repeat eexists.
  - rewrite A8 in El. apply app_inv_head in El. subst evs. apply in_app_iff in Hin as [Hin|Hin].
    { apply close_no_open in Hin. exfalso. apply Hin. repeat eexists. }
    apply in_app_iff in Hin as [Hin|[Hin|[Hin|[]]]]; [| |discriminate].
    { apply close_no_open in Hin. exfalso. apply Hin. repeat eexists. }
    inversion Hin; subst. eauto.
Qed.

Lemma last_use_closes : forall C l u, last_use (l ++ map EClose C) u = last_use l u.
Proof.
  intros C. induction C as [|x C IH] using rev_ind; intros l u; cbn; [rewrite app_nil_r; auto|].
  rewrite map_app, app_assoc. cbn. rewrite last_use_snoc. cbn. auto.
Qed.
Lemma opened_closes : forall C l u, opened (l ++ map EClose C) u = if mem u C then None else opened l u.
Proof.
  intros C. induction C as [|x C IH] using rev_ind; intros l u; cbn; [rewrite app_nil_r; auto|].
  rewrite map_app, app_assoc. cbn. rewrite opened_snoc. cbn. rewrite IH.
  assert (E : mem u (C ++ [x]) = mem u C || (x =? u)).
  { unfold mem. rewrite existsb_app. cbn. rewrite orb_false_r, (Nat.eqb_sym x u). reflexivity. }
  rewrite E. destruct (mem u C), (x =? u); reflexivity.
Qed.
Lemma idle_opened : forall t p s i h, Inv t p s -> idle s i h -> exists ty w, opened (log s) i = Some (h, ty, w).
Proof. intros t p s i h HI H. apply in_fst in H as [ty H]. apply (iv_avail _ _ _ HI) in H. eauto. Qed.
Lemma idle_owner : forall t p s i h, Inv t p s -> idle s i h -> owner s i = h /\ In i (files s).
Proof.
  intros t p s i h HI H. destruct (idle_opened _ _ _ _ _ HI H) as (ty & w & Ho). split.
  - eapply iv_owner; eauto.
  - rewrite (iv_files _ _ _ HI). eapply opened_In; [eapply iv_legal; eauto|congruence].
Qed.
Lemma mode_change_own : forall t s h w u, Inv t [] s -> In u (mode_change s h w) -> idle s u h.
Proof. intros t s h w u HI H. unfold mode_change in H. destruct (Bool.eqb (readonly (hs s h)) w); [auto|destruct H]. Qed.

(** From the state in which the file is opened back to the state of the call. *)
Lemma open_state_back : forall s h w s0 s2, Inv None [] s -> get_ready s h w -> mode_stmt h w s = (None, s0) -> same_but h s0 s2 -> Inv None [] s2 ->
  log s2 = log s ++ map EClose (mode_change s h w) /\ limit s2 = limit s
  /\ (forall u, last_use (log s2) u = last_use (log s) u)
  /\ (forall u h', h' <> h -> (idle s2 u h' <-> idle s u h'))
  /\ (forall u h' ty' w', h' <> h -> opened (log s) u = Some (h', ty', w') -> opened (log s2) u = Some (h', ty', w'))
  /\ (forall u h' ty' w', opened (log s2) u = Some (h', ty', w') -> opened (log s) u = Some (h', ty', w') /\ owner s2 u = h').
Proof.
  intros s h w s0 s2 HI Rd M (S1 & S2 & S3 & S4 & S5 & S6 & S7 & S8 & S9) HI2.
  destruct (mode_fields _ _ _ _ HI Rd M) as (M0 & M1 & M2 & M3 & M4 & M5 & M6).
  assert (El : log s2 = log s ++ map EClose (mode_change s h w)) by congruence.
  split; [auto|]. split; [congruence|]. split; [intros; rewrite El; apply last_use_closes|]. split; [|split].
  - intros u h' Hh. unfold idle. rewrite S9, M6 by auto. reflexivity.
  - intros u h' ty' w' Hh Ho. rewrite El, opened_closes. destruct (mem u (mode_change s h w)) eqn:E; auto. exfalso.
    apply mem_In in E. apply (mode_change_own None) in E; auto. destruct (idle_opened _ _ _ _ _ HI E) as (ty & w2 & Ho2). congruence.
  - intros u h' ty' w' Ho. split; [|eapply iv_owner; eauto]. rewrite El, opened_closes in Ho. destruct (mem u (mode_change s h w)); congruence.
Qed.

Lemma open_at_limit : forall lim s h ty w tr i ok r s' evs, reachable lim s -> step s (Get h ty w tr i ok) = (r, s') ->
  log s' = log s ++ evs -> (exists e, In e evs /\ is_open_event e) ->
  exists V, evs = map EClose (mode_change s h w) ++ map EClose V ++ [EOpen i h ty w; EUse i]
    /\ ((length (open_ids (log s ++ map EClose (mode_change s h w))) < lim /\ V = [])
        \/ (length (open_ids (log s ++ map EClose (mode_change s h w))) = lim /\ exists v h', V = [v] /\ h' <> h /\ idle s v h')).
Proof.
  intros lim s h ty w tr i ok r s' evs HR H El (e & He & Hop).
  pose proof (proj1 (reachable_inv _ _ HR)) as HI. pose proof (proj2 (reachable_inv _ _ HR)) as Hlim.
  destruct (get_inv _ _ _ _ _ _ _ _ _ _ HR H) as [(Rd & -> & s0 & M & B)|[(_ & _ & _ & ->)|(_ & _ & ->)]].
  - destruct (mode_fields _ _ _ _ HI Rd M) as (M0 & M1 & M2 & M3 & M4 & M5 & M6).
    inversion B as [j s1 A1 A2 A3 A4 A5 A6 E|V s2 s1 s3 A1 A2 A3 A4 A5 A6 A7 A8 A9 E|V s2 s1 A1 A2 A3 A4 A5 A6 A7 A8 E|s2 A1 A2 A3 A4 A5 E|s2 v A1 A2 A3 A4 A5 E]; subst.
    + rewrite A3, M1, <- app_assoc in El. apply app_inv_head in El. subst evs. exfalso. apply in_app_iff in He as [He|[<-|[]]].
      * eapply close_no_open; eauto.
      * destruct Hop as (? & ? & ? & ? & ?). discriminate.
    + exists V. rewrite A8, M1, <- app_assoc in El. apply app_inv_head in El. split; [auto|].
      destruct (open_state_back _ _ _ _ _ HI Rd M A2 A3) as (Q1 & Q2 & Q3 & Q4 & Q5 & Q6).
      rewrite <- Q1. rewrite <- (iv_files _ _ _ A3).
      destruct A4 as [(-> & -> & Hlt)|(v & -> & -> & Heq & (Hv1 & Hv2 & Hv3 & Hv4))].
      * left. split; [congruence|auto].
      * right. split; [congruence|]. exists v, (owner s2 v). split; [auto|]. split; [auto|]. apply Q4; auto.
    + rewrite A7, M1, <- app_assoc in El. apply app_inv_head in El. rewrite <- map_app in El. subst evs. exfalso. eapply close_no_open; eauto.
    + rewrite (proj1 A2), M1 in El. apply app_inv_head in El. subst evs. exfalso. eapply close_no_open; eauto.
    + rewrite (proj1 A2), M1 in El. apply app_inv_head in El. subst evs. exfalso. eapply close_no_open; eauto.
  - rewrite <- (app_nil_r (log s)) in El at 1. apply app_inv_head in El. subst evs. destruct He.
  - rewrite <- (app_nil_r (log s)) in El at 1. apply app_inv_head in El. subst evs. destruct He.
Qed.

(** ** The victim *)

Lemma get_close_event : forall lim s h ty w tr i ok r s' evs v, reachable lim s -> step s (Get h ty w tr i ok) = (r, s') ->
  log s' = log s ++ evs -> In (EClose v) evs -> ~ In v (mode_change s h w) ->
  exists s0 s2 s1, get_ready s h w /\ mode_stmt h w s = (None, s0) /\ same_but h s0 s2 /\ Inv None [] s2 /\ room s2 h [v] s1.
Proof.
  intros lim s h ty w tr i ok r s' evs v HR H El Hv Hn.
  pose proof (proj1 (reachable_inv _ _ HR)) as HI.
  assert (Hmc : forall C, In (EClose v) (map EClose C) -> In v C).
  { intros C HC. apply in_map_iff in HC as (x & E & Hx). congruence. }
  destruct (get_inv _ _ _ _ _ _ _ _ _ _ HR H) as [(Rd & -> & s0 & M & B)|[(_ & _ & _ & ->)|(_ & _ & ->)]].
  - destruct (mode_fields _ _ _ _ HI Rd M) as (M0 & M1 & M2 & M3 & M4 & M5 & M6).
    inversion B as [j s1 A1 A2 A3 A4 A5 A6 E|V s2 s1 s3 A1 A2 A3 A4 A5 A6 A7 A8 A9 E|V s2 s1 A1 A2 A3 A4 A5 A6 A7 A8 E|s2 A1 A2 A3 A4 A5 E|s2 v' A1 A2 A3 A4 A5 E]; subst.
    + rewrite A3, M1, <- app_assoc in El. apply app_inv_head in El. subst evs. exfalso. apply in_app_iff in Hv as [Hv|[Hv|[]]]; [auto|discriminate].
    + exists s0, s2, s1. split; [auto|split; [auto|split; [auto|split; [auto|]]]].
      rewrite A8, M1, <- app_assoc in El. apply app_inv_head in El. subst evs. apply in_app_iff in Hv as [Hv|Hv]; [exfalso; auto|].
      apply in_app_iff in Hv as [Hv|[Hv|[Hv|[]]]]; try discriminate. apply Hmc in Hv.
      destruct A4 as [(-> & _)|(v' & -> & A4)]; [destruct Hv|]. destruct Hv as [->|[]]. right. eauto.
    + exists s0, s2, s'. split; [auto|split; [auto|split; [auto|split; [auto|]]]].
      rewrite A7, M1, <- app_assoc in El. apply app_inv_head in El. subst evs. apply in_app_iff in Hv as [Hv|Hv]; [exfalso; auto|].
      apply Hmc in Hv. destruct A4 as [(-> & _)|(v' & -> & A4)]; [destruct Hv|]. destruct Hv as [->|[]]. right. eauto.
    + rewrite (proj1 A2), M1 in El. apply app_inv_head in El. subst evs. exfalso. auto.
    + rewrite (proj1 A2), M1 in El. apply app_inv_head in El. subst evs. exfalso. auto.
  - rewrite <- (app_nil_r (log s)) in El at 1. apply app_inv_head in El. subst evs. destruct Hv.
  - rewrite <- (app_nil_r (log s)) in El at 1. apply app_inv_head in El. subst evs. destruct Hv.
Qed.

Lemma strict_or_eq : forall t p s u v, Inv t p s -> In u (files s) -> In v (files s) -> last_use (log s) u <= last_use (log s) v -> u = v \/ last_use (log s) u < last_use (log s) v.
Proof.
  intros t p s u v HI Hu Hv Hle. apply (sorted_files _ _ _ HI) in Hu. apply (sorted_files _ _ _ HI) in Hv.
  pose proof (lru_sorted _ _ (iv_legal _ _ _ HI)) as HS. rewrite <- (iv_sorted _ _ _ HI) in HS. clear HI.
  induction HS as [|x l HS IH Hf]; [destruct Hu|]. rewrite Forall_forall in Hf. destruct Hu as [<-|Hu], Hv as [<-|Hv]; auto.
  specialize (Hf u Hu). lia.
Qed.

Lemma victim_oldest : forall lim s h ty w tr i ok r s' evs v, reachable lim s -> step s (Get h ty w tr i ok) = (r, s') ->
  log s' = log s ++ evs -> In (EClose v) evs -> ~ In v (mode_change s h w) ->
  length (open_ids (log s ++ map EClose (mode_change s h w))) = lim
  /\ (exists h', h' <> h /\ idle s v h')
  /\ (forall u h', h' <> h -> idle s u h' -> u <> v -> last_use (log s) v < last_use (log s) u).
Proof.
  intros lim s h ty w tr i ok r s' evs v HR H El Hv Hn.
  pose proof (proj1 (reachable_inv _ _ HR)) as HI. pose proof (proj2 (reachable_inv _ _ HR)) as Hlim.
  destruct (get_close_event _ _ _ _ _ _ _ _ _ _ _ _ HR H El Hv Hn) as (s0 & s2 & s1 & Rd & M & Sb & HI2 & Hr).
  destruct (open_state_back _ _ _ _ _ HI Rd M Sb HI2) as (Q1 & Q2 & Q3 & Q4 & Q5 & Q6).
  destruct Hr as [(C & _)|(v' & Ev & _ & Heq & (V1 & V2 & V3 & V4))]; [discriminate|]. inversion Ev; subst v'.
  split; [rewrite <- Q1, <- (iv_files _ _ _ HI2); congruence|]. split.
  - exists (owner s2 v). split; [auto|]. apply Q4; auto.
  - intros u h' Hh Hu Hne. rewrite <- !Q3. assert (Hu2 : idle s2 u h') by (apply Q4; auto).
    destruct (idle_owner _ _ _ _ _ HI2 Hu2) as [Ou Fu].
    destruct (Nat.lt_ge_cases (last_use (log s2) v) (last_use (log s2) u)) as [|Hge]; auto. exfalso.
    destruct (strict_or_eq _ _ _ _ _ HI2 Fu V1 Hge) as [|Hlt]; [auto|].
    destruct (V4 u Fu Hlt) as [_ X]. apply X. rewrite Ou. auto.
Qed.

Lemma throws_iff : forall lim s h ty w i r s', reachable lim s -> step s (Get h ty w false i true) = (r, s') ->
  get_ready s h w -> ~ In i (open_ids (log s)) ->
  length (open_ids (log s ++ map EClose (mode_change s h w))) = lim ->
  (forall j, In (j, ty) (avail (hs s h)) -> In j (mode_change s h w)) ->
  (r = RThrow <-> forall u h' ty' w', opened (log s ++ map EClose (mode_change s h w)) u = Some (h', ty', w') -> h' <> h /\ ~ idle s u h').
Proof.
  intros lim s h ty w i r s' HR H Rd Hi Hlen Hno.
  pose proof (proj1 (reachable_inv _ _ HR)) as HI. pose proof (proj2 (reachable_inv _ _ HR)) as Hlim.
  destruct (get_inv _ _ _ _ _ _ _ _ _ _ HR H) as [(_ & _ & s0 & M & B)|[(_ & C & _)|(C & _)]]; [|discriminate|tauto].
  destruct (mode_fields _ _ _ _ HI Rd M) as (M0 & M1 & M2 & M3 & M4 & M5 & M6).
  assert (Hback : forall s2, same_but h s0 s2 -> Inv None [] s2 ->
     (forall u, In u (files s2) -> untouchable s2 h u) <->
     (forall u h' ty' w', opened (log s ++ map EClose (mode_change s h w)) u = Some (h', ty', w') -> h' <> h /\ ~ idle s u h')).
  { intros s2 Sb HI2. destruct (open_state_back _ _ _ _ _ HI Rd M Sb HI2) as (Q1 & Q2 & Q3 & Q4 & Q5 & Q6). rewrite <- Q1. split.
    - intros U u h' ty' w' Ho. destruct (Q6 _ _ _ _ Ho) as [_ Ou].
      assert (Fu : In u (files s2)) by (rewrite (iv_files _ _ _ HI2); eapply opened_In; [eapply iv_legal; eauto|congruence]).
      destruct (U u Fu) as [X Y]. rewrite Ou in *. split; auto. intros C. apply Y. apply Q4; auto.
    - intros U u Fu. rewrite (iv_files _ _ _ HI2) in Fu. apply (opened_In _ _ (iv_legal _ _ _ HI2)) in Fu.
      destruct (opened (log s2) u) as [[[h' ty'] w']|] eqn:Ho; [|congruence]. destruct (Q6 _ _ _ _ Ho) as [_ Ou].
      destruct (U u h' ty' w' Ho) as [X Y]. split; rewrite Ou; auto. intros C. apply Y. apply Q4; auto. }
  assert (Hf2 : forall s2, same_but h s0 s2 -> Inv None [] s2 -> length (files s2) = limit s2).
  { intros s2 Sb HI2. rewrite (iv_files _ _ _ HI2), (proj1 Sb), M1, Hlen. destruct Sb as (_ & _ & _ & -> & _). congruence. }
  inversion B as [j s1 A1 A2 A3 A4 A5 A6 E|V s2 s1 s3 A1 A2 A3 A4 A5 A6 A7 A8 A9 E|V s2 s1 A1 A2 A3 A4 A5 A6 A7 A8 E|s2 A1 A2 A3 A4 A5 E|s2 v A1 A2 A3 A4 A5 E]; subst.
  - exfalso. pose proof (iv_avail _ _ _ M0 _ _ _ A1) as Ho. rewrite M1, opened_closes in Ho.
    assert (Hj : In (j, ty) (avail (hs s h))).
    { destruct (mode_spec None s h w HI) as (s0' & X1 & X2 & X3 & X4 & X5 & X6 & X7 & X8 & X9 & X10); try (intros ->; exact Rd).
      rewrite M in X1. inversion X1; subst s0'. rewrite X9 in A1. destruct (Bool.eqb (readonly (hs s h)) w); [destruct A1|auto]. }
    rewrite (proj2 (mem_In j (mode_change s h w)) (Hno j Hj)) in Ho. discriminate.
  - split; [discriminate|]. intros U. exfalso. pose proof (proj2 (Hback s2 A2 A3) U) as U2. destruct A4 as [(_ & -> & Hlt)|(v & _ & _ & _ & (V1 & V2 & V3 & _))].
    + rewrite (Hf2 s2 A2 A3) in Hlt. lia.
    + destruct (U2 v V1). auto.
  - exfalso. destruct A5 as [|A5]; [discriminate|]. apply Hi.
    assert (Hx : In i (files s2)).
    { destruct A4 as [(_ & -> & _)|(v & _ & -> & _)]; auto. rewrite files_evicted in A5. apply remove_In in A5. tauto. }
    rewrite (iv_files _ _ _ A3), (proj1 A2), M1 in Hx.
    assert (HL : legal (limit s) (log s ++ map EClose (mode_change s h w))) by (rewrite <- M1, <- M4; apply (iv_legal _ _ _ M0)).
    apply (opened_In _ _ HL) in Hx. rewrite opened_closes in Hx. destruct (mem i (mode_change s h w)); [congruence|].
    apply (opened_In _ _ (iv_legal _ _ _ HI)). auto.
  - split; [|auto]. intros _. apply (proj1 (Hback s' A2 A3)). auto.
  - split; [discriminate|]. intros U. exfalso. pose proof (proj2 (Hback s' A2 A3) U) as U2. destruct A5 as (V1 & V2 & _). destruct (U2 v V1). auto.
Qed.

(** ** Accessors *)

Lemma step_accs : forall lim s o r s', reachable lim s -> step s o = (r, s') ->
  next_key s <= next_key s'
  /\ forall a, In a (accs s) ->
     (In a (accs s') /\ exists evs, log s' = log s ++ evs /\ ~ In (EClose (a_fid a)) evs)
     \/ (o = Release (a_key a) /\ ~ In a (accs s') /\ log s' = log s).
Proof.
  intros lim s o r s' HR H. pose proof (proj1 (reachable_inv _ _ HR)) as HI.
  pose proof (reach_step _ _ _ _ _ HR H) as HR'. pose proof (proj1 (reachable_inv _ _ HR')) as HI'.
  assert (Hcl : forall C s1 a, Inv None [] s1 -> In a (accs s1) -> log s1 = log s ++ map EClose C -> ~ In (a_fid a) C).
  { intros C s1 a HI1 Ha El Hc. destruct (iv_accs _ _ _ HI1 a Ha) as (A & _). rewrite El, opened_closes in A.
    rewrite (proj2 (mem_In _ _) Hc) in A. discriminate. }
  assert (Hmc : forall v C, In (EClose v) (map EClose C) -> In v C).
  { intros v C HC. apply in_map_iff in HC as (x & E & Hx). congruence. }
  destruct o as [h ty w tr i ok|k| |h].
  - destruct (get_inv _ _ _ _ _ _ _ _ _ _ HR H) as [(Rd & -> & s0 & M & B)|[(_ & _ & _ & ->)|(_ & _ & ->)]].
    + destruct (mode_fields _ _ _ _ HI Rd M) as (M0 & M1 & M2 & M3 & M4 & M5 & M6).
      inversion B as [j s1 A1 A2 A3 A4 A5 A6 E|V s2 s1 s3 A1 A2 A3 A4 A5 A6 A7 A8 A9 E|V s2 s1 A1 A2 A3 A4 A5 A6 A7 A8 E|s2 A1 A2 A3 A4 A5 E|s2 v A1 A2 A3 A4 A5 E]; subst.
      * split.
        { pose proof (iv_keys _ _ _ HI' (mkA (next_key s0) h j ty w)) as K. rewrite A5 in K. specialize (K ltac:(left; auto)). cbn in K. lia. }
        intros a Ha. left. split; [rewrite A5; right; rewrite M2; auto|]. rewrite <- M2 in Ha.
        exists (map EClose (mode_change s h w) ++ [EUse j]). rewrite A3, M1, <- app_assoc. split; auto.
        intros C. apply in_app_iff in C as [C|[C|[]]]; [|discriminate]. apply Hmc in C. eapply (Hcl _ s0); eauto.
      * split.
        { pose proof (iv_keys _ _ _ HI' (mkA (next_key s0) h i ty w)) as K. rewrite A9 in K. specialize (K ltac:(left; auto)). cbn in K. lia. }
        intros a Ha. left. split; [rewrite A9; right; rewrite M2; auto|].
        exists (map EClose (mode_change s h w) ++ map EClose V ++ [EOpen i h ty w; EUse i]). rewrite A8, M1, <- app_assoc. split; auto.
        intros C. rewrite app_assoc, <- map_app in C. apply in_app_iff in C as [C|[C|[C|[]]]]; try discriminate. apply Hmc in C.
        destruct A2 as (S1 & S2 & _). destruct (room_fields _ _ _ _ A4) as (R1 & R2 & _).
        apply (Hcl (mode_change s h w ++ V) s1 a); auto.
        -- destruct A4 as [(_ & -> & _)|(v & _ & -> & _ & (V1 & V2 & V3 & _))]; auto.
           destruct (handler_close_spec None s2 (owner s2 v) v A3) as [(X & Y & Z)|(X & Y)]; [exact Z|]. exfalso. apply X. exact V3.
        -- congruence.
        -- rewrite R1, S1, M1, map_app, <- app_assoc. auto.
      * split; [destruct (room_fields _ _ _ _ A4) as (_ & _ & _ & K & _); destruct A2 as (_ & _ & _ & _ & K2 & _); lia|].
        intros a Ha. left. split; [congruence|]. exists (map EClose (mode_change s h w ++ V)). rewrite A7, M1, map_app, <- app_assoc. split; auto.
        rewrite <- map_app. intros C. apply Hmc in C. eapply (Hcl _ s'); eauto; [congruence|]. rewrite map_app, A7, M1, <- app_assoc. auto.
      * destruct A2 as (S1 & S2 & _ & _ & K2 & _). split; [lia|]. intros a Ha. left. split; [congruence|].
        exists (map EClose (mode_change s h w)). rewrite S1, M1. split; auto. intros C. apply Hmc in C. eapply (Hcl _ s0); eauto. congruence.
      * destruct A2 as (S1 & S2 & _ & _ & K2 & _). split; [lia|]. intros a Ha. left. split; [congruence|].
        exists (map EClose (mode_change s h w)). rewrite S1, M1. split; auto. intros C. apply Hmc in C. eapply (Hcl _ s0); eauto. congruence.
    + split; auto. intros a Ha. left. split; auto. exists []. rewrite app_nil_r. auto.
    + split; auto. intros a Ha. left. split; auto. exists []. rewrite app_nil_r. auto.
  - unfold step in H. cbn [call] in H. unfold release in H. destruct (find (fun a => a_key a =? k) (accs s)) as [a|] eqn:E.
    + apply find_some in E as [E1 E2]. apply Nat.eqb_eq in E2. subst k. inversion H; subst. fold (released a s) in *. split; [cbn; auto|].
      intros b Hb. destruct (Nat.eq_dec (a_key b) (a_key a)) as [Ek|Ek].
      * right. split; [congruence|]. split; [|reflexivity]. intros C. apply (in_released _ _ _ _ _ HI E1) in C as [_ C]. apply C.
        eapply (nodup_map_unique a_key); eauto. eapply iv_keynd; eauto.
      * left. split; [apply (in_released _ _ _ _ _ HI E1); split; auto; congruence|]. exists []. rewrite app_nil_r. auto.
    + inversion H; subst. split; auto. intros a Ha. left. split; auto. exists []. rewrite app_nil_r. auto.
  - unfold step in H. cbn [call] in H. unfold close_all in H. unfold seq at 1 in H. destruct (close_all_inv None (files s) s HI) as (s1 & A & B & C & (L & D)).
    rewrite A in H. inversion H; subst. split.
    + assert (Hk : forall ids s, next_key (snd (fold_right (fun i a => seq (fun s1 => snd (handler_close (owner s1 i) i s1)) a) skip ids s)) = next_key s).
      { clear. induction ids as [|i ids IH]; intros s; [reflexivity|]. cbn [fold_right]. unfold seq at 1. unfold handler_close at 1.
        destruct (mem i (map fst (avail (hs s (owner s i))))); cbn [snd].
        - unfold seq at 1, close_file. destruct (mem i (sorted s)); cbn; [|auto]. rewrite IH. reflexivity.
        - apply IH. }
      specialize (Hk (files s) s). rewrite A in Hk. cbn in Hk. lia.
    + intros a Ha. left. split; [congruence|]. exists (map EClose L). split; auto. intros X. apply Hmc in X. eapply (Hcl _ s'); eauto. congruence.
  - unfold step in H. cbn [call] in H. unfold drop_handler in H. destruct (negb (length (live h s) =? 0)).
    + inversion H; subst. split; auto. intros a Ha. left. split; auto. exists []. rewrite app_nil_r. auto.
    + unfold seq at 1 in H. destruct (close_avail_spec None s h HI) as (s1 & A & B & C & D & _ & _ & K & _). rewrite A in H. inversion H; subst.
      split; [lia|]. intros a Ha. left. split; [congruence|]. eexists. split; [exact C|]. intros X. apply Hmc in X. eapply (Hcl _ s'); eauto. congruence.
Qed.

Lemma step_new_accs : forall lim s o r s' a, reachable lim s -> step s o = (r, s') -> In a (accs s') -> ~ In a (accs s) -> r = RAcc a /\ a_key a = next_key s.
Proof.
  intros lim s o r s' a HR H Ha Hn. pose proof (proj1 (reachable_inv _ _ HR)) as HI.
  destruct o as [h ty w tr i ok|k| |h].
  - destruct (get_inv _ _ _ _ _ _ _ _ _ _ HR H) as [(Rd & -> & s0 & M & B)|[(_ & _ & _ & ->)|(_ & _ & ->)]]; [|tauto|tauto].
    destruct (mode_fields _ _ _ _ HI Rd M) as (M0 & M1 & M2 & M3 & M4 & M5 & M6).
    inversion B as [j s1 A1 A2 A3 A4 A5 A6 E|V s2 s1 s3 A1 A2 A3 A4 A5 A6 A7 A8 A9 E|V s2 s1 A1 A2 A3 A4 A5 A6 A7 A8 E|s2 A1 A2 A3 A4 A5 E|s2 v A1 A2 A3 A4 A5 E]; subst.
    + rewrite A5 in Ha. destruct Ha as [<-|Ha]; [auto|]. exfalso. apply Hn. congruence.
    + rewrite A9 in Ha. destruct Ha as [<-|Ha]; [auto|]. exfalso. apply Hn. congruence.
    + exfalso. apply Hn. congruence.
    + exfalso. apply Hn. destruct A2 as (_ & S2 & _). congruence.
    + exfalso. apply Hn. destruct A2 as (_ & S2 & _). congruence.
  - exfalso. apply Hn. unfold step in H. cbn [call] in H. unfold release in H. destruct (find (fun a => a_key a =? k) (accs s)) as [b|]; inversion H; subst; auto.
    cbn in Ha. apply filter_In in Ha. tauto.
  - exfalso. apply Hn. unfold step in H. cbn [call] in H. unfold close_all in H. unfold seq at 1 in H. destruct (close_all_inv None (files s) s HI) as (s1 & A & B & C & (L & D)).
    rewrite A in H. inversion H; subst. congruence.
  - exfalso. apply Hn. unfold step in H. cbn [call] in H. unfold drop_handler in H. destruct (negb (length (live h s) =? 0)); [inversion H; subst; auto|].
    unfold seq at 1 in H. destruct (close_avail_spec None s h HI) as (s1 & A & B & C & D & _). rewrite A in H. inversion H; subst. congruence.
Qed.

Lemma gone_stays_gone : forall lim ops s rs s' a, reachable lim s -> run s ops = (rs, s') -> ~ In a (accs s) -> a_key a < next_key s -> ~ In a (accs s').
Proof.
  intros lim ops. induction ops as [|o ops IH]; intros s rs s' a HR H Hn Hk; cbn in H; [inversion H; subst; auto|].
  destruct (step s o) as [x s1] eqn:E. destruct (run s1 ops) as [xs s2] eqn:E2. inversion H; subst.
  eapply IH; [eapply reach_step; eauto|eauto| |].
  - intros C. destruct (step_new_accs _ _ _ _ _ _ HR E C Hn) as [_ X]. lia.
  - destruct (step_accs _ _ _ _ _ HR E) as [X _]. lia.
Qed.

Lemma held_not_closed : forall lim ops s rs s' a, reachable lim s -> run s ops = (rs, s') -> In a (accs s) -> In a (accs s') ->
  exists evs, log s' = log s ++ evs /\ ~ In (EClose (a_fid a)) evs.
Proof.
  intros lim ops. induction ops as [|o ops IH]; intros s rs s' a HR H Ha Ha'; cbn in H.
  - inversion H; subst. exists []. rewrite app_nil_r. auto.
  - destruct (step s o) as [x s1] eqn:E. destruct (run s1 ops) as [xs s2] eqn:E2. inversion H; subst.
    pose proof (proj1 (reachable_inv _ _ HR)) as HI.
    destruct (step_accs _ _ _ _ _ HR E) as [K X]. destruct (X a Ha) as [(A & evs & B & C)|(A & B & C)].
    + destruct (IH s1 xs s' a (reach_step _ _ _ _ _ HR E) E2 A Ha') as (evs2 & D & F). exists (evs ++ evs2). rewrite D, B, <- app_assoc. split; auto.
      intros Y. apply in_app_iff in Y as [Y|Y]; auto.
    + exfalso. eapply (gone_stays_gone lim ops s1); eauto; [eapply reach_step; eauto|]. pose proof (iv_keys _ _ _ HI a Ha). lia.
Qed.

Lemma returned_reused : forall lim s a r s1 i ok r2 s2, reachable lim s -> In a (accs s) ->
  step s (Release (a_key a)) = (r, s1) -> step s1 (Get (a_handler a) (a_type a) (a_write a) false i ok) = (r2, s2) ->
  r = RDone /\ idle s1 (a_fid a) (a_handler a) /\
  exists j, r2 = RAcc (mkA (next_key s) (a_handler a) j (a_type a) (a_write a)) /\ log s2 = log s ++ [EUse j]
    /\ (a_write a = true -> j = a_fid a).
Proof.
  intros lim s a r s1 i ok r2 s2 HR Ha H H2. pose proof (proj1 (reachable_inv _ _ HR)) as HI.
  pose proof (reach_step _ _ _ _ _ HR H) as HR1. pose proof (proj1 (reachable_inv _ _ HR1)) as HI1.
  unfold step in H. cbn [call] in H. unfold release in H.
  destruct (find (fun a0 => a_key a0 =? a_key a) (accs s)) as [b|] eqn:E.
  2:{ exfalso. eapply find_none in E; eauto. cbn in E. rewrite Nat.eqb_refl in E. discriminate. }
  apply find_some in E as [E1 E2]. apply Nat.eqb_eq in E2.
  assert (b = a) as -> by (eapply (nodup_map_unique a_key); eauto; eapply iv_keynd; eauto).
  inversion H; subst r s1. fold (released a s) in *. clear H.
  destruct (iv_accs _ _ _ HI a Ha) as (A1 & A2 & A3).
  assert (Hav : avail (hs (released a s) (a_handler a)) = insert (a_fid a, a_type a) (avail (hs s (a_handler a)))).
  { cbn. unfold upd. rewrite Nat.eqb_refl. reflexivity. }
  assert (Hro : readonly (hs (released a s) (a_handler a)) = negb (a_write a)).
  { cbn. unfold upd. rewrite Nat.eqb_refl. cbn. auto. }
  assert (Hin : In (a_fid a, a_type a) (avail (hs (released a s) (a_handler a)))) by (rewrite Hav; apply insert_In; auto).
  split; [auto|]. split; [apply in_fst; eauto|].
  assert (Rd : get_ready (released a s) (a_handler a) (a_write a)).
  { unfold get_ready. destruct (a_write a) eqn:Ew.
    - intros b Hb Eh. apply (in_released _ _ _ _ _ HI Ha) in Hb as [Hb Hn]. apply Hn. exact (iv_lock _ _ _ HI a b Ha Ew Hb Eh).
    - intros b Hb Eh. apply (in_released _ _ _ _ _ HI Ha) in Hb as [Hb Hn]. destruct (a_write b) eqn:Eb; auto.
      exfalso. apply Hn. symmetry. exact (iv_lock _ _ _ HI b a Hb Eb Ha (eq_sym Eh)). }
  assert (Hmc : mode_stmt (a_handler a) (a_write a) (released a s) = (None, released a s)).
  { unfold mode_stmt. rewrite Hro. destruct (a_write a); reflexivity. }
  destruct (get_inv _ _ _ _ _ _ _ _ _ _ HR1 H2) as [(_ & _ & s0 & M & B)|[(_ & C & _)|(C & _)]]; [|discriminate|tauto].
  rewrite Hmc in M. inversion M; subst s0. clear M.
  inversion B as [j s1 B1 B2 B3 B4 B5 B6 E|V s3 s1 s4 B1 B2 B3 B4 B5 B6 B7 B8 B9 E|V s3 s1 B1 B2 B3 B4 B5 B6 B7 B8 E|s3 B1 B2 B3 B4 B5 E|s3 v B1 B2 B3 B4 B5 E];
    try (exfalso; eapply B1; eauto; fail).
  subst. exists j. split; [reflexivity|]. split; [auto|]. intros Ew.
  destruct (iv_write _ _ _ HI (a_handler a)) as [_ W]; [rewrite A2, Ew; auto|]. rewrite Hav, W in B1 by eauto. cbn in B1. destruct B1 as [B1|[]]. congruence.
Qed.

Lemma exclusive : forall lim s h, reachable lim s -> length (writers h s) = 0 \/ (length (writers h s) = 1 /\ length (live h s) = 1).
Proof.
  intros lim s h HR. pose proof (proj1 (reachable_inv _ _ HR)) as HI.
  destruct (writers h s) as [|a l] eqn:E; [left; auto|right].
  assert (Ha : In a (writers h s)) by (rewrite E; left; auto). unfold writers in Ha. apply filter_In in Ha as [Ha Hw].
  assert (Hall : forall b, In b (live h s) -> b = a).
  { intros b Hb. unfold live in *. apply filter_In in Ha as [Ha Eh]. apply filter_In in Hb as [Hb Eh2]. apply Nat.eqb_eq in Eh. apply Nat.eqb_eq in Eh2.
    eapply iv_lock; eauto. congruence. }
  assert (Hnd : NoDup (live h s)).
  { unfold live. apply NoDup_filter. apply NoDup_map_inv with (f := a_key). eapply iv_keynd; eauto. }
  assert (HL : live h s = [a]).
  { destruct (live h s) as [|x [|y m]]; [destruct Ha| |].
    - f_equal. apply Hall. left; auto.
    - exfalso. inversion Hnd; subst. apply H1. rewrite (Hall x), (Hall y); [left; auto|right; left; auto|left; auto]. }
  unfold writers in E. rewrite HL in *. cbn in E. rewrite Hw in E. inversion E; subst. auto.
Qed.

(** ** No lost descriptors *)

Lemma typed_full : forall lim t ops rs s, Forall (typed t) ops -> run (new_pool lim) ops = (rs, s) ->
  forall i h ty w, opened (log s) i = Some (h, ty, w) -> idle s i h \/ held s i.
Proof.
  intros lim t ops rs s Hty H i h ty w Ho.
  assert (HI : Inv (Some t) [] s).
  { eapply run_inv; [apply inv_new| |exact H]. intros t' E. inversion E; subst; auto. }
  destruct (iv_full _ _ _ HI) as [_ F]. destruct (F _ _ _ _ Ho) as [|[|[]]]; auto.
Qed.

Lemma close_all_typed : forall t ids s, Inv (Some t) [] s -> accs s = [] -> 
  exists s1, fold_right (fun i a => seq (fun s1 => snd (handler_close (owner s1 i) i s1)) a) skip ids s = (None, s1)
    /\ Inv (Some t) [] s1 /\ accs s1 = [] /\ (forall j, In j (files s1) -> In j (files s) /\ ~ In j ids).
Proof.
  intros t ids. induction ids as [|i ids IH]; intros s HI Ea; cbn [fold_right].
  - exists s. split; [reflexivity|]. auto.
  - unfold seq at 1. destruct (handler_close_spec (Some t) s (owner s i) i HI) as [(A & B & C)|(A & B)]; rewrite B; cbn [snd].
    + destruct (IH _ C Ea) as (s1 & D & E & F & G). exists s1. split; auto. split; auto. split; auto.
      intros j Hj. destruct (G j Hj) as [X Y]. change (In j (remove i (files s))) in X. apply remove_In in X as [X Z]. split; auto. intros [->|]; auto.
    + destruct (IH _ HI Ea) as (s1 & D & E & F & G). exists s1. split; auto. split; auto. split; auto.
      intros j Hj. destruct (G j Hj) as [X Y]. split; auto. intros [<-|]; auto.
      destruct (iv_full _ _ _ HI) as [_ Fu]. rewrite (iv_files _ _ _ HI) in X. apply (opened_In _ _ (iv_legal _ _ _ HI)) in X.
      destruct (opened (log s) i) as [[[h ty] w]|] eqn:Eo; [|congruence]. destruct (Fu _ _ _ _ Eo) as [Q|[(a & Ha & _)|[]]].
      * apply A. rewrite (iv_owner _ _ _ HI _ _ _ _ Eo). auto.
      * rewrite Ea in Ha. destruct Ha.
Qed.
Lemma close_all_closes : forall lim t ops rs s r s', Forall (typed t) ops -> run (new_pool lim) ops = (rs, s) -> accs s = [] ->
  step s CloseAll = (r, s') -> open_ids (log s') = [].
Proof.
  intros lim t ops rs s r s' Hty H Ea Hs.
  assert (HI : Inv (Some t) [] s).
  { eapply run_inv; [apply inv_new| |exact H]. intros t' E. inversion E; subst; auto. }
  unfold step in Hs. cbn [call] in Hs. unfold close_all in Hs. unfold seq at 1 in Hs.
  destruct (close_all_typed t (files s) s HI Ea) as (s1 & A & B & C & D). rewrite A in Hs. inversion Hs; subst.
  rewrite <- (iv_files _ _ _ B). destruct (files s') as [|j l]; auto. exfalso. destruct (D j); auto; left; auto.
Qed.

Lemma no_ub : forall lim s o s', reachable lim s -> step s o = (RUB, s') ->
  (exists k, o = Release k /\ forall a, In a (accs s) -> a_key a <> k) \/ (exists h a, o = DropHandler h /\ In a (accs s) /\ a_handler a = h).
Proof.
  intros lim s o s' HR H. pose proof (proj1 (reachable_inv _ _ HR)) as HI. destruct o as [h ty w tr i ok|k| |h].
  - exfalso. destruct (get_inv _ _ _ _ _ _ _ _ _ _ HR H) as [(Rd & -> & s0 & M & B)|[(_ & _ & C & ->)|(_ & C & ->)]]; [inversion B|discriminate|destruct tr; discriminate].
  - left. exists k. split; auto. intros a Ha E. unfold step in H. cbn [call] in H. unfold release in H.
    destruct (find (fun a0 => a_key a0 =? k) (accs s)) eqn:Ef; [discriminate|]. eapply find_none in Ef; eauto. cbn in Ef. rewrite E, Nat.eqb_refl in Ef. discriminate.
  - exfalso. unfold step in H. cbn [call] in H. unfold close_all in H. unfold seq at 1 in H. destruct (close_all_inv None (files s) s HI) as (s1 & A & B & C & (L & D)).
    rewrite A in H. inversion H.
  - right. unfold step in H. cbn [call] in H. unfold drop_handler in H. destruct (length (live h s) =? 0) eqn:E; cbn [negb] in H.
    + exfalso. unfold seq at 1 in H. destruct (close_avail_spec None s h HI) as (s1 & A & _). rewrite A in H. inversion H.
    + exists h. destruct (live h s) as [|a l] eqn:El; [discriminate|]. exists a. split; auto.
      assert (Ha : In a (live h s)) by (rewrite El; left; auto). unfold live in Ha. apply filter_In in Ha as [Ha Eh]. apply Nat.eqb_eq in Eh. auto.
Qed.

(** ** Registry *)

Definition rinv (s : registry) : Prop :=
  (forall h p, In (h, p) (r_live s) \/ In (h, p) (r_dead s) -> h < r_next s)
  /\ NoDup (map fst (r_live s))
  /\ (forall p h, r_map s p = Some h -> h < r_next s /\ forall q, In (h, q) (r_live s) \/ In (h, q) (r_dead s) -> q = p).

Lemma upd_same : forall {A} (f : nat -> A) i a, upd f i a i = a.
Proof. intros. unfold upd. rewrite Nat.eqb_refl. auto. Qed.
Lemma existsb_live : forall h l, existsb (fun x : hid * nat => fst x =? h) l = true <-> exists p, In (h, p) l.
Proof.
  intros h l. rewrite existsb_exists. split.
  - intros ([h' p] & H & E). cbn in E. apply Nat.eqb_eq in E. subst. eauto.
  - intros (p & H). exists (h, p). cbn. rewrite Nat.eqb_refl. auto.
Qed.
Lemma rinv_new : forall s p, rinv s -> rinv (mkR (upd (r_map s) p (Some (r_next s))) ((r_next s, p) :: r_live s) (r_dead s) (S (r_next s))).
Proof.
  intros s p (A & B & C). split; [|split]; cbn.
  - intros h q [[E|H]|H]; [inversion E; lia| |]; assert (h < r_next s) by eauto; lia.
  - constructor; auto. intros H. apply in_map_iff in H as ([h q] & E & H). cbn in E. subst. assert (r_next s < r_next s) by eauto. lia.
  - intros q h. unfold upd. destruct (Nat.eqb_spec q p) as [->|Hn]; intros E.
    + inversion E; subst. split; [lia|]. intros q [[F|F]|F]; [congruence| |]; assert (r_next s < r_next s) by eauto; lia.
    + destruct (C _ _ E) as [D F]. split; [lia|]. intros q' [[G|G]|G]; [inversion G; subst; lia| |]; eauto.
Qed.
Lemma rstep_inv : forall s o, rinv s -> rinv (snd (rstep s o)).
Proof.
  intros s o HI. pose proof HI as (A & B & C). destruct o as [p|h|h]; cbn [rstep].
  - destruct (r_map s p) as [h|]; [destruct (existsb (fun x => fst x =? h) (r_live s))|]; cbn [snd]; auto using rinv_new.
  - destruct (find (fun x => fst x =? h) (r_live s)) as [[h' q]|] eqn:E; cbn [snd]; auto. apply find_some in E as [E1 E2]. cbn in E2. apply Nat.eqb_eq in E2. subst h'.
    assert (Hsub : forall x y, In (x, y) (filter (fun y : hid * nat => negb (fst y =? h)) (r_live s)) \/ In (x, y) ((h, q) :: r_dead s) -> In (x, y) (r_live s) \/ In (x, y) (r_dead s)).
    { intros x y [H|[H|H]]; [apply filter_In in H; tauto|inversion H; subst; auto|auto]. }
    split; [|split]; cbn [r_live r_dead r_next r_map].
    + intros x y H. apply Hsub in H. eauto.
    + apply NoDup_map_filter; auto.
    + intros p x H. destruct (C p x H) as [D F]. split; auto.
  - destruct (find (fun x => fst x =? h) (r_dead s)) as [[h' q]|] eqn:E; cbn [snd]; auto.
    assert (Hsub : forall x y, In (x, y) (r_live s) \/ In (x, y) (filter (fun y : hid * nat => negb (fst y =? h)) (r_dead s)) -> In (x, y) (r_live s) \/ In (x, y) (r_dead s)).
    { intros x y [H|H]; [auto|apply filter_In in H; tauto]. }
    split; [|split]; cbn [r_live r_dead r_next r_map].
    + intros x y H. apply Hsub in H. eauto.
    + auto.
    + intros p x. unfold upd. destruct (p =? _); [discriminate|]. intros H. destruct (C p x H) as [D F]. split; auto.
Qed.
Lemma rrun_inv : forall ops s, rinv s -> rinv (snd (rrun s ops)).
Proof.
  induction ops as [|o ops IH]; intros s HI; cbn; auto. pose proof (rstep_inv s o HI) as H. destruct (rstep s o) as [x s1]. cbn in H.
  specialize (IH s1 H). destruct (rrun s1 ops). auto.
Qed.
Lemma rinv_init : rinv new_registry.
Proof. split; [|split]; cbn; [tauto|constructor|discriminate]. Qed.

Lemma rget_right_path : forall ops s rs p h s', rrun new_registry ops = (rs, s) -> rstep s (RGet p) = (Some h, s') ->
  In (h, p) (r_live s') /\ forall q, In (h, q) (r_live s') -> q = p.
Proof.
  intros ops s rs p h s' H Hs. pose proof (rrun_inv ops _ rinv_init) as HI. rewrite H in HI. cbn in HI. destruct HI as (A & B & C).
  assert (Hfresh : forall q, In (r_next s, q) ((r_next s, p) :: r_live s) -> q = p).
  { intros q [E|E]; [congruence|]. assert (r_next s < r_next s) by eauto. lia. }
  cbn [rstep] in Hs. destruct (r_map s p) as [h'|] eqn:E.
  - destruct (existsb (fun x => fst x =? h') (r_live s)) eqn:Ex.
    + inversion Hs; subst. apply existsb_live in Ex as [q Hq]. destruct (C _ _ E) as [_ F]. assert (q = p) by eauto. subst. split; auto.
    + inversion Hs; subst. cbn. split; [left; auto|]. auto.
  - inversion Hs; subst. cbn. split; [left; auto|]. auto.
Qed.

Definition ainv (s : registry) : Prop :=
  rinv s /\ r_dead s = [] /\ (forall h p, In (h, p) (r_live s) -> r_map s p = Some h).
Lemma ainv_step : forall s o, ainv s -> ainv (snd (rrun s (expand o))).
Proof.
  intros s o (HI & D & L). pose proof HI as (A & B & C). split; [apply rrun_inv; auto|].
  destruct o as [p|h]; cbn [expand rrun].
  - cbn [rstep]. 
    assert (Hnew : (forall h, r_map s p = Some h -> existsb (fun x => fst x =? h) (r_live s) = false) ->
      forall h q, In (h, q) ((r_next s, p) :: r_live s) -> upd (r_map s) p (Some (r_next s)) q = Some h).
    { intros Hno h q [E|E]; [inversion E; subst; apply upd_same|]. unfold upd. destruct (Nat.eqb_spec q p) as [->|]; auto.
      pose proof (L _ _ E) as M. assert (X : existsb (fun x : hid * nat => fst x =? h) (r_live s) = true) by (apply existsb_live; eauto).
      pose proof (eq_trans (eq_sym X) (Hno h M)). discriminate. }
    destruct (r_map s p) as [h|] eqn:E; [destruct (existsb (fun x => fst x =? h) (r_live s)) eqn:Ex|]; cbn [snd r_dead r_live r_map].
    + auto.
    + split; auto. apply Hnew. intros h' Eh. inversion Eh; subst; auto.
    + split; auto. apply Hnew. discriminate.
  - cbn [rstep]. destruct (find (fun x => fst x =? h) (r_live s)) as [[h' q]|] eqn:E.
    + apply find_some in E as [E1 E2]. cbn in E2. apply Nat.eqb_eq in E2. subst h'. rewrite D. cbn. rewrite Nat.eqb_refl. cbn.
      split; auto. intros x y H. apply filter_In in H as [H Hn]. cbn in Hn. apply negb_true_iff, Nat.eqb_neq in Hn.
      unfold upd. destruct (Nat.eqb_spec y q) as [->|]; auto. exfalso. apply Hn. pose proof (L _ _ H). pose proof (L _ _ E1). congruence.
    + rewrite D. cbn. auto.
Qed.
Lemma rrun_app : forall a b s, snd (rrun s (a ++ b)) = snd (rrun (snd (rrun s a)) b).
Proof.
  induction a as [|o a IH]; intros b s; cbn; auto. destruct (rstep s o) as [x s1]. specialize (IH b s1).
  destruct (rrun s1 (a ++ b)), (rrun s1 a). auto.
Qed.
Lemma ainv_run : forall ops s, ainv s -> ainv (snd (rrun s (flat_map expand ops))).
Proof.
  induction ops as [|o ops IH]; intros s HI; cbn [flat_map]; auto. rewrite rrun_app. apply IH. apply ainv_step. auto.
Qed.
Lemma aget_same : forall ops s rs p h, rrun new_registry (flat_map expand ops) = (rs, s) -> In (h, p) (r_live s) -> rstep s (RGet p) = (Some h, s).
Proof.
  intros ops s rs p h H Hin. assert (HA : ainv s).
  { assert (X : ainv new_registry) by (split; [apply rinv_init|split; cbn; auto; tauto]). apply (ainv_run ops) in X. rewrite H in X. auto. }
  destruct HA as (_ & _ & L). cbn [rstep]. rewrite (L _ _ Hin).
  assert (X : existsb (fun x : hid * nat => fst x =? h) (r_live s) = true) by (apply existsb_live; eauto).
  destruct (existsb (fun x => fst x =? h) (r_live s)) eqn:Y; auto. pose proof (eq_trans (eq_sym X) Y). discriminate.
Qed.

(** ** Threads *)

Fixpoint passed (n : nat) (f : nat -> bool) : nat := match n with 0 => 0 | S m => (if f m then 1 else 0) + passed m f end.
Lemma passed_upd : forall n f i b, i < n -> passed n (upd f i b) + (if f i then 1 else 0) = passed n f + (if b then 1 else 0).
Proof.
  induction n as [|n IH]; intros f i b Hi; [lia|]. cbn [passed]. unfold upd at 1. destruct (Nat.eqb_spec n i) as [->|Hn].
  - assert (E : passed i (upd f i b) = passed i f).
    { assert (G : forall m, m <= i -> passed m (upd f i b) = passed m f).
      { induction m as [|m IHm]; intros Hm; auto. cbn [passed]. rewrite IHm by lia. unfold upd. destruct (Nat.eqb_spec m i); [lia|auto]. }
      apply G. auto. }
    rewrite E. destruct (f i), b; lia.
  - specialize (IH f i b ltac:(lia)). lia.
Qed.
Lemma passed_le : forall n f, passed n f <= n.
Proof. induction n as [|n IH]; intros f; cbn; auto. specialize (IH f). destruct (f n); lia. Qed.

Lemma thread_bound : forall lim n l s, 1 <= n -> trun lim n (mkT 0 (fun _ => false)) l = Some s -> t_size s <= lim + (n - 1).
Proof.
  intros lim n l s Hn H.
  assert (G : forall l s s', t_size s + passed n (t_passed s) <= lim + (n - 1) -> trun lim n s l = Some s' -> t_size s' + passed n (t_passed s') <= lim + (n - 1)).
  { clear l s H. induction l as [|o l IH]; intros s s' Hs H; cbn in H; [inversion H; subst; auto|].
    destruct (tstep lim n s o) as [s1|] eqn:E; [|discriminate]. eapply IH; [|exact H]. destruct o as [i|i]; unfold tstep in E.
    - destruct (Nat.ltb_spec i n) as [E1|]; [|discriminate]. destruct (t_passed s i) eqn:E2; [discriminate|].
      destruct (Nat.ltb_spec (t_size s) lim) as [E3|]; [|discriminate].
      cbn [andb negb] in E. inversion E; subst. cbn [t_size t_passed].
      pose proof (passed_upd n (t_passed s) i true E1) as P. rewrite E2 in P. pose proof (passed_le n (upd (t_passed s) i true)). lia.
    - destruct (Nat.ltb_spec i n) as [E1|]; [|discriminate]. destruct (t_passed s i) eqn:E2; [|discriminate].
      cbn [andb negb] in E. inversion E; subst. cbn [t_size t_passed].
      pose proof (passed_upd n (t_passed s) i false E1) as P. rewrite E2 in P. lia. }
  specialize (G l (mkT 0 (fun _ => false)) s). cbn [t_size t_passed] in G.
  assert (E : passed n (fun _ => false) = 0) by (clear; induction n; cbn; auto). rewrite E in G. specialize (G ltac:(lia) H). lia.
Qed.
