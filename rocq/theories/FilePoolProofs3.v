From Coq Require Import List Arith Bool Lia Sorted Permutation.
From Verif Require Import FilePoolModel FilePoolSpec FilePoolProofs FilePoolProofs2.
Import ListNotations.
Local Arguments opened : simpl never.
Local Arguments open_ids : simpl never.
Local Arguments lru : simpl never.
Local Arguments last_use : simpl never.

(** * Eviction *)

Definition evicted (v : fid) (s : pool) : pool :=
  set_avail (closed v s) (owner s v) (without v (avail (hs s (owner s v)))).
Definition untouchable (s : pool) (h : hid) (u : fid) : Prop := owner s u <> h /\ ~ idle s u (owner s u).

Lemma evict_spec : forall t s h ids, Inv t [] s -> (forall i, In i ids -> In i (files s)) ->
  (exists pre v post, ids = pre ++ v :: post /\ (forall u, In u pre -> untouchable s h u) /\ owner s v <> h /\ idle s v (owner s v)
     /\ evict h ids s = (true, (None, evicted v s)) /\ Inv t [] (evicted v s))
  \/ (exists pre v post, ids = pre ++ v :: post /\ (forall u, In u pre -> untouchable s h u) /\ owner s v = h
     /\ evict h ids s = (false, (Some RDeadlock, s)))
  \/ ((forall u, In u ids -> untouchable s h u) /\ evict h ids s = (false, (None, s))).
Proof.
  intros t s h ids HI. induction ids as [|i ids IH]; intros Hin.
  - right; right. split; [intros u []|reflexivity].
  - cbn [evict]. rewrite (proj2 (mem_In i (files s))) by (apply Hin; left; auto). cbn [negb].
    destruct (Nat.eqb_spec (owner s i) h) as [E|E].
    + right; left. exists [], i, ids. split; [reflexivity|]. split; [intros u []|]. auto.
    + destruct (handler_close_spec t s (owner s i) i HI) as [(A & B & C)|(A & B)]; rewrite B.
      * left. exists [], i, ids. split; [reflexivity|]. split; [intros u []|]. split; [auto|split; [auto|split; auto]].
      * destruct IH as [(pre & v & post & P1 & P2 & P3 & P4 & P5 & P6)|[(pre & v & post & P1 & P2 & P3 & P4)|(P1 & P2)]].
        -- intros; apply Hin; right; auto.
        -- left. exists (i :: pre), v, post. subst ids. split; [reflexivity|]. split.
           { intros u [<-|Hu]; [split; auto|auto]. }
           auto.
        -- right; left. exists (i :: pre), v, post. subst ids. split; [reflexivity|]. split.
           { intros u [<-|Hu]; [split; auto|auto]. }
           auto.
        -- right; right. split; [|auto]. intros u [<-|Hu]; [split; auto|auto].
Qed.

Definition victim (s : pool) (h : hid) (v : fid) : Prop :=
  In v (files s) /\ owner s v <> h /\ idle s v (owner s v)
  /\ forall u, In u (files s) -> last_use (log s) u < last_use (log s) v -> untouchable s h u.
Definition own_first (s : pool) (h : hid) (v : fid) : Prop :=
  In v (files s) /\ owner s v = h
  /\ forall u, In u (files s) -> last_use (log s) u < last_use (log s) v -> untouchable s h u.
Definition room (s : pool) (h : hid) (V : list fid) (s1 : pool) : Prop :=
  (V = [] /\ s1 = s /\ length (files s) < limit s)
  \/ (exists v, V = [v] /\ s1 = evicted v s /\ length (files s) = limit s /\ victim s h v).

Lemma sorted_files : forall t p s, Inv t p s -> forall i, In i (sorted s) <-> In i (files s).
Proof.
  intros t p s HI i. rewrite (iv_sorted _ _ _ HI), (iv_files _ _ _ HI). eapply lru_In. eapply iv_legal; eauto.
Qed.
Lemma sorted_before : forall t p s pre v post, Inv t p s -> sorted s = pre ++ v :: post ->
  forall u, In u (files s) -> last_use (log s) u < last_use (log s) v -> In u pre.
Proof.
  intros t p s pre v post HI E u Hu Hlt. apply (sorted_files _ _ _ HI) in Hu. rewrite E in Hu.
  pose proof (lru_sorted _ _ (iv_legal _ _ _ HI)) as HS. rewrite <- (iv_sorted _ _ _ HI), E in HS.
  apply in_app_iff in Hu as [Hu|[->|Hu]]; auto; [lia|]. exfalso.
  clear E HI. induction pre as [|x pre IH]; cbn in HS; inversion HS; subst; [|eauto].
  rewrite Forall_forall in H2. specialize (H2 u Hu). lia.
Qed.
Lemma files_bound : forall t p s, Inv t p s -> length (files s) <= limit s.
Proof. intros t p s HI. rewrite (iv_files _ _ _ HI). apply legal_bound. eapply iv_legal; eauto. Qed.
Lemma files_NoDup : forall t p s, Inv t p s -> NoDup (files s).
Proof. intros t p s HI. rewrite (iv_files _ _ _ HI). eapply legal_NoDup. eapply iv_legal; eauto. Qed.
Lemma files_evicted : forall v s, files (evicted v s) = remove v (files s).
Proof. reflexivity. Qed.

Lemma intent_spec : forall t s h fuel, Inv t [] s ->
  (exists V s1, room s h V s1 /\ Inv t [] s1 /\ length (files s1) < limit s1 /\ intent (S fuel) h s = (None, s1))
  \/ (length (files s) = limit s /\ (forall u, In u (files s) -> untouchable s h u) /\ intent (S fuel) h s = (Some RThrow, s))
  \/ (length (files s) = limit s /\ (exists v, own_first s h v) /\ intent (S fuel) h s = (Some RDeadlock, s)).
Proof.
  intros t s h fuel HI. pose proof (files_bound _ _ _ HI) as Hb. cbn [intent].
  destruct (Nat.leb_spec (limit s) (length (files s))) as [Hle|Hlt].
  - assert (El : length (files s) = limit s) by lia.
    destruct (evict_spec t s h (sorted s) HI) as [(pre & v & post & P1 & P2 & P3 & P4 & P5 & P6)|[(pre & v & post & P1 & P2 & P3 & P4)|(P1 & P2)]].
    { intros i. apply (sorted_files _ _ _ HI). }
    + left. exists [v], (evicted v s).
      assert (Hv : In v (files s)) by (apply (sorted_files _ _ _ HI); rewrite P1; apply in_app_iff; right; left; auto).
      assert (Hl : length (files (evicted v s)) < limit (evicted v s)).
      { rewrite files_evicted. rewrite remove_length; auto; [|eapply files_NoDup; eauto].
        change (limit (evicted v s)) with (limit s). rewrite <- El. destruct (files s); [destruct Hv|]. cbn. apply Nat.lt_succ_diag_r. }
      split; [|split; [auto|split; [auto|]]].
      * right. exists v. split; [auto|split; [auto|split; [auto|]]]. split; [auto|split; [auto|split; [auto|]]].
        intros u Hu Hlt. apply P2. eapply (sorted_before _ _ s); eauto.
      * rewrite P5. destruct fuel; cbn [intent]; destruct (Nat.leb_spec (limit (evicted v s)) (length (files (evicted v s)))); auto; lia.
    + right; right. split; [auto|]. split; [|rewrite P4; auto]. exists v. split; [|split; auto].
      * apply (sorted_files _ _ _ HI); rewrite P1; apply in_app_iff; right; left; auto.
      * intros u Hu Hlt. apply P2. eapply (sorted_before _ _ s); eauto.
    + right; left. split; [auto|]. split; [|rewrite P2; auto]. intros u Hu. apply P1. apply (sorted_files _ _ _ HI). auto.
  - left. exists [], s. split; [left; auto|]. auto.
Qed.

Lemma open_spec : forall t s h ty w i ok, Inv t [] s ->
  (exists V s1, room s h V s1 /\ Inv t [] s1 /\ length (files s1) < limit s1 /\
     ((ok = true /\ ~ In i (files s1) /\ open_file h ty w i ok s = (None, opened_state h ty w i s1))
      \/ ((ok = false \/ In i (files s1)) /\ open_file h ty w i ok s = (Some RThrow, s1))))
  \/ (length (files s) = limit s /\ (forall u, In u (files s) -> untouchable s h u) /\ open_file h ty w i ok s = (Some RThrow, s))
  \/ (length (files s) = limit s /\ (exists v, own_first s h v) /\ open_file h ty w i ok s = (Some RDeadlock, s)).
Proof.
  intros t s h ty w i ok HI. unfold open_file, seq.
  destruct (intent_spec t s h (length (files s)) HI) as [(V & s1 & A & B & C & D)|[(A & B & C)|(A & B & C)]].
  - left. exists V, s1. split; [auto|split; [auto|split; [auto|]]]. rewrite D. destruct ok; cbn [andb].
    + destruct (mem i (files s1)) eqn:E; cbn [negb].
      * right. apply mem_In in E. split; [auto|reflexivity].
      * left. apply mem_not_In in E. split; [auto|split; [auto|reflexivity]].
    + right. auto.
  - right; left. rewrite C. auto.
  - right; right. rewrite C. auto.
Qed.
Lemma room_fields : forall s h V s1, room s h V s1 ->
  log s1 = log s ++ map EClose V /\ accs s1 = accs s /\ owner s1 = owner s /\ next_key s1 = next_key s /\ limit s1 = limit s
  /\ hs s1 h = hs s h.
Proof.
  intros s h V s1 [(-> & -> & _)|(v & -> & -> & _ & (_ & Ho & _))].
  - cbn. rewrite app_nil_r. auto 10.
  - cbn. repeat split. unfold upd. destruct (Nat.eqb_spec h (owner s v)); congruence.
Qed.

(** * Requests *)

Lemma live_nil : forall h s, (length (live h s) =? 0) = true <-> forall a, In a (accs s) -> a_handler a <> h.
Proof.
  intros h s. unfold live. rewrite Nat.eqb_eq, length_zero_iff_nil. split.
  - intros E a Ha Hh. assert (H : In a (filter (fun a => a_handler a =? h) (accs s))) by (apply filter_In; rewrite Hh, Nat.eqb_refl; auto).
    rewrite E in H. destruct H.
  - intros H. induction (accs s) as [|a l IH]; auto. cbn. destruct (Nat.eqb_spec (a_handler a) h).
    + exfalso. eapply H; eauto. left; auto.
    + apply IH. intros b Hb. apply H. right; auto.
Qed.
Lemma writers_nil : forall h s, (length (writers h s) =? 0) = true <-> forall a, In a (accs s) -> a_handler a = h -> a_write a = false.
Proof.
  intros h s. unfold writers, live. rewrite Nat.eqb_eq, length_zero_iff_nil. split.
  - intros E a Ha Hh. destruct (a_write a) eqn:Ew; auto.
    assert (H : In a (filter a_write (filter (fun a => a_handler a =? h) (accs s)))).
    { apply filter_In. rewrite Ew. rewrite filter_In, Hh, Nat.eqb_refl. auto. }
    rewrite E in H. destruct H.
  - intros H. induction (accs s) as [|a l IH]; auto. cbn. destruct (Nat.eqb_spec (a_handler a) h).
    + cbn. rewrite (H a); auto; [|left; auto]. apply IH. intros b Hb. apply H. right; auto.
    + apply IH. intros b Hb. apply H. right; auto.
Qed.

(** Changing the mode. *)
Definition mode_stmt (h : hid) (w : bool) : act := fun s1 =>
  if Bool.eqb (readonly (hs s1 h)) w
  then seq (close_avail h) (modify (fun s2 => set_handler s2 h (mkH (avail (hs s2 h)) (negb w)))) s1 else (None, s1).

Lemma mode_spec : forall t s h w, Inv t [] s ->
  (w = true -> forall a, In a (accs s) -> a_handler a <> h) ->
  (w = false -> forall a, In a (accs s) -> a_handler a = h -> a_write a = false) ->
  exists s0, mode_stmt h w s = (None, s0) /\ Inv t [] s0
   /\ log s0 = log s ++ map EClose (mode_change s h w) /\ accs s0 = accs s /\ owner s0 = owner s /\ limit s0 = limit s
   /\ next_key s0 = next_key s /\ readonly (hs s0 h) = negb w
   /\ avail (hs s0 h) = (if Bool.eqb (readonly (hs s h)) w then [] else avail (hs s h))
   /\ forall h', h' <> h -> hs s0 h' = hs s h'.
Proof.
  intros t s h w HI Hw Hr. unfold mode_stmt, mode_change. destruct (Bool.eqb (readonly (hs s h)) w) eqn:E.
  - apply Bool.eqb_prop in E.
    assert (Hno : forall a, In a (accs s) -> a_handler a <> h).
    { intros a Ha Hh. destruct w; [eapply Hw; eauto|]. destruct (iv_accs _ _ _ HI a Ha) as (A & B & C).
      rewrite Hh, E in B. rewrite (Hr eq_refl a Ha Hh) in B. discriminate. }
    destruct (close_avail_spec t s h HI) as (s1 & A & B & C & D & F & G & H & I & J & K).
    unfold seq at 1. rewrite A. exists (set_handler s1 h (mkH (avail (hs s1 h)) (negb w))). split; [reflexivity|].
    rewrite I. split; [apply inv_mode; auto; rewrite D; auto|]. cbn. unfold upd. rewrite Nat.eqb_refl. cbn.
    repeat split; auto. intros h' Hh. destruct (Nat.eqb_spec h' h); [congruence|]. auto.
  - exists s. split; [auto|]. split; [auto|]. cbn. rewrite app_nil_r. repeat split; auto.
    destruct (readonly (hs s h)), w; cbn in *; congruence.
Qed.

(** The state from which a file is opened differs from [s0] only in what
    handler [h] has at rest. *)
Definition same_but (h : hid) (s0 s2 : pool) : Prop :=
  log s2 = log s0 /\ accs s2 = accs s0 /\ owner s2 = owner s0 /\ limit s2 = limit s0 /\ next_key s2 = next_key s0
  /\ files s2 = files s0 /\ sorted s2 = sorted s0 /\ (forall h', readonly (hs s2 h') = readonly (hs s0 h'))
  /\ forall h', h' <> h -> hs s2 h' = hs s0 h'.

(** Outcomes of a request that is neither refused nor kept waiting; [s0]: after
    the change of mode. *)
Inductive get_result (t : option (hid -> ftype)) (h : hid) (ty : ftype) (w : bool) (i : fid) (ok : bool) (s0 : pool) : option res * pool -> Prop :=
| get_reuse : forall j s', In (j, ty) (avail (hs s0 h)) -> Inv t [] s' -> log s' = log s0 ++ [EUse j] -> owner s' = owner s0 ->
    accs s' = mkA (next_key s0) h j ty w :: accs s0 ->
    (forall h', h' <> h -> hs s' h' = hs s0 h') ->
    get_result t h ty w i ok s0 (Some (RAcc (mkA (next_key s0) h j ty w)), s')
| get_open : forall V s2 s1 s', (forall j, In (j, ty) (avail (hs s0 h)) -> False) -> same_but h s0 s2 -> Inv t [] s2 -> room s2 h V s1 ->
    ok = true -> ~ In i (files s1) -> Inv t [] s' ->
    log s' = log s0 ++ map EClose V ++ [EOpen i h ty w; EUse i] -> accs s' = mkA (next_key s0) h i ty w :: accs s0 ->
    get_result t h ty w i ok s0 (Some (RAcc (mkA (next_key s0) h i ty w)), s')
| get_failed : forall V s2 s1, (forall j, In (j, ty) (avail (hs s0 h)) -> False) -> same_but h s0 s2 -> Inv t [] s2 -> room s2 h V s1 ->
    ok = false \/ In i (files s1) -> Inv t [] s1 ->
    log s1 = log s0 ++ map EClose V -> accs s1 = accs s0 ->
    get_result t h ty w i ok s0 (Some RThrow, s1)
| get_full : forall s2, (forall j, In (j, ty) (avail (hs s0 h)) -> False) -> same_but h s0 s2 -> Inv t [] s2 -> length (files s2) = limit s2 ->
    (forall u, In u (files s2) -> untouchable s2 h u) ->
    get_result t h ty w i ok s0 (Some RThrow, s2)
| get_stuck : forall s2 v, (forall j, In (j, ty) (avail (hs s0 h)) -> False) -> same_but h s0 s2 -> Inv t [] s2 -> length (files s2) = limit s2 ->
    own_first s2 h v ->
    get_result t h ty w i ok s0 (Some RDeadlock, s2).

Lemma hand_out_spec : forall t s h j ty w l, Inv t [j] (set_avail s h l) -> opened (log s) j = Some (h, ty, w) ->
  readonly (hs s h) = negb w -> (w = true -> (forall a, In a (accs s) -> a_handler a <> h) /\ l = []) ->
  exists s', hand_out h j ty w l s = (Some (RAcc (mkA (next_key s) h j ty w)), s') /\ Inv t [] s'
    /\ log s' = log s ++ [EUse j] /\ accs s' = mkA (next_key s) h j ty w :: accs s /\ owner s' = owner s
    /\ forall h', h' <> h -> hs s' h' = hs s h'.
Proof.
  intros t s h j ty w l HI Ho Hr Hw.
  assert (Hj : In j (open_ids (log (set_avail s h l)))) by (apply (iv_pend _ _ _ HI j); left; auto).
  destruct (inv_use _ _ _ _ HI Hj) as [Hu HI1]. unfold hand_out. unfold seq at 1. rewrite Hu.
  exists (given h j ty w (used j (set_avail s h l))). split; [reflexivity|]. split.
  - apply inv_give; auto.
    + cbn. rewrite opened_snoc. cbn. auto.
    + cbn. unfold upd. rewrite Nat.eqb_refl. cbn. auto.
    + intros E. destruct (Hw E). split; [auto|]. cbn. unfold upd. rewrite Nat.eqb_refl. cbn. auto.
  - cbn. repeat split; auto. intros h' Hh. unfold upd. destruct (Nat.eqb_spec h' h); congruence.
Qed.

Lemma open_tail : forall t s0 s2 h ty w i ok l, Inv t [] s2 -> same_but h s0 s2 -> (forall j, In (j, ty) (avail (hs s0 h)) -> False) ->
  readonly (hs s0 h) = negb w -> (forall t', t = Some t' -> ty = t' h) ->
  (w = true -> (forall a, In a (accs s0) -> a_handler a <> h) /\ avail (hs s2 h) = []) ->
  (forall s, hs s h = hs s2 h -> l s = avail (hs s h)) ->
  get_result t h ty w i ok s0 (seq (open_file h ty w i ok) (fun s3 => hand_out h i ty w (l s3) s3) s2).
Proof.
  intros t s0 s2 h ty w i ok l HI Hs Hno Hr Hty Hw Hl.
  pose proof Hs as (S1 & S2 & S3 & S4 & S5 & S6 & S7 & S8 & S9).
  unfold seq at 1. destruct (open_spec t s2 h ty w i ok HI) as [(V & s1 & A & B & C & [(D & E & F)|(D & F)])|[(A & B & C)|(A & B & C)]].
  - rewrite F. destruct (room_fields _ _ _ _ A) as (R1 & R2 & R3 & R4 & R5 & R6).
    pose proof (inv_open t s1 h ty w i B Hty C E) as HI1.
    assert (Hh1 : hs (opened_state h ty w i s1) h = hs s2 h) by (cbn; auto).
    rewrite (Hl (opened_state h ty w i s1) Hh1).
    destruct (hand_out_spec t (opened_state h ty w i s1) h i ty w (avail (hs (opened_state h ty w i s1) h))) as (s' & G1 & G2 & G3 & G4 & G5 & G6).
    + apply (proj1 (set_avail_id _ _ _ _)). auto.
    + cbn. rewrite opened_snoc. cbn. rewrite Nat.eqb_refl. auto.
    + rewrite Hh1, S8. auto.
    + intros Ew. destruct (Hw Ew). cbn. rewrite R2, S2, R6. auto.
    + assert (En : next_key (opened_state h ty w i s1) = next_key s0) by (cbn; congruence).
      rewrite En in *. rewrite G1. eapply get_open; eauto.
      * rewrite G3. cbn. rewrite R1, S1, <- !app_assoc. reflexivity.
      * rewrite G4. cbn. congruence.
  - rewrite F. destruct (room_fields _ _ _ _ A) as (R1 & R2 & R3 & R4 & R5 & R6). eapply get_failed; eauto; congruence.
  - rewrite C. eapply get_full; eauto.
  - rewrite C. destruct B as [v B]. eapply get_stuck; eauto.
Qed.

Lemma find_first_of_type : forall ty l,
  match first_of_type ty l with
  | Some j => In (j, ty) l
  | None => forall j, In (j, ty) l -> False
  end.
Proof.
  intros ty l. unfold first_of_type. destruct (find (fun p => snd p =? ty) l) as [[j ty']|] eqn:E.
  - apply find_some in E as [E1 E2]. cbn in *. apply Nat.eqb_eq in E2. subst. auto.
  - intros j H. eapply find_none in E; eauto. cbn in E. rewrite Nat.eqb_refl in E. discriminate.
Qed.

Lemma get_read_spec : forall t s h ty i ok, Inv t [] s -> (forall t', t = Some t' -> ty = t' h) ->
  (forall a, In a (accs s) -> a_handler a = h -> a_write a = false) ->
  exists s0, mode_stmt h false s = (None, s0) /\ get_result t h ty false i ok s0 (get_read h ty false i ok s).
Proof.
  intros t s h ty i ok HI Hty Hb.
  destruct (mode_spec t s h false HI) as (s0 & M1 & M2 & M3 & M4 & M5 & M6 & M7 & M8 & M9 & M10); auto; [discriminate|].
  exists s0. split; [auto|]. unfold get_read. rewrite (proj2 (writers_nil h s)) by auto. cbn [negb].
  unfold seq at 1.
  assert (Hm : (if negb (readonly (hs s h)) then seq (close_avail h) (modify (fun s2 => set_handler s2 h (mkH (avail (hs s2 h)) true))) s else (None, s)) = (None, s0)).
  { rewrite <- M1. unfold mode_stmt. destruct (readonly (hs s h)); reflexivity. }
  rewrite Hm. pose proof (find_first_of_type ty (avail (hs s0 h))) as Hf. destruct (first_of_type ty (avail (hs s0 h))) as [j|].
  - pose proof (iv_availnd _ _ _ M2 h) as Hnd.
    destruct (hand_out_spec t s0 h j ty false (without j (avail (hs s0 h)))) as (s' & G1 & G2 & G3 & G4 & G5 & G6).
    + apply inv_shrink; auto.
      * intros [x y] Hx. apply in_without in Hx. tauto.
      * apply without_nodup; auto.
      * apply without_length.
      * intros x [<-|[]]. split; [apply in_fst; eauto|]. rewrite in_fst_without. tauto.
      * intros _ x Hx. rewrite in_fst_without. destruct (Nat.eq_dec x j); [right; left; auto|left; auto].
    + rewrite (iv_avail _ _ _ M2 _ _ _ Hf), M8. auto.
    + auto.
    + discriminate.
    + unfold without in G1. rewrite G1. apply get_reuse; auto.
  - apply open_tail with (l := fun s3 => avail (hs s3 h)); auto; try discriminate. unfold same_but. auto 10.
Qed.

Lemma get_write_spec : forall t s h ty i ok, Inv t [] s -> (forall t', t = Some t' -> ty = t' h) ->
  (forall a, In a (accs s) -> a_handler a <> h) ->
  exists s0, mode_stmt h true s = (None, s0) /\ get_result t h ty true i ok s0 (get_write h ty false i ok s).
Proof.
  intros t s h ty i ok HI Hty Hb.
  destruct (mode_spec t s h true HI) as (s0 & M1 & M2 & M3 & M4 & M5 & M6 & M7 & M8 & M9 & M10); auto; [discriminate|].
  exists s0. split; [auto|]. unfold get_write. rewrite (proj2 (live_nil h s)) by auto. cbn [negb].
  unfold seq at 1.
  assert (Hm : (if readonly (hs s h) then seq (close_avail h) (modify (fun s2 => set_handler s2 h (mkH (avail (hs s2 h)) false))) s else (None, s)) = (None, s0)).
  { rewrite <- M1. unfold mode_stmt. destruct (readonly (hs s h)); reflexivity. }
  rewrite Hm. destruct (iv_write _ _ _ M2 h M8) as [Hlen _].
  destruct (avail (hs s0 h)) as [|[j ty'] rest] eqn:Eav.
  - cbv zeta. rewrite Eav. apply open_tail with (l := fun _ => []); auto.
    + unfold same_but. auto 10.
    + rewrite Eav. auto.
    + intros _. rewrite M4. auto.
    + intros s3 E3. rewrite E3, Eav. auto.
  - assert (rest = []) as -> by (destruct rest; auto; cbn in Hlen; lia).
    cbv zeta. destruct (Nat.eqb_spec ty' ty) as [->|Hne].
    + rewrite Eav.
      assert (Hin : In (j, ty) (avail (hs s0 h))) by (rewrite Eav; left; auto).
      destruct (hand_out_spec t s0 h j ty true []) as (s' & G1 & G2 & G3 & G4 & G5 & G6).
      * apply inv_shrink; auto.
        -- intros x [].
        -- constructor.
        -- cbn. lia.
        -- intros x [<-|[]]. split; [apply in_fst; eauto|]. intros [].
        -- intros _ x. rewrite Eav. cbn. tauto.
      * rewrite (iv_avail _ _ _ M2 _ _ _ Hin), M8. auto.
      * auto.
      * intros _. rewrite M4. auto.
      * rewrite G1. apply get_reuse; auto.
    + assert (Et : t = None).
      { destruct t as [t|]; auto. exfalso. apply Hne. rewrite (Hty t eq_refl).
        destruct (iv_full _ _ _ M2) as [F _]. eapply F. apply (iv_avail _ _ _ M2). rewrite Eav. left; reflexivity. }
      rewrite avail_set_avail_same. apply open_tail with (l := fun _ => []); auto.
      * apply inv_shrink; auto.
        -- intros x [].
        -- constructor.
        -- cbn. lia.
        -- intros x [].
        -- congruence.
      * unfold same_but. repeat split; auto.
        -- intros h'. apply readonly_set_avail.
        -- intros h' Hh. rewrite hs_set_avail. destruct (Nat.eqb_spec h' h); congruence.
      * rewrite Eav. intros x [E|[]]. congruence.
      * intros _. rewrite M4. split; [auto|]. apply avail_set_avail_same.
      * intros s3 E3. rewrite E3. symmetry. apply avail_set_avail_same.
Qed.

(** * Histories *)

Lemma close_all_inv : forall t ids s, Inv t [] s ->
  exists s1, fold_right (fun i a => seq (fun s1 => snd (handler_close (owner s1 i) i s1)) a) skip ids s = (None, s1)
    /\ Inv t [] s1 /\ accs s1 = accs s /\ exists C, log s1 = log s ++ map EClose C.
Proof.
  intros t ids. induction ids as [|i ids IH]; intros s HI; cbn [fold_right].
  - exists s. split; [reflexivity|]. split; auto. split; auto. exists []. cbn. rewrite app_nil_r. auto.
  - unfold seq at 1. destruct (handler_close_spec t s (owner s i) i HI) as [(A & B & C)|(A & B)]; rewrite B; cbn [snd].
    + destruct (IH _ C) as (s1 & D & E & F & (L & G)). exists s1. rewrite D. split; auto. split; auto. split; [rewrite F; auto|].
      exists (i :: L). rewrite G. cbn. rewrite <- app_assoc. reflexivity.
    + apply IH. auto.
Qed.

Lemma get_cases : forall t s h ty w tr i ok, Inv t [] s -> (forall t', t = Some t' -> ty = t' h) ->
  (get_ready s h w /\ tr = false /\ exists s0, mode_stmt h w s = (None, s0) /\ get_result t h ty w i ok s0 (call (Get h ty w tr i ok) s))
  \/ (get_ready s h w /\ tr = true /\ call (Get h ty w tr i ok) s = (Some RThrow, s))
  \/ (~ get_ready s h w /\ call (Get h ty w tr i ok) s = (Some (if tr then RNull else RBlocked), s)).
Proof.
  intros t s h ty w tr i ok HI Hty. cbn [call]. destruct w; unfold get_ready.
  - destruct (length (live h s) =? 0) eqn:E.
    + pose proof (proj1 (live_nil h s) E) as Hn. destruct tr.
      * right; left. unfold get_write. rewrite E. auto.
      * left. split; [auto|]. split; [auto|]. apply get_write_spec; auto.
    + right; right. split; [intros C; apply live_nil in C; congruence|]. unfold get_write. rewrite E. auto.
  - destruct (length (writers h s) =? 0) eqn:E.
    + pose proof (proj1 (writers_nil h s) E) as Hn. destruct tr.
      * right; left. unfold get_read. rewrite E. auto.
      * left. split; [auto|]. split; [auto|]. apply get_read_spec; auto.
    + right; right. split; [intros C; apply writers_nil in C; congruence|]. unfold get_read. rewrite E. auto.
Qed.

Lemma get_result_inv : forall t h ty w i ok s0 x, get_result t h ty w i ok s0 x -> Inv t [] (snd x).
Proof. intros t h ty w i ok s0 x H. destruct H; auto. Qed.

Lemma step_inv : forall t s o r s', Inv t [] s -> (forall t', t = Some t' -> typed t' o) -> step s o = (r, s') -> Inv t [] s'.
Proof.
  intros t s o r s' HI Hty H. unfold step in H. destruct o as [h ty w tr i ok|k| |h].
  - destruct (get_cases t s h ty w tr i ok HI Hty) as [(_ & _ & s0 & _ & B)|[(_ & _ & B)|(_ & B)]].
    + apply get_result_inv in B. destruct (call _ s) as [[r'|] s1]; inversion H; subst; auto.
    + rewrite B in H. inversion H; subst; auto.
    + rewrite B in H. inversion H; subst; auto.
  - cbn [call] in H. unfold release in H. destruct (find (fun a => a_key a =? k) (accs s)) as [a|] eqn:E.
    + apply find_some in E as [E1 E2]. apply Nat.eqb_eq in E2. subst k. inversion H; subst. apply inv_release; auto.
    + inversion H; subst; auto.
  - cbn [call] in H. unfold close_all in H. unfold seq at 1 in H. destruct (close_all_inv t (files s) s HI) as (s1 & A & B & _).
    rewrite A in H. inversion H; subst; auto.
  - cbn [call] in H. unfold drop_handler in H. destruct (negb (length (live h s) =? 0)); [inversion H; subst; auto|].
    unfold seq at 1 in H. destruct (close_avail_spec t s h HI) as (s1 & A & B & _). rewrite A in H. inversion H; subst; auto.
Qed.
Lemma run_inv : forall t ops s rs s', Inv t [] s -> (forall t', t = Some t' -> Forall (typed t') ops) -> run s ops = (rs, s') -> Inv t [] s'.
Proof.
  intros t ops. induction ops as [|o ops IH]; intros s rs s' HI Hty H; cbn in H.
  - inversion H; subst; auto.
  - destruct (step s o) as [x s1] eqn:E. destruct (run s1 ops) as [xs s2] eqn:E2. inversion H; subst.
    eapply IH; [| |exact E2].
    + eapply step_inv; eauto. intros t' Ht. specialize (Hty t' Ht). inversion Hty; auto.
    + intros t' Ht. specialize (Hty t' Ht). inversion Hty; auto.
Qed.
Lemma reachable_inv : forall lim s, reachable lim s -> Inv None [] s /\ limit s = lim.
Proof.
  intros lim s (ops & rs & H). 
  assert (Hl : forall ops s rs s', Inv None [] s -> run s ops = (rs, s') -> limit s' = limit s).
  { clear. intros ops. induction ops as [|o ops IH]; intros s rs s' HI H; cbn in H; [inversion H; auto|].
    destruct (step s o) as [x s1] eqn:E. destruct (run s1 ops) as [xs s2] eqn:E2. inversion H; subst.
    assert (HI1 : Inv None [] s1) by (eapply step_inv; eauto; discriminate).
    rewrite (IH _ _ _ HI1 E2). clear -E HI. unfold step in E. 
    assert (Hc : limit (snd (call o s)) = limit s).
    { assert (Hcl : forall i s, limit (snd (close_file i s)) = limit s).
      { intros i s0. unfold close_file. destruct (mem i (sorted s0)); reflexivity. }
      assert (Hseq : forall a b, (forall s, limit (snd (a s)) = limit s) -> (forall s, limit (snd (b s)) = limit s) -> forall s, limit (snd (seq a b s)) = limit s).
      { intros a b Ha Hb s0. unfold seq. specialize (Ha s0). destruct (a s0) as [[r|] s2]; cbn in *; auto. rewrite Hb. auto. }
      assert (Hmod : forall f, (forall s, limit (f s) = limit s) -> forall s, limit (snd (modify f s)) = limit s) by (intros f Hf s0; apply Hf).
      assert (Hca : forall h s, limit (snd (close_avail h s)) = limit s).
      { intros h s0. unfold close_avail. apply Hseq; [|apply Hmod; reflexivity].
        induction (avail (hs s0 h)) as [|p l IHl]; [reflexivity|]. cbn [fold_right]. apply Hseq; auto. }
      assert (Hhc : forall h i s, limit (snd (snd (handler_close h i s))) = limit s).
      { intros h i s0. unfold handler_close. destruct (mem i (map fst (avail (hs s0 h)))); [|reflexivity]. cbn [snd].
        apply Hseq; [auto|apply Hmod; reflexivity]. }
      assert (Hev : forall h ids s, limit (snd (snd (evict h ids s))) = limit s).
      { intros h ids. induction ids as [|i ids IHi]; intros s0; [reflexivity|]. cbn [evict].
        destruct (negb (mem i (files s0))); [reflexivity|]. destruct (owner s0 i =? h); [reflexivity|].
        specialize (Hhc (owner s0 i) i s0). destruct (handler_close (owner s0 i) i s0) as [[] [[r|] s2]]; cbn in *; auto. rewrite IHi. auto. }
      assert (Hin : forall h fuel s, limit (snd (intent fuel h s)) = limit s).
      { intros h fuel. induction fuel as [|fuel IHf]; intros s0; cbn [intent]; destruct (limit s0 <=? length (files s0)); auto.
        specialize (Hev h (sorted s0) s0). destruct (evict h (sorted s0) s0) as [[] [[r|] s2]]; cbn in *; auto. rewrite IHf. auto. }
      assert (Hof : forall h ty w i ok s, limit (snd (open_file h ty w i ok s)) = limit s).
      { intros. unfold open_file. apply Hseq; auto. intros s2. destruct (ok && negb (mem i (files s2))); reflexivity. }
      assert (Hho : forall h i ty w l s, limit (snd (hand_out h i ty w l s)) = limit s).
      { intros. unfold hand_out. rewrite Hseq; [reflexivity| |reflexivity]. intros s2. unfold notify_used. destruct (mem i (sorted s2)); reflexivity. }
      assert (Hmd : forall h b s, limit (snd (seq (close_avail h) (modify (fun s2 => set_handler s2 h (mkH (avail (hs s2 h)) b))) s)) = limit s).
      { intros. apply Hseq; auto. }
      destruct o as [h ty w tr i ok|k| |h]; cbn [call].
      - destruct w.
        + unfold get_write. destruct (negb (length (live h s) =? 0)); [reflexivity|]. destruct tr; [reflexivity|].
          apply Hseq; [intros s2; destruct (readonly (hs s2 h)); auto|]. intros s2. cbv zeta.
          assert (Hx : limit (match avail (hs s2 h) with [] => s2 | (_, ty') :: _ => if ty' =? ty then s2 else set_avail s2 h [] end) = limit s2).
          { destruct (avail (hs s2 h)) as [|[? ty'] ?]; auto. destruct (ty' =? ty); auto. }
          set (s3 := match avail (hs s2 h) with [] => s2 | (_, ty') :: _ => if ty' =? ty then s2 else set_avail s2 h [] end) in *. clearbody s3.
          destruct (avail (hs s3 h)) as [|[j ?] ?]; [rewrite Hseq; auto|rewrite Hho; auto].
        + unfold get_read. destruct (negb (length (writers h s) =? 0)); [reflexivity|]. destruct tr; [reflexivity|].
          apply Hseq; [intros s2; destruct (negb (readonly (hs s2 h))); auto|]. intros s2.
          destruct (first_of_type ty (avail (hs s2 h))); [apply Hho|apply Hseq; auto].
      - unfold release. destruct (find (fun a => a_key a =? k) (accs s)); reflexivity.
      - unfold close_all. apply Hseq; [|reflexivity]. induction (files s) as [|i l IHl]; [reflexivity|]. cbn [fold_right]. apply Hseq; auto.
      - unfold drop_handler. destruct (negb (length (live h s) =? 0)); [reflexivity|]. apply Hseq; auto. }
    destruct (call o s) as [[r|] s2]; inversion E; subst; auto. }
  assert (HI : Inv None [] (new_pool lim)) by apply inv_new.
  split; [eapply (run_inv None); [exact HI| |exact H]; intros; discriminate|]. rewrite (Hl _ _ _ _ HI H). reflexivity.
Qed.
