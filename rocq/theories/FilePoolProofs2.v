From Coq Require Import List Arith Bool Lia Sorted Permutation.
From Verif Require Import FilePoolModel FilePoolSpec FilePoolProofs.
Import ListNotations.
Local Arguments opened : simpl never.
Local Arguments open_ids : simpl never.
Local Arguments lru : simpl never.

(** * The invariant

    [t]: when given, each handler is used with one type of descriptor and then
    no open file is lost; [p]: files open and about to be handed out. *)
Record Inv (t : option (hid -> ftype)) (p : list fid) (s : pool) : Prop := {
  iv_legal : legal (limit s) (log s);
  iv_files : files s = open_ids (log s);
  iv_sorted : sorted s = lru (log s);
  iv_owner : forall i h ty w, opened (log s) i = Some (h, ty, w) -> owner s i = h;
  iv_avail : forall h i ty, In (i, ty) (avail (hs s h)) -> opened (log s) i = Some (h, ty, negb (readonly (hs s h)));
  iv_availnd : forall h, NoDup (map fst (avail (hs s h)));
  iv_accs : forall a, In a (accs s) -> opened (log s) (a_fid a) = Some (a_handler a, a_type a, a_write a)
     /\ readonly (hs s (a_handler a)) = negb (a_write a) /\ ~ In (a_fid a) (map fst (avail (hs s (a_handler a))));
  iv_accnd : NoDup (map a_fid (accs s));
  iv_keys : forall a, In a (accs s) -> a_key a < next_key s;
  iv_keynd : NoDup (map a_key (accs s));
  iv_lock : forall a b, In a (accs s) -> a_write a = true -> In b (accs s) -> a_handler b = a_handler a -> b = a;
  iv_write : forall h, readonly (hs s h) = false -> length (avail (hs s h)) <= 1
     /\ ((exists a, In a (accs s) /\ a_handler a = h) -> avail (hs s h) = []);
  iv_pend : forall i, In i p -> In i (open_ids (log s)) /\ ~ held s i /\ forall h, ~ In i (map fst (avail (hs s h)));
  iv_full : match t with
            | None => True
            | Some t => (forall i h ty w, opened (log s) i = Some (h, ty, w) -> ty = t h)
               /\ forall i h ty w, opened (log s) i = Some (h, ty, w) -> In i (map fst (avail (hs s h))) \/ held s i \/ In i p
            end
}.

Lemma inv_ext : forall t p s s', Inv t p s -> limit s' = limit s -> files s' = files s ->
  (forall i, owner s' i = owner s i) -> sorted s' = sorted s -> (forall h, hs s' h = hs s h) -> accs s' = accs s ->
  next_key s' = next_key s -> log s' = log s -> Inv t p s'.
Proof.
  intros t p s s' [] E1 E2 E3 E4 E5 E6 E7 E8.
  constructor; rewrite ?E1, ?E2, ?E4, ?E6, ?E7, ?E8; auto; try (intros; rewrite ?E3, ?E5 in *; eauto; fail).
  - intros i Hi. destruct (iv_pend0 i Hi) as (A & B & C). split; [auto|split].
    + unfold held in *. rewrite E6. auto.
    + intros h. rewrite E5. auto.
  - destruct t as [t|]; auto. destruct iv_full0 as [A B]. split.
    + apply A.
    + intros i h ty w Ho. rewrite E5. unfold held in *. rewrite E6. eauto.
Qed.

Lemma inv_new : forall t lim, Inv t [] (new_pool lim).
Proof.
  intros t lim. constructor; cbn; auto; try (intros; tauto); try constructor; try (intros; discriminate).
  destruct t; auto. split; intros; discriminate.
Qed.

Lemma hs_set_avail : forall s h l h', hs (set_avail s h l) h' = if h' =? h then mkH l (readonly (hs s h)) else hs s h'.
Proof. reflexivity. Qed.
Lemma readonly_set_avail : forall s h l h', readonly (hs (set_avail s h l) h') = readonly (hs s h').
Proof. intros. rewrite hs_set_avail. destruct (Nat.eqb_spec h' h); subst; auto. Qed.
Lemma avail_set_avail_same : forall s h l, avail (hs (set_avail s h l) h) = l.
Proof. intros. rewrite hs_set_avail, Nat.eqb_refl. auto. Qed.
Lemma avail_set_avail_other : forall s h l h', h' <> h -> avail (hs (set_avail s h l) h') = avail (hs s h').
Proof. intros. rewrite hs_set_avail. destruct (Nat.eqb_spec h' h); congruence. Qed.

Lemma in_fst : forall (i : fid) (l : list (fid * ftype)), In i (map fst l) <-> exists ty, In (i, ty) l.
Proof.
  intros i l. rewrite in_map_iff. split.
  - intros ([j ty] & E & H). cbn in E. subst. eauto.
  - intros (ty & H). exists (i, ty). auto.
Qed.
Definition without (i : fid) (l : list (fid * ftype)) : list (fid * ftype) := filter (fun p => negb (fst p =? i)) l.
Lemma in_without : forall i j ty l, In (j, ty) (without i l) <-> In (j, ty) l /\ j <> i.
Proof. intros. unfold without. rewrite filter_In. cbn. rewrite negb_true_iff, Nat.eqb_neq. tauto. Qed.
Lemma in_fst_without : forall i j l, In j (map fst (without i l)) <-> In j (map fst l) /\ j <> i.
Proof.
  intros. rewrite !in_fst. split.
  - intros (ty & H). apply in_without in H as [H1 H2]. eauto.
  - intros ((ty & H) & Hn). exists ty. apply in_without. auto.
Qed.
Lemma map_fst_without : forall i l, map fst (without i l) = remove i (map fst l).
Proof.
  intros i l. induction l as [|[j ty] l IH]; auto. cbn. destruct (Nat.eqb_spec j i); cbn; [auto|]. f_equal. auto.
Qed.
Lemma without_nodup : forall i l, NoDup (map fst l) -> NoDup (map fst (without i l)).
Proof. intros i l H. rewrite map_fst_without. apply remove_NoDup. auto. Qed.
Lemma without_length : forall i l, length (without i l) <= length l.
Proof. intros i l. unfold without. induction l as [|[j ty] l IH]; auto. cbn. destruct (negb (j =? i)); cbn; lia. Qed.
Lemma without_notin : forall i l, ~ In i (map fst l) -> without i l = l.
Proof.
  intros i l. induction l as [|[j ty] l IH]; intros H; auto. cbn in *. destruct (Nat.eqb_spec j i); cbn; [tauto|]. f_equal. tauto.
Qed.
Lemma without_cons : forall i ty l, NoDup (map fst ((i, ty) :: l)) -> without i ((i, ty) :: l) = l.
Proof.
  intros i ty l H. cbn. rewrite Nat.eqb_refl. cbn. inversion H; subst. apply without_notin; auto.
Qed.
Lemma nodup_fst_unique : forall (l : list (fid * ftype)) i t1 t2, NoDup (map fst l) -> In (i, t1) l -> In (i, t2) l -> t1 = t2.
Proof.
  induction l as [|[j ty] l IH]; intros i t1 t2 Hnd H1 H2; [destruct H1|].
  cbn in Hnd. inversion Hnd; subst. destruct H1 as [H1|H1], H2 as [H2|H2].
  - congruence.
  - inversion H1; subst. exfalso. apply H3. apply in_fst. eauto.
  - inversion H2; subst. exfalso. apply H3. apply in_fst. eauto.
  - eauto.
Qed.
Lemma nodup_map_unique : forall {A} (f : A -> nat) l a b, NoDup (map f l) -> In a l -> In b l -> f a = f b -> a = b.
Proof.
  induction l as [|x l IH]; intros a b Hnd Ha Hb He; [destruct Ha|].
  cbn in Hnd. inversion Hnd; subst. destruct Ha as [Ha|Ha], Hb as [Hb|Hb]; subst; auto.
  - exfalso. apply H1. rewrite He. apply in_map. auto.
  - exfalso. apply H1. rewrite <- He. apply in_map. auto.
Qed.

(** ** Closing *)

Definition closed (i : fid) (s : pool) : pool :=
  set_files (set_sorted (write_log s (EClose i)) (remove i (sorted s))) (remove i (files s)).

Lemma close_step : forall t s h l i, Inv t [] (set_avail s h l) -> In i (map fst l) ->
  close_file i s = (None, closed i s) /\ Inv t [] (set_avail (closed i s) h (without i l)).
Proof.
  intros t s h l i HI Hin. apply in_fst in Hin as [ty Hin].
  assert (Ho : opened (log s) i = Some (h, ty, negb (readonly (hs s h)))).
  { pose proof (iv_avail _ _ _ HI h i ty) as H. rewrite avail_set_avail_same, readonly_set_avail in H. apply H. auto. }
  assert (HL : legal (limit s) (log s)) by apply (iv_legal _ _ _ HI).
  assert (Hop : In i (open_ids (log s))) by (eapply opened_In; eauto; congruence).
  assert (Hm : mem i (sorted s) = true).
  { apply mem_In. change (sorted s) with (sorted (set_avail s h l)). rewrite (iv_sorted _ _ _ HI). cbn. eapply lru_In; eauto. }
  split; [unfold close_file; rewrite Hm; reflexivity|].
  destruct HI. cbn in *. unfold upd in *.
  assert (Hacc : forall a, In a (accs s) -> a_fid a <> i).
  { intros a Ha E. destruct (iv_accs0 a Ha) as (A & B & C). subst i. rewrite Ho in A. injection A as E1 E2 E3.
    apply C. rewrite <- E1, Nat.eqb_refl. cbn. apply in_fst. eauto. }
  assert (Hopn : forall j, j <> i -> opened (log s ++ [EClose i]) j = opened (log s) j).
  { intros j Hj. rewrite opened_snoc. cbn. destruct (Nat.eqb_spec i j); congruence. }
  assert (Hopi : opened (log s ++ [EClose i]) i = None) by (rewrite opened_snoc; cbn; rewrite Nat.eqb_refl; auto).
  assert (Hother : forall h' ty', h' <> h -> ~ In (i, ty') (avail (hs s h'))).
  { intros h' ty' Hh C. specialize (iv_avail0 h' i ty'). destruct (Nat.eqb_spec h' h); [congruence|]. specialize (iv_avail0 C). congruence. }
  constructor; cbn; unfold upd; auto.
  - apply legal_close; auto.
  - rewrite open_ids_snoc, iv_files0. reflexivity.
  - rewrite lru_snoc, iv_sorted0. reflexivity.
  - intros j h' ty' w Hj. destruct (Nat.eq_dec j i); [subst; congruence|]. rewrite Hopn in Hj by auto. eauto.
  - intros h' j ty' Hj. specialize (iv_avail0 h' j ty'). destruct (Nat.eqb_spec h' h) as [->|Hh]; cbn in *.
    + apply in_without in Hj as [Hj Hn]. rewrite Hopn by auto. auto.
    + destruct (Nat.eq_dec j i); [subst; exfalso; eapply Hother; eauto|]. rewrite Hopn by auto. auto.
  - intros h'. specialize (iv_availnd0 h'). destruct (Nat.eqb_spec h' h); cbn in *; auto. apply without_nodup; auto.
  - intros a Ha. destruct (iv_accs0 a Ha) as (A & B & C). rewrite Hopn by auto. split; [auto|].
    destruct (Nat.eqb_spec (a_handler a) h); cbn in *; auto. split; auto. rewrite in_fst_without. tauto.
  - intros h' Hr. specialize (iv_write0 h'). destruct (Nat.eqb_spec h' h) as [E|E]; cbn in *; auto. subst h'.
    destruct (iv_write0 Hr) as [A B]. split; [pose proof (without_length i l); lia|].
    intros Hx. rewrite (B Hx). reflexivity.
  - intros j [].
  - destruct t as [t|]; auto. destruct iv_full0 as [A B]. split.
    + intros j h' ty' w Hj. destruct (Nat.eq_dec j i) as [->|Hn]; [congruence|]. rewrite Hopn in Hj by auto. eauto.
    + intros j h' ty' w Hj. destruct (Nat.eq_dec j i) as [->|Hn]; [congruence|]. rewrite Hopn in Hj by auto.
      specialize (B j h' ty' w Hj). destruct (Nat.eqb_spec h' h); cbn in *; auto. rewrite in_fst_without. tauto.
Qed.

Definition closes (l : list fid) (s : pool) : pool := fold_left (fun s i => closed i s) l s.

Lemma close_list : forall t h l s, Inv t [] (set_avail s h l) ->
  fold_right (fun p a => seq (close_file (fst p)) a) skip l s = (None, closes (map fst l) s)
  /\ Inv t [] (set_avail (closes (map fst l) s) h []).
Proof.
  intros t h l. induction l as [|[i ty] l IH]; intros s HI.
  - cbn. split; auto.
  - assert (Hnd : NoDup (map fst ((i, ty) :: l))).
    { pose proof (iv_availnd _ _ _ HI h) as H. rewrite avail_set_avail_same in H. auto. }
    destruct (close_step _ _ _ _ i HI) as [Hc HI1]; [left; auto|].
    rewrite without_cons in HI1 by auto.
    cbn [fold_right map fst closes fold_left]. unfold seq at 1. rewrite Hc. apply IH. auto.
Qed.

Lemma hs_closes : forall l s, hs (closes l s) = hs s.
Proof. induction l as [|i l IH]; intros s; auto. cbn. unfold closes in IH. rewrite IH. reflexivity. Qed.
Lemma accs_closes : forall l s, accs (closes l s) = accs s.
Proof. induction l as [|i l IH]; intros s; auto. cbn. unfold closes in IH. rewrite IH. reflexivity. Qed.
Lemma owner_closes : forall l s, owner (closes l s) = owner s.
Proof. induction l as [|i l IH]; intros s; auto. cbn. unfold closes in IH. rewrite IH. reflexivity. Qed.
Lemma limit_closes : forall l s, limit (closes l s) = limit s.
Proof. induction l as [|i l IH]; intros s; auto. cbn. unfold closes in IH. rewrite IH. reflexivity. Qed.
Lemma next_key_closes : forall l s, next_key (closes l s) = next_key s.
Proof. induction l as [|i l IH]; intros s; auto. cbn. unfold closes in IH. rewrite IH. reflexivity. Qed.
Lemma log_closes : forall l s, log (closes l s) = log s ++ map EClose l.
Proof.
  induction l as [|i l IH]; intros s; cbn; [rewrite app_nil_r; auto|]. unfold closes in IH. rewrite IH. cbn. rewrite <- app_assoc. reflexivity.
Qed.

Lemma set_avail_id : forall t p s h, Inv t p s <-> Inv t p (set_avail s h (avail (hs s h))).
Proof.
  intros t p s h. split; intros H; eapply inv_ext; try exact H; cbn; auto; intros h'; unfold upd; destruct (Nat.eqb_spec h' h) as [->|]; auto; destruct (hs s h); auto.
Qed.

Lemma close_avail_spec : forall t s h, Inv t [] s ->
  exists s1, close_avail h s = (None, s1) /\ Inv t [] s1
    /\ log s1 = log s ++ map EClose (map fst (avail (hs s h)))
    /\ accs s1 = accs s /\ owner s1 = owner s /\ limit s1 = limit s /\ next_key s1 = next_key s
    /\ avail (hs s1 h) = [] /\ (forall h', readonly (hs s1 h') = readonly (hs s h')) /\ (forall h', h' <> h -> hs s1 h' = hs s h').
Proof.
  intros t s h HI. apply (set_avail_id t [] s h) in HI.
  destruct (close_list _ _ _ _ HI) as [Hc HI1].
  exists (set_avail (closes (map fst (avail (hs s h))) s) h []).
  unfold close_avail. unfold seq at 1. rewrite Hc. split; [reflexivity|]. split; [auto|].
  repeat split.
  - apply log_closes.
  - apply accs_closes.
  - apply owner_closes.
  - apply limit_closes.
  - apply next_key_closes.
  - apply avail_set_avail_same.
  - intros h'. rewrite readonly_set_avail, hs_closes. auto.
  - intros h' Hh. rewrite hs_set_avail. destruct (Nat.eqb_spec h' h); [congruence|]. rewrite hs_closes. auto.
Qed.

Lemma handler_close_spec : forall t s h i, Inv t [] s ->
  (In i (map fst (avail (hs s h))) /\
     handler_close h i s = (true, (None, set_avail (closed i s) h (without i (avail (hs s h))))) /\
     Inv t [] (set_avail (closed i s) h (without i (avail (hs s h)))))
  \/ (~ In i (map fst (avail (hs s h))) /\ handler_close h i s = (false, (None, s))).
Proof.
  intros t s h i HI. unfold handler_close. destruct (mem i (map fst (avail (hs s h)))) eqn:Hm.
  - left. apply mem_In in Hm. split; [auto|]. apply (set_avail_id t [] s h) in HI.
    destruct (close_step _ _ _ _ i HI Hm) as [Hc HI1]. unfold seq at 1. rewrite Hc. split; auto.
  - right. apply mem_not_In in Hm. auto.
Qed.

(** ** Opening, using, handing out, returning *)

Lemma inv_mode : forall t s h b, Inv t [] s -> avail (hs s h) = [] -> (forall a, In a (accs s) -> a_handler a <> h) ->
  Inv t [] (set_handler s h (mkH [] b)).
Proof.
  intros t s h b [] Hav Hacc. constructor; cbn; auto.
  - intros h' i ty. unfold upd. destruct (Nat.eqb_spec h' h); cbn; [tauto|auto].
  - intros h'. unfold upd. destruct (Nat.eqb_spec h' h); cbn; [constructor|auto].
  - intros a Ha. unfold upd. destruct (Nat.eqb_spec (a_handler a) h); [exfalso; eapply Hacc; eauto|auto].
  - intros h'. unfold upd. destruct (Nat.eqb_spec h' h); cbn; auto.
  - intros i [].
  - destruct t as [t|]; auto. destruct iv_full0 as [A B]. split.
    + apply A.
    + intros i h' ty w Ho. specialize (B i h' ty w Ho). unfold upd. destruct (Nat.eqb_spec h' h); cbn; auto. subst. rewrite Hav in B. auto.
Qed.

Lemma inv_shrink : forall t p s h l, Inv t [] s -> incl l (avail (hs s h)) -> NoDup (map fst l) -> length l <= length (avail (hs s h)) ->
  (forall i, In i p -> In i (map fst (avail (hs s h))) /\ ~ In i (map fst l)) ->
  (t <> None -> forall i, In i (map fst (avail (hs s h))) -> In i (map fst l) \/ In i p) ->
  Inv t p (set_avail s h l).
Proof.
  intros t p s h l [] Hincl Hnd Hlen Hp Hf. 
  assert (Hif : forall i, In i (map fst l) -> In i (map fst (avail (hs s h)))).
  { intros i Hi. apply in_fst in Hi as [ty Hi]. apply in_fst. eauto. }
  constructor; cbn; auto.
  - intros h' i ty. unfold upd. destruct (Nat.eqb_spec h' h); cbn; [subst; auto|auto].
  - intros h'. unfold upd. destruct (Nat.eqb_spec h' h); cbn; auto.
  - intros a Ha. destruct (iv_accs0 a Ha) as (A & B & C). unfold upd. destruct (Nat.eqb_spec (a_handler a) h) as [E|]; cbn; auto.
    rewrite E in *. split; [auto|split; auto].
  - intros h' Hr. specialize (iv_write0 h'). unfold upd in *. destruct (Nat.eqb_spec h' h) as [->|]; cbn in *; auto.
    destruct (iv_write0 Hr) as [A B]. split; [lia|]. intros Hx. rewrite (B Hx) in *. destruct l; auto. exfalso. apply (Hincl p0). left; auto.
  - intros i Hi. destruct (Hp i Hi) as [A B]. apply in_fst in A as [ty A]. split; [|split].
    + eapply opened_In; eauto. rewrite (iv_avail0 _ _ _ A). discriminate.
    + intros (a & Ha & E). destruct (iv_accs0 a Ha) as (X & Y & Z). subst i. rewrite (iv_avail0 _ _ _ A) in X. injection X as E1 E2 E3.
      apply Z. rewrite <- E1. apply in_fst. eauto.
    + intros h'. unfold upd. destruct (Nat.eqb_spec h' h); cbn; auto. intros C. apply in_fst in C as [ty' C].
      pose proof (iv_avail0 _ _ _ A) as X1. pose proof (iv_avail0 _ _ _ C) as X2. congruence.
  - destruct t as [t|]; auto. destruct iv_full0 as [A B]. split.
    + apply A.
    + intros i h' ty w Ho. specialize (B i h' ty w Ho). unfold upd. destruct (Nat.eqb_spec h' h); cbn; [|destruct B as [B|[B|[]]]; auto].
      subst. unfold held in *; cbn. destruct B as [B|[B|[]]]; [|auto]. destruct (Hf ltac:(discriminate) i B); auto.
Qed.

Definition used (i : fid) (s : pool) : pool := set_sorted (write_log s (EUse i)) (remove i (sorted s) ++ [i]).
Lemma inv_use : forall t p s i, Inv t p s -> In i (open_ids (log s)) -> notify_used i s = (None, used i s) /\ Inv t p (used i s).
Proof.
  intros t p s i HI Hi. split.
  - unfold notify_used. assert (Hm : mem i (sorted s) = true).
    { apply mem_In. rewrite (iv_sorted _ _ _ HI). eapply lru_In; [eapply iv_legal; eauto|auto]. }
    rewrite Hm. reflexivity.
  - destruct HI.
    assert (Ho : forall j, opened (log s ++ [EUse i]) j = opened (log s) j) by (intros; rewrite opened_snoc; reflexivity).
    constructor; cbn; auto; try (intros; rewrite ?Ho in *; eauto; fail).
    + apply legal_use; auto.
    + rewrite open_ids_snoc. auto.
    + rewrite lru_snoc, iv_sorted0. reflexivity.
    + intros j Hj. rewrite open_ids_snoc. cbn. apply iv_pend0. auto.
    + destruct t as [t|]; auto. destruct iv_full0 as [A B]. split; intros j h ty w; rewrite Ho; [apply A|apply B].
Qed.

Definition opened_state (own : hid) (ty : ftype) (w : bool) (i : fid) (s : pool) : pool :=
  set_sorted (set_files (write_log (set_owner s i own) (EOpen i own ty w)) (i :: files s)) (sorted s ++ [i]).
Lemma inv_open : forall t s own ty w i, Inv t [] s -> (forall t', t = Some t' -> ty = t' own) -> length (files s) < limit s -> ~ In i (files s) ->
  Inv t [i] (opened_state own ty w i s).
Proof.
  intros t s own ty w i [] Hty Hlt Hn. rewrite iv_files0 in *.
  assert (Hno : opened (log s) i = None).
  { destruct (opened (log s) i) eqn:E; auto. exfalso. apply Hn. eapply opened_In; eauto. congruence. }
  assert (Hopn : forall j, j <> i -> opened (log s ++ [EOpen i own ty w]) j = opened (log s) j).
  { intros j Hj. rewrite opened_snoc. cbn. destruct (Nat.eqb_spec i j); congruence. }
  assert (Hopi : opened (log s ++ [EOpen i own ty w]) i = Some (own, ty, w)) by (rewrite opened_snoc; cbn; rewrite Nat.eqb_refl; auto).
  constructor; cbn; auto.
  - apply legal_open; auto.
  - rewrite open_ids_snoc, iv_files0. reflexivity.
  - rewrite lru_snoc, iv_sorted0. reflexivity.
  - intros j h ty' w' Hj. unfold upd. destruct (Nat.eqb_spec j i) as [->|]; [congruence|]. rewrite Hopn in Hj by auto. eauto.
  - intros h j ty' Hj. destruct (Nat.eq_dec j i) as [->|]; [|rewrite Hopn by auto; auto]. apply iv_avail0 in Hj. congruence.
  - intros a Ha. destruct (iv_accs0 a Ha) as (A & B). rewrite Hopn; auto. congruence.
  - intros j [<-|[]]. rewrite open_ids_snoc. cbn. split; [auto|split].
    + intros (a & Ha & E). destruct (iv_accs0 a Ha) as (A & B). congruence.
    + intros h C. apply in_fst in C as [ty' C]. apply iv_avail0 in C. congruence.
  - destruct t as [t|]; auto. destruct iv_full0 as [A B]. split; intros j h ty' w' Hj.
    { destruct (Nat.eq_dec j i) as [->|]; [|rewrite Hopn in Hj by auto; eauto]. rewrite Hopi in Hj. injection Hj as <- <- <-. auto. }
    destruct (Nat.eq_dec j i) as [->|]; [auto|]. rewrite Hopn in Hj by auto. destruct (B _ _ _ _ Hj) as [|[|[]]]; auto.
Qed.

Definition given (h : hid) (i : fid) (ty : ftype) (w : bool) (s : pool) : pool :=
  set_accs s (mkA (next_key s) h i ty w :: accs s) (S (next_key s)).
Lemma inv_give : forall t s h i ty w, Inv t [i] s -> opened (log s) i = Some (h, ty, w) -> readonly (hs s h) = negb w ->
  (w = true -> (forall a, In a (accs s) -> a_handler a <> h) /\ avail (hs s h) = []) ->
  Inv t [] (given h i ty w s).
Proof.
  intros t s h i ty w [] Ho Hr Hw.
  destruct (iv_pend0 i ltac:(left; auto)) as (P1 & P2 & P3).
  constructor; cbn; auto.
  - intros a [<-|Ha]; cbn; auto.
  - constructor; auto. intros C. apply in_map_iff in C as (a & E & Ha). apply P2. exists a. auto.
  - intros a [<-|Ha]; cbn; auto. specialize (iv_keys0 a Ha). lia.
  - constructor; auto. intros C. apply in_map_iff in C as (a & E & Ha). specialize (iv_keys0 a Ha). lia.
  - intros a b [<-|Ha] Hwr [<-|Hb] E; cbn in *; auto.
    + subst w. destruct (Hw eq_refl) as [X _]. exfalso. eapply X; eauto.
    + destruct (iv_accs0 a Ha) as (A & B & C). rewrite <- E, Hr, Hwr in B.
      assert (w = true) as -> by (destruct w; auto). destruct (Hw eq_refl) as [X _]. exfalso. eapply X; eauto.
  - intros h' Hr'. destruct (iv_write0 h' Hr') as [A B]. split; auto. intros (a & [<-|Ha] & E); cbn in *.
    + subst h'. rewrite Hr in Hr'. assert (w = true) as -> by (destruct w; auto). destruct (Hw eq_refl); auto.
    + apply B. eauto.
  - intros j [].
  - destruct t as [t|]; auto. destruct iv_full0 as [A B]. split; auto. intros j h' ty' w' Hj.
    destruct (B _ _ _ _ Hj) as [X|[(a & Ha & E)|[<-|[]]]]; [auto|right; left; exists a; cbn; auto|].
    right; left. eexists. split; [left; reflexivity|reflexivity].
Qed.

Lemma insert_In : forall p l, ~ In (fst p) (map fst l) -> forall q, In q (insert p l) <-> q = p \/ In q l.
Proof.
  intros p l. induction l as [|x l IH]; intros Hn q; cbn [insert].
  - cbn. intuition.
  - destruct (fst p <? fst x); [cbn; intuition|].
    destruct (Nat.eqb_spec (fst p) (fst x)) as [E|]; [exfalso; apply Hn; left; auto|].
    cbn. rewrite IH; [intuition|]. intros C; apply Hn; right; auto.
Qed.
Lemma insert_NoDup : forall p l, ~ In (fst p) (map fst l) -> NoDup (map fst l) -> NoDup (map fst (insert p l)).
Proof.
  intros p l. induction l as [|x l IH]; intros Hn Hnd; cbn [insert map].
  - repeat constructor. intros [].
  - destruct (fst p <? fst x); [cbn; constructor; auto|].
    destruct (Nat.eqb_spec (fst p) (fst x)) as [E|]; [exfalso; apply Hn; left; auto|].
    cbn in *. inversion Hnd; subst. constructor.
    + intros C. apply in_map_iff in C as (q & E & Hq). apply insert_In in Hq; [|intros C; apply Hn; right; auto].
      destruct Hq as [->|Hq]; [congruence|]. apply H1. rewrite <- E. apply in_map. auto.
    + apply IH; auto.
Qed.

Definition released (a : acc) (s : pool) : pool :=
  set_accs (set_avail s (a_handler a) (insert (a_fid a, a_type a) (avail (hs s (a_handler a)))))
    (filter (fun b => negb (a_key b =? a_key a)) (accs s)) (next_key s).

Lemma in_released : forall t p s a b, Inv t p s -> In a (accs s) -> In b (accs (released a s)) <-> In b (accs s) /\ b <> a.
Proof.
  intros t p s a b HI Ha. cbn. rewrite filter_In, negb_true_iff, Nat.eqb_neq. split; intros [H1 H2]; split; auto.
  - congruence.
  - intros E. apply H2. eapply (nodup_map_unique a_key); eauto. eapply iv_keynd; eauto.
Qed.

Lemma NoDup_map_filter : forall {A} (g : A -> nat) f l, NoDup (map g l) -> NoDup (map g (filter f l)).
Proof.
  intros A g f l. induction l as [|x l IH]; intros H; cbn; [constructor|]. inversion H; subst.
  destruct (f x); cbn; auto. constructor; auto. intros C. apply in_map_iff in C as (y & E & Hy). apply filter_In in Hy as [Hy _].
  apply H2. rewrite <- E. apply in_map; auto.
Qed.

Lemma inv_release : forall t s a, Inv t [] s -> In a (accs s) ->
  Inv t [] (released a s).
Proof.
  intros t s a HI Ha. pose proof (fun b => in_released t [] s a b HI Ha) as Hrel. destruct HI.
  destruct (iv_accs0 a Ha) as (A1 & A2 & A3).
  assert (Hrel2 : forall b, In b (filter (fun b : acc => negb (a_key b =? a_key a)) (accs s)) <-> In b (accs s) /\ b <> a) by (intros; apply Hrel).
  clear Hrel.
  constructor; cbn; auto.
  - intros h' i ty. unfold upd. destruct (Nat.eqb_spec h' (a_handler a)) as [->|]; cbn; [|auto].
    rewrite insert_In by auto. intros [E|H]; [|auto]. injection E as -> ->. rewrite A1, A2. f_equal. f_equal. destruct (a_write a); auto.
  - intros h'. unfold upd. destruct (Nat.eqb_spec h' (a_handler a)) as [->|]; cbn; [|auto]. apply insert_NoDup; auto.
  - intros b Hb. apply Hrel2 in Hb as [Hb Hn]. destruct (iv_accs0 b Hb) as (B1 & B2 & B3). split; [auto|].
    unfold upd. destruct (Nat.eqb_spec (a_handler b) (a_handler a)) as [E|]; cbn; [|auto].
    rewrite E in B2. split; auto. intros C. apply in_fst in C as [ty C]. apply insert_In in C; auto.
    destruct C as [C|C]; [|apply B3; rewrite E; apply in_fst; eauto]. injection C as C _. apply Hn.
    eapply (nodup_map_unique a_fid); eauto.
  - apply NoDup_map_filter; auto.
  - intros b Hb. apply Hrel2 in Hb as [Hb _]. auto.
  - apply NoDup_map_filter; auto.
  - intros x y Hx Hw Hy E. apply Hrel2 in Hx as [Hx _]. apply Hrel2 in Hy as [Hy _]. eauto.
  - intros h' Hr'. specialize (iv_write0 h'). unfold upd in *. destruct (Nat.eqb_spec h' (a_handler a)) as [->|]; cbn in *.
    + destruct (iv_write0 Hr') as [X Y]. rewrite Y by eauto. cbn. split; auto. intros (b & Hb & E). exfalso.
      apply Hrel2 in Hb as [Hb Hn]. apply Hn. eapply iv_lock0; eauto. rewrite A2 in Hr'. destruct (a_write a); auto.
    + destruct (iv_write0 Hr') as [X Y]. split; auto. intros (b & Hb & E). apply Hrel2 in Hb as [Hb _]. eauto.
  - intros j [].
  - destruct t as [t|]; auto. destruct iv_full0 as [A B]. split.
    + apply A.
    + intros i h' ty w Ho. unfold upd. destruct (B _ _ _ _ Ho) as [X|[(b & Hb & E)|[]]].
      * left. destruct (Nat.eqb_spec h' (a_handler a)) as [->|]; cbn; auto. apply in_fst in X as [ty' X]. apply in_fst. exists ty'. apply insert_In; auto.
      * destruct (Nat.eq_dec (a_key b) (a_key a)) as [Ek|Hk].
        -- assert (b = a) as -> by (eapply (nodup_map_unique a_key); eauto). left. subst i. rewrite A1 in Ho. injection Ho as <- _ _.
           rewrite Nat.eqb_refl. cbn. apply in_fst. exists (a_type a). apply insert_In; auto.
        -- right; left. exists b. cbn. split; auto. apply Hrel2. split; auto. congruence.
Qed.
