(** Mixed radix arithmetic used by the grid proofs. *)
From Coq Require Import List Arith Lia Bool Sorted.
Import ListNotations.

Section Radix.
  Variable n : nat -> nat.
  Hypothesis npos : forall i, 0 < n i.

  Fixpoint G (i : nat) : nat := match i with O => 1 | S i' => n i' * G i' end.

  Definition dg (a q : nat) : nat := (q / G a) mod n a.

  Lemma G_pos i : 0 < G i.
  Proof. induction i; simpl; [lia|]. specialize (npos i). nia. Qed.

  Lemma G_mult a b : a < b -> exists t, 0 < t /\ G b = t * (n a * G a).
  Proof.
    induction b; intros H; [lia|].
    destruct (Nat.eq_dec a b) as [->|E].
    - exists 1. simpl. lia.
    - destruct IHb as (t & Ht & Hb); [lia|]. exists (n b * t). specialize (npos b).
      split; [nia|]. simpl G. rewrite Hb. ring.
  Qed.

  Lemma dg_lt a q : dg a q < n a.
  Proof. unfold dg. apply Nat.mod_upper_bound. specialize (npos a); lia. Qed.

  Lemma dg_mod a q : (q mod (n a * G a)) / G a = dg a q.
  Proof.
    unfold dg. pose proof (G_pos a). pose proof (npos a).
    rewrite (Nat.mul_comm (n a)), Nat.mod_mul_r by lia.
    rewrite (Nat.mul_comm (G a)), Nat.div_add by lia.
    rewrite (Nat.div_small (q mod G a)); [reflexivity|]. apply Nat.mod_upper_bound; lia.
  Qed.

  Lemma dg_block a m B : m < G a -> dg a (B * G a + m) = B mod n a.
  Proof.
    intros H. unfold dg. pose proof (G_pos a).
    rewrite Nat.add_comm, Nat.div_add by lia. rewrite (Nat.div_small m) by lia. reflexivity.
  Qed.

  Lemma dg_add_mult a b B m : a < b -> dg a (B * G b + m) = dg a m.
  Proof.
    intros H. destruct (G_mult a b H) as (t & Ht & Hb).
    pose proof (G_pos a). pose proof (npos a).
    unfold dg. rewrite Hb.
    replace (B * (t * (n a * G a)) + m) with (m + (B * t * n a) * G a) by ring.
    rewrite Nat.div_add by lia.
    rewrite Nat.mod_add by lia. reflexivity.
  Qed.

  Lemma dg_mod_high a b q : a < b -> dg a (q mod G b) = dg a q.
  Proof.
    intros H. pose proof (G_pos b).
    rewrite (Nat.div_mod q (G b)) at 2 by lia.
    rewrite (Nat.mul_comm (G b)). symmetry. apply dg_add_mult; assumption.
  Qed.

  Definition pmatch (fixed : list (nat * nat)) (q : nat) : Prop :=
    forall a k, In (a, k) fixed -> dg a q = k.

  Definition fwd (a k q : nat) : nat :=
    let c := dg a q in
    if k =? c then q else q + (if c <? k then k - c else n a + k - c) * G a.

  (** least element >= B with residue k *)
  Definition fwdB (m k B : nat) : nat :=
    let c := B mod m in
    if k =? c then B else B + (if c <? k then k - c else m + k - c).

  Lemma fwdB_spec m k B : k < m ->
    fwdB m k B mod m = k /\ B <= fwdB m k B /\
    (forall B', B <= B' -> B' mod m = k -> fwdB m k B <= B').
  Proof.
    intros Hk. unfold fwdB.
    pose proof (Nat.mod_upper_bound B m ltac:(lia)) as Hc.
    pose proof (Nat.div_mod B m ltac:(lia)) as HB.
    set (c := B mod m) in *. set (q := B / m) in *. clearbody c q.
    destruct (Nat.eqb_spec k c) as [E|E].
    - subst k. split; [|split; [lia|intros; lia]].
      rewrite HB, Nat.add_comm, Nat.mul_comm, Nat.mod_add by lia.
      apply Nat.mod_small; lia.
    - destruct (Nat.ltb_spec c k).
      + split; [|split; [lia|]].
        * replace (B + (k - c)) with (k + q * m) by nia.
          rewrite Nat.mod_add by lia. apply Nat.mod_small; lia.
        * intros B' HB' Hm. pose proof (Nat.div_mod B' m ltac:(lia)) as HD.
          rewrite Hm in HD. set (q' := B' / m) in *. clearbody q'.
          assert (q <= q') by nia. nia.
      + split; [|split; [lia|]].
        * replace (B + (m + k - c)) with (k + (q + 1) * m) by nia.
          rewrite Nat.mod_add by lia. apply Nat.mod_small; lia.
        * intros B' HB' Hm. pose proof (Nat.div_mod B' m ltac:(lia)) as HD.
          rewrite Hm in HD. set (q' := B' / m) in *. clearbody q'.
          assert (q < q') by nia. nia.
  Qed.

  Lemma fwd_block a k q : fwd a k q = fwdB (n a) k (q / G a) * G a + q mod G a.
  Proof.
    pose proof (G_pos a) as HG.
    pose proof (Nat.div_mod q (G a) ltac:(lia)) as HD.
    unfold fwd, fwdB. change ((q / G a) mod n a) with (dg a q).
    destruct (k =? dg a q); [lia|].
    set (d := if dg a q <? k then _ else _). nia.
  Qed.

  Lemma fwd_ge a k q : q <= fwd a k q.
  Proof. unfold fwd. destruct (k =? dg a q); lia. Qed.

  Lemma fwd_digit a k q : k < n a -> dg a (fwd a k q) = k.
  Proof.
    intros H. rewrite fwd_block, dg_block.
    - apply fwdB_spec; assumption.
    - apply Nat.mod_upper_bound. pose proof (G_pos a); lia.
  Qed.

  Lemma fwd_low a b k q : b < a -> dg b (fwd a k q) = dg b q.
  Proof.
    intros H. rewrite fwd_block, dg_add_mult by assumption. apply dg_mod_high; assumption.
  Qed.

  Definition keys_lt (l : list (nat * nat)) (a : nat) : Prop := forall b k, In (b, k) l -> b < a.
  Definition valid (l : list (nat * nat)) : Prop := forall a k, In (a, k) l -> k < n a.

  (** keys strictly increasing *)
  Inductive incr : list (nat * nat) -> Prop :=
  | incr_nil : incr []
  | incr_snoc l a k : incr l -> keys_lt l a -> incr (l ++ [(a, k)]).

  Lemma low_min l : incr l -> valid l -> forall a, keys_lt l a ->
    exists m, m < G a /\ (forall B, pmatch l (B * G a + m)) /\
              (forall r, pmatch l r -> m <= r mod G a).
  Proof.
    induction 1 as [|l a0 k0 Hl IH Hkeys]; intros Hv a Ha.
    - exists 0. pose proof (G_pos a). split; [lia|]. split; [intros B x k []|intros; lia].
    - assert (Hv' : valid l) by (intros x y Hx; apply Hv, in_or_app; auto).
      destruct (IH Hv' a0 Hkeys) as (m0 & Hm0 & Hmatch & Hmin).
      assert (Ha0 : a0 < a) by (apply (Ha a0 k0), in_or_app; right; left; reflexivity).
      assert (Hk0 : k0 < n a0) by (apply Hv, in_or_app; right; left; reflexivity).
      destruct (G_mult a0 a Ha0) as (t & Ht & HGa).
      pose proof (G_pos a0) as HG0. pose proof (npos a0) as Hn0.
      exists (k0 * G a0 + m0). split; [|split].
      + rewrite HGa. assert (S k0 <= n a0) by lia.
        assert (S k0 * G a0 <= n a0 * G a0) by (apply Nat.mul_le_mono_r; assumption).
        assert (1 * (n a0 * G a0) <= t * (n a0 * G a0)) by (apply Nat.mul_le_mono_r; lia).
        lia.
      + intros B x k Hx. apply in_app_or in Hx. destruct Hx as [Hx|[Hx|[]]].
        * rewrite HGa.
          replace (B * (t * (n a0 * G a0)) + (k0 * G a0 + m0))
            with ((B * t * n a0 + k0) * G a0 + m0) by ring.
          apply Hmatch; assumption.
        * injection Hx as <- <-. rewrite HGa.
          replace (B * (t * (n a0 * G a0)) + (k0 * G a0 + m0))
            with ((k0 + B * t * n a0) * G a0 + m0) by ring.
          rewrite dg_block by assumption. rewrite Nat.mod_add by lia.
          apply Nat.mod_small; assumption.
      + intros r Hr.
        assert (H1 : pmatch l r) by (intros x y Hx; apply Hr, in_or_app; auto).
        assert (H2 : dg a0 r = k0) by (apply Hr, in_or_app; right; left; reflexivity).
        specialize (Hmin r H1).
        rewrite <- (dg_mod_high a0 a r Ha0) in H2.
        assert (H3 : (r mod G a) mod G a0 = r mod G a0).
        { rewrite HGa. rewrite Nat.mul_assoc, (Nat.mul_comm (t * n a0)).
          rewrite Nat.mod_mul_r by nia.
          rewrite (Nat.mul_comm (G a0) (_ mod _)), Nat.mod_add by lia. rewrite Nat.mod_mod by lia. reflexivity. }
        pose proof (Nat.div_mod (r mod G a) (G a0) ltac:(lia)) as HD.
        rewrite H3 in HD. unfold dg in H2.
        assert (k0 <= (r mod G a) / G a0).
        { rewrite <- H2. apply Nat.mod_le. lia. }
        nia.
  Qed.

  Fixpoint fwd_all (l : list (nat * nat)) (q : nat) : nat :=
    match l with [] => q | (a, k) :: r => fwd_all r (fwd a k q) end.

  Definition least (P : nat -> Prop) (lo q : nat) : Prop :=
    lo <= q /\ P q /\ forall r, lo <= r -> P r -> q <= r.

  Lemma incr_app_inv l r : incr (l ++ r) -> incr l.
  Proof.
    induction r as [|x r IH] using rev_ind; intros H.
    - rewrite app_nil_r in H. assumption.
    - rewrite app_assoc in H. inversion H as [E|l' a k Hi Hk E].
      + exfalso. apply (app_cons_not_nil (l ++ r) [] x). auto.
      + apply app_inj_tail in E. destruct E as [E _]. subst. auto.
  Qed.

  Lemma fwd_all_least done todo p q :
    incr done -> valid (done ++ todo) -> incr (done ++ todo) ->
    pmatch (done ++ todo) p ->
    least (pmatch done) (S p) q ->
    least (pmatch (done ++ todo)) (S p) (fwd_all todo q).
  Proof.
    revert done q. induction todo as [|(a, k) r IH]; intros done q Hinc Hv Hall Hp Hq.
    - simpl. rewrite app_nil_r. assumption.
    - simpl.
      replace (done ++ (a, k) :: r) with ((done ++ [(a, k)]) ++ r) in *
        by (rewrite <- app_assoc; reflexivity).
      assert (Hk : k < n a) by (apply Hv, in_or_app; left; apply in_or_app; right; left; reflexivity).
      assert (Hpre : incr (done ++ [(a, k)])).
      { eapply incr_app_inv. exact Hall. }
      assert (Hkeys : keys_lt done a).
      { inversion Hpre as [|? ? ? _ Hk2 E].
        - destruct done; discriminate.
        - apply app_inj_tail in E. destruct E as [<- E]. injection E as <- <-. assumption. }
      apply IH; [exact Hpre|assumption|assumption|assumption|].
      destruct Hq as (Hq1 & Hq2 & Hq3).
      assert (Hpa : dg a p = k) by (apply Hp, in_or_app; left; apply in_or_app; right; left; reflexivity).
      assert (Hv1 : valid done) by (intros x y Hx; apply Hv, in_or_app; left; apply in_or_app; auto).
      destruct (low_min done Hinc Hv1 a Hkeys) as (m & Hm & Hmm & Hmin).
      pose proof (G_pos a) as HG.
      split; [|split].
      + pose proof (fwd_ge a k q). lia.
      + intros x y Hx. apply in_app_or in Hx. destruct Hx as [Hx|[Hx|[]]].
        * rewrite fwd_low by (eapply Hkeys; exact Hx). apply Hq2; assumption.
        * injection Hx as <- <-. apply fwd_digit; assumption.
      + intros s Hs Hsm.
        assert (Hsd : pmatch done s) by (intros x y Hx; apply Hsm, in_or_app; auto).
        assert (Hsa : dg a s = k) by (apply Hsm, in_or_app; right; left; reflexivity).
        specialize (Hq3 s Hs Hsd) as Hqs.
        destruct (Nat.eq_dec (dg a q) k) as [E|E].
        * unfold fwd. rewrite E, Nat.eqb_refl. assumption.
        * (* a carry reached axis a *)
          assert (HB : p / G a < q / G a).
          { assert (p / G a <= q / G a) by (apply Nat.div_le_mono; lia).
            destruct (Nat.eq_dec (p / G a) (q / G a)) as [E'|]; [|lia].
            exfalso. apply E. rewrite <- Hpa. unfold dg. rewrite E'. reflexivity. }
          pose proof (Nat.div_mod q (G a) ltac:(lia)) as HDq.
          pose proof (Nat.div_mod p (G a) ltac:(lia)) as HDp.
          pose proof (Nat.mod_upper_bound p (G a) ltac:(lia)) as HMp.
          assert (Hlow : q mod G a = m).
          { assert (q <= q / G a * G a + m).
            { apply Hq3; [|apply Hmm]. nia. }
            specialize (Hmin q Hq2). lia. }
          rewrite fwd_block, Hlow.
          pose proof (Nat.div_mod s (G a) ltac:(lia)) as HDs.
          specialize (Hmin s Hsd).
          assert (q / G a <= s / G a) by (apply Nat.div_le_mono; lia).
          destruct (fwdB_spec (n a) k (q / G a) Hk) as (_ & _ & Hl).
          specialize (Hl (s / G a) ltac:(assumption) Hsa). nia.
  Qed.

  Lemma fwd_all_next l p : incr l -> valid l -> pmatch l p ->
    least (pmatch l) (S p) (fwd_all l (S p)).
  Proof.
    intros Hi Hv Hp.
    apply (fwd_all_least [] l p (S p)); try assumption.
    - constructor.
    - split; [lia|]. split; [intros a k []|intros; assumption].
  Qed.

  (** From 0: the least matching position at all. *)
  Lemma fwd_all_app l1 l2 q : fwd_all (l1 ++ l2) q = fwd_all l2 (fwd_all l1 q).
  Proof. revert q. induction l1 as [|(a, k) r IH]; intros q; simpl; auto. Qed.

  Lemma fwd_all_zero_lt l : incr l -> valid l ->
    (forall a, keys_lt l a -> fwd_all l 0 < G a) /\ least (pmatch l) 0 (fwd_all l 0).
  Proof.
    induction 1 as [|l a k Hi IH Hk]; intros Hv.
    - split; [intros a _; apply G_pos|]. split; [simpl; lia|].
      split; [intros a k []|intros; simpl; lia].
    - assert (Hv' : valid l) by (intros x y Hx; apply Hv, in_or_app; auto).
      destruct (IH Hv') as (Hlt & H1 & H2 & H3). clear IH.
      assert (Hkn : k < n a) by (apply Hv, in_or_app; right; left; reflexivity).
      rewrite fwd_all_app. simpl. set (q := fwd_all l 0) in *.
      assert (Hq : q < G a) by (apply Hlt; assumption).
      pose proof (G_pos a) as HG. pose proof (npos a) as Hn.
      assert (Hdq : dg a q = 0).
      { unfold dg. rewrite Nat.div_small by assumption. apply Nat.mod_small; lia. }
      assert (Hf : fwd a k q = k * G a + q).
      { unfold fwd. rewrite Hdq. destruct (Nat.eqb_spec k 0) as [->|]; [lia|].
        destruct (Nat.ltb_spec 0 k); lia. }
      split.
      + intros b Hb. rewrite Hf.
        assert (a < b) by (apply (Hb a k), in_or_app; right; left; reflexivity).
        destruct (G_mult a b ltac:(assumption)) as (t & Ht & ->).
        assert (S k * G a <= n a * G a) by (apply Nat.mul_le_mono_r; lia).
        assert (1 * (n a * G a) <= t * (n a * G a)) by (apply Nat.mul_le_mono_r; lia).
        lia.
      + split; [lia|]. split.
        * intros x y Hx. apply in_app_or in Hx. destruct Hx as [Hx|[Hx|[]]].
          -- rewrite fwd_low by (eapply Hk; exact Hx). apply H2; assumption.
          -- injection Hx as <- <-. apply fwd_digit; assumption.
        * intros r _ Hr.
          assert (Hrl : pmatch l r) by (intros x y Hx; apply Hr, in_or_app; auto).
          assert (Hra : dg a r = k) by (apply Hr, in_or_app; right; left; reflexivity).
          rewrite Hf.
          destruct (low_min l Hi Hv' a Hk) as (m & Hm & Hmm & Hmin).
          specialize (Hmin r Hrl) as Hmr.
          assert (q <= m) by (apply H3; [lia|apply (Hmm 0)]).
          pose proof (Nat.div_mod r (G a) ltac:(lia)) as HD.
          assert (k <= r / G a) by (rewrite <- Hra; apply Nat.mod_le; lia).
          nia.
  Qed.
End Radix.
