(** Proofs about slices: addressing, iteration, metadata, infimum. *)
From Coq Require Import List Arith Lia Bool Sorted String FinFun.
From Verif Require Import Common GridModel GridSpec GridArith GridProofs.
Import ListNotations.
Local Notation length := List.length.

(** ** at() *)
Lemma check_bounds_iff sizes coords : length coords = length sizes ->
  (check_bounds sizes coords = true <-> in_range sizes coords).
Proof.
  intros Hlen. unfold in_range.
  assert (H : forall pre suf cs, length cs = length suf ->
     (check_bounds (pre ++ suf) cs = true <-> Forall2 (fun c n => c < n) cs suf)).
  { intros pre suf cs. revert pre suf. induction cs as [|c r IH]; intros pre [|x suf] H; try discriminate.
    - simpl. split; [constructor|reflexivity].
    - cbn [check_bounds]. rewrite app_length. simpl length in *.
      replace (length pre + S (length suf) - length r - 1) with (length pre) by lia.
      rewrite app_nth2 by lia. rewrite Nat.sub_diag. simpl nth.
      replace (pre ++ x :: suf) with ((pre ++ [x]) ++ suf) by (rewrite <- app_assoc; reflexivity).
      destruct (Nat.leb_spec x c).
      + split; [discriminate|]. intros HF. inversion HF. lia.
      + rewrite IH by lia. split; [intros; constructor; assumption|].
        intros HF. inversion HF. assumption. }
  apply (H [] sizes coords Hlen).
Qed.

Lemma check_fixed_zero_iff sizes fixed coords : length coords = length sizes ->
  (check_fixed_zero sizes fixed coords = true <->
   forall ax c, nth_error coords ax = Some c -> In ax (map fst fixed) -> c = 0).
Proof.
  intros Hlen.
  assert (H : forall cs j, j + length cs = length sizes ->
     (check_fixed_zero sizes fixed cs = true <->
      forall ax c, nth_error cs ax = Some c -> In (j + ax) (map fst fixed) -> c = 0)).
  { induction cs as [|c r IH]; intros j Hj.
    - simpl. split; [|reflexivity]. intros _ ax c H. destruct ax; discriminate.
    - cbn [check_fixed_zero]. simpl in Hj.
      replace (length sizes - length r - 1) with j by lia.
      specialize (IH (S j) ltac:(lia)).
      destruct (map_find fixed j) as [k|] eqn:Ef.
      + assert (Hin : In j (map fst fixed)).
        { destruct (in_dec Nat.eq_dec j (map fst fixed)); [assumption|].
          apply map_find_none in n. congruence. }
        destruct (Nat.eqb_spec c 0) as [->|Hc]; simpl.
        * rewrite IH. split.
          -- intros H [|ax] d Hd; [injection Hd as <-; reflexivity|].
             intros Hx. apply (H ax d); [exact Hd|]. rewrite Nat.add_succ_r in Hx. exact Hx.
          -- intros H ax d Hd Hx. apply (H (S ax) d); [exact Hd|]. rewrite Nat.add_succ_r. exact Hx.
        * split; [discriminate|]. intros H. exfalso. apply Hc. apply (H 0 c); [reflexivity|].
          rewrite Nat.add_0_r. assumption.
      + apply map_find_none in Ef. rewrite andb_false_r. rewrite IH. split.
        -- intros H [|ax] d Hd Hx; [rewrite Nat.add_0_r in Hx; contradiction|].
           apply (H ax d); [exact Hd|]. rewrite Nat.add_succ_r in Hx. exact Hx.
        -- intros H ax d Hd Hx. apply (H (S ax) d); [exact Hd|]. rewrite Nat.add_succ_r. exact Hx. }
  apply (H coords 0). simpl. assumption.
Qed.

Fixpoint upd (l : list nat) (i k : nat) : list nat :=
  match l, i with
  | [], _ => []
  | _ :: r, O => k :: r
  | x :: r, S i' => x :: upd r i' k
  end.

Lemma upd_length l i k : length (upd l i k) = length l.
Proof. revert i. induction l as [|x r IH]; intros [|i]; simpl; auto. Qed.

Lemma upd_same l i k : i < length l -> nth_error (upd l i k) i = Some k.
Proof. revert i. induction l as [|x r IH]; intros [|i] H; simpl in *; try lia; auto. apply IH. lia. Qed.

Lemma upd_other l i j k : i <> j -> nth_error (upd l i k) j = nth_error l j.
Proof. revert i j. induction l as [|x r IH]; intros [|i] [|j] H; simpl; auto; try congruence. Qed.

Lemma upd_tot sizes l i j k : nth_error l i = Some 0 ->
  tot sizes j (upd l i k) = tot sizes j l + k * G (nf sizes) (j + i).
Proof.
  revert i j. induction l as [|x r IH]; intros [|i] j H; simpl in H; try discriminate.
  - injection H as ->. cbn [upd tot]. rewrite Nat.add_0_r. lia.
  - cbn [upd tot]. rewrite (IH i (S j) H). rewrite Nat.add_succ_r. simpl. lia.
Qed.

Definition add_fixed_G (sizes : list nat) (l : list (nat * nat)) (t : nat) : nat :=
  fold_left (fun acc p => acc + snd p * G (nf sizes) (fst p)) l t.

Lemma add_fixed_eq sizes l t : keys_in (length sizes) l ->
  add_fixed (factor_vector sizes (length sizes)) l t = add_fixed_G sizes l t.
Proof.
  unfold add_fixed, add_fixed_G. revert t. induction l as [|(a, k) r IH]; intros t H; [reflexivity|].
  cbn [fold_left fst snd].
  assert (Ha : a < length sizes) by (eapply H; left; reflexivity).
  rewrite (nth_error_nth _ _ 0 (factor_nth sizes (length sizes) a ltac:(lia))).
  rewrite factor_G by lia. apply IH. intros b j Hb. eapply H. right. exact Hb.
Qed.

Lemma addresses_fold sizes l : forall coords, NoDup (map fst l) ->
  (forall a k, In (a, k) l -> nth_error coords a = Some 0) ->
  exists full, addresses l coords full /\
    tot sizes 0 full = add_fixed_G sizes l (tot sizes 0 coords).
Proof.
  induction l as [|(a, k) r IH]; intros coords Hnd Hz.
  - exists coords. split; [|reflexivity]. split; [reflexivity|]. split; [intros a k []|reflexivity].
  - simpl in Hnd. inversion Hnd as [|? ? Hna Hnd']; subst.
    assert (Ha0 : nth_error coords a = Some 0) by (eapply Hz; left; reflexivity).
    assert (Ha : a < length coords) by (apply nth_error_Some; congruence).
    destruct (IH (upd coords a k) Hnd') as (full & (H1 & H2 & H3) & H4).
    { intros b j Hb. rewrite upd_other; [eapply Hz; right; exact Hb|].
      intros ->. apply Hna. apply in_fst. eauto. }
    exists full. split.
    + split; [rewrite H1; apply upd_length|]. split.
      * intros b j [E|Hb]; [|auto]. injection E as <- <-.
        rewrite H3 by assumption. apply upd_same; assumption.
      * intros b Hb. simpl in Hb. rewrite H3 by tauto. apply upd_other. tauto.
    + rewrite H4. unfold add_fixed_G. cbn [fold_left fst snd]. f_equal.
      rewrite upd_tot by assumption. reflexivity.
Qed.

Lemma addresses_in_range sizes fixes coords full :
  in_range sizes coords -> addresses fixes coords full ->
  (forall ax k, In (ax, k) fixes -> exists n, nth_error sizes ax = Some n /\ k < n) ->
  in_range sizes full.
Proof.
  intros Hr (H1 & H2 & H3) Hv.
  assert (Hl : length coords = length sizes) by (eapply F2_length; exact Hr).
  assert (Hnth : forall a c, nth_error full a = Some c -> exists n, nth_error sizes a = Some n /\ c < n).
  { intros a c Hc. destruct (in_dec Nat.eq_dec a (map fst fixes)) as [Hin|Hin].
    - apply in_fst in Hin. destruct Hin as (k & Hk). rewrite (H2 a k Hk) in Hc. injection Hc as <-.
      apply (Hv a k Hk).
    - rewrite (H3 a Hin) in Hc. clear - Hr Hc. unfold in_range in Hr. revert a Hc.
      induction Hr as [|x n cr r Hx Hr IH]; intros [|a] Hc; simpl in *; try discriminate.
      + injection Hc as <-. eauto.
      + apply IH; assumption. }
  unfold in_range. clear - Hnth H1 Hl. rewrite <- H1 in Hl. clear H1. revert sizes Hl Hnth.
  induction full as [|c r IH]; intros [|n sizes] Hl Hnth; try discriminate; constructor.
  - destruct (Hnth 0 c eq_refl) as (n' & E & Hc). injection E as ->. assumption.
  - apply IH; [simpl in Hl; lia|]. intros a x Hx. apply (Hnth (S a) x Hx).
Qed.

Lemma slice_keys {V} (axes : list (axis V)) fixes v : slice_inv axes fixes v ->
  keys_in (length (axes_sizes axes)) (v_fixed v).
Proof.
  intros (H1 & H2 & H3 & H4 & H5) a k H. apply H3 in H. apply H5 in H.
  destruct H as (n & Hn & _). apply nth_error_Some. congruence.
Qed.

Lemma addresses_ext l l' coords full : (forall p, In p l <-> In p l') ->
  addresses l coords full -> addresses l' coords full.
Proof.
  intros E (H1 & H2 & H3). split; [assumption|]. split.
  - intros a k H. apply H2, E, H.
  - intros a H. apply H3. intros Hin. apply H. apply in_fst in Hin. destruct Hin as (k & Hk).
    apply in_fst. exists k. apply E. assumption.
Qed.

Lemma sortedk_nodup l : sortedk l -> NoDup (map fst l).
Proof.
  unfold sortedk. induction (map fst l) as [|x r IH]; intros H; [constructor|].
  inversion H as [|? ? Hs Hf]; subst. constructor; [|auto].
  intros Hin. rewrite Forall_forall in Hf. specialize (Hf x Hin). lia.
Qed.

Lemma at_pos_spec {V} (axes : list (axis V)) fixes v coords :
  slice_inv axes fixes v -> length coords = length axes ->
  (accepted (axes_sizes axes) fixes coords /\
   exists full, addresses fixes coords full /\ in_range (axes_sizes axes) full /\
                at_pos v coords = Ok (horner (axes_sizes axes) full) /\
                paren_pos v coords = horner (axes_sizes axes) full)
  \/ (~ accepted (axes_sizes axes) fixes coords /\ at_pos v coords = Throw).
Proof.
  intros Hinv Hlen. pose proof (slice_keys _ _ _ Hinv) as Hkeys.
  destruct Hinv as (H1 & H2 & H3 & H4 & H5).
  set (sizes := axes_sizes axes) in *.
  assert (Hls : length coords = length sizes) by (unfold sizes, axes_sizes; rewrite map_length; assumption).
  unfold at_pos, paren_pos, v_helper. rewrite H1, helper_make. fold sizes. cbn [helper h_sizes h_factors].
  pose proof (check_fixed_zero_iff sizes (v_fixed v) coords Hls) as Hz.
  pose proof (check_bounds_iff sizes coords Hls) as Hb.
  assert (Hfst : forall a, In a (map fst (v_fixed v)) <-> In a (map fst fixes)).
  { intros a. rewrite !in_fst. split; intros (k & Hk); exists k; apply H3; assumption. }
  destruct (check_fixed_zero sizes (v_fixed v) coords) eqn:Ez; simpl negb; cbn iota.
  2:{ right. split; [|reflexivity]. intros (_ & Ha).
      assert (false = true); [|discriminate]. apply Hz. intros a c Hc Hin. apply Hfst, in_fst in Hin.
      destruct Hin as (k & Hk). rewrite (Ha a k Hk) in Hc. congruence. }
  destruct (check_bounds sizes coords) eqn:Eb; simpl negb; cbn iota.
  2:{ right. split; [|reflexivity]. intros (Hr & _). apply Hb in Hr. discriminate. }
  left. assert (Hr : in_range sizes coords) by (apply Hb; reflexivity).
  assert (Hzero : forall a k, In (a, k) (v_fixed v) -> nth_error coords a = Some 0).
  { intros a k Hk. assert (a < length coords) by (rewrite Hls; eapply Hkeys; eassumption).
    destruct (nth_error coords a) as [c|] eqn:Ec; [|apply nth_error_None in Ec; lia].
    f_equal. eapply Hz; [reflexivity|exact Ec|]. apply in_fst. eauto. }
  split. { split; [assumption|]. intros a k Hk. apply (Hzero a k), H3, Hk. }
  destruct (addresses_fold sizes (v_fixed v) coords (sortedk_nodup _ H2) Hzero) as (full & Ha & Ht).
  assert (Ha' : addresses fixes coords full) by (eapply addresses_ext; [exact H3|exact Ha]).
  exists full. split; [assumption|].
  assert (Hrf : in_range sizes full) by (eapply addresses_in_range; eassumption).
  split; [assumption|].
  assert (E : add_fixed (factor_vector sizes (length sizes)) (v_fixed v)
               (calculate_total_index (factor_vector sizes (length sizes)) coords) = horner sizes full).
  { rewrite add_fixed_eq by assumption.
    rewrite total_index_tot by lia. rewrite Hls, Nat.sub_diag.
    rewrite <- Ht. apply tot_horner. destruct Ha as (Hl & _). lia. }
  rewrite E. split; reflexivity.
Qed.

Lemma at_read_spec {V C} (axes : list (axis V)) fixes v (cells : list C) coords :
  fix_chain (new_view axes) fixes = Ok v ->
  length cells = cell_count (axes_sizes axes) -> length coords = length axes ->
  (accepted (axes_sizes axes) fixes coords ->
     exists full c, addresses fixes coords full /\ In (full, c) (content (axes_sizes axes) cells) /\
       at_read v cells coords = Ok c /\ paren v cells coords = Ok c)
  /\ (~ accepted (axes_sizes axes) fixes coords -> at_read v cells coords = Throw).
Proof.
  intros Hc Hl Hlen. apply fix_chain_slice in Hc.
  destruct (at_pos_spec axes fixes v coords Hc Hlen) as [(Hacc & full & H1 & H2 & H3 & H4)|(Hacc & H)].
  - split; [|intros; contradiction]. intros _.
    pose proof (horner_lt _ _ H2) as Hlt. rewrite <- Hl in Hlt. apply nth_error_Some in Hlt.
    destruct (nth_error cells (horner (axes_sizes axes) full)) as [c|] eqn:E; [|congruence].
    exists full, c. split; [assumption|]. split; [apply in_content; auto|].
    unfold at_read, paren. rewrite H3, H4. cbn [bind]. rewrite E. split; reflexivity.
  - split; [intros; contradiction|]. intros _. unfold at_read. rewrite H. reflexivity.
Qed.

(** ** Writes *)
Lemma list_set_spec {C} (l : list C) i x : i < length l ->
  exists l', list_set l i x = Some l' /\ length l' = length l /\
    forall j, nth_error l' j = if Nat.eqb j i then Some x else nth_error l j.
Proof.
  revert i. induction l as [|y r IH]; intros [|i] H; simpl in *; try lia.
  - eexists. split; [reflexivity|]. split; [reflexivity|]. intros [|j]; reflexivity.
  - destruct (IH i ltac:(lia)) as (r' & -> & Hl & Hn). eexists. split; [reflexivity|].
    split; [simpl; lia|]. intros [|j]; [reflexivity|]. simpl. apply Hn.
Qed.

Lemma horner_inj sizes a b : in_range sizes a -> in_range sizes b ->
  horner sizes a = horner sizes b -> a = b.
Proof.
  intros Ha Hb E. rewrite <- (horner_coords _ _ Ha), <- (horner_coords _ _ Hb). congruence.
Qed.

Lemma at_write_spec {V C} (axes : list (axis V)) fixes v (cells : list C) coords x :
  fix_chain (new_view axes) fixes = Ok v ->
  length cells = cell_count (axes_sizes axes) -> length coords = length axes ->
  (accepted (axes_sizes axes) fixes coords ->
   exists full cells', addresses fixes coords full /\ at_write v cells coords x = Ok cells' /\
     length cells' = length cells /\
     forall other c, In (other, c) (content (axes_sizes axes) cells') <->
       (other = full /\ c = x) \/ (other <> full /\ In (other, c) (content (axes_sizes axes) cells)))
  /\ (~ accepted (axes_sizes axes) fixes coords -> at_write v cells coords x = Throw).
Proof.
  intros Hc Hl Hlen. apply fix_chain_slice in Hc.
  destruct (at_pos_spec axes fixes v coords Hc Hlen) as [(Hacc & full & H1 & H2 & H3 & H4)|(Hacc & H)].
  - split; [|intros; contradiction]. intros _.
    pose proof (horner_lt _ _ H2) as Hlt. rewrite <- Hl in Hlt.
    destruct (list_set_spec cells _ x Hlt) as (cells' & E & Hl' & Hn).
    exists full, cells'. split; [assumption|].
    unfold at_write. rewrite H3. cbn [bind]. rewrite E. split; [reflexivity|].
    split; [assumption|]. intros other c.
    rewrite !in_content by congruence. rewrite Hn.
    destruct (Nat.eqb_spec (horner (axes_sizes axes) other) (horner (axes_sizes axes) full)) as [Eh|Eh].
    + split.
      * intros (Hr & Hx). left. injection Hx as <-. split; [|reflexivity]. eapply horner_inj; eassumption.
      * intros [(-> & ->)|(Hne & Hr & _)]; [auto|]. exfalso. apply Hne. eapply horner_inj; eassumption.
    + split.
      * intros (Hr & Hx). right. split; [congruence|auto].
      * intros [(-> & ->)|(Hne & Hr & Hx)]; [congruence|auto].
  - split; [intros; contradiction|]. intros _. unfold at_write. rewrite H. reflexivity.
Qed.

(** ** Iteration *)
Lemma incr_keys_app l a k r : incr (l ++ (a, k) :: r) -> keys_lt l a.
Proof.
  intros H.
  replace (l ++ (a, k) :: r) with ((l ++ [(a, k)]) ++ r) in H by (rewrite <- app_assoc; reflexivity).
  apply incr_app_inv in H. inversion H as [E|l' a' k' Hi Hk E].
  - destruct l; discriminate.
  - apply app_inj_tail in E. destruct E as [E1 E2]. injection E2 as <- <-. subst. assumption.
Qed.

Lemma map_set_snoc m a k : keys_lt m a -> map_set m a k = m ++ [(a, k)].
Proof.
  induction m as [|(b, j) r IH]; intros H; [reflexivity|]. simpl.
  assert (b < a) by (eapply H; left; reflexivity).
  destruct (Nat.eqb_spec b a); [lia|]. destruct (Nat.ltb_spec a b); [lia|].
  rewrite IH; [reflexivity|]. intros c i Hc. eapply H. right. exact Hc.
Qed.

Lemma fix_iterator_axes_spec sizes : positive sizes ->
  forall todo i done rest q, i + todo = length sizes ->
  incr (done ++ rest) -> sortedk (done ++ rest) ->
  (forall a k, In (a, k) (done ++ rest) -> exists n, nth_error sizes a = Some n /\ k < n) ->
  keys_lt done i -> (forall a k, In (a, k) rest -> i <= a) ->
  fix_iterator_axes (helper sizes) (done ++ rest) todo i (mkIter q done)
  = Ok (mkIter (fwd_all (nf sizes) rest q) (done ++ rest)).
Proof.
  intros Hp. induction todo as [|todo IH]; intros i done rest q Hi Hinc Hs Hv Hd Hr.
  - destruct rest as [|(a, k) r].
    + rewrite app_nil_r. reflexivity.
    + exfalso. assert (i <= a) by (eapply Hr; left; reflexivity).
      destruct (Hv a k) as (n & Hn & _); [apply in_or_app; right; left; reflexivity|].
      assert (a < length sizes) by (apply nth_error_Some; congruence). lia.
  - cbn [fix_iterator_axes].
    destruct (map_find (done ++ rest) i) as [k|] eqn:Ef.
    + apply map_find_some in Ef; [|assumption].
      apply in_app_or in Ef. destruct Ef as [Ef|Ef]; [specialize (Hd i k Ef); lia|].
      destruct rest as [|(a, k') r]; [destruct Ef|].
      assert (Eh : (a, k') = (i, k)).
      { destruct Ef as [E|Hin]; [assumption|]. exfalso.
        assert (i <= a) by (eapply Hr; left; reflexivity).
        assert (a < i); [|lia].
        apply in_split in Hin. destruct Hin as (r1 & r2 & ->).
        replace (done ++ (a, k') :: r1 ++ (i, k) :: r2) with ((done ++ (a, k') :: r1) ++ (i, k) :: r2) in Hinc
          by (rewrite <- app_assoc; reflexivity).
        apply incr_keys_app in Hinc. eapply Hinc. apply in_or_app. right. left. reflexivity. }
      injection Eh as -> ->.
      unfold iter_fix_by_index. cbn [it_fixed it_pos].
      assert (Hnone : map_find done i = None).
      { apply map_find_none. intros Hin. apply in_fst in Hin. destruct Hin as (j & Hj).
        specialize (Hd i j Hj). lia. }
      rewrite Hnone. cbn [helper h_sizes].
      destruct (Hv i k) as (n & Hn & Hk); [apply in_or_app; right; left; reflexivity|].
      rewrite Hn. destruct (Nat.leb_spec n k); [lia|].
      fold (helper sizes). rewrite forward_fwd; [|assumption|lia]. cbn [bind].
      rewrite map_set_snoc by assumption.
      replace (done ++ (i, k) :: r) with ((done ++ [(i, k)]) ++ r) in * by (rewrite <- app_assoc; reflexivity).
      rewrite IH; try assumption; try lia; [reflexivity| |].
      * intros b j Hb. apply in_app_or in Hb. destruct Hb as [Hb|[Hb|[]]].
        -- specialize (Hd b j Hb). lia.
        -- injection Hb as <- <-. lia.
      * intros b j Hb. apply in_split in Hb. destruct Hb as (r1 & r2 & ->).
        rewrite app_assoc in Hinc. apply incr_keys_app in Hinc.
        assert (i < b); [|lia]. eapply Hinc. apply in_or_app. left. apply in_or_app. right. left. reflexivity.
    + cbn [bind]. apply map_find_none in Ef. rewrite IH; try assumption; try lia; [reflexivity| |].
      * intros b j Hb. specialize (Hd b j Hb). lia.
      * intros b j Hb. specialize (Hr b j Hb).
        assert (b <> i); [|lia]. intros ->. apply Ef. apply in_fst. exists j. apply in_or_app. auto.
Qed.

Definition fixed_ok (sizes : list nat) (fixed : list (nat * nat)) : Prop :=
  sortedk fixed /\ (forall a k, In (a, k) fixed -> exists n, nth_error sizes a = Some n /\ k < n).

Lemma fixed_ok_valid sizes l : fixed_ok sizes l -> valid (nf sizes) l /\ keys_in (length sizes) l.
Proof.
  intros (_ & H). split.
  - intros a k Hk. destruct (H a k Hk) as (n & Hn & Hlt). unfold nf.
    rewrite (nth_error_nth _ _ 1 Hn). assumption.
  - intros a k Hk. destruct (H a k Hk) as (n & Hn & _). apply nth_error_Some. congruence.
Qed.

Lemma begin_spec sizes l : positive sizes -> fixed_ok sizes l ->
  fix_iterator_axes (helper sizes) l (length sizes) 0 (mkIter 0 [])
  = Ok (mkIter (fwd_all (nf sizes) l 0) l).
Proof.
  intros Hp (Hs & Hv).
  apply (fix_iterator_axes_spec sizes Hp (length sizes) 0 [] l 0); simpl; try assumption; try reflexivity.
  - apply sortedk_incr; assumption.
  - intros a k [].
  - intros; lia.
Qed.

(** position p matches *)
Lemma pmatch_matches sizes l p : keys_in (length sizes) l ->
  (pmatch (nf sizes) l p <-> matches l (coords_of sizes p)).
Proof.
  intros Hk. unfold pmatch, matches. split; intros H a k Hin.
  - rewrite nth_error_coords_of by (eapply Hk; exact Hin). f_equal. apply H; assumption.
  - specialize (H a k Hin). rewrite nth_error_coords_of in H by (eapply Hk; exact Hin). congruence.
Qed.

Lemma matchesb_iff l c : matchesb l c = true <-> matches l c.
Proof.
  unfold matchesb, matches. rewrite forallb_forall. split.
  - intros H a k Hin. specialize (H (a, k) Hin). simpl in H.
    destruct (nth_error c a); [|discriminate]. apply Nat.eqb_eq in H. congruence.
  - intros H (a, k) Hin. simpl. rewrite (H a k Hin). apply Nat.eqb_refl.
Qed.

Lemma iter_incr_spec sizes l p : positive sizes -> fixed_ok sizes l ->
  pmatch (nf sizes) l p -> p < cell_count sizes ->
  exists q, iter_incr (helper sizes) (cell_count sizes) (mkIter p l) = Ok (mkIter q l) /\
    p < q /\ q <= cell_count sizes /\
    (forall r, p < r -> r < q -> ~ pmatch (nf sizes) l r) /\
    (q = cell_count sizes \/ pmatch (nf sizes) l q).
Proof.
  intros Hp Hok Hm Hlt. destruct (fixed_ok_valid _ _ Hok) as (Hv & Hk). destruct Hok as (Hs & _).
  unfold iter_incr. cbn [it_pos it_fixed]. destruct l as [|x l].
  - exists (S p). split; [reflexivity|]. split; [lia|]. split; [lia|]. split; [intros; lia|].
    right. intros a k [].
  - rewrite forward_all_fwd by assumption. cbn [bind].
    pose proof (fwd_all_next (nf sizes) (nf_pos sizes Hp) _ p (sortedk_incr _ Hs) Hv Hm) as (H1 & H2 & H3).
    set (q := fwd_all (nf sizes) (x :: l) (S p)) in *.
    eexists. split; [reflexivity|]. destruct (Nat.ltb_spec (cell_count sizes) q).
    + split; [lia|]. split; [lia|]. split; [|left; reflexivity].
      intros r Hr1 Hr2 Hr. specialize (H3 r ltac:(lia) Hr). lia.
    + split; [lia|]. split; [lia|]. split; [|right; assumption].
      intros r Hr1 Hr2 Hr. specialize (H3 r ltac:(lia) Hr). lia.
Qed.

Lemma content_skip {C} sizes (cells : list C) p c : positive sizes -> length cells = cell_count sizes ->
  nth_error cells p = Some c ->
  skipn p (content sizes cells) = (coords_of sizes p, c) :: skipn (S p) (content sizes cells).
Proof.
  intros Hp Hl Hc. assert (Hlt : p < cell_count sizes) by (rewrite <- Hl; apply nth_error_Some; congruence).
  assert (E : nth_error (content sizes cells) p = Some (coords_of sizes p, c)).
  { unfold content. pose proof (nth_error_all_coords sizes p Hp Hlt) as Ha. revert Ha Hc.
    generalize (all_coords sizes), (coords_of sizes p). clear. intros l1 z. revert p cells.
    induction l1 as [|x l1 IH]; intros [|p] [|y cells] H1 H2; simpl in *; try discriminate.
    - congruence.
    - apply IH; assumption. }
  revert E. generalize (content sizes cells), (coords_of sizes p, c). clear. intros l z. revert p.
  induction l as [|x l IH]; intros [|p] E; simpl in *; try discriminate.
  - congruence.
  - apply IH; assumption.
Qed.

Lemma skipn_gap {C} sizes (cells : list C) l p q : positive sizes -> length cells = cell_count sizes ->
  keys_in (length sizes) l ->
  p <= q -> q <= cell_count sizes -> (forall r, p <= r -> r < q -> ~ pmatch (nf sizes) l r) ->
  filter (fun x => matchesb l (fst x)) (skipn p (content sizes cells))
  = filter (fun x => matchesb l (fst x)) (skipn q (content sizes cells)).
Proof.
  intros Hp Hl Hk Hpq Hq Hgap. remember (q - p) as d eqn:Hd. revert p Hpq Hgap Hd.
  induction d as [|d IH]; intros p Hpq Hgap Hd.
  - assert (p = q) by lia. subst. reflexivity.
  - assert (Hlt : p < length cells) by lia. apply nth_error_Some in Hlt.
    destruct (nth_error cells p) as [c|] eqn:Ec; [|congruence].
    rewrite (content_skip sizes cells p c Hp Hl Ec). cbn [filter fst].
    destruct (matchesb l (coords_of sizes p)) eqn:Em.
    + exfalso. apply (Hgap p); [lia|lia|]. apply pmatch_matches; [assumption|].
      apply matchesb_iff; assumption.
    + apply IH; [lia| |lia]. intros r Hr1 Hr2. apply Hgap; lia.
Qed.

Lemma visit_from_spec {C} sizes (cells : list C) l : positive sizes -> fixed_ok sizes l ->
  length cells = cell_count sizes ->
  forall fuel p, cell_count sizes - p < fuel -> p <= cell_count sizes ->
  (p = cell_count sizes \/ pmatch (nf sizes) l p) ->
  exists out, visit_from (helper sizes) cells fuel (mkIter p l) = Ok out /\
    Forall2 (fun (a : nat * C) (b : list nat * C) =>
               fst b = coords_of sizes (fst a) /\ snd a = snd b)
      out (filter (fun x => matchesb l (fst x)) (skipn p (content sizes cells))).
Proof.
  intros Hp Hok Hl. destruct (fixed_ok_valid _ _ Hok) as (Hv & Hk).
  induction fuel as [|fuel IH]; intros p Hf Hle Hm; [lia|].
  cbn [visit_from it_pos]. rewrite Hl. destruct (Nat.eqb_spec p (cell_count sizes)) as [E|E].
  - exists []. split; [reflexivity|]. subst p.
    rewrite skipn_all2; [constructor|]. unfold content. rewrite combine_length, all_coords_length. lia.
  - destruct Hm as [Hm|Hm]; [contradiction|].
    assert (Hlt : p < length cells) by lia. apply nth_error_Some in Hlt.
    destruct (nth_error cells p) as [c|] eqn:Ec; [|congruence]. cbn [of_option bind].
    destruct (iter_incr_spec sizes l p Hp Hok Hm ltac:(lia)) as (q & Hi & Hq1 & Hq2 & Hq3 & Hq4).
    rewrite Hi. cbn [bind].
    destruct (IH q ltac:(lia) Hq2 Hq4) as (out & Ho & HF). rewrite Ho. cbn [bind].
    eexists. split; [reflexivity|].
    rewrite (content_skip sizes cells p c Hp Hl Ec). cbn [filter fst].
    destruct (matchesb l (coords_of sizes p)) eqn:Em.
    + constructor; [split; reflexivity|].
      rewrite (skipn_gap sizes cells l (S p) q); try assumption; try lia.
    + exfalso. rewrite pmatch_matches in Hm by assumption. apply matchesb_iff in Hm. congruence.
Qed.

Lemma visit_spec {V C} (axes : list (axis V)) fixes v (cells : list C) fuel :
  fix_chain (new_view axes) fixes = Ok v -> positive (axes_sizes axes) ->
  length cells = cell_count (axes_sizes axes) -> length cells < fuel ->
  exists out, visit v cells fuel = Ok out /\
    Forall2 (fun (a : nat * C) (b : list nat * C) =>
               snd a = snd b /\
               forall ax, ax < length axes ->
                 iter_axis_index v (mkIter (fst a) (v_fixed v)) ax = of_option (nth_error (fst b) ax))
      out (filter (fun x => matchesb fixes (fst x)) (content (axes_sizes axes) cells)).
Proof.
  intros Hc Hp Hl Hf. apply fix_chain_slice in Hc. destruct Hc as (H1 & H2 & H3 & H4 & H5).
  set (sizes := axes_sizes axes) in *.
  assert (Hlen : length sizes = length axes) by (unfold sizes, axes_sizes; apply map_length).
  assert (Hok : fixed_ok sizes (v_fixed v)).
  { split; [assumption|]. intros a k Hk. apply H5, H3, Hk. }
  destruct (fixed_ok_valid _ _ Hok) as (Hv & Hk).
  unfold visit, view_begin, v_helper. rewrite H1, helper_make. fold sizes. rewrite <- Hlen.
  rewrite begin_spec by assumption. cbn [bind].
  pose proof (fwd_all_zero_lt (nf sizes) (nf_pos sizes Hp) _ (sortedk_incr _ H2) Hv) as (Hlt & _ & Hm & Hleast).
  set (p := fwd_all (nf sizes) (v_fixed v) 0) in *.
  assert (Hpc : p < cell_count sizes).
  { rewrite cell_count_G. apply Hlt. exact Hk. }
  destruct (visit_from_spec sizes cells (v_fixed v) Hp Hok Hl fuel p ltac:(lia) ltac:(lia) (or_intror Hm))
    as (out & Ho & HF).
  exists out. split; [exact Ho|].
  assert (Efil : filter (fun x => matchesb fixes (fst x)) (content sizes cells)
               = filter (fun x => matchesb (v_fixed v) (fst x)) (skipn p (content sizes cells))).
  { rewrite <- (skipn_gap sizes cells (v_fixed v) 0 p); try assumption; try lia.
    - simpl skipn. apply filter_ext. intros (c, x). simpl. apply eq_true_iff_eq.
      rewrite !matchesb_iff. unfold matches. split; intros H a k Hin; apply H, H3, Hin.
    - intros r _ Hr Hmr. specialize (Hleast r ltac:(lia) Hmr). lia. }
  rewrite Efil. clear - HF Hp H1 Hlen. revert HF. generalize (filter (fun x => matchesb (v_fixed v) (fst x)) (skipn p (content sizes cells))).
  intros l HF. induction HF as [|a b out l (E1 & E2) HF IH]; constructor; [|assumption].
  split; [assumption|]. intros ax Hax. unfold iter_axis_index, v_helper. rewrite H1, helper_make.
  cbn [it_pos]. rewrite axis_index_dg; [|assumption|fold sizes; lia]. rewrite E1.
  fold sizes. rewrite nth_error_coords_of by lia. reflexivity.
Qed.
