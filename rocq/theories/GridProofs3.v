(** Proofs: slice metadata, infimum, moving iterators, table, serialization. *)
From Coq Require Import List Arith Lia Bool Sorted String FinFun.
From Verif Require Import Common GridModel GridIOModel GridSpec GridArith GridProofs GridProofs2.
Import ListNotations.
Local Notation length := List.length.

Lemma nth_error_ext_eq {A} (l l' : list A) : (forall i, nth_error l i = nth_error l' i) -> l = l'.
Proof.
  revert l'. induction l as [|x l IH]; intros [|y l'] H; [reflexivity|specialize (H 0); discriminate|specialize (H 0); discriminate|].
  f_equal; [specialize (H 0); simpl in H; congruence|]. apply IH. intros i. apply (H (S i)).
Qed.

(** ** Slice metadata *)
Lemma filter_all_coords_fixed sizes ax k n : nth_error sizes ax = Some n -> k < n ->
  filter (fun c => matchesb [(ax, k)] c) (all_coords sizes)
  = map (fun c => upd c ax k) (all_coords (upd sizes ax 1)).
Proof.
  revert ax. induction sizes as [|x sizes IH]; intros [|ax] H Hk; simpl in H; try discriminate.
  - injection H as ->. cbn [all_coords upd].
    assert (E : forall l : list (list nat), filter (fun c => matchesb [(0, k)] c)
        (flat_map (fun tl => map (fun c => c :: tl) (seq 0 n)) l) =
        map (fun c => upd c 0 k) (flat_map (fun tl => map (fun c => c :: tl) (seq 0 1)) l)).
    { induction l as [|tl l IHl]; [reflexivity|]. cbn [flat_map]. rewrite filter_app, map_app, IHl.
      f_equal. simpl. clear - Hk.
      assert (H : forall m s, filter (fun c => matchesb [(0, k)] c) (map (fun c => c :: tl) (seq s m))
                  = if (s <=? k) && (k <? s + m) then [k :: tl] else []).
      { induction m as [|m IH]; intros s; cbn [seq map filter].
        - destruct (Nat.leb_spec s k), (Nat.ltb_spec k (s + 0)); simpl; try reflexivity; lia.
        - rewrite IH. unfold matchesb at 1. cbn [forallb nth_error fst snd]. rewrite andb_true_r.
          destruct (Nat.eqb_spec s k) as [->|].
          + destruct (Nat.leb_spec (S k) k), (Nat.leb_spec k k), (Nat.ltb_spec k (k + S m)), (Nat.ltb_spec k (S k + m)); cbn [andb]; try reflexivity; lia.
          + destruct (Nat.leb_spec (S s) k), (Nat.leb_spec s k), (Nat.ltb_spec k (S s + m)), (Nat.ltb_spec k (s + S m)); cbn [andb]; try reflexivity; lia. }
      rewrite H. simpl. destruct (Nat.ltb_spec k n); [reflexivity|lia]. }
    apply E.
  - specialize (IH ax H Hk). cbn [all_coords upd].
    assert (E : forall l l' : list (list nat),
        filter (fun c => matchesb [(ax, k)] c) l = map (fun c => upd c ax k) l' ->
        filter (fun c => matchesb [(S ax, k)] c) (flat_map (fun tl => map (fun c => c :: tl) (seq 0 x)) l)
        = flat_map (fun tl => map (fun c => c :: tl) (seq 0 x)) (map (fun c => upd c ax k) l')).
    { intros l l' E. rewrite <- E. clear. induction l as [|tl l IHl]; [reflexivity|].
      cbn [flat_map filter]. rewrite filter_app, IHl.
      assert (H : forall s, filter (fun c => matchesb [(S ax, k)] c) (map (fun c => c :: tl) s)
                  = if matchesb [(ax, k)] tl then map (fun c => c :: tl) s else []).
      { induction s as [|c s IHs]; cbn [map filter]; [destruct (matchesb _ _); reflexivity|].
        rewrite IHs. change (matchesb [(S ax, k)] (c :: tl)) with (matchesb [(ax, k)] tl).
        destruct (matchesb [(ax, k)] tl); reflexivity. }
      rewrite H. destruct (matchesb [(ax, k)] tl); reflexivity. }
    rewrite (E _ _ IH). rewrite flat_map_map, map_flat_map. apply flat_map_ext.
    intros tl. rewrite map_map. reflexivity.
Qed.

Lemma view_size_spec {V} (v : view V) : view_size v = cell_count (axes_sizes (v_axes_fixed v)).
Proof.
  unfold view_size, v_helper_fixed. rewrite helper_make. cbn [helper h_factors].
  set (s := axes_sizes _). rewrite cell_count_G, <- factor_G by lia.
  destruct (length s) as [|m]; [reflexivity|]. cbn [factor_vector].
  generalize (factor_vector s m) as l. induction l as [|y l IH]; [reflexivity|].
  simpl. destruct (l ++ _) eqn:E; [destruct l; discriminate|]. simpl in IH. exact IH.
Qed.

Lemma fix_axis_nth {V} (axes : list (axis V)) ax k axes' : fix_axis axes ax k = Some axes' ->
  ax < length axes ->
  axes_sizes axes' = upd (axes_sizes axes) ax 1 /\
  (forall j, j <> ax -> nth_error axes' j = nth_error axes j) /\
  exists a x, nth_error axes ax = Some a /\ nth_error (ax_values a) k = Some x /\
    nth_error axes' ax = Some (mkAxis (ax_name a) [x]).
Proof.
  revert ax axes'. induction axes as [|a r IH]; intros ax axes' H Hax; simpl in Hax; [lia|].
  destruct ax as [|ax]; simpl in H.
  - destruct (nth_error (ax_values a) k) as [x|] eqn:E; [|discriminate]. injection H as <-.
    split; [reflexivity|]. split; [intros [|j]; [congruence|reflexivity]|].
    exists a, x. repeat split; assumption.
  - destruct (fix_axis r ax k) as [r'|] eqn:E; [|discriminate]. injection H as <-.
    destruct (IH ax r' E ltac:(lia)) as (H1 & H2 & a' & x & H3 & H4 & H5).
    split; [simpl; f_equal; assumption|]. split; [intros [|j] Hj; [reflexivity|apply H2; lia]|].
    exists a', x. repeat split; assumption.
Qed.

Lemma single_slice_meta {V} (axes : list (axis V)) ax k v :
  fix_axis_by_index (new_view axes) ax k = Ok v ->
  (exists a x, nth_error axes ax = Some a /\ nth_error (ax_values a) k = Some x /\
     get_axis v ax = Some (mkAxis (ax_name a) [x])) /\
  (forall j, j <> ax -> get_axis v j = nth_error axes j) /\
  view_size v = length (filter (matchesb [(ax, k)]) (all_coords (axes_sizes axes))) /\
  axes_sizes (v_axes_fixed v) = upd (axes_sizes axes) ax 1.
Proof.
  intros H.
  assert (Hax : ax < length axes).
  { destruct (Nat.lt_ge_cases ax (length axes)); [assumption|].
    rewrite fix_axis_by_index_bad_axis in H by assumption. discriminate. }
  pose proof (slice_step axes [] (new_view axes) ax k (slice_inv_new axes) Hax) as Hs.
  rewrite H in Hs. destruct Hs as ((_ & _ & _ & _ & Hv) & Hf).
  destruct (fix_axis_nth axes ax k _ Hf Hax) as (H1 & H2 & a & x & H3 & H4 & H5).
  split; [exists a, x; repeat split; assumption|]. split; [exact H2|]. split; [|exact H1].
  destruct (Hv ax k) as (n & Hn & Hk); [left; reflexivity|].
  rewrite view_size_spec, H1.
  change (filter (matchesb [(ax, k)])) with (filter (fun c => matchesb [(ax, k)] c)).
  rewrite (filter_all_coords_fixed _ ax k n Hn Hk), map_length, all_coords_length. reflexivity.
Qed.

Lemma fix_by_index_iff {V} (axes : list (axis V)) fixes v ax k a :
  fix_chain (new_view axes) fixes = Ok v -> nth_error axes ax = Some a ->
  (fix_axis_by_index v ax k = Throw <-> (ax_size a <= k \/ In ax (map fst fixes))) /\
  (~ (ax_size a <= k \/ In ax (map fst fixes)) -> exists v', fix_axis_by_index v ax k = Ok v').
Proof.
  intros Hc Ha. apply fix_chain_slice in Hc. pose proof Hc as Hinv.
  destruct Hc as (H1 & H2 & H3 & H4 & H5).
  assert (Hfst : forall b, In b (map fst (v_fixed v)) <-> In b (map fst fixes)).
  { intros b. rewrite !in_fst. split; intros (j & Hj); exists j; apply H3; assumption. }
  unfold fix_axis_by_index. rewrite H1, Ha.
  destruct (Nat.leb_spec (ax_size a) k).
  - split; [split; [auto|reflexivity]|]. intros H'. exfalso. auto.
  - unfold slice_ctor. rewrite H1. destruct (fix_axis_ok axes ax a k Ha ltac:(assumption)) as (axes' & ->).
    destruct (map_find (v_fixed v) ax) as [j|] eqn:E.
    + assert (In ax (map fst fixes)).
      { apply Hfst. destruct (in_dec Nat.eq_dec ax (map fst (v_fixed v))); [assumption|].
        apply map_find_none in n. congruence. }
      split; [split; auto|]. intros H'. exfalso. auto.
    + apply map_find_none in E. rewrite Hfst in E.
      split; [split; [discriminate|]|eauto]. intros [H'|H']; [lia|contradiction].
Qed.

Lemma find_index_spec {V} (eqb : V -> V -> bool) l x :
  match find_index eqb l x with
  | Some i => (exists y, nth_error l i = Some y /\ eqb y x = true) /\
              forall j y, j < i -> nth_error l j = Some y -> eqb y x = false
  | None => forall y, In y l -> eqb y x = false
  end.
Proof.
  induction l as [|y r IH]; simpl; [intros y []|].
  destruct (eqb y x) eqn:E.
  - split; [exists y; auto|]. intros; lia.
  - destruct (find_index eqb r x) as [i|].
    + destruct IH as ((z & Hz & Ez) & IH). split; [exists z; auto|].
      intros [|j] w Hj Hw; simpl in Hw; [congruence|]. apply (IH j); [lia|assumption].
    + intros z [<-|Hz]; auto.
Qed.

Lemma find_index_lt {V} (eqb : V -> V -> bool) l x i : find_index eqb l x = Some i -> i < length l.
Proof.
  intros H. pose proof (find_index_spec eqb l x) as Hs. rewrite H in Hs.
  destruct Hs as ((y & Hy & _) & _). apply nth_error_Some. congruence.
Qed.

Lemma fix_by_value_spec {V} (eqb : V -> V -> bool) (v : view V) ax x a :
  nth_error (v_axes v) ax = Some a ->
  match fix_axis_by_value eqb v ax x with
  | Ok v' => exists k y, nth_error (ax_values a) k = Some y /\ eqb y x = true /\
               (forall j z, j < k -> nth_error (ax_values a) j = Some z -> eqb z x = false) /\
               fix_axis_by_index v ax k = Ok v'
  | Throw => (forall y, In y (ax_values a) -> eqb y x = false) \/
             (exists k, map_find (v_fixed v) ax = Some k)
  | _ => False
  end.
Proof.
  intros Ha. unfold fix_axis_by_value. rewrite Ha.
  pose proof (find_index_spec eqb (ax_values a) x) as Hs.
  destruct (find_index eqb (ax_values a) x) as [k|] eqn:Ef; [|left; exact Hs].
  destruct Hs as ((y & Hy & Ey) & Hmin).
  pose proof (find_index_lt _ _ _ _ Ef) as Hk.
  unfold slice_ctor. destruct (fix_axis_ok (v_axes v) ax a k Ha Hk) as (axes' & Hf). rewrite Hf.
  destruct (map_find (v_fixed v) ax) as [j|] eqn:Em; [right; eauto|].
  exists k, y. split; [assumption|]. split; [assumption|]. split; [exact Hmin|].
  unfold fix_axis_by_index. rewrite Ha. unfold ax_size.
  destruct (Nat.leb_spec (length (ax_values a)) k); [lia|].
  unfold slice_ctor. rewrite Hf, Em. reflexivity.
Qed.

(** ** infimum *)
Lemma upper_bound_spec {V} (ltb : V -> V -> bool) l x :
  (forall j y, j < upper_bound ltb l x -> nth_error l j = Some y -> ltb x y = false) /\
  (forall y, nth_error l (upper_bound ltb l x) = Some y -> ltb x y = true) /\
  upper_bound ltb l x <= length l.
Proof.
  induction l as [|y r (IH1 & IH2 & IH3)]; simpl.
  - split; [intros; lia|]. split; [intros y H; discriminate|lia].
  - destruct (ltb x y) eqn:E.
    + split; [intros; lia|]. split; [intros z H; simpl in H; congruence|lia].
    + split; [|split; [exact IH2|lia]]. intros [|j] z Hj Hz; simpl in Hz; [congruence|].
      apply (IH1 j); [lia|assumption].
Qed.

Lemma infimum_spec {V} (ltb eqb : V -> V -> bool) (a : axis V) x :
  (forall p q, eqb p q = true -> ltb q p = false) ->
  (forall p q r, ltb p q = true -> ltb r q = false -> ltb p r = true) ->
  StronglySorted (fun p q => ltb q p = false) (ax_values a) ->
  ax_values a <> [] ->
  let i := axis_infimum ltb eqb a x in
  (exists y, nth_error (ax_values a) i = Some y /\ ltb x y = false /\
     forall j z, i < j -> nth_error (ax_values a) j = Some z -> ltb x z = true)
  \/ (i = 0 /\ forall z, In z (ax_values a) -> ltb x z = true).
Proof.
  intros Heq Htr Hs Hne i. subst i. unfold axis_infimum.
  destruct (upper_bound_spec ltb (ax_values a) x) as (H1 & H2 & H3).
  set (ub := upper_bound ltb (ax_values a) x) in *.
  assert (Hafter : forall j z, ub <= j -> nth_error (ax_values a) j = Some z -> ltb x z = true).
  { intros j z Hj Hz. destruct (Nat.eq_dec ub j) as [<-|E]; [apply H2; assumption|].
    assert (Hjl : j < length (ax_values a)) by (apply nth_error_Some; congruence).
    destruct (nth_error (ax_values a) ub) as [y|] eqn:Ey; [|apply nth_error_None in Ey; lia].
    eapply Htr; [apply H2; reflexivity|].
    clearbody ub. clear - Hs Hj E Hz Ey. assert (Hlt : ub < j) by lia. clear Hj E. revert ub j Hlt Hz Ey.
    induction Hs as [|w l Hs IH Hf]; intros ub j Hlt Hz Ey; [destruct ub; discriminate|].
    destruct j as [|j]; [lia|]. destruct ub as [|ub]; simpl in *.
    - injection Ey as ->. rewrite Forall_forall in Hf. apply Hf. eapply nth_error_In; eassumption.
    - apply (IH ub j); [lia|assumption|assumption]. }
  assert (Hsnd : negb (ub =? ax_size a) &&
     match nth_error (ax_values a) ub with Some y => eqb y x | None => false end = false).
  { apply andb_false_iff. right. destruct (nth_error (ax_values a) ub) as [y|] eqn:Ey; [|reflexivity].
    destruct (eqb y x) eqn:Eq; [|reflexivity]. apply Heq in Eq. rewrite (H2 y eq_refl) in Eq. discriminate. }
  rewrite Hsnd, orb_false_r. destruct (Nat.eqb_spec ub 0) as [E|E].
  - right. split; [assumption|]. intros z Hz. apply In_nth_error in Hz. destruct Hz as (j & Hj).
    apply (Hafter j); [lia|assumption].
  - left. destruct (nth_error (ax_values a) (ub - 1)) as [y|] eqn:Ey.
    + exists y. split; [reflexivity|]. split; [apply (H1 (ub - 1)); [lia|assumption]|].
      intros j z Hj Hz. apply (Hafter j); [lia|assumption].
    + apply nth_error_None in Ey. lia.
Qed.

(** ** moving iterators *)
Lemma iter_fix_spec sizes p ax k coords fixed : positive sizes ->
  nth_error (all_coords sizes) p = Some coords ->
  (exists n, nth_error sizes ax = Some n /\ k < n) ->
  map_find fixed ax = None ->
  exists q, iter_fix_by_index (helper sizes) (mkIter p fixed) ax k = Ok (mkIter q (map_set fixed ax k)) /\
    p <= q /\
    ((nth_error coords ax = Some k \/ (forall b c, b < ax -> nth_error coords b = Some c -> c = 0)) ->
       forall r, p <= r -> r < q -> forall c, nth_error (all_coords sizes) r = Some c -> nth_error c ax <> Some k) /\
    (nth_error coords ax <> Some k -> (exists b c, b < ax /\ nth_error coords b = Some c /\ c <> 0) ->
       q < cell_count sizes ->
       exists r c, p < r /\ r < q /\ nth_error (all_coords sizes) r = Some c /\ nth_error c ax = Some k) /\
    (q < cell_count sizes -> exists c, nth_error (all_coords sizes) q = Some c /\ nth_error c ax = Some k).
Proof.
  intros Hp Hc (n & Hn & Hk) Hfix.
  assert (Hlt : p < cell_count sizes) by (rewrite <- all_coords_length; apply nth_error_Some; congruence).
  rewrite nth_error_all_coords in Hc by assumption. injection Hc as <-.
  assert (Hax : ax < length sizes) by (apply nth_error_Some; congruence).
  assert (Hnf : nf sizes ax = n) by (unfold nf; apply nth_error_nth; assumption).
  unfold iter_fix_by_index. cbn [it_fixed it_pos helper h_sizes]. rewrite Hfix, Hn.
  destruct (Nat.leb_spec n k); [lia|]. fold (helper sizes). rewrite forward_fwd by assumption. cbn [bind].
  pose proof (nf_pos sizes Hp) as Hnp. pose proof (G_pos _ Hnp ax) as HG.
  set (q := fwd (nf sizes) ax k p). exists q. split; [reflexivity|].
  assert (Hpq : p <= q) by apply fwd_ge. split; [assumption|].
  rewrite nth_error_coords_of by assumption.
  assert (Hq : q = fwdB n k (p / G (nf sizes) ax) * G (nf sizes) ax + p mod G (nf sizes) ax).
  { unfold q. rewrite fwd_block by assumption. rewrite Hnf. reflexivity. }
  destruct (fwdB_spec n k (p / G (nf sizes) ax) Hk) as (Hb1 & Hb2 & Hb3).
  assert (Hzero : (forall b, b < ax -> dg (nf sizes) b p = 0) <-> p mod G (nf sizes) ax = 0).
  { split.
    - intros H0. assert (Hg : forall i, i <= ax -> p mod G (nf sizes) i = 0).
      { induction i as [|i IH]; intros Hi; [apply Nat.mod_1_r|].
        specialize (IH ltac:(lia)). specialize (H0 i ltac:(lia)).
        cbn [G]. rewrite <- dg_mod in H0 by assumption.
        pose proof (G_pos _ Hnp i) as HGi. pose proof (Hnp i) as Hni.
        set (m := p mod (nf sizes i * G (nf sizes) i)) in *.
        pose proof (Nat.div_mod m (G (nf sizes) i) ltac:(lia)) as HD. rewrite H0 in HD.
        assert (m mod G (nf sizes) i = p mod G (nf sizes) i).
        { unfold m. rewrite (Nat.mul_comm (nf sizes i)). rewrite Nat.mod_mul_r by lia.
          rewrite (Nat.mul_comm (G (nf sizes) i) (_ mod _)), Nat.mod_add by lia. apply Nat.mod_mod. lia. }
        lia. }
      apply Hg. lia.
    - intros H0 b Hb. rewrite <- (dg_mod_high _ Hnp b ax p Hb), H0. unfold dg.
      rewrite Nat.div_0_l by (pose proof (G_pos _ Hnp b); lia). apply Nat.mod_0_l. specialize (Hnp b). lia. }
  split; [|split].
  - intros Hor r Hr1 Hr2 c Hrc.
    destruct (Nat.lt_ge_cases r (cell_count sizes)) as [Hrl|Hrl].
    2:{ exfalso. assert (r < length (all_coords sizes)) by (apply nth_error_Some; congruence).
        rewrite all_coords_length in *. lia. }
    rewrite nth_error_all_coords in Hrc by assumption. injection Hrc as <-.
    rewrite nth_error_coords_of by assumption. intros E. injection E as E.
    destruct Hor as [Hor|Hor].
    + injection Hor as Hor. unfold q, fwd in Hr2. rewrite Hor, Nat.eqb_refl in Hr2. lia.
    + assert (H0 : p mod G (nf sizes) ax = 0).
      { apply Hzero. intros b Hb. apply (Hor b _ Hb). apply nth_error_coords_of. lia. }
      rewrite H0, Nat.add_0_r in Hq.
      specialize (Hb3 (r / G (nf sizes) ax)).
      assert (p / G (nf sizes) ax <= r / G (nf sizes) ax) by (apply Nat.div_le_mono; lia).
      assert (Hrm : (r / G (nf sizes) ax) mod n = k) by (rewrite <- Hnf; exact E).
      specialize (Hb3 ltac:(assumption) Hrm).
      pose proof (Nat.div_mod r (G (nf sizes) ax) ltac:(lia)). nia.
  - intros Hne (b & c & Hb & Hbc & Hc0) Hql.
    rewrite nth_error_coords_of in Hbc by lia. injection Hbc as Hbc.
    assert (Hm : p mod G (nf sizes) ax <> 0).
    { intros H0. apply Hc0. rewrite <- Hbc. apply Hzero; assumption. }
    assert (Hne' : dg (nf sizes) ax p <> k) by congruence.
    exists (fwdB n k (p / G (nf sizes) ax) * G (nf sizes) ax), (coords_of sizes (fwdB n k (p / G (nf sizes) ax) * G (nf sizes) ax)).
    assert (Hstrict : p / G (nf sizes) ax < fwdB n k (p / G (nf sizes) ax)).
    { destruct (Nat.eq_dec (p / G (nf sizes) ax) (fwdB n k (p / G (nf sizes) ax))) as [E|]; [|lia].
      exfalso. apply Hne'. unfold dg. rewrite Hnf, E. exact Hb1. }
    pose proof (Nat.div_mod p (G (nf sizes) ax) ltac:(lia)) as HDp.
    pose proof (Nat.mod_upper_bound p (G (nf sizes) ax) ltac:(lia)) as HMp.
    split; [nia|]. split; [lia|].
    split; [apply nth_error_all_coords; [assumption|lia]|].
    rewrite nth_error_coords_of by assumption. f_equal.
    pose proof (dg_block (nf sizes) Hnp ax 0 (fwdB n k (p / G (nf sizes) ax)) HG) as Hdb.
    rewrite Nat.add_0_r in Hdb. rewrite Hdb, Hnf. exact Hb1.
  - intros Hql. exists (coords_of sizes q). split; [apply nth_error_all_coords; assumption|].
    rewrite nth_error_coords_of by assumption. f_equal. apply fwd_digit; [assumption|lia].
Qed.

(** ** fixAllAxes *)
Lemma fix_same_axes_spec {V} (eqb : V -> V -> bool) (from_v : view V) (axes : list (axis V)) from :
  positive (axes_sizes axes) ->
  forall idx, length idx = length axes ->
  (forall ax, ax < length axes -> exists a x k, nth_error axes ax = Some a /\
      iter_axis_value from_v from ax = Ok x /\ find_index eqb (ax_values a) x = Some k /\
      nth_error idx ax = Some k) ->
  exists fixed, fix_same_axes eqb from_v (new_view axes) from (length axes) (mkIter 0 [])
    = Ok (mkIter (horner (axes_sizes axes) idx) fixed).
Proof.
  intros Hp idx Hl Hval. set (sizes := axes_sizes axes) in *.
  assert (Hls : length sizes = length axes) by (unfold sizes, axes_sizes; apply map_length).
  assert (Hgen : forall i p fixed, i <= length axes -> p mod G (nf sizes) i = 0 ->
     (i < length axes -> True) ->
     p = tot sizes i (skipn i idx) -> p < G (nf sizes) (length axes) ->
     (forall a k, In (a, k) fixed -> i <= a) -> sortedk fixed ->
     exists fixed', fix_same_axes eqb from_v (new_view axes) from i (mkIter p fixed)
       = Ok (mkIter (tot sizes 0 idx) fixed')).
  { induction i as [|i IH]; intros p fixed Hi Hmod _ Hpt Hlt Hfx Hsk.
    - simpl in Hpt. subst p. eexists. reflexivity.
    - cbn [fix_same_axes].
      destruct (Hval i ltac:(lia)) as (a & x & k & Ha & Hx & Hk & Hik).
      rewrite Hx. cbn [bind]. unfold iter_fix_by_value. cbn [new_view v_axes]. rewrite Ha, Hk.
      unfold v_helper. cbn [v_axes]. rewrite helper_make. fold sizes.
      unfold iter_fix_by_index. cbn [it_fixed it_pos helper h_sizes].
      assert (Hnone : map_find fixed i = None).
      { apply map_find_none. intros Hin. apply in_fst in Hin. destruct Hin as (j & Hj).
        specialize (Hfx i j Hj). lia. }
      rewrite Hnone.
      assert (Hsz : nth_error sizes i = Some (ax_size a)) by (apply map_nth_error; assumption).
      change (v_axes (new_view axes)) with axes. fold sizes.
      rewrite Hsz. pose proof (find_index_lt _ _ _ _ Hk) as Hkl. unfold ax_size at 1.
      destruct (Nat.leb_spec (length (ax_values a)) k); [lia|].
      fold (helper sizes). rewrite forward_fwd; [|assumption|lia]. cbn [bind].
      pose proof (nf_pos sizes Hp) as Hnp.
      assert (Hnfi : nf sizes i = ax_size a) by (unfold nf; apply nth_error_nth; assumption).
      assert (Hfw : fwd (nf sizes) i k p = k * G (nf sizes) i + p).
      { unfold fwd. assert (Hd : dg (nf sizes) i p = 0).
        { rewrite <- dg_mod by assumption. change (nf sizes i * G (nf sizes) i) with (G (nf sizes) (S i)).
          rewrite Hmod. apply Nat.div_0_l. pose proof (G_pos _ Hnp i). lia. }
        rewrite Hd. destruct (Nat.eqb_spec k 0) as [->|]; [lia|]. destruct (Nat.ltb_spec 0 k); lia. }
      rewrite Hfw.
      assert (Hskip : skipn i idx = k :: skipn (S i) idx).
      { clear - Hik. revert i Hik. induction idx as [|z idx IH]; intros [|i] H; simpl in *; try discriminate; [congruence|].
        apply IH; assumption. }
      pose proof (G_pos _ Hnp i) as HGi. pose proof (G_pos _ Hnp (S i)) as HGSi.
      apply IH; try lia.
      + rewrite Nat.add_comm, Nat.mod_add by lia.
        apply Nat.mod_divides in Hmod; [|lia]. destruct Hmod as (t & ->). cbn [G].
        replace (nf sizes i * G (nf sizes) i * t) with ((nf sizes i * t) * G (nf sizes) i) by ring.
        apply Nat.mod_mul. lia.
      + rewrite Hskip. cbn [tot]. lia.
      + (* stays below the total: p is a multiple of G (S i) below G N *)
        apply Nat.mod_divides in Hmod; [|lia]. destruct Hmod as (t & Hpe).
        destruct (Nat.eq_dec (S i) (length axes)) as [E|E].
        * rewrite <- E in Hlt |- *.
          assert (t = 0) by (destruct t; [reflexivity|]; rewrite Nat.mul_succ_r in Hpe; lia).
          subst t. cbn [G]. unfold ax_size in Hnfi. rewrite Hnfi. nia.
        * destruct (G_mult _ Hnp i (length axes) ltac:(lia)) as (u & Hu & HN).
          rewrite HN in Hlt |- *. cbn [G] in Hpe. rewrite Hnfi in *. unfold ax_size in *.
          set (L := length (ax_values a)) in *. set (g := G (nf sizes) i) in *.
          clearbody L g. clear - Hpe Hlt Hkl HGi. subst p.
          assert (t < u) by (destruct (Nat.lt_ge_cases t u); [assumption|exfalso;
            assert (u * (L * g) <= t * (L * g)) by (apply Nat.mul_le_mono_r; assumption); lia]).
          assert (k * g + g <= L * g) by nia. assert ((t + 1) * (L * g) <= u * (L * g)) by (apply Nat.mul_le_mono_r; lia).
          nia.
      + intros b j Hb. destruct (in_dec Nat.eq_dec i (map fst fixed)) as [Hin|Hnin].
        * apply map_find_none in Hnone. contradiction.
        * apply map_set_in in Hb; [|assumption]. destruct Hb as [E|Hb]; [injection E as -> ->; lia|].
          specialize (Hfx b j Hb). lia.
      + apply map_set_sorted; [assumption|]. apply map_find_none. assumption. }
  destruct (Hgen (length axes) 0 []) as (fixed & Hf); try lia.
  - apply Nat.mod_0_l. pose proof (G_pos _ (nf_pos sizes Hp) (length axes)). lia.
  - rewrite skipn_all2 by lia. reflexivity.
  - apply G_pos, nf_pos, Hp.
  - intros a k [].
  - constructor.
  - exists fixed. rewrite Hf. f_equal. f_equal. apply tot_horner. lia.
Qed.

(** ** Table *)
Lemma all_coords_snoc l n :
  all_coords (l ++ [n]) = flat_map (fun c => map (fun cs => cs ++ [c]) (all_coords l)) (seq 0 n).
Proof.
  induction l as [|x l IH].
  - cbn. rewrite app_nil_r. induction (seq 0 n); simpl; congruence.
  - cbn [app all_coords]. rewrite IH. clear IH. 
    induction (seq 0 n) as [|c s IHs]; [reflexivity|].
    cbn [flat_map]. rewrite flat_map_app, IHs. f_equal.
    rewrite flat_map_map, map_flat_map. apply flat_map_ext. intros tl. rewrite map_map. reflexivity.
Qed.


Lemma Forall2_app_cons_r (l : list nat) n cs : in_range (l ++ [n]) cs <->
  exists cs' c, cs = cs' ++ [c] /\ in_range l cs' /\ c < n.
Proof.
  unfold in_range. split.
  - intros H. apply Forall2_app_inv_r in H. destruct H as (c1 & c2 & H1 & H2 & ->).
    inversion H2 as [|c ? r ? Hc Hr]; subst. inversion Hr; subst. exists c1, c. auto.
  - intros (cs' & c & -> & H1 & H2). apply Forall2_app; [assumption|]. constructor; [assumption|constructor].
Qed.

Lemma knot_values_snoc {V} (vals : list (list V)) v cs c x :
  length cs = length vals -> nth_error v c = Some x ->
  knot_values (vals ++ [v]) (cs ++ [c]) = knot_values vals cs ++ [x].
Proof.
  revert cs. induction vals as [|w vals IH]; intros [|d cs] Hl Hx; try discriminate.
  - simpl. rewrite Hx. reflexivity.
  - simpl. rewrite IH by (simpl in Hl; lia || assumption). destruct (nth_error w d); reflexivity.
Qed.

Lemma firstn_S_nth {A} (l : list A) i a : nth_error l i = Some a -> firstn (S i) l = firstn i l ++ [a].
Proof.
  revert i. induction l as [|x l IH]; intros [|i] H; simpl in *; try discriminate; [congruence|].
  rewrite <- IH by assumption. reflexivity.
Qed.

Lemma skipn_nth {A} (l : list A) i a : nth_error l i = Some a -> skipn i l = a :: skipn (S i) l.
Proof.
  revert i. induction l as [|x l IH]; intros [|i] H; simpl in *; try discriminate; [congruence|].
  rewrite IH by assumption. reflexivity.
Qed.

Lemma unfold_loop_ok {V C} (body : nat -> V -> outcome (list (list V * C))) (f : nat -> V -> list (list V * C)) :
  forall knots i, (forall j x, nth_error knots j = Some x -> body (i + j) x = Ok (f (i + j) x)) ->
  unfold_loop body i knots = Ok (flat_map (fun p => f (fst p) (snd p)) (combine (seq i (length knots)) knots)).
Proof.
  induction knots as [|x r IH]; intros i H; [reflexivity|].
  cbn [unfold_loop length seq combine flat_map fst snd].
  pose proof (H 0 x eq_refl) as H0. rewrite Nat.add_0_r in H0. rewrite H0. cbn [bind].
  rewrite IH; [reflexivity|]. intros j y Hj. specialize (H (S j) y Hj).
  rewrite Nat.add_succ_r in H. exact H.
Qed.

Lemma flat_map_ext_in {A B} (f g : A -> list B) l : (forall x, In x l -> f x = g x) -> flat_map f l = flat_map g l.
Proof.
  induction l as [|x l IH]; intros H; [reflexivity|]. simpl. rewrite H by (left; reflexivity).
  rewrite IH; [reflexivity|]. intros y Hy. apply H. right. assumption.
Qed.

Lemma in_combine_seq {V} (l : list V) s i x : In (i, x) (combine (seq s (length l)) l) ->
  exists j, i = s + j /\ nth_error l j = Some x.
Proof.
  revert s. induction l as [|y l IH]; intros s H; [destruct H|]. simpl in H. destruct H as [H|H].
  - injection H as <- <-. exists 0. split; [lia|reflexivity].
  - destruct (IH (S s) H) as (j & -> & Hj). exists (S j). split; [lia|assumption].
Qed.

Lemma flat_map_combine_seq {V B} (f : nat -> list B) (l : list V) s :
  flat_map (fun p => f (fst p)) (combine (seq s (length l)) l) = flat_map f (seq s (length l)).
Proof. revert s. induction l as [|y l IH]; intros s; [reflexivity|]. simpl. rewrite IH. reflexivity. Qed.

Section TableProof.
  Context {V C : Type}.
  Variable v : view V.
  Variable cells : list C.
  Variable g : list nat -> C.
  Let faxes := v_axes_fixed v.
  Let fsizes := axes_sizes faxes.
  Hypothesis Hat : forall cs, in_range fsizes cs -> at_read v cells cs = Ok (g cs).

  Lemma unfold_rows_spec i : forall acc, i <= length faxes ->
    in_range (skipn i fsizes) (map fst acc) ->
    unfold_rows v cells i acc
    = Ok (map (fun cs => (rev (knot_values (firstn i (map ax_values faxes)) cs ++ map snd acc),
                          g (cs ++ map fst acc)))
              (all_coords (firstn i fsizes))).
  Proof.
    induction i as [|i IH]; intros acc Hi Hr.
    - simpl. rewrite Hat by exact Hr. reflexivity.
    - cbn [unfold_rows]. unfold get_axis. fold faxes.
      destruct (nth_error faxes i) as [a|] eqn:Ea; [|apply nth_error_None in Ea; lia].
      assert (Es : nth_error fsizes i = Some (ax_size a)) by (apply map_nth_error; assumption).
      assert (Ev : nth_error (map ax_values faxes) i = Some (ax_values a)) by (apply map_nth_error; assumption).
      rewrite (unfold_loop_ok _ (fun k x =>
         map (fun cs => (rev (knot_values (firstn i (map ax_values faxes)) cs ++ map snd ((k, x) :: acc)),
                         g (cs ++ map fst ((k, x) :: acc)))) (all_coords (firstn i fsizes)))).
      + f_equal. rewrite (firstn_S_nth _ _ _ Es), all_coords_snoc, map_flat_map.
        rewrite (flat_map_ext_in _ (fun p =>
           map (fun cs => (rev (knot_values (firstn (S i) (map ax_values faxes)) cs ++ map snd acc),
                           g (cs ++ map fst acc))) (map (fun cs => cs ++ [fst p]) (all_coords (firstn i fsizes))))).
        * unfold ax_size. apply (flat_map_combine_seq (fun k => map
            (fun cs => (rev (knot_values (firstn (S i) (map ax_values faxes)) cs ++ map snd acc), g (cs ++ map fst acc)))
            (map (fun cs => cs ++ [k]) (all_coords (firstn i fsizes))))).
        * intros (k, x) Hin. apply in_combine_seq in Hin. destruct Hin as (j & Hk & Hx). simpl in Hk. subst k.
          cbn [fst snd map]. rewrite map_map. apply map_ext_in. intros cs Hcs.
          apply in_all_coords in Hcs. apply F2_length in Hcs.
          rewrite (firstn_S_nth _ _ _ Ev).
          rewrite (knot_values_snoc _ _ cs j x); [rewrite <- !app_assoc; reflexivity| |assumption].
          rewrite Hcs. unfold fsizes, axes_sizes. rewrite !firstn_length, !map_length. reflexivity.
      + intros j x Hj. apply IH; [lia|]. rewrite (skipn_nth _ _ _ Es). cbn [map fst].
        constructor; [|exact Hr]. unfold ax_size. change (0 + j) with j. apply nth_error_Some. congruence.
  Qed.

  Lemma table_rows : unfold_rows v cells (length faxes) []
    = Ok (map (fun cs => (rev (knot_values (map ax_values faxes) cs), g cs)) (all_coords fsizes)).
  Proof.
    rewrite unfold_rows_spec; [|lia|].
    - f_equal. unfold fsizes, axes_sizes.
      rewrite !firstn_all2 by (rewrite map_length; lia).
      apply map_ext. intros cs. simpl. rewrite !app_nil_r. reflexivity.
    - rewrite skipn_all2 by (unfold fsizes, axes_sizes; rewrite map_length; lia). constructor.
  Qed.
End TableProof.

Lemma column_names_rev {V} (axes : list (axis V)) :
  column_names axes (length axes) = rev (map (fun a => underscore (ax_name a)) axes).
Proof.
  assert (H : forall i, i <= length axes -> column_names axes i = rev (map (fun a => underscore (ax_name a)) (firstn i axes))).
  { induction i as [|i IH]; intros Hi; [reflexivity|]. cbn [column_names].
    destruct (nth_error axes i) as [a|] eqn:E; [|apply nth_error_None in E; lia].
    rewrite (firstn_S_nth _ _ _ E), map_app, rev_app_distr. simpl. rewrite IH by lia. reflexivity. }
  rewrite H by lia. rewrite firstn_all. reflexivity.
Qed.

Definition cell_at {C} (d : C) (sizes : list nat) (cells : list C) (cs : list nat) : C :=
  nth (horner sizes cs) cells d.

Lemma content_map {C} (d : C) sizes cells : positive sizes -> length cells = cell_count sizes ->
  content sizes cells = map (fun cs => (cs, cell_at d sizes cells cs)) (all_coords sizes).
Proof.
  intros Hp Hl. unfold content. rewrite (all_coords_positions sizes Hp).
  assert (H : forall n (l : list C) s, length l = n -> s + n <= cell_count sizes ->
     (forall j, nth_error l j = nth_error (firstn n (skipn s cells)) j) ->
     combine (map (coords_of sizes) (seq s n)) l =
     map (fun cs => (cs, cell_at d sizes cells cs)) (map (coords_of sizes) (seq s n))).
  { induction n as [|n IH]; intros l s Hl' Hs Hn; [reflexivity|].
    destruct l as [|c l]; [discriminate|]. cbn [seq map combine].
    destruct (nth_error cells s) as [c'|] eqn:Ec; [|apply nth_error_None in Ec; lia].
    pose proof (skipn_nth _ _ _ Ec) as Esk. rewrite Esk in Hn. cbn [firstn] in Hn.
    f_equal.
    - f_equal. unfold cell_at. rewrite coords_horner by (assumption || lia).
      rewrite (nth_error_nth _ _ d Ec). specialize (Hn 0). simpl in Hn. congruence.
    - apply IH; [simpl in Hl'; lia|lia|]. intros j. specialize (Hn (S j)). exact Hn. }
  apply H; [assumption|lia|]. intros j. simpl skipn. rewrite firstn_all2 by lia. reflexivity.
Qed.

Lemma filter_map_fst {C} (P : list nat -> bool) (f : list nat -> C) l :
  filter (fun x => P (fst x)) (map (fun cs => (cs, f cs)) l) = map (fun cs => (cs, f cs)) (filter P l).
Proof. induction l as [|x l IH]; [reflexivity|]. simpl. rewrite IH. destruct (P x); reflexivity. Qed.

Lemma knot_values_fix {V} (axes : list (axis V)) ax k axes' cs : fix_axis axes ax k = Some axes' ->
  length cs = length axes -> nth_error cs ax = Some 0 ->
  knot_values (map ax_values axes') cs = knot_values (map ax_values axes) (upd cs ax k).
Proof.
  revert ax axes' cs. induction axes as [|a r IH]; intros ax axes' cs H Hl H0.
  - simpl in *. injection H as <-. reflexivity.
  - destruct cs as [|c cs]; [discriminate|]. destruct ax as [|ax]; simpl in *.
    + injection H0 as ->. destruct (nth_error (ax_values a) k) as [x|] eqn:E; [|discriminate].
      injection H as <-. simpl. reflexivity.
    + destruct (fix_axis r ax k) as [r'|] eqn:E; [|discriminate]. injection H as <-. simpl.
      rewrite (IH ax r' cs E) by (simpl in Hl; lia || assumption). reflexivity.
Qed.

Lemma fix_axis_names {V} (axes : list (axis V)) ax k axes' : fix_axis axes ax k = Some axes' ->
  map ax_name axes' = map ax_name axes.
Proof.
  revert ax axes'. induction axes as [|a r IH]; intros [|ax] axes' H; simpl in H.
  - congruence.
  - congruence.
  - destruct (nth_error _ _); [|discriminate]. injection H as <-. reflexivity.
  - destruct (fix_axis r ax k) eqn:E; [|discriminate]. injection H as <-. simpl. f_equal. eapply IH; eassumption.
Qed.

(** what a view with at most one fixed axis looks like *)
Lemma simple_view {V C} (axes : list (axis V)) fixes v (cells : list C) (d : C) :
  fix_chain (new_view axes) fixes = Ok v -> length fixes <= 1 ->
  positive (axes_sizes axes) -> length cells = cell_count (axes_sizes axes) ->
  exists fullf : list nat -> list nat,
    filter (matchesb fixes) (all_coords (axes_sizes axes)) = map fullf (all_coords (axes_sizes (v_axes_fixed v))) /\
    (forall cs, in_range (axes_sizes (v_axes_fixed v)) cs ->
       at_read v cells cs = Ok (cell_at d (axes_sizes axes) cells (fullf cs)) /\
       knot_values (map ax_values (v_axes_fixed v)) cs = knot_values (map ax_values axes) (fullf cs)) /\
    map ax_name (v_axes_fixed v) = map ax_name axes.
Proof.
  intros Hc Hf Hp Hl. destruct fixes as [|(ax, k) [|? ?]]; [| |simpl in Hf; lia].
  - simpl in Hc. injection Hc as <-. exists (fun cs => cs). cbn [new_view v_axes_fixed].
    split; [|split; [|reflexivity]].
    + rewrite map_id. clear. induction (all_coords (axes_sizes axes)) as [|x l IH]; simpl; congruence.
    + intros cs Hr. split; [|reflexivity].
      assert (Hlen : length cs = length axes) by (rewrite (F2_length _ _ _ Hr); unfold axes_sizes; apply map_length).
      destruct (at_pos_spec axes [] (new_view axes) cs (slice_inv_new axes) Hlen) as [(Ha & full & H1 & H2 & H3 & H4)|(Ha & _)].
      * unfold at_read. rewrite H3. cbn [bind].
        assert (full = cs).
        { destruct H1 as (E1 & _ & E3). clear - E1 E3. revert cs E1 E3.
          induction full as [|x full IH]; intros [|y cs] E1 E3; try discriminate; [reflexivity|].
          f_equal; [specialize (E3 0 (fun f => f)); simpl in E3; congruence|].
          apply IH; [simpl in E1; lia|]. intros a Ha. apply (E3 (S a) (fun f => f)). }
        subst full. pose proof (horner_lt _ _ H2) as Hlt. rewrite <- Hl in Hlt.
        unfold cell_at. rewrite (nth_error_nth' _ d Hlt). reflexivity.
      * exfalso. apply Ha. split; [exact Hr|]. intros b j [].
  - pose proof Hc as Hc'. cbn [fix_chain] in Hc.
    destruct (fix_axis_by_index (new_view axes) ax k) as [v'| | |] eqn:Ef; try discriminate.
    cbn [bind] in Hc. injection Hc as ->.
    destruct (single_slice_meta axes ax k v Ef) as (_ & _ & _ & Hsz).
    assert (Hax : ax < length axes).
    { destruct (Nat.lt_ge_cases ax (length axes)); [assumption|].
      rewrite fix_axis_by_index_bad_axis in Ef by assumption. discriminate. }
    pose proof (slice_step axes [] (new_view axes) ax k (slice_inv_new axes) Hax) as Hs.
    rewrite Ef in Hs. destruct Hs as (Hinv & Hfa). pose proof Hinv as (_ & _ & _ & _ & Hv).
    destruct (Hv ax k) as (n & Hn & Hk); [left; reflexivity|].
    exists (fun cs => upd cs ax k). split; [|split].
    + rewrite Hsz. change (filter (matchesb [(ax, k)])) with (filter (fun c => matchesb [(ax, k)] c)).
      eapply filter_all_coords_fixed; eassumption.
    + intros cs Hr. rewrite Hsz in Hr.
      assert (Hlen : length cs = length axes).
      { rewrite (F2_length _ _ _ Hr), upd_length. unfold axes_sizes; apply map_length. }
      assert (H0 : nth_error cs ax = Some 0 /\ in_range (axes_sizes axes) cs).
      { clear - Hr Hn Hk. unfold in_range in *. revert ax cs Hn Hr. generalize (axes_sizes axes).
        induction l as [|x l IH]; intros [|ax] cs Hn Hr; simpl in *; try discriminate.
        - injection Hn as ->. inversion Hr as [|c ? r ? H1 H2]; subst. assert (c = 0) by lia. subst.
          split; [reflexivity|]. constructor; [lia|assumption].
        - inversion Hr as [|c ? r ? H1 H2]; subst. destruct (IH ax r Hn H2) as (E1 & E2).
          split; [exact E1|]. constructor; assumption. }
      destruct H0 as (H0 & Hr0). split; [|eapply knot_values_fix; eassumption].
      destruct (at_pos_spec axes [(ax, k)] v cs Hinv Hlen) as [(Ha & full & H1 & H2 & H3 & H4)|(Ha & _)].
      * unfold at_read. rewrite H3. cbn [bind].
        assert (full = upd cs ax k).
        { destruct H1 as (E1 & E2 & E3). apply nth_error_ext_eq.
          intros a. destruct (Nat.eq_dec a ax) as [->|Hne].
          - rewrite (E2 ax k) by (left; reflexivity). rewrite upd_same by lia. reflexivity.
          - rewrite upd_other by congruence. apply E3. simpl. intros [E|[]]. congruence. }
        subst full. pose proof (horner_lt _ _ H2) as Hlt. rewrite <- Hl in Hlt.
        unfold cell_at. rewrite (nth_error_nth' _ d Hlt). reflexivity.
      * exfalso. apply Ha. split; [exact Hr0|]. intros b j [E|[]]. injection E as <- <-. exact H0.
    + eapply fix_axis_names; eassumption.
Qed.

Lemma table_spec {V C} (axes : list (axis V)) fixes v (cells : list C) :
  fix_chain (new_view axes) fixes = Ok v -> length fixes <= 1 ->
  positive (axes_sizes axes) -> length cells = cell_count (axes_sizes axes) ->
  grid_to_table v cells =
  Ok (rev (map (fun a => underscore (ax_name a)) axes),
      map (fun p => (rev (knot_values (map ax_values axes) (fst p)), snd p))
          (filter (fun p => matchesb fixes (fst p)) (content (axes_sizes axes) cells))).
Proof.
  intros Hc Hf Hp Hl.
  assert (Hpos : 0 < cell_count (axes_sizes axes)).
  { rewrite cell_count_G. apply G_pos, nf_pos, Hp. }
  destruct cells as [|d cells0] eqn:Ecells; [simpl in Hl; lia|]. rewrite <- Ecells in *.
  destruct (simple_view axes fixes v cells d Hc Hf Hp Hl) as (fullf & H1 & H2 & H3).
  unfold grid_to_table.
  pose proof (fix_chain_slice _ _ _ Hc) as (E1 & E2 & E3 & E4 & E5).
  set (sizes := axes_sizes axes) in *.
  assert (Hok : fixed_ok sizes (v_fixed v)).
  { split; [assumption|]. intros a k Hk. apply E5, E3, Hk. }
  destruct (fixed_ok_valid _ _ Hok) as (Hv & Hk).
  assert (Hlen : length sizes = length axes) by (unfold sizes, axes_sizes; apply map_length).
  unfold view_begin, v_helper. rewrite E1, helper_make. fold sizes. rewrite <- Hlen.
  rewrite begin_spec by assumption. cbn [bind it_pos].
  pose proof (fwd_all_zero_lt (nf sizes) (nf_pos sizes Hp) _ (sortedk_incr _ E2) Hv) as (Hlt & _ & _ & _).
  specialize (Hlt (length sizes) Hk). rewrite <- cell_count_G, <- Hl in Hlt.
  apply nth_error_Some in Hlt. destruct (nth_error cells _); [|congruence]. cbn [of_option bind].
  rewrite (table_rows v cells (fun cs => cell_at d sizes cells (fullf cs))).
  2:{ intros cs Hcs. apply H2. exact Hcs. }
  cbn [bind].
  rewrite (content_map d sizes cells Hp Hl), (filter_map_fst (matchesb fixes)), H1, !map_map.
  cbn [fst snd].
  assert (Erows : map (fun cs => (rev (knot_values (map ax_values (v_axes_fixed v)) cs), cell_at d sizes cells (fullf cs)))
     (all_coords (axes_sizes (v_axes_fixed v)))
   = map (fun x => (rev (knot_values (map ax_values axes) (fullf x)), cell_at d sizes cells (fullf x)))
     (all_coords (axes_sizes (v_axes_fixed v)))).
  { apply map_ext_in. intros cs Hcs. apply in_all_coords in Hcs. destruct (H2 cs Hcs) as (_ & ->). reflexivity. }
  rewrite Erows. rewrite column_names_rev.
  rewrite <- (map_map ax_name underscore), H3, map_map.
  match goal with |- match ?r with [] => _ | _ => _ end = _ => destruct r eqn:Er; [|reflexivity] end.
  exfalso. apply map_eq_nil in Er.
  assert (Hn : length (all_coords (axes_sizes (v_axes_fixed v))) = length (filter (matchesb fixes) (all_coords sizes)))
    by (rewrite H1, map_length; reflexivity).
  rewrite Er in Hn. simpl in Hn.
  assert (Hex : exists cs, In cs (filter (matchesb fixes) (all_coords sizes))).
  { pose proof (fwd_all_zero_lt (nf sizes) (nf_pos sizes Hp) _ (sortedk_incr _ E2) Hv) as (_ & _ & Hm & _).
    exists (coords_of sizes (fwd_all (nf sizes) (v_fixed v) 0)). apply filter_In. split.
    - apply in_all_coords, coords_of_in_range, Hp.
    - apply matchesb_iff. apply (pmatch_matches sizes _ _ Hk) in Hm. intros a k Hin. apply Hm, E3, Hin. }
  destruct Hex as (cs & Hcs). destruct (filter _ _); [destruct Hcs|discriminate].
Qed.

(** ** Serialization *)
Lemma load_knots_spec {V C} (l : list V) (rest : list (token V C)) :
  load_knots (length l) (map TKnot l ++ rest) = Ok (l, rest).
Proof. induction l as [|x l IH]; [reflexivity|]. simpl. rewrite IH. reflexivity. Qed.

Lemma load_axis_spec {V C} (a : axis V) (rest : list (token V C)) :
  load_axis (save_axis a ++ rest) = Ok (a, rest).
Proof.
  unfold save_axis, load_axis. cbn [app]. unfold ax_size. rewrite load_knots_spec. cbn [bind fst snd].
  destruct a. reflexivity.
Qed.

Lemma load_axes_spec {V C} (axes : list (axis V)) (rest : list (token V C)) :
  load_axes (length axes) (save_axes axes (length axes) ++ rest) [] = Ok (axes, rest).
Proof.
  assert (H : forall i, i <= length axes ->
     load_axes i (save_axes axes i ++ rest) (skipn i axes) = Ok (axes, rest)).
  { induction i as [|i IH]; intros Hi; [reflexivity|].
    cbn [load_axes save_axes]. destruct (nth_error axes i) as [a|] eqn:E; [|apply nth_error_None in E; lia].
    rewrite <- app_assoc, load_axis_spec. cbn [bind fst snd].
    rewrite <- (skipn_nth _ _ _ E). apply IH. lia. }
  specialize (H (length axes) (le_n _)). rewrite skipn_all in H. exact H.
Qed.

Lemma load_cells_spec {V C} (l : list C) (rest : list (token V C)) :
  load_cells (length l) (map TCell l ++ rest) = Ok (l, rest).
Proof. induction l as [|x l IH]; [reflexivity|]. simpl. rewrite IH. reflexivity. Qed.

Lemma visit_unsliced {V C} (axes : list (axis V)) (cells : list C) fuel :
  length cells < fuel -> exists out, visit (new_view axes) cells fuel = Ok out /\ map snd out = cells.
Proof.
  intros Hf.
  assert (Hb : view_begin (new_view axes) = Ok (mkIter 0 [])).
  { unfold view_begin. cbn [new_view v_fixed v_axes].
    generalize (v_helper (new_view axes)) as h, 0 as i, (mkIter 0 []) as it.
    induction (length axes) as [|n IH]; intros h i it; [reflexivity|]. simpl. apply IH. }
  unfold visit. rewrite Hb. cbn [bind].
  assert (H : forall fuel p, length cells - p < fuel -> p <= length cells ->
     exists out, visit_from (v_helper (new_view axes)) cells fuel (mkIter p []) = Ok out /\ map snd out = skipn p cells).
  { clear Hf fuel. induction fuel as [|fuel IH]; intros p Hf Hp; [lia|].
    cbn [visit_from it_pos]. destruct (Nat.eqb_spec p (length cells)) as [->|E].
    - exists []. rewrite skipn_all. split; reflexivity.
    - destruct (nth_error cells p) as [c|] eqn:Ec; [|apply nth_error_None in Ec; lia].
      cbn [of_option bind iter_incr it_fixed it_pos].
      destruct (IH (S p) ltac:(lia) ltac:(lia)) as (out & -> & Ho). cbn [bind].
      eexists. split; [reflexivity|]. cbn [map snd]. rewrite Ho. symmetry. apply skipn_nth. assumption. }
  destruct (H fuel 0 ltac:(lia) ltac:(lia)) as (out & H1 & H2). eauto.
Qed.

Lemma alloc_size_spec {V} (axes : list (axis V)) : alloc_size (new_view axes) = cell_count (axes_sizes axes).
Proof.
  unfold alloc_size. cbn [new_view v_axes]. rewrite cell_count_G.
  rewrite factor_G by (unfold axes_sizes; rewrite map_length; lia).
  f_equal. unfold axes_sizes. symmetry. apply map_length.
Qed.

Lemma roundtrip_unsliced {V C} (axes : list (axis V)) (cells : list C) fuel rest :
  length cells = cell_count (axes_sizes axes) -> length cells < fuel ->
  exists ts, save_grid (new_view axes) cells fuel = Ok ts /\
    load_grid (length axes) (ts ++ rest) = Ok (new_view axes, cells, rest).
Proof.
  intros Hl Hf. destruct (visit_unsliced axes cells fuel Hf) as (out & Hv & Ho).
  unfold save_grid. rewrite Hv. cbn [bind]. eexists. split; [reflexivity|].
  unfold load_grid. cbn [new_view v_axes_fixed]. rewrite <- app_assoc, load_axes_spec. cbn [bind fst snd].
  rewrite alloc_size_spec, <- Hl. rewrite <- (map_map snd TCell), Ho, load_cells_spec. reflexivity.
Qed.

Lemma roundtrip_slice {V C} (axes : list (axis V)) ax k v (cells : list C) fuel rest :
  fix_axis_by_index (new_view axes) ax k = Ok v -> positive (axes_sizes axes) ->
  length cells = cell_count (axes_sizes axes) -> length cells < fuel ->
  exists ts, save_grid v cells fuel = Ok ts /\
    load_grid (length axes) (ts ++ rest)
    = Ok (new_view (v_axes_fixed v),
          map snd (filter (fun p => matchesb [(ax, k)] (fst p)) (content (axes_sizes axes) cells)), rest).
Proof.
  intros Hx Hp Hl Hf.
  assert (Hc : fix_chain (new_view axes) [(ax, k)] = Ok v) by (simpl; rewrite Hx; reflexivity).
  destruct (visit_spec axes [(ax, k)] v cells fuel Hc Hp Hl Hf) as (out & Hv & HF).
  unfold save_grid. rewrite Hv. cbn [bind]. eexists. split; [reflexivity|].
  destruct (single_slice_meta axes ax k v Hx) as (_ & _ & Hsz & Hs).
  assert (Hlen : length (v_axes_fixed v) = length axes).
  { rewrite <- (map_length ax_size). change (map ax_size (v_axes_fixed v)) with (axes_sizes (v_axes_fixed v)).
    rewrite Hs, upd_length. unfold axes_sizes. apply map_length. }
  unfold load_grid. rewrite <- Hlen, <- app_assoc, load_axes_spec. cbn [bind fst snd].
  rewrite alloc_size_spec, <- view_size_spec, Hsz.
  assert (Eo : map snd out = map snd (filter (fun p => matchesb [(ax, k)] (fst p)) (content (axes_sizes axes) cells))).
  { clear - HF. induction HF as [|a b out l (E & _) HF IH]; simpl; congruence. }
  rewrite <- (map_map snd TCell), Eo.
  assert (En : length (filter (matchesb [(ax, k)]) (all_coords (axes_sizes axes)))
     = length (map snd (filter (fun p => matchesb [(ax, k)] (fst p)) (content (axes_sizes axes) cells)))).
  { rewrite map_length. unfold content.
    assert (Hll : length (all_coords (axes_sizes axes)) = length cells) by (rewrite all_coords_length; congruence).
    clear - Hll. revert cells Hll. induction (all_coords (axes_sizes axes)) as [|x l IH]; intros [|c cells] H; try discriminate; [reflexivity|].
    simpl combine. cbn [filter fst]. specialize (IH cells ltac:(simpl in H; lia)).
    destruct (matchesb [(ax, k)] x); cbn [List.length]; rewrite IH; reflexivity. }
  rewrite En, load_cells_spec. reflexivity.
Qed.

(** ** Wrappers with the statements used by the property file *)
Lemma incr_next {V} (axes : list (axis V)) fixes v p coords :
  fix_chain (new_view axes) fixes = Ok v ->
  positive (axes_sizes axes) ->
  nth_error (all_coords (axes_sizes axes)) p = Some coords ->
  matches fixes coords ->
  exists q, iter_incr (v_helper v) (cell_count (axes_sizes axes)) (mkIter p (v_fixed v))
              = Ok (mkIter q (v_fixed v)) /\
    p < q /\
    (forall r c, p < r -> r < q -> nth_error (all_coords (axes_sizes axes)) r = Some c -> ~ matches fixes c) /\
    (q = cell_count (axes_sizes axes) \/
     exists c, nth_error (all_coords (axes_sizes axes)) q = Some c /\ matches fixes c).
Proof.
  intros Hc Hp Hn Hm. apply fix_chain_slice in Hc. destruct Hc as (H1 & H2 & H3 & H4 & H5).
  set (sizes := axes_sizes axes) in *.
  assert (Hok : fixed_ok sizes (v_fixed v)).
  { split; [assumption|]. intros a k Hk. apply H5, H3, Hk. }
  destruct (fixed_ok_valid _ _ Hok) as (Hv & Hk).
  assert (Hmm : forall c, matches fixes c <-> matches (v_fixed v) c).
  { intros c. unfold matches. split; intros H a k Hin; apply H, H3, Hin. }
  assert (Hlt : p < cell_count sizes) by (rewrite <- all_coords_length; apply nth_error_Some; congruence).
  rewrite nth_error_all_coords in Hn by assumption. injection Hn as <-.
  apply Hmm, (pmatch_matches sizes) in Hm; [|assumption].
  destruct (iter_incr_spec sizes (v_fixed v) p Hp Hok Hm Hlt) as (q & Hi & Hq1 & Hq2 & Hq3 & Hq4).
  exists q. split; [unfold v_helper; rewrite H1, helper_make; exact Hi|]. split; [assumption|]. split.
  - intros r c Hr1 Hr2 Hrc Hrm.
    rewrite nth_error_all_coords in Hrc by (assumption || lia). injection Hrc as <-.
    apply Hmm, (pmatch_matches sizes) in Hrm; [|assumption]. eapply Hq3; [| |exact Hrm]; assumption.
  - destruct Hq4 as [Hq4|Hq4]; [left; assumption|].
    destruct (Nat.eq_dec q (cell_count sizes)) as [E|E]; [left; assumption|]. right.
    exists (coords_of sizes q). split; [apply nth_error_all_coords; [assumption|lia]|].
    apply Hmm, pmatch_matches; assumption.
Qed.

Lemma addresses_unique fixes coords f1 f2 : addresses fixes coords f1 -> addresses fixes coords f2 -> f1 = f2.
Proof.
  intros (A1 & A2 & A3) (B1 & B2 & B3). apply nth_error_ext_eq. intros i.
  destruct (in_dec Nat.eq_dec i (map fst fixes)) as [H|H].
  - apply in_fst in H. destruct H as (k & Hk). rewrite (A2 i k Hk), (B2 i k Hk). reflexivity.
  - rewrite (A3 i H), (B3 i H). reflexivity.
Qed.

Lemma write_then_read {V C} (axes : list (axis V)) fixes1 fixes2 v1 v2 (cells cells' : list C)
    coords1 coords2 full1 full2 x :
  fix_chain (new_view axes) fixes1 = Ok v1 ->
  fix_chain (new_view axes) fixes2 = Ok v2 ->
  length cells = cell_count (axes_sizes axes) ->
  length coords1 = length axes -> length coords2 = length axes ->
  accepted (axes_sizes axes) fixes1 coords1 -> accepted (axes_sizes axes) fixes2 coords2 ->
  addresses fixes1 coords1 full1 -> addresses fixes2 coords2 full2 ->
  at_write v1 cells coords1 x = Ok cells' ->
  (full1 = full2 -> at_read v2 cells' coords2 = Ok x) /\
  (full1 <> full2 -> at_read v2 cells' coords2 = at_read v2 cells coords2).
Proof.
  intros Hc1 Hc2 Hl Hl1 Hl2 Ha1 Ha2 Hf1 Hf2 Hw.
  destruct (at_write_spec axes fixes1 v1 cells coords1 x Hc1 Hl Hl1) as (Hw' & _).
  destruct (Hw' Ha1) as (full & cells2 & Hfull & Hw2 & Hl' & Hin).
  rewrite Hw in Hw2. injection Hw2 as <-.
  assert (full = full1) by (eapply addresses_unique; eassumption). subst full.
  destruct (at_read_spec axes fixes2 v2 cells' coords2 Hc2 ltac:(congruence) Hl2) as (Hr' & _).
  destruct (Hr' Ha2) as (full & c & Hfull2 & Hinc & Hrd & _).
  assert (full = full2) by (eapply addresses_unique; eassumption). subst full.
  destruct (at_read_spec axes fixes2 v2 cells coords2 Hc2 Hl Hl2) as (Hr0 & _).
  destruct (Hr0 Ha2) as (full & c0 & Hfull0 & Hinc0 & Hrd0 & _).
  assert (full = full2) by (eapply addresses_unique; eassumption). subst full.
  rewrite Hrd, Hrd0. apply Hin in Hinc.
  split; intros E.
  - destruct Hinc as [(_ & ->)|(Hne & _)]; [reflexivity|]. congruence.
  - destruct Hinc as [(E' & _)|(_ & Hinc)]; [congruence|].
    rewrite in_content in Hinc by assumption. rewrite in_content in Hinc0 by assumption.
    destruct Hinc as (_ & Hx), Hinc0 as (_ & Hy). congruence.
Qed.

Lemma single_slice_size {V} (axes : list (axis V)) ax k v :
  fix_axis_by_index (new_view axes) ax k = Ok v ->
  (exists a x, nth_error axes ax = Some a /\ nth_error (ax_values a) k = Some x /\
     get_axis v ax = Some (mkAxis (ax_name a) [x])) /\
  (forall j, j <> ax -> get_axis v j = nth_error axes j) /\
  view_size v = length (filter (matchesb [(ax, k)]) (all_coords (axes_sizes axes))).
Proof.
  intros H. destruct (single_slice_meta axes ax k v H) as (H1 & H2 & H3 & _). auto.
Qed.

Lemma grid_infimum_nth {V} (ltb eqb : V -> V -> bool) (axes : list (axis V)) coords i a x :
  nth_error axes i = Some a -> nth_error coords i = Some x ->
  nth_error (grid_infimum ltb eqb axes coords) i = Some (axis_infimum ltb eqb a x).
Proof.
  revert coords i. induction axes as [|b axes IH]; intros [|y coords] [|i] H1 H2; simpl in *; try discriminate.
  - congruence.
  - apply IH; assumption.
Qed.

Lemma fix_all_axes_spec {V} (eqb : V -> V -> bool) (from_v : view V) (axes : list (axis V)) from idx :
  positive (axes_sizes axes) ->
  length idx = length axes ->
  (forall ax, ax < length axes -> exists a x k, nth_error axes ax = Some a /\
      iter_axis_value from_v from ax = Ok x /\ find_index eqb (ax_values a) x = Some k /\
      nth_error idx ax = Some k) ->
  exists p fixed,
    fix_same_axes eqb from_v (new_view axes) from (length axes) (mkIter 0 []) = Ok (mkIter p fixed) /\
    nth_error (all_coords (axes_sizes axes)) p = Some idx.
Proof.
  intros Hp Hl Hv. destruct (fix_same_axes_spec eqb from_v axes from Hp idx Hl Hv) as (fixed & Hf).
  exists (horner (axes_sizes axes) idx), fixed. split; [exact Hf|].
  apply nth_error_horner. unfold in_range. clear Hf Hp.
  assert (H : forall ax k, nth_error idx ax = Some k -> exists n, nth_error (axes_sizes axes) ax = Some n /\ k < n).
  { intros ax k Hk. assert (ax < length axes) by (rewrite <- Hl; apply nth_error_Some; congruence).
    destruct (Hv ax H) as (a & x & k' & Ha & _ & Hfi & Hk'). assert (k' = k) by congruence. subst k'.
    exists (ax_size a). split; [apply map_nth_error; assumption|]. eapply find_index_lt. exact Hfi. }
  assert (Hls : length idx = length (axes_sizes axes)) by (unfold axes_sizes; rewrite map_length; assumption).
  clear - H Hls. revert H Hls. generalize (axes_sizes axes). induction idx as [|c idx IH]; intros [|n l] H Hls; try discriminate; constructor.
  - destruct (H 0 c eq_refl) as (n' & E & Hc). injection E as ->. assumption.
  - apply IH; [|simpl in Hls; lia]. intros ax k Hk. apply (H (S ax) k Hk).
Qed.

Lemma fix_by_value_chain {V} (eqb : V -> V -> bool) (axes : list (axis V)) fixes v ax x a :
  fix_chain (new_view axes) fixes = Ok v ->
  nth_error axes ax = Some a ->
  match fix_axis_by_value eqb v ax x with
  | Ok v' => exists k y, nth_error (ax_values a) k = Some y /\ eqb y x = true /\
               (forall j z, j < k -> nth_error (ax_values a) j = Some z -> eqb z x = false) /\
               fix_axis_by_index v ax k = Ok v'
  | Throw => (forall y, In y (ax_values a) -> eqb y x = false) \/ In ax (map fst fixes)
  | _ => False
  end.
Proof.
  intros Hc Ha. apply fix_chain_slice in Hc. destruct Hc as (H1 & H2 & H3 & H4 & H5).
  assert (Ha' : nth_error (v_axes v) ax = Some a) by (rewrite H1; assumption).
  pose proof (fix_by_value_spec eqb v ax x a Ha') as H.
  destruct (fix_axis_by_value eqb v ax x); try exact H.
  destruct H as [H|(k & Hk)]; [left; exact H|right].
  apply in_fst. exists k. apply H3. apply map_find_some; assumption.
Qed.
