(** Proofs about the grid model. *)
From Coq Require Import List Arith Lia Bool Sorted String FinFun.
From Verif Require Import Common GridModel GridSpec GridArith.
Import ListNotations.
Local Notation length := List.length.

Lemma factor_vector_length sizes n : length (factor_vector sizes n) = S n.
Proof. induction n; simpl; [reflexivity|]. rewrite app_length, IHn. simpl. lia. Qed.

Lemma factor_nth sizes n i : i <= n ->
  nth_error (factor_vector sizes n) i = Some (axis_index_factor sizes i).
Proof.
  induction n; intros H.
  - assert (i = 0) by lia. subst. reflexivity.
  - cbn [factor_vector]. destruct (Nat.eq_dec i (S n)) as [->|E].
    + rewrite nth_error_app2 by (rewrite factor_vector_length; lia).
      rewrite factor_vector_length, Nat.sub_diag. reflexivity.
    + rewrite nth_error_app1 by (rewrite factor_vector_length; lia). apply IHn; lia.
Qed.

Definition nf (sizes : list nat) (i : nat) : nat := nth i sizes 1.

Lemma nf_pos sizes : positive sizes -> forall i, 0 < nf sizes i.
Proof.
  intros H i. unfold nf. destruct (Nat.lt_ge_cases i (length sizes)) as [L|L].
  - unfold positive in H. rewrite Forall_forall in H. apply H, nth_In; assumption.
  - rewrite nth_overflow by assumption. lia.
Qed.

Lemma factor_G sizes i : i <= length sizes -> axis_index_factor sizes i = G (nf sizes) i.
Proof.
  induction i; intros H; [reflexivity|]. cbn [axis_index_factor G].
  rewrite IHi by lia. f_equal. unfold nf. apply nth_indep. lia.
Qed.

Lemma cell_count_G sizes : cell_count sizes = G (nf sizes) (length sizes).
Proof.
  assert (H : forall l pre, G (nf (pre ++ l)) (length (pre ++ l))
              = cell_count l * G (nf (pre ++ l)) (length pre)).
  { induction l as [|x l IH]; intros pre.
    - rewrite app_nil_r. simpl. lia.
    - replace (pre ++ x :: l) with ((pre ++ [x]) ++ l) by (rewrite <- app_assoc; reflexivity).
      rewrite IH. rewrite (app_length pre [x]). simpl length.
      rewrite Nat.add_1_r. cbn [G cell_count fold_right].
      replace (nf ((pre ++ [x]) ++ l) (length pre)) with x.
      + unfold cell_count. ring.
      + unfold nf. rewrite <- app_assoc. rewrite app_nth2 by lia. rewrite Nat.sub_diag. reflexivity. }
  specialize (H sizes []). simpl in H. rewrite H. lia.
Qed.

Lemma helper_axes {V} (axes : list (axis V)) :
  make_helper axes = mkHelper (axes_sizes axes) (factor_vector (axes_sizes axes) (length (axes_sizes axes))).
Proof. reflexivity. Qed.

Definition helper (sizes : list nat) : index_helper :=
  mkHelper sizes (factor_vector sizes (length sizes)).

Lemma axis_index_dg sizes ax pos : positive sizes -> ax < length sizes ->
  axis_index (helper sizes) ax pos = Ok (dg (nf sizes) ax pos).
Proof.
  intros Hp H. unfold axis_index. cbn [helper h_factors].
  rewrite factor_nth by lia. cbn [of_option bind]. rewrite factor_nth by lia. cbn [of_option bind].
  rewrite !factor_G by lia. rewrite Nat.add_1_r.
  pose proof (G_pos (nf sizes) (nf_pos sizes Hp)) as HG.
  destruct (Nat.eqb_spec (G (nf sizes) (S ax)) 0) as [E|_].
  { specialize (HG (S ax)). lia. }
  destruct (Nat.eqb_spec (G (nf sizes) ax) 0) as [E|_].
  { specialize (HG ax). lia. }
  f_equal. cbn [G]. apply dg_mod, nf_pos, Hp.
Qed.

Lemma nth_error_nf sizes ax : ax < length sizes -> nth_error sizes ax = Some (nf sizes ax).
Proof. intros H. unfold nf. apply nth_error_nth'. assumption. Qed.

Lemma forward_fwd sizes ax k pos : positive sizes -> ax < length sizes ->
  forward_to_index (helper sizes) pos ax k = Ok (fwd (nf sizes) ax k pos).
Proof.
  intros Hp H. unfold forward_to_index, fwd. rewrite axis_index_dg by assumption. cbn [bind].
  destruct (k =? dg (nf sizes) ax pos); [reflexivity|].
  cbn [helper h_factors h_sizes]. rewrite factor_nth by lia. cbn [of_option bind].
  rewrite nth_error_nf by assumption. cbn [of_option bind]. rewrite factor_G by lia. reflexivity.
Qed.

Definition keys_in (N : nat) (l : list (nat * nat)) : Prop := forall a k, In (a, k) l -> a < N.

Lemma forward_all_fwd sizes l pos : positive sizes -> keys_in (length sizes) l ->
  forward_all (helper sizes) l pos = Ok (fwd_all (nf sizes) l pos).
Proof.
  intros Hp. revert pos. induction l as [|(a, k) r IH]; intros pos H; [reflexivity|].
  cbn [forward_all fwd_all]. rewrite forward_fwd; [|assumption|eapply H; left; reflexivity].
  cbn [bind]. apply IH. intros b k' Hb. eapply H. right. exact Hb.
Qed.

(** ** Coordinates of a position *)

Definition coords_of (sizes : list nat) (p : nat) : list nat :=
  map (fun a => dg (nf sizes) a p) (seq 0 (length sizes)).

Lemma G_shift x sizes i : G (nf (x :: sizes)) (S i) = x * G (nf sizes) i.
Proof.
  induction i; [cbn; lia|].
  replace (G (nf (x :: sizes)) (S (S i))) with (nf (x :: sizes) (S i) * G (nf (x :: sizes)) (S i)) by reflexivity.
  rewrite IHi. cbn [G]. replace (nf (x :: sizes) (S i)) with (nf sizes i) by reflexivity. ring.
Qed.

Lemma dg_shift x sizes a p : 0 < x -> positive sizes ->
  dg (nf (x :: sizes)) (S a) p = dg (nf sizes) a (p / x).
Proof.
  intros Hx Hp. unfold dg. rewrite G_shift.
  pose proof (G_pos (nf sizes) (nf_pos sizes Hp) a).
  rewrite Nat.div_div by lia. reflexivity.
Qed.

Lemma coords_of_cons x sizes p : 0 < x -> positive sizes ->
  coords_of (x :: sizes) p = (p mod x) :: coords_of sizes (p / x).
Proof.
  intros Hx Hp. unfold coords_of. simpl length. rewrite <- cons_seq, <- seq_shift.
  cbn [map]. f_equal.
  - unfold dg. cbn [G]. rewrite Nat.div_1_r. reflexivity.
  - rewrite map_map. apply map_ext. intros a. apply dg_shift; assumption.
Qed.

Lemma seq_map_add s n m : seq (m + s) n = map (fun c => c + s) (seq m n).
Proof.
  revert m. induction n as [|n IH]; intros m; [reflexivity|]. simpl. f_equal. apply (IH (S m)).
Qed.

Lemma seq_blocks n M :
  seq 0 (n * M) = flat_map (fun q => map (fun c => c + n * q) (seq 0 n)) (seq 0 M).
Proof.
  induction M as [|M IH].
  - rewrite Nat.mul_0_r. reflexivity.
  - rewrite seq_S. simpl plus. rewrite flat_map_app. cbn [flat_map]. rewrite app_nil_r.
    rewrite <- IH. rewrite Nat.mul_succ_r, seq_app. f_equal. apply (seq_map_add (n * M) n 0).
Qed.

Lemma flat_map_map {A B C} (f : B -> list C) (g : A -> B) l :
  flat_map f (map g l) = flat_map (fun x => f (g x)) l.
Proof. induction l; simpl; congruence. Qed.

Lemma map_flat_map {A B C} (f : B -> C) (g : A -> list B) l :
  map f (flat_map g l) = flat_map (fun x => map f (g x)) l.
Proof. induction l; simpl; [reflexivity|]. rewrite map_app. congruence. Qed.

Lemma all_coords_positions sizes : positive sizes ->
  all_coords sizes = map (coords_of sizes) (seq 0 (cell_count sizes)).
Proof.
  induction sizes as [|x sizes IH]; intros Hp; [reflexivity|].
  inversion Hp as [|? ? Hx Hp']; subst.
  cbn [all_coords]. rewrite IH by assumption. rewrite flat_map_map.
  change (cell_count (x :: sizes)) with (x * cell_count sizes).
  rewrite seq_blocks, map_flat_map.
  apply flat_map_ext. intros q. rewrite map_map. apply map_ext_in.
  intros c Hc. apply in_seq in Hc. rewrite coords_of_cons by assumption.
  rewrite (Nat.mul_comm x q), Nat.mod_add, Nat.div_add by lia.
  rewrite Nat.mod_small, Nat.div_small by lia. reflexivity.
Qed.

Lemma all_coords_length sizes : length (all_coords sizes) = cell_count sizes.
Proof.
  induction sizes as [|x sizes IH]; [reflexivity|].
  change (cell_count (x :: sizes)) with (x * cell_count sizes). rewrite <- IH. cbn [all_coords].
  clear IH. induction (all_coords sizes) as [|y l IHl]; cbn [flat_map]; [simpl; lia|].
  rewrite app_length, map_length, seq_length, IHl. simpl. lia.
Qed.

Lemma in_all_coords sizes coords : In coords (all_coords sizes) <-> in_range sizes coords.
Proof.
  unfold in_range. revert coords. induction sizes as [|x sizes IH]; intros coords; simpl.
  - split.
    + intros [<-|[]]. constructor.
    + intros H. inversion H. auto.
  - rewrite in_flat_map. split.
    + intros (tl & Htl & Hc). apply in_map_iff in Hc. destruct Hc as (c & <- & Hc).
      apply in_seq in Hc. constructor; [lia|]. apply IH; assumption.
    + intros H. inversion H as [|c ? tl ? Hc Htl]; subst. exists tl. split; [apply IH; assumption|].
      apply in_map_iff. exists c. split; [reflexivity|]. apply in_seq. lia.
Qed.

Lemma all_coords_nodup sizes : NoDup (all_coords sizes).
Proof.
  induction sizes as [|x sizes IH]; simpl; [constructor; [intros []|constructor]|].
  induction IH as [|tl l Hn Hnd IHl]; simpl; [constructor|].
  assert (Happ : forall (a b : list (list nat)), NoDup a -> NoDup b ->
            (forall z, In z a -> In z b -> False) -> NoDup (a ++ b)).
  { clear. intros a b Ha Hb Hd. induction Ha as [|z a Hz Ha IH]; simpl; [assumption|].
    constructor.
    - rewrite in_app_iff. intros [H|H]; [auto|]. apply (Hd z); [left; reflexivity|assumption].
    - apply IH. intros w Hw1 Hw2. apply (Hd w); [right; assumption|assumption]. }
  apply Happ; [|assumption|].
  - apply FinFun.Injective_map_NoDup; [|apply seq_NoDup]. intros a b E. congruence.
  - intros z Hz1 Hz2. apply in_map_iff in Hz1. destruct Hz1 as (c & <- & _).
    apply in_flat_map in Hz2. destruct Hz2 as (tl' & Htl' & Hz2).
    apply in_map_iff in Hz2. destruct Hz2 as (c' & E & _). injection E as _ <-. auto.
Qed.

(** ** Total index *)

Fixpoint tot (sizes : list nat) (j : nat) (coords : list nat) : nat :=
  match coords with [] => 0 | c :: r => c * G (nf sizes) j + tot sizes (S j) r end.

Lemma total_index_tot sizes coords : length coords <= length sizes ->
  calculate_total_index (factor_vector sizes (length sizes)) coords
  = tot sizes (length sizes - length coords) coords.
Proof.
  induction coords as [|c r IH]; intros H; [reflexivity|].
  cbn [calculate_total_index tot]. simpl in H. rewrite IH by lia.
  rewrite factor_vector_length. simpl length.
  replace (S (length sizes) - length r - 2) with (length sizes - S (length r)) by lia.
  replace (S (length sizes - S (length r))) with (length sizes - length r) by lia.
  f_equal. f_equal.
  rewrite (nth_error_nth _ _ 0 (factor_nth sizes (length sizes) (length sizes - S (length r)) ltac:(lia))).
  apply factor_G. lia.
Qed.

Fixpoint horner (sizes coords : list nat) : nat :=
  match sizes, coords with
  | n :: r, c :: cr => c + n * horner r cr
  | _, _ => 0
  end.

Lemma tot_shift x sizes j coords : tot (x :: sizes) (S j) coords = x * tot sizes j coords.
Proof.
  revert j. induction coords as [|c r IH]; intros j; cbn [tot]; [lia|].
  rewrite IH, G_shift. ring.
Qed.

Lemma tot_horner sizes coords : length coords = length sizes -> tot sizes 0 coords = horner sizes coords.
Proof.
  revert coords. induction sizes as [|x sizes IH]; intros coords H; destruct coords as [|c r]; try discriminate; [reflexivity|].
  cbn [tot horner]. rewrite tot_shift, IH by (simpl in H; lia). cbn [G]. lia.
Qed.

Lemma horner_lt sizes coords : in_range sizes coords -> horner sizes coords < cell_count sizes.
Proof.
  unfold in_range. intros H. induction H as [|c x cr r Hc Hr IH]; [cbn; lia|].
  change (cell_count (x :: r)) with (x * cell_count r). cbn [horner].
  set (h := horner r cr) in *. set (m := cell_count r) in *. clearbody h m. nia.
Qed.

Lemma in_range_pos sizes coords : in_range sizes coords -> positive sizes.
Proof. unfold in_range, positive. induction 1; constructor; auto. lia. Qed.

Lemma horner_coords sizes coords : in_range sizes coords -> coords_of sizes (horner sizes coords) = coords.
Proof.
  intros H. pose proof (in_range_pos _ _ H) as Hp. unfold in_range in H.
  induction H as [|c x cr r Hc Hr IH]; [reflexivity|].
  inversion Hp; subst. rewrite coords_of_cons by assumption. cbn [horner].
  rewrite (Nat.mul_comm x), Nat.mod_add, Nat.div_add by lia.
  rewrite Nat.mod_small, Nat.div_small by lia. simpl. f_equal. apply IH; assumption.
Qed.

Lemma coords_horner sizes p : positive sizes -> p < cell_count sizes -> horner sizes (coords_of sizes p) = p.
Proof.
  intros Hp. revert p. induction Hp as [|x sizes Hx Hp IH]; intros p H.
  - cbn in *. lia.
  - change (cell_count (x :: sizes)) with (x * cell_count sizes) in H.
    rewrite coords_of_cons by assumption. cbn [horner].
    rewrite IH. { pose proof (Nat.div_mod p x ltac:(lia)). lia. }
    apply Nat.div_lt_upper_bound; lia.
Qed.

Lemma coords_of_in_range sizes p : positive sizes -> in_range sizes (coords_of sizes p).
Proof.
  intros Hp. unfold in_range. revert p. induction Hp as [|x sizes Hx Hp IH]; intros p; [constructor|].
  rewrite coords_of_cons by assumption. constructor; [apply Nat.mod_upper_bound; lia|apply IH].
Qed.

Lemma nth_error_all_coords sizes p : positive sizes -> p < cell_count sizes ->
  nth_error (all_coords sizes) p = Some (coords_of sizes p).
Proof.
  intros Hp H. rewrite all_coords_positions by assumption.
  apply map_nth_error. rewrite (nth_error_nth' _ 0) by (rewrite seq_length; assumption).
  rewrite seq_nth by assumption. reflexivity.
Qed.

Lemma nth_error_coords_of sizes p a : a < length sizes ->
  nth_error (coords_of sizes p) a = Some (dg (nf sizes) a p).
Proof.
  intros H. unfold coords_of. rewrite nth_error_map.
  rewrite (nth_error_nth' _ 0) by (rewrite seq_length; assumption).
  rewrite seq_nth by assumption. reflexivity.
Qed.

Lemma nth_error_horner sizes coords : in_range sizes coords ->
  nth_error (all_coords sizes) (horner sizes coords) = Some coords.
Proof.
  intros H. rewrite nth_error_all_coords.
  - rewrite horner_coords by assumption. reflexivity.
  - eapply in_range_pos; eassumption.
  - apply horner_lt; assumption.
Qed.

Lemma in_content {C} sizes (cells : list C) coords c :
  length cells = cell_count sizes ->
  (In (coords, c) (content sizes cells) <->
   in_range sizes coords /\ nth_error cells (horner sizes coords) = Some c).
Proof.
  intros Hl. unfold content.
  assert (Hc : forall (l1 : list (list nat)) (l2 : list C), length l1 = length l2 ->
     (In (coords, c) (combine l1 l2) <-> exists p, nth_error l1 p = Some coords /\ nth_error l2 p = Some c)).
  { clear. induction l1 as [|x l1 IH]; intros [|y l2] H; try discriminate; simpl.
    - split; [intros []|intros (p & H1 & _)]. destruct p; discriminate.
    - rewrite IH by (simpl in H; lia). split.
      + intros [E|(p & H1 & H2)].
        * injection E as -> ->. exists 0. split; reflexivity.
        * exists (S p). split; assumption.
      + intros (p & H1 & H2). destruct p as [|p]; simpl in *.
        * left. congruence.
        * right. exists p. auto. }
  rewrite Hc by (rewrite all_coords_length; congruence). split.
  - intros (p & H1 & H2).
    assert (Hin : In coords (all_coords sizes)) by (eapply nth_error_In; eassumption).
    apply in_all_coords in Hin. split; [assumption|].
    pose proof (nth_error_horner _ _ Hin) as H3.
    assert (p = horner sizes coords).
    { apply (NoDup_nth_error (all_coords sizes)); [apply all_coords_nodup| |congruence].
      apply nth_error_Some. congruence. }
    subst p. assumption.
  - intros (H1 & H2). exists (horner sizes coords). split; [apply nth_error_horner|]; assumption.
Qed.

(** ** C01 *)
Lemma F2_length {A B} (R : A -> B -> Prop) l l' : Forall2 R l l' -> length l = length l'.
Proof. induction 1; simpl; congruence. Qed.

Lemma helper_make {V} (axes : list (axis V)) : make_helper axes = helper (axes_sizes axes).
Proof. reflexivity. Qed.

Lemma index_coords_inverse sizes : positive sizes ->
  forall p coords, nth_error (all_coords sizes) p = Some coords <->
    (in_range sizes coords /\
     calculate_total_index (h_factors (helper sizes)) coords = p).
Proof.
  intros Hp p coords. cbn [helper h_factors]. split.
  - intros H.
    assert (Hin : in_range sizes coords) by (apply in_all_coords; eapply nth_error_In; eassumption).
    split; [assumption|].
    assert (Hlen : length coords = length sizes) by (eapply F2_length; exact Hin).
    rewrite total_index_tot by lia. rewrite Hlen, Nat.sub_diag, tot_horner by assumption.
    apply (NoDup_nth_error (all_coords sizes)); [apply all_coords_nodup| |].
    + rewrite all_coords_length. apply horner_lt; assumption.
    + rewrite nth_error_horner by assumption. congruence.
  - intros (Hin & <-).
    assert (Hlen : length coords = length sizes) by (eapply F2_length; exact Hin).
    rewrite total_index_tot by lia. rewrite Hlen, Nat.sub_diag, tot_horner by assumption.
    apply nth_error_horner; assumption.
Qed.

Lemma axis_index_coords sizes p coords ax : positive sizes ->
  nth_error (all_coords sizes) p = Some coords -> ax < length sizes ->
  axis_index (helper sizes) ax p = of_option (nth_error coords ax).
Proof.
  intros Hp H Hax. rewrite axis_index_dg by assumption.
  assert (Hlt : p < cell_count sizes).
  { rewrite <- all_coords_length. apply nth_error_Some. congruence. }
  rewrite nth_error_all_coords in H by assumption. injection H as <-.
  rewrite nth_error_coords_of by assumption. reflexivity.
Qed.

(** ** Maps *)
Fixpoint map_of (fixes : list (nat * nat)) (m : list (nat * nat)) : list (nat * nat) :=
  match fixes with [] => m | (a, k) :: r => map_of r (map_set m a k) end.

Definition sortedk (l : list (nat * nat)) : Prop := StronglySorted lt (map fst l).

Lemma map_set_in m a k b j : ~ In a (map fst m) ->
  (In (b, j) (map_set m a k) <-> (b, j) = (a, k) \/ In (b, j) m).
Proof.
  induction m as [|(c, i) r IH]; intros H; simpl in *.
  - intuition.
  - destruct (Nat.eqb_spec c a) as [E|E]; [exfalso; apply H; left; assumption|].
    destruct (Nat.ltb_spec a c).
    + simpl. intuition.
    + simpl. rewrite IH by tauto. intuition.
Qed.

Lemma map_set_sorted m a k : sortedk m -> ~ In a (map fst m) -> sortedk (map_set m a k).
Proof.
  unfold sortedk. induction m as [|(c, i) r IH]; intros Hs Hn; simpl in *.
  - constructor; constructor.
  - inversion Hs as [|? ? Hs' Hf]; subst.
    destruct (Nat.eqb_spec c a) as [E|E]; [exfalso; apply Hn; left; assumption|].
    destruct (Nat.ltb_spec a c) as [L|L].
    + simpl. constructor; [constructor; assumption|]. constructor; [assumption|].
      rewrite Forall_forall in *. intros x Hx. specialize (Hf x Hx). lia.
    + simpl. constructor; [apply IH; tauto|]. rewrite Forall_forall in *.
      intros x Hx. apply in_map_iff in Hx. destruct Hx as ((x', j) & <- & Hx).
      apply map_set_in in Hx; [|tauto]. destruct Hx as [Hx|Hx].
      * injection Hx as -> ->. simpl. lia.
      * apply Hf. apply in_map_iff. exists (x', j). auto.
Qed.

Lemma map_find_none m a : map_find m a = None <-> ~ In a (map fst m).
Proof.
  induction m as [|(c, i) r IH]; simpl; [tauto|].
  destruct (Nat.eqb_spec c a).
  - split; [discriminate|intros H; exfalso; auto].
  - rewrite IH. tauto.
Qed.

Lemma map_find_some m a k : sortedk m -> (map_find m a = Some k <-> In (a, k) m).
Proof.
  unfold sortedk. induction m as [|(c, i) r IH]; intros Hs; simpl in *.
  - split; [discriminate|intros []].
  - inversion Hs as [|? ? Hs' Hf]; subst. destruct (Nat.eqb_spec c a) as [->|E].
    + split; [intros E; left; congruence|]. intros [E|H]; [congruence|].
      exfalso. rewrite Forall_forall in Hf. specialize (Hf a).
      assert (a < a); [|lia]. apply Hf. apply in_map_iff. exists (a, k). auto.
    + rewrite IH by assumption. split; [auto|]. intros [E'|H]; [congruence|assumption].
Qed.

Lemma sortedk_incr l : sortedk l -> incr l.
Proof.
  unfold sortedk. induction l as [|(a, k) l IH] using rev_ind; intros H; [constructor|].
  rewrite map_app in H. simpl in H.
  assert (Hs : StronglySorted lt (map fst l) /\ Forall (fun b => b < a) (map fst l)).
  { clear IH. induction (map fst l) as [|x r IHr]; simpl in *.
    - split; constructor.
    - inversion H as [|? ? Hs Hf]; subst. destruct (IHr Hs) as (H1 & H2).
      apply Forall_app in Hf. destruct Hf as (Hf1 & Hf2).
      split; constructor; auto. inversion Hf2; assumption. }
  destruct Hs as (H1 & H2). constructor; [apply IH; assumption|].
  intros b j Hb. rewrite Forall_forall in H2. apply H2. apply in_map_iff. exists (b, j). auto.
Qed.

(** ** Slices *)
Lemma fix_axis_ok {V} (axes : list (axis V)) ax a k : nth_error axes ax = Some a -> k < ax_size a ->
  exists axes', fix_axis axes ax k = Some axes'.
Proof.
  revert ax. induction axes as [|b r IH]; intros ax H Hk; [destruct ax; discriminate|].
  destruct ax as [|ax]; simpl in *.
  - injection H as ->. unfold ax_size in Hk. apply nth_error_Some in Hk.
    destruct (nth_error (ax_values a) k); [eauto|congruence].
  - destruct (IH ax H Hk) as (r' & ->). eauto.
Qed.

Definition slice_inv {V} (axes : list (axis V)) (fixes : list (nat * nat)) (v : view V) : Prop :=
  v_axes v = axes /\ sortedk (v_fixed v) /\ (forall p, In p (v_fixed v) <-> In p fixes) /\
  NoDup (map fst fixes) /\
  (forall ax k, In (ax, k) fixes -> exists n, nth_error (axes_sizes axes) ax = Some n /\ k < n).

Lemma in_fst {A B} (l : list (A * B)) a : In a (map fst l) <-> exists b, In (a, b) l.
Proof.
  rewrite in_map_iff. split.
  - intros ((x, y) & <- & H). eauto.
  - intros (b & H). exists (a, b). auto.
Qed.

Lemma NoDup_snoc {A} (l : list A) x : NoDup l -> ~ In x l -> NoDup (l ++ [x]).
Proof.
  intros H Hx. induction H as [|y l Hy Hl IH]; simpl.
  - constructor; [intros []|constructor].
  - constructor.
    + rewrite in_app_iff. simpl. intros [H1|[H1|[]]]; [auto|]. subst. apply Hx. left. reflexivity.
    + apply IH. intros H1. apply Hx. right. assumption.
Qed.

Lemma slice_step {V} (axes : list (axis V)) fixes v ax k :
  slice_inv axes fixes v -> ax < length axes ->
  match fix_axis_by_index v ax k with
  | Ok v' => slice_inv axes (fixes ++ [(ax, k)]) v'
             /\ fix_axis axes ax k = Some (v_axes_fixed v')
  | Throw => In ax (map fst fixes) \/ exists n, nth_error (axes_sizes axes) ax = Some n /\ n <= k
  | _ => False
  end.
Proof.
  intros (H1 & H2 & H3 & H4 & H5) Hax. unfold fix_axis_by_index. rewrite H1.
  destruct (nth_error axes ax) as [a|] eqn:Ea; [|apply nth_error_None in Ea; lia].
  assert (Hsz : nth_error (axes_sizes axes) ax = Some (ax_size a)) by (apply map_nth_error; assumption).
  destruct (Nat.leb_spec (ax_size a) k) as [L|L]; [right; eauto|].
  unfold slice_ctor. rewrite H1. destruct (fix_axis_ok axes ax a k Ea L) as (axes' & Hf).
  rewrite Hf. destruct (map_find (v_fixed v) ax) as [j|] eqn:Ef.
  - left. apply map_find_some in Ef; [|assumption]. apply in_fst. exists j. apply H3. assumption.
  - apply map_find_none in Ef. cbn [v_axes_fixed]. split; [|reflexivity].
    assert (Hnot : ~ In ax (map fst fixes)).
    { intros Hin. apply Ef. apply in_fst in Hin. destruct Hin as (j & Hj). apply in_fst. exists j. apply H3. assumption. }
    split; [reflexivity|]. cbn [v_fixed]. split; [apply map_set_sorted; assumption|].
    split; [|split].
    + intros (b, j). rewrite map_set_in by assumption. rewrite in_app_iff. simpl. rewrite H3. intuition.
    + rewrite map_app. simpl. apply NoDup_snoc; assumption.
    + intros b j Hb. apply in_app_or in Hb. destruct Hb as [Hb|[Hb|[]]]; [auto|].
      injection Hb as <- <-. eauto.
Qed.

Lemma slice_inv_new {V} (axes : list (axis V)) : slice_inv axes [] (new_view axes).
Proof.
  split; [reflexivity|]. split; [constructor|]. split; [simpl; tauto|].
  split; [constructor|]. intros ax k [].
Qed.

Lemma fix_chain_inv {V} (axes : list (axis V)) fixes v0 done v :
  slice_inv axes done v0 -> (forall a k, In (a, k) fixes -> a < length axes) ->
  fix_chain v0 fixes = Ok v -> slice_inv axes (done ++ fixes) v.
Proof.
  revert v0 done. induction fixes as [|(a, k) r IH]; intros v0 done Hi Hk H; simpl in H.
  - injection H as <-. rewrite app_nil_r. assumption.
  - assert (Ha : a < length axes) by (eapply Hk; left; reflexivity).
    pose proof (slice_step axes done v0 a k Hi Ha) as Hs.
    destruct (fix_axis_by_index v0 a k) as [v'| | |]; try discriminate. cbn [bind] in H.
    destruct Hs as (Hs & _).
    replace (done ++ (a, k) :: r) with ((done ++ [(a, k)]) ++ r) by (rewrite <- app_assoc; reflexivity).
    eapply IH; [exact Hs| |exact H]. intros b j Hb. eapply Hk. right. exact Hb.
Qed.

Lemma fix_axis_by_index_bad_axis {V} (v : view V) a k : length (v_axes v) <= a -> fix_axis_by_index v a k = UB.
Proof. intros H. unfold fix_axis_by_index. apply nth_error_None in H. rewrite H. reflexivity. Qed.

Lemma fix_chain_axes {V} (v0 : view V) fixes v : fix_chain v0 fixes = Ok v ->
  v_axes v = v_axes v0 /\ (forall a k, In (a, k) fixes -> a < length (v_axes v0)).
Proof.
  revert v0. induction fixes as [|(a, k) r IH]; intros v0 H; simpl in H.
  - injection H as <-. split; [reflexivity|intros a k []].
  - destruct (fix_axis_by_index v0 a k) as [v'| | |] eqn:E; try discriminate. cbn [bind] in H.
    assert (Hv' : v_axes v' = v_axes v0).
    { unfold fix_axis_by_index, slice_ctor in E.
      destruct (nth_error (v_axes v0) a); try discriminate; destruct (_ <=? _); try discriminate;
      destruct (fix_axis _ _ _); try discriminate; destruct (map_find _ _); try discriminate; injection E as <-; reflexivity. }
    destruct (IH v' H) as (H1 & H2). split; [congruence|].
    intros b j [Hb|Hb].
    + injection Hb as <- <-. destruct (Nat.lt_ge_cases a (length (v_axes v0))); [assumption|].
      rewrite fix_axis_by_index_bad_axis in E by assumption. discriminate.
    + rewrite <- Hv'. eapply H2. exact Hb.
Qed.

Lemma fix_chain_slice {V} (axes : list (axis V)) fixes v :
  fix_chain (new_view axes) fixes = Ok v -> slice_inv axes fixes v.
Proof.
  intros H. pose proof (fix_chain_axes _ _ _ H) as (_ & Hk).
  apply (fix_chain_inv axes fixes (new_view axes) []); [apply slice_inv_new|exact Hk|exact H].
Qed.
