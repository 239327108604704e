(** Proofs about histograms: edge vectors, counts, clipping. *)
From Coq Require Import QArith List ZArith Bool Arith Lia Lqa.
From Verif Require Import Common DblModel DblProofs HistModel HistSpec.
Import ListNotations.
Local Open Scope nat_scope.

(** ** Edge vectors *)

Lemma dle_nan a b : dle a b = true -> is_nan a = false /\ is_nan b = false.
Proof. destruct a, b; cbn; auto; try discriminate. Qed.
Lemma not_dlt_dle a b : is_nan a = false -> is_nan b = false -> dlt a b = false -> dle b a = true.
Proof. intros; dbl_cases; try lra. all: try (apply Qle_lteq; lra). all: try (rewrite orb_true_iff, Qlt_b_iff, Qeq_bool_iff; apply Qle_lteq; lra). Qed.
Lemma dle_not_dlt a b : dle a b = true -> dlt b a = false.
Proof. intros; dbl_cases; try lra; auto. Qed.
Lemma dlt_dle a b : dlt a b = true -> dle a b = true.
Proof. unfold dle. intros ->. reflexivity. Qed.
Lemma dle_trans a b c : dle a b = true -> dle b c = true -> dle a c = true.
Proof. intros; dbl_cases; try lra. all: try (apply Qle_lteq; lra). Qed.
Lemma dlt_dle_trans a b c : dlt a b = true -> dle b c = true -> dlt a c = true.
Proof. intros; dbl_cases; try lra. Qed.
Lemma dle_dlt_trans a b c : dle a b = true -> dlt b c = true -> dlt a c = true.
Proof. intros; dbl_cases; try lra. Qed.
Lemma dle_antisym a b : dle a b = true -> dle b a = true -> deq a b = true.
Proof. intros; dbl_cases; try lra. Qed.
Lemma deq_dle a b : deq a b = true -> dle a b = true.
Proof. unfold dle. intros ->. apply orb_true_r. Qed.
Lemma deq_sym a b : deq a b = deq b a.
Proof.
  destruct a, b; cbn; auto. destruct (Qeq_bool q q0) eqn:E; symmetry.
  - apply Qeq_bool_iff in E. apply Qeq_bool_iff. lra.
  - apply not_true_iff_false. intro H. apply Qeq_bool_iff in H. apply not_true_iff_false in E. apply E. apply Qeq_bool_iff. lra.
Qed.

Lemma find_above_spec v l :
  let p := find_above v l in
  p <= length l /\
  (forall i e, i < p -> nth_error l i = Some e -> dlt v e = false) /\
  (forall e, nth_error l p = Some e -> dlt v e = true).
Proof.
  induction l as [|e r IH]; cbn.
  - split; [lia|]. split; intros; [lia|discriminate].
  - destruct (dlt v e) eqn:E; cbn.
    + split; [lia|]. split; [intros; lia|]. intros e' H. injection H as <-. exact E.
    + destruct IH as (A & B & C). split; [lia|]. split.
      * intros [|i] e' H1 H2; cbn in H2. { injection H2 as <-. exact E. } apply (B i); [lia|exact H2].
      * exact C.
Qed.

Lemma ordered_no_nan l : ordered l -> forall e, In e l -> is_nan e = false.
Proof.
  intros [L O] e H. apply In_nth_error in H. destruct H as [i H].
  assert (I : i < length l) by (apply nth_error_Some; congruence).
  destruct (Nat.eq_dec i 0) as [->|N].
  - destruct (nth_error l 1) as [b|] eqn:E; [|apply nth_error_None in E; lia].
    apply (dle_nan e b). apply (O 0 1); auto.
  - destruct (nth_error l 0) as [b|] eqn:E; [|apply nth_error_None in E; lia].
    apply (dle_nan b e). apply (O 0 i); auto. lia.
Qed.

Lemma last_nth {A} (l : list A) d : l <> [] -> nth_error l (length l - 1) = Some (last l d).
Proof.
  intros H. destruct (exists_last H) as [r [x ->]].
  rewrite last_last, app_length. cbn. rewrite nth_error_app2 by lia.
  replace (length r + 1 - 1 - length r) with 0 by lia. reflexivity.
Qed.

(** Every value that is a number and not outside has its bin, the other values none. *)
Lemma edge_index_cases l v : ordered l -> is_nan v = false ->
  (outside l v /\ edge_index l v = Ok (-1)%Z) \/
  exists i, in_bin l i v /\ edge_index l v = Ok (Z.of_nat i).
Proof.
  intros O N. pose proof (ordered_no_nan l O) as NN. destruct O as [L O].
  destruct l as [|f r]; [cbn in L; lia|]. unfold edge_index. set (l := f :: r) in *.
  assert (Z0 : nth_error l 0 = Some f) by reflexivity.
  pose proof (last_nth l f ltac:(discriminate)) as ZL. set (b := last l f) in *.
  destruct (dlt v f) eqn:E1; cbn [orb].
  { left. split; [left|reflexivity]. intros e H. apply In_nth_error in H. destruct H as [[|i] H].
    - rewrite Z0 in H. injection H as <-. exact E1.
    - apply (dlt_dle_trans v f); auto. apply (O 0 (S i)); auto. lia. }
  destruct (dlt b v) eqn:E2.
  { left. split; [right|reflexivity]. intros e H. apply In_nth_error in H. destruct H as [i H].
    assert (I : i < length l) by (apply nth_error_Some; congruence).
    destruct (Nat.eq_dec i (length l - 1)) as [->|D].
    - rewrite ZL in H. injection H as <-. exact E2.
    - apply (dle_dlt_trans e b); auto. apply (O i (length l - 1)); auto. lia. }
  right. destruct (find_above_spec v l) as (A & B & C). set (p := find_above v l) in *.
  assert (P0 : p <> 0). { intro E. rewrite E in C. rewrite (C f Z0) in E1. discriminate. }
  destruct (Nat.eqb_spec p (length l)) as [E|E].
  - exists (length l - 2). split; [|f_equal; lia].
    destruct (nth_error l (length l - 2)) as [lo|] eqn:G; [|apply nth_error_None in G; lia].
    exists lo, b. split; [exact G|]. split; [rewrite <- ZL; f_equal; lia|]. split.
    + apply not_dlt_dle; auto. { apply NN. apply nth_error_In in G. exact G. } apply (B (length l - 2)); [lia|exact G].
    + right. split; [lia|]. apply dle_antisym.
      * apply not_dlt_dle; auto. apply NN. apply nth_error_In in ZL. exact ZL.
      * apply not_dlt_dle; auto. { apply NN. apply nth_error_In in ZL. exact ZL. } apply (B (length l - 1)); [lia|exact ZL].
  - exists (p - 1). split; [|f_equal; lia].
    destruct (nth_error l (p - 1)) as [lo|] eqn:G; [|apply nth_error_None in G; lia].
    destruct (nth_error l p) as [hi|] eqn:G'; [|apply nth_error_None in G'; lia].
    exists lo, hi. split; [exact G|]. split; [replace (p - 1 + 1) with p by lia; exact G'|]. split.
    + apply not_dlt_dle; auto. { apply NN. apply nth_error_In in G. exact G. } apply (B (p - 1)); [lia|exact G].
    + left. apply C. reflexivity.
Qed.

(** A value is in one bin only. *)
Lemma in_bin_lt l i j v : ordered l -> in_bin l i v -> in_bin l j v -> ~ i < j.
Proof.
  intros [L O] (lo & hi & A & B & C & D) (lo' & hi' & A' & B' & C' & D') H.
  assert (J : j + 1 < length l) by (apply nth_error_Some; congruence).
  assert (X : dlt v hi = true) by (destruct D as [D|[D _]]; [exact D|lia]).
  assert (Y : dle hi lo' = true).
  { destruct (Nat.eq_dec (i + 1) j) as [E|E].
    - rewrite E, A' in B. injection B as <-. apply dlt_not_nan in X. destruct X as [_ X].
      destruct lo'; cbn in X |- *; try discriminate; auto. unfold dle. cbn. rewrite (proj2 (Qeq_bool_iff q q)); [apply orb_true_r|lra].
    - apply (O (i + 1) j); auto. lia. }
  pose proof (dlt_dle_trans v hi lo' X Y) as Z. apply dle_not_dlt in C'. congruence.
Qed.
Lemma in_bin_unique l i j v : ordered l -> in_bin l i v -> in_bin l j v -> i = j.
Proof.
  intros O A B. pose proof (in_bin_lt l i j v O A B). pose proof (in_bin_lt l j i v O B A). lia.
Qed.
Lemma in_bin_not_outside l i v : in_bin l i v -> ~ outside l v.
Proof.
  intros (lo & hi & A & B & C & D) [H|H].
  - apply nth_error_In in A. apply H in A. apply dle_not_dlt in C. congruence.
  - apply nth_error_In in B. apply H in B. destruct D as [D|[_ D]].
    + apply dlt_asym in D. congruence.
    + apply deq_dle in D. apply dle_not_dlt in D. congruence.
Qed.
Lemma in_bin_nan l i v : in_bin l i v -> is_nan v = false.
Proof. intros (lo & hi & A & B & C & D). apply dle_nan in C. tauto. Qed.
Lemma edge_index_bin l v i : ordered l -> is_nan v = false -> edge_index l v = Ok (Z.of_nat i) <-> in_bin l i v.
Proof.
  intros O N. destruct (edge_index_cases l v O N) as [[A B]|(j & A & B)]; rewrite B; split; intro H.
  - injection H as H. lia.
  - exfalso. apply (in_bin_not_outside l i v); auto.
  - injection H as H. apply Nat2Z.inj in H. subst j. exact A.
  - rewrite (in_bin_unique l j i v O A H). reflexivity.
Qed.
Lemma edge_index_out l v : ordered l -> is_nan v = false -> edge_index l v = Ok (-1)%Z <-> outside l v.
Proof.
  intros O N. destruct (edge_index_cases l v O N) as [[A B]|(j & A & B)]; rewrite B; split; intro H; auto.
  - injection H as H. lia.
  - exfalso. apply (in_bin_not_outside l j v); auto.
Qed.
Lemma edge_index_ok l v : ordered l -> exists z, edge_index l v = Ok z.
Proof.
  intros [L _]. destruct l as [|f r]; [cbn in L; lia|]. unfold edge_index.
  destruct (_ || _); eexists; reflexivity.
Qed.
(** NaN lands in the last bin. *)
Lemma edge_index_nan l : ordered l -> edge_index l NaN = Ok (Z.of_nat (length l) - 2)%Z.
Proof.
  intros [L _]. destruct l as [|f r]; [cbn in L; lia|]. unfold edge_index. set (l := f :: r) in *.
  rewrite dlt_nan_l, dlt_nan_r. cbn [orb].
  assert (E : forall m, find_above NaN m = length m).
  { induction m as [|e m IH]; [reflexivity|]. cbn [find_above]. rewrite dlt_nan_l. cbn. f_equal. exact IH. }
  rewrite E, Nat.eqb_refl. f_equal. lia.
Qed.

(** Larger values have larger indexes. *)
Lemma edge_index_mono l u v i j : ordered l -> dle u v = true ->
  edge_index l u = Ok (Z.of_nat i) -> edge_index l v = Ok (Z.of_nat j) -> i <= j.
Proof.
  intros O H A B. pose proof (dle_nan u v H) as [Nu Nv].
  apply edge_index_bin in A; auto. apply edge_index_bin in B; auto.
  destruct (le_lt_dec i j) as [|D]; [auto|exfalso].
  destruct O as [L O]. destruct A as (lo & hi & A1 & A2 & A3 & A4). destruct B as (lo' & hi' & B1 & B2 & B3 & B4).
  assert (J : i + 1 < length l) by (apply nth_error_Some; congruence).
  assert (X : dlt v hi' = true) by (destruct B4 as [B4|[B4 _]]; [exact B4|lia]).
  assert (Y : dle hi' lo = true).
  { destruct (Nat.eq_dec (j + 1) i) as [E|E].
    - rewrite E, A1 in B2. injection B2 as <-. apply dlt_not_nan in X. destruct X as [_ X].
      destruct lo; cbn in X |- *; try discriminate; auto. unfold dle. cbn. rewrite (proj2 (Qeq_bool_iff q q)); [apply orb_true_r|lra].
    - apply (O (j + 1) i); auto. lia. }
  pose proof (dlt_dle_trans _ _ _ X Y) as Z. pose proof (dle_trans _ _ _ A3 H) as W. apply dle_not_dlt in W. congruence.
Qed.

(** ** Counts *)

Lemma add_at_length l : forall k w, length (add_at l k w) = length l.
Proof. induction l as [|c r IH]; intros [|k] w; cbn; auto. Qed.
Lemma add_at_nth l : forall k w i c, nth_error l i = Some c ->
  nth_error (add_at l k w) i = Some (if Nat.eqb i k then (c + w)%Q else c).
Proof.
  induction l as [|a r IH]; intros [|k] w [|i] c H; cbn in *; try discriminate; try (injection H as <-); auto.
Qed.
Lemma qsum_add_at l : forall k w, k < length l -> (qsum (add_at l k w) == qsum l + w)%Q.
Proof.
  induction l as [|a r IH]; intros [|k] w H; cbn [length] in H; try lia; unfold qsum in *; cbn [add_at fold_right].
  - ring.
  - rewrite IH by lia. ring.
Qed.
Lemma qsum_app a b : (qsum (a ++ b) == qsum a + qsum b)%Q.
Proof.
  induction a as [|x a IH]; cbn [app]; unfold qsum in *; cbn [fold_right].
  - rewrite Qplus_0_l. reflexivity.
  - rewrite IH. ring.
Qed.
Lemma qsum_repeat0 n : (qsum (repeat 0%Q n) == 0)%Q.
Proof. induction n as [|n IH]; [reflexivity|]. cbn [repeat qsum fold_right]. fold (qsum (repeat 0%Q n)). rewrite IH. ring. Qed.
Lemma qsum_repeat1 n : (qsum (repeat 1%Q n) == qnat n)%Q.
Proof.
  induction n as [|n IH]; [reflexivity|]. cbn [repeat qsum fold_right]. fold (qsum (repeat 1%Q n)). rewrite IH. unfold qnat.
  rewrite Nat2Z.inj_succ. unfold Z.succ. rewrite inject_Z_plus. ring.
Qed.

Lemma fill_counts_spec {V} (b : binning V) data : forall weights counts,
  indexed b data -> length data <= length weights -> length counts = b_count b ->
  exists c, fill_counts (b_index b) data weights counts = Ok c /\ length c = b_count b /\
    (forall i x, nth_error counts i = Some x ->
       exists y, nth_error c i = Some y /\ (y == x + weight_of (has_index b (Z.of_nat i)) data weights)%Q) /\
    (qsum c == qsum counts + weight_of (in_range b) data weights)%Q.
Proof.
  induction data as [|v r IH]; intros weights counts X L C.
  - exists counts. split; [reflexivity|]. split; [exact C|]. split.
    + intros i x H. exists x. split; [exact H|]. unfold weight_of. cbn. ring.
    + unfold weight_of. cbn. ring.
  - destruct weights as [|w ws]; [cbn in L; lia|]. cbn in L.
    destruct (X v (or_introl eq_refl)) as [z Hz].
    assert (X' : indexed b r) by (intros u Hu; apply X; right; exact Hu).
    cbn [fill_counts]. rewrite Hz. cbn [bind].
    set (inb := ((0 <=? z) && (z <? Z.of_nat (length counts)))%Z).
    set (counts' := if inb then add_at counts (Z.to_nat z) w else counts).
    assert (C' : length counts' = b_count b) by (unfold counts'; destruct inb; [rewrite add_at_length|]; exact C).
    destruct (IH ws counts' X' ltac:(lia) C') as (c & E & Lc & N & S).
    exists c. split; [exact E|]. split; [exact Lc|].
    assert (INB : in_range b v = inb) by (unfold in_range, inb; rewrite Hz, C; reflexivity).
    assert (W : forall p, (weight_of p (v :: r) (w :: ws) == (if p v then w else 0) + weight_of p r ws)%Q).
    { intros p. unfold weight_of, qsum. cbn [combine filter fst]. destruct (p v); cbn [map snd fold_right]; ring. }
    split.
    + intros i x H.
      assert (K : exists x', nth_error counts' i = Some x' /\ (x' == x + (if has_index b (Z.of_nat i) v then w else 0))%Q).
      { assert (I : i < length counts) by (apply nth_error_Some; congruence).
        unfold has_index. rewrite Hz. unfold counts'. destruct inb eqn:B.
        - rewrite (add_at_nth _ _ _ _ _ H). unfold inb in B. apply andb_true_iff in B. destruct B as [B1 B2].
          apply Z.leb_le in B1. eexists. split; [reflexivity|].
          destruct (Nat.eqb_spec i (Z.to_nat z)); destruct (Z.eqb_spec z (Z.of_nat i)); try lia; ring.
        - exists x. split; [exact H|]. unfold inb in B. apply andb_false_iff in B.
          destruct (Z.eqb_spec z (Z.of_nat i)); [|ring]. exfalso. destruct B as [B|B]; [apply Z.leb_gt in B|apply Z.ltb_ge in B]; lia. }
      destruct K as (x' & K1 & K2). destruct (N i x' K1) as (y & Y1 & Y2). exists y. split; [exact Y1|].
      rewrite Y2, K2, W. ring.
    + rewrite S, W, INB. unfold counts'. destruct inb eqn:B; [|ring]. rewrite qsum_add_at; [ring|].
      unfold inb in B. apply andb_true_iff in B. destruct B as [B1 B2]. apply Z.leb_le in B1. apply Z.ltb_lt in B2. lia.
Qed.

Lemma new_hist_spec {V} (b : binning V) data weights :
  indexed b data -> length data <= length weights ->
  exists h, new_hist b data weights = Ok h /\ h_binning h = b /\ h_left h = 0%Z /\
    h_right h = (Z.of_nat (b_count b) - 1)%Z /\ length (h_counts h) = b_count b /\
    (forall i, i < b_count b -> exists y, nth_error (h_counts h) i = Some y /\
       (y == weight_of (has_index b (Z.of_nat i)) data weights)%Q) /\
    (qsum (h_counts h) == weight_of (in_range b) data weights)%Q.
Proof.
  intros X L. destruct (fill_counts_spec b data weights (repeat 0%Q (b_count b)) X L (repeat_length _ _)) as (c & E & Lc & N & S).
  eexists. unfold new_hist. rewrite E. cbn [bind]. split; [reflexivity|]. cbn.
  split; [reflexivity|]. split; [reflexivity|]. split; [reflexivity|]. split; [exact Lc|]. split.
  - intros i I. destruct (nth_error (repeat 0%Q (b_count b)) i) as [x|] eqn:G.
    2: { apply nth_error_None in G. rewrite repeat_length in G. lia. }
    assert (x = 0%Q) by (apply nth_error_In in G; apply repeat_spec in G; exact G). subst x.
    destruct (N i _ G) as (y & Y1 & Y2). exists y. split; [exact Y1|]. rewrite Y2. ring.
  - rewrite S, qsum_repeat0. ring.
Qed.

Lemma get_counts_all {V} (h : hist V) : h_left h = 0%Z -> h_right h = (Z.of_nat (length (h_counts h)) - 1)%Z ->
  get_counts h = h_counts h.
Proof.
  intros A B. unfold get_counts. rewrite A, B. cbn [Z.to_nat skipn].
  apply firstn_all2. lia.
Qed.

Lemma weight_plain {V} (p : V -> bool) data : (weight_of p data (repeat 1%Q (length data)) == qnat (length (filter p data)))%Q.
Proof.
  unfold weight_of, qsum. induction data as [|v r IH]; [reflexivity|]. cbn [length repeat combine filter fst]. destruct (p v); cbn [map snd fold_right length].
  - rewrite IH. unfold qnat. rewrite Nat2Z.inj_succ. unfold Z.succ. rewrite inject_Z_plus. ring.
  - exact IH.
Qed.
Lemma weight_ext {V} (p q : V -> bool) data : (forall v, In v data -> p v = q v) -> forall weights, weight_of p data weights = weight_of q data weights.
Proof.
  intros H. induction data as [|v r IH]; intros [|w ws]; try reflexivity. unfold weight_of, qsum in *. cbn [combine filter fst].
  rewrite <- (H v) by (left; reflexivity). assert (IH' := IH (fun u U => H u (or_intror U)) ws).
  destruct (p v); cbn [map snd fold_right]; rewrite IH'; reflexivity.
Qed.

(** ** Clipping *)

Lemma clip_throw {V} gt (h : hist V) a b : gt a b = true -> clip gt h a b = Throw.
Proof. unfold clip. intros ->. reflexivity. Qed.
Lemma clip_ok {V} gt (h h' : hist V) a b : clip gt h a b = Ok h' -> gt a b = false /\
  h_binning h' = h_binning h /\ h_counts h' = h_counts h /\
  exists za zb, b_index (h_binning h) a = Ok za /\ b_index (h_binning h) b = Ok zb /\
   h_left h' = (if (h_left h <? za) && (za <=? h_right h) then za else h_left h)%Z /\
   h_right h' = (if (h_left h' <=? zb) && (zb <? h_right h) then zb else h_right h)%Z.
Proof.
  unfold clip. destruct (gt a b); [discriminate|].
  destruct (b_index (h_binning h) a) as [za| | |]; try discriminate. cbn [bind].
  destruct (b_index (h_binning h) b) as [zb| | |]; try discriminate. cbn [bind].
  intros E. injection E as <-. cbn. split; [reflexivity|]. split; [reflexivity|]. split; [reflexivity|].
  exists za, zb. split; [reflexivity|]. split; [reflexivity|]. split; reflexivity.
Qed.
Lemma clip_runs {V} gt (h : hist V) a b za zb : gt a b = false ->
  b_index (h_binning h) a = Ok za -> b_index (h_binning h) b = Ok zb -> exists h', clip gt h a b = Ok h'.
Proof. intros A B C. unfold clip. rewrite A, B, C. cbn. eexists. reflexivity. Qed.

Ltac zcases :=
  repeat match goal with
  | |- context [(?a <? ?b)%Z] => destruct (Z.ltb_spec a b)
  | |- context [(?a <=? ?b)%Z] => destruct (Z.leb_spec a b)
  end; cbn [andb].

Lemma clip_range {V} gt (h h' : hist V) a b : clip gt h a b = Ok h' -> (h_left h <= h_right h)%Z ->
  (h_left h <= h_left h' <= h_right h' /\ h_right h' <= h_right h)%Z.
Proof.
  intros E L. apply clip_ok in E. destruct E as (_ & _ & _ & za & zb & _ & _ & El & Er).
  revert El Er. zcases; lia.
Qed.
Lemma clip_valid {V} gt (h h' : hist V) a b : clip gt h a b = Ok h' -> valid h -> valid h'.
Proof.
  intros E (A & B & C). pose proof (clip_range _ _ _ _ _ E ltac:(lia)) as R. apply clip_ok in E.
  destruct E as (_ & Eb & Ec & _). unfold valid. rewrite Eb, Ec. lia.
Qed.
Lemma clips_range {V} gt (l : list (V * V)) : forall (h h' : hist V), clips gt h l = Ok h' -> (h_left h <= h_right h)%Z ->
  (h_left h <= h_left h' <= h_right h' /\ h_right h' <= h_right h)%Z /\ h_binning h' = h_binning h /\ h_counts h' = h_counts h.
Proof.
  induction l as [|[a b] r IH]; intros h h' E L; cbn [clips] in E.
  - injection E as <-. split; [lia|]. split; reflexivity.
  - destruct (clip gt h a b) as [h1| | |] eqn:G; try discriminate. cbn [bind] in E.
    pose proof (clip_range _ _ _ _ _ G L) as R. destruct (IH h1 h' E ltac:(lia)) as (R' & B & C).
    apply clip_ok in G. destruct G as (_ & Eb & Ec & _). split; [lia|]. rewrite B, C. auto.
Qed.
(** A bin between the ones of the bounds stays visible. *)
Lemma clip_keeps {V} gt (h h' : hist V) a b za zb z : clip gt h a b = Ok h' ->
  b_index (h_binning h) a = Ok za -> b_index (h_binning h) b = Ok zb ->
  (h_left h <= z <= h_right h)%Z -> ((za <= z)%Z \/ (za < 0)%Z) -> ((z <= zb)%Z \/ (zb < 0)%Z) -> (0 <= h_left h)%Z ->
  (h_left h' <= z <= h_right h')%Z.
Proof.
  intros E A B Z1 Z2 Z3 P. apply clip_ok in E. destruct E as (_ & _ & _ & za' & zb' & A' & B' & El & Er).
  rewrite A in A'. injection A' as <-. rewrite B in B'. injection B' as <-. revert El Er. zcases; lia.
Qed.
(** Bounds inside the visible range give exactly the bins between them. *)
Lemma clip_exact {V} gt (h h' : hist V) a b za zb : clip gt h a b = Ok h' ->
  b_index (h_binning h) a = Ok za -> b_index (h_binning h) b = Ok zb ->
  (h_left h <= za <= zb)%Z -> (zb <= h_right h)%Z -> h_left h' = za /\ h_right h' = zb.
Proof.
  intros E A B Z1 Z2. apply clip_ok in E. destruct E as (_ & _ & _ & za' & zb' & A' & B' & El & Er).
  rewrite A in A'. injection A' as <-. rewrite B in B'. injection B' as <-. revert El Er. zcases; lia.
Qed.

Lemma get_counts_nth {V} (h : hist V) k : valid h -> nth_error (get_counts h) k =
  if (Z.of_nat k <? hist_size h)%Z then nth_error (h_counts h) (Z.to_nat (h_left h) + k) else None.
Proof.
  intros (A & B & C). unfold get_counts, hist_size.
  assert (F : forall {A} (l : list A) m i, nth_error (skipn m l) i = nth_error l (m + i)).
  { induction l as [|x l IH]; intros [|m] i; cbn; auto. destruct i; reflexivity. }
  assert (G : forall {A} n (l : list A) i, i < n -> nth_error (firstn n l) i = nth_error l i).
  { induction n as [|n IH]; intros [|x l] [|i] I; cbn; auto; try lia. apply IH. lia. }
  destruct (Z.ltb_spec (Z.of_nat k) (h_right h - h_left h + 1)).
  - rewrite G by lia. apply F.
  - apply nth_error_None. rewrite firstn_length, skipn_length. lia.
Qed.
Lemma get_counts_length {V} (h : hist V) : valid h -> Z.of_nat (length (get_counts h)) = hist_size h.
Proof. intros (A & B & C). unfold get_counts, hist_size. rewrite firstn_length, skipn_length. lia. Qed.
