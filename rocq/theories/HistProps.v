(** Properties C22, C23, C24, C85, C86, C87: histograms. *)
From Coq Require Import QArith List ZArith Bool Arith Lia Lqa.
From Verif Require Import Common DblModel DblProofs HistModel HistSpec HistProofs HistProofs2.
Import ListNotations.
Local Open Scope nat_scope.

(** ** C22: edge vectors *)

(** getBinIndex(v) = i iff v is in the bin i, and there is no bin iff v is
    below or above all the edges. *)
Theorem C22_edge_binning edges v : ordered edges -> is_nan v = false ->
  (forall i, b_index (edge_binning edges) v = Ok (Z.of_nat i) <-> in_bin edges i v) /\
  (b_index (edge_binning edges) v = Ok (-1)%Z <-> outside edges v) /\
  (outside edges v \/ exists i, i < b_count (edge_binning edges) /\ in_bin edges i v).
Proof.
  intros O N. split; [intros i; apply (edge_index_bin edges v i O N)|]. split; [apply (edge_index_out edges v O N)|].
  destruct (edge_index_cases edges v O N) as [[A _]|(i & A & _)]; [left; exact A|right; exists i; split; [|exact A]].
  destruct A as (lo & hi & _ & B & _). assert (i + 1 < length edges) by (apply nth_error_Some; congruence). cbn. lia.
Qed.
Print Assumptions C22_edge_binning.

(** Bins do not overlap, and larger values are in later bins. *)
Theorem C22_bins_ordered edges u v i j : ordered edges -> in_bin edges i u -> in_bin edges j v -> dle u v = true -> i <= j.
Proof.
  intros O A B L. apply (edge_index_mono edges u v i j O L).
  - apply (edge_index_bin edges u i O (in_bin_nan _ _ _ A)). exact A.
  - apply (edge_index_bin edges v j O (in_bin_nan _ _ _ B)). exact B.
Qed.
Print Assumptions C22_bins_ordered.

(** The edges and the number of bins are those given. *)
Theorem C22_edges edges : ordered edges ->
  b_edges (edge_binning edges) = Ok edges /\ b_count (edge_binning edges) + 1 = length edges.
Proof.
  intros [L _]. split; [|cbn; lia]. unfold b_edges. cbn [b_count edge_binning]. replace (length edges - 1 + 1) with (length edges) by lia.
  clear L. assert (G : forall l k, k + length l = length edges -> skipn k edges = l -> generate (b_edge (edge_binning edges)) k (length l) = Ok l).
  { induction l as [|e r IH]; intros k H K; [reflexivity|]. cbn [length generate].
    assert (E : nth_error edges k = Some e /\ skipn (S k) edges = r).
    { clear - K. revert k K. induction edges as [|a l IH]; intros [|k] K; cbn in K |- *; try discriminate.
      - injection K as <- <-. auto.
      - apply IH. exact K. }
    destruct E as [E1 E2]. cbn [b_edge edge_binning]. rewrite E1. cbn [of_option bind].
    cbn [length] in H. fold (b_edge (edge_binning edges)).
    pose proof (IH (S k) ltac:(lia) E2) as X. cbn [b_edge edge_binning] in X. rewrite X. reflexivity. }
  apply (G edges 0); reflexivity.
Qed.
Print Assumptions C22_edges.

(** NaN, which is in no bin, is counted in the last one. *)
Theorem C22_nan_refuted edges : ordered edges ->
  b_index (edge_binning edges) NaN = Ok (Z.of_nat (b_count (edge_binning edges)) - 1)%Z /\ forall i, ~ in_bin edges i NaN.
Proof.
  intros O. split.
  - cbn [b_index edge_binning b_count]. rewrite (edge_index_nan edges O). f_equal. destruct O as [L _]. lia.
  - intros i H. apply in_bin_nan in H. discriminate.
Qed.
Print Assumptions C22_nan_refuted.

Definition edges3 : list dbl := [Fin 0; Fin 1; Fin 3; PInf].
Example C22_ordered : ordered edges3.
Proof.
  split; [cbn; lia|]. intros [|[|[|[|i]]]] [|[|[|[|j]]]] a b; cbn; intros L A B; try lia; try discriminate;
    try (destruct i; discriminate); try (destruct j; discriminate);
    injection A as <-; injection B as <-; reflexivity.
Qed.
Example C22_example : map (edge_index edges3) [Fin 0; Fin (1 # 2); Fin 1; Fin 3; PInf; Fin (-1); NInf; NaN] =
  [Ok 0; Ok 0; Ok 1; Ok 2; Ok 2; Ok (-1); Ok (-1); Ok 2]%Z.
Proof. vm_compute. reflexivity. Qed.

(** ** C23: counts *)

(** The count of each bin is the total weight of the data with that index. *)
Theorem C23_counts {V} (b : binning V) data weights :
  indexed b data -> length data <= length weights ->
  exists h, new_hist b data weights = Ok h /\ length (get_counts h) = b_count b /\
    (forall i, i < b_count b -> exists y, nth_error (get_counts h) i = Some y /\
       (y == weight_of (has_index b (Z.of_nat i)) data weights)%Q) /\
    (qsum (get_counts h) == weight_of (in_range b) data weights)%Q.
Proof.
  intros X L. destruct (new_hist_spec b data weights X L) as (h & E & B & Hl & R & Lc & N & S).
  exists h. rewrite get_counts_all; [|exact Hl|rewrite R, Lc; reflexivity]. auto.
Qed.
Print Assumptions C23_counts.

(** Without weights, the counts are numbers of values. *)
Theorem C23_plain_counts {V} (b : binning V) data : indexed b data ->
  exists h, new_hist_plain b data = Ok h /\ length (get_counts h) = b_count b /\
    (forall i, i < b_count b -> exists y, nth_error (get_counts h) i = Some y /\
       (y == qnat (length (filter (has_index b (Z.of_nat i)) data)))%Q) /\
    (qsum (get_counts h) == qnat (length (filter (in_range b) data)))%Q.
Proof.
  intros X. destruct (C23_counts b data (repeat 1%Q (length data)) X) as (h & E & L & N & S); [rewrite repeat_length; lia|].
  exists h. split; [exact E|]. split; [exact L|]. split.
  - intros i I. destruct (N i I) as (y & A & B). exists y. split; [exact A|]. rewrite B. apply weight_plain.
  - rewrite S. apply weight_plain.
Qed.
Print Assumptions C23_plain_counts.

(** With an edge vector: the count of a bin is the weight of the values in the
    bin, and the total is the weight of the values that are not outside. *)
Theorem C23_edge_counts edges data weights :
  ordered edges -> (forall v, In v data -> is_nan v = false) -> length data <= length weights ->
  exists h, new_hist (edge_binning edges) data weights = Ok h /\
    (forall i (p : dbl -> bool), i + 1 < length edges -> (forall v, p v = true <-> in_bin edges i v) ->
       exists y, nth_error (get_counts h) i = Some y /\ (y == weight_of p data weights)%Q) /\
    (forall p : dbl -> bool, (forall v, p v = true <-> outside edges v) ->
       qsum (get_counts h) == weight_of (fun v => negb (p v)) data weights)%Q.
Proof.
  intros O N L. destruct (C23_counts (edge_binning edges) data weights) as (h & E & Lc & C & S); [|exact L|].
  { intros v _. apply (edge_index_ok edges v O). }
  exists h. split; [exact E|]. split.
  - intros i p I P. destruct (C i) as (y & A & B); [cbn; lia|]. exists y. split; [exact A|]. rewrite B.
    rewrite (weight_ext _ p data); [reflexivity|]. intros v Hv. pose proof (edge_index_bin edges v i O (N v Hv)) as X.
    unfold has_index. cbn [b_index edge_binning]. destruct (edge_index_ok edges v O) as [z Z]. rewrite Z in *.
    destruct (Z.eqb_spec z (Z.of_nat i)) as [Ez|Ez]; symmetry.
    + apply P. apply X. congruence.
    + apply not_true_iff_false. intro H. apply P in H. apply X in H. congruence.
  - intros p P. rewrite S. rewrite (weight_ext _ (fun v => negb (p v)) data); [reflexivity|]. intros v Hv.
    unfold in_range. cbn [b_index edge_binning]. destruct (edge_index_cases edges v O (N v Hv)) as [[A B]|(i & A & B)]; rewrite B.
    + rewrite (proj2 (P v) A). reflexivity.
    + destruct (p v) eqn:Pv. { apply P in Pv. exfalso. apply (in_bin_not_outside edges i v A Pv). }
      destruct A as (lo & hi & _ & A & _). assert (i + 1 < length edges) by (apply nth_error_Some; congruence).
      apply andb_true_iff. split; [apply Z.leb_le; lia|apply Z.ltb_lt; cbn; lia].
Qed.
Print Assumptions C23_edge_counts.

(** Fewer weights than values: the constructor reads past the weights. *)
Theorem C23_missing_weights_refuted : exists (edges data : list dbl) weights,
  ordered edges /\ length weights < length data /\ new_hist (edge_binning edges) data weights = UB.
Proof. exists edges3, [Fin 0; Fin 2], [1%Q]. split; [exact C22_ordered|]. split; [cbn; lia|reflexivity]. Qed.
Print Assumptions C23_missing_weights_refuted.

Example C23_example : match new_hist (edge_binning edges3) [Fin 2; Fin 0; Fin (-5); Fin 3; Fin (1 # 2)] [10; 20; 30; 40; 50]%Q with
  Ok h => get_counts h | _ => [] end = [70; 10; 40]%Q.
Proof. vm_compute. reflexivity. Qed.

(** ** C24: clipping *)

(** After any number of clips the bins shown are bins of the histogram and were
    all shown before; the counts shown are the ones of these bins. *)
Theorem C24_clips {V} gt (b : binning V) data weights h calls h' :
  1 <= b_count b -> indexed b data -> length data <= length weights -> new_hist b data weights = Ok h -> clips gt h calls = Ok h' ->
  valid h' /\ Z.of_nat (length (get_counts h')) = hist_size h' /\ (1 <= hist_size h' <= hist_size h)%Z /\
  (forall k, (Z.of_nat k < hist_size h')%Z -> nth_error (get_counts h') k = nth_error (get_counts h) (Z.to_nat (h_left h') + k)) /\
  (forall v, shows h' v -> shows h v).
Proof.
  intros P X L E C. destruct (new_hist_spec b data weights X L) as (h0 & E0 & B & Hl & R & Lc & _). rewrite E in E0. injection E0 as <-.
  destruct (clips_range gt calls h h' C ltac:(lia)) as (RR & EB & EC).
  assert (VL : valid h') by (unfold valid; rewrite EB, EC, B; lia).
  assert (VH : valid h) by (unfold valid; rewrite B; lia).
  split; [exact VL|]. split; [apply get_counts_length; exact VL|]. split; [unfold hist_size; lia|]. split.
  - intros k K. rewrite (get_counts_nth h' k VL), (get_counts_nth h _ VH). destruct (Z.ltb_spec (Z.of_nat k) (hist_size h')); [|lia].
    destruct (Z.ltb_spec (Z.of_nat (Z.to_nat (h_left h') + k)) (hist_size h)); [|unfold hist_size in *; lia].
    rewrite EC, Hl. reflexivity.
  - intros v (z & Z1 & Z2). exists z. rewrite EB in Z1. split; [exact Z1|lia].
Qed.
Print Assumptions C24_clips.

(** One clip never widens the range and never empties it. *)
Theorem C24_clip_shrinks {V} gt (h h' : hist V) a b : valid h -> clip gt h a b = Ok h' ->
  valid h' /\ (h_left h <= h_left h' <= h_right h' /\ h_right h' <= h_right h)%Z /\ h_counts h' = h_counts h.
Proof.
  intros VL E. split; [apply (clip_valid gt h h' a b E VL)|]. split; [apply (clip_range gt h h' a b E); destruct VL; lia|].
  apply clip_ok in E. tauto.
Qed.
Print Assumptions C24_clip_shrinks.

(** clip throws iff min > max (for bounds that have an index). *)
Theorem C24_throws {V} gt (h : hist V) a b : indexed (h_binning h) [a; b] ->
  (clip gt h a b = Throw <-> gt a b = true) /\ (gt a b = false -> exists h', clip gt h a b = Ok h').
Proof.
  intros X. destruct (X a) as [za A]; [left; reflexivity|]. destruct (X b) as [zb B]; [right; left; reflexivity|].
  assert (K : gt a b = false -> exists h', clip gt h a b = Ok h') by (intros G; apply (clip_runs gt h a b za zb G A B)).
  split; [|exact K]. split; [|apply clip_throw]. intros T. destruct (gt a b) eqn:G; [reflexivity|]. destruct (K eq_refl). congruence.
Qed.
Print Assumptions C24_throws.

(** The bins of the values between the bounds stay visible (edge vectors). *)
Theorem C24_keeps_edge edges (h h' : hist dbl) a b v : ordered edges -> h_binning h = edge_binning edges ->
  (0 <= h_left h)%Z -> clip (fun x y => dlt y x) h a b = Ok h' ->
  is_nan v = false -> dle a v = true -> dle v b = true -> shows h v -> shows h' v.
Proof.
  intros O HB P C N A B (z & Z1 & Z2). rewrite HB in Z1. cbn [b_index edge_binning] in Z1.
  destruct (edge_index_ok edges a O) as [za Ha]. destruct (edge_index_ok edges b O) as [zb Hb].
  pose proof (dle_nan a v A) as [Na _]. pose proof (dle_nan v b B) as [_ Nb].
  assert (IX : forall x zx, is_nan x = false -> edge_index edges x = Ok zx -> (zx = -1 \/ exists n, zx = Z.of_nat n)%Z).
  { intros x zx Nx Hx. destruct (edge_index_cases edges x O Nx) as [[_ E]|(i & _ & E)]; rewrite E in Hx; injection Hx as <-; [left|right; eexists]; reflexivity. }
  destruct (IX v z N Z1) as [->|[n ->]]; [lia|].
  assert (CL : (h_left h' <= Z.of_nat n <= h_right h')%Z).
  { apply (clip_keeps _ h h' a b za zb (Z.of_nat n) C); rewrite ?HB; auto.
    - destruct (IX a za Na Ha) as [->|[m ->]]; [right; lia|left]. apply inj_le. apply (edge_index_mono edges a v m n O A Ha Z1).
    - destruct (IX b zb Nb Hb) as [->|[m ->]]; [right; lia|left]. apply inj_le. apply (edge_index_mono edges v b n m O B Z1 Hb). }
  exists (Z.of_nat n). apply clip_ok in C. destruct C as (_ & EB & _). rewrite EB, HB. auto.
Qed.
Print Assumptions C24_keeps_edge.

(** With bounds in visible bins, exactly the bins between the bounds remain. *)
Theorem C24_exact {V} gt (h h' : hist V) a b za zb : clip gt h a b = Ok h' ->
  b_index (h_binning h) a = Ok za -> b_index (h_binning h) b = Ok zb ->
  (h_left h <= za <= zb)%Z -> (zb <= h_right h)%Z -> h_left h' = za /\ h_right h' = zb.
Proof. apply clip_exact. Qed.
Print Assumptions C24_exact.

(** A range next to the histogram has no effect, instead of hiding the bins. *)
Theorem C24_disjoint_refuted : exists edges (h : hist dbl) a b v,
  ordered edges /\ h_binning h = edge_binning edges /\ valid h /\ dlt v a = true /\ shows h v /\
  clip (fun x y => dlt y x) h a b = Ok h.
Proof.
  exists [Fin 0; Fin 1; Fin 2], (mkHist (edge_binning [Fin 0; Fin 1; Fin 2]) [1; 1]%Q 0 1), (Fin 5), (Fin 6), (Fin 1).
  split. { split; [cbn; lia|]. intros [|[|[|i]]] [|[|[|j]]] a b; cbn; intros L A B; try lia; try discriminate;
    try (destruct i; discriminate); try (destruct j; discriminate); injection A as <-; injection B as <-; reflexivity. }
  split; [reflexivity|]. split; [unfold valid; cbn; lia|]. split; [reflexivity|]. split; [|reflexivity].
  exists 1%Z. split; [reflexivity|cbn; lia].
Qed.
Print Assumptions C24_disjoint_refuted.

(** getBins and getEdges ignore clipping: they are longer than the counts. *)
Theorem C24_bins_refuted : exists (h h' : hist Q) bins, valid h /\ clip (fun x y => Qlt_b y x) h 1%Q 1%Q = Ok h' /\
  get_bins h' = Ok bins /\ length bins <> length (get_counts h').
Proof.
  exists (mkHist (step_binning 3 0 1 3) [1; 2; 3]%Q 0 2). do 2 eexists. split; [unfold valid; cbn; lia|].
  split; [reflexivity|]. split; [reflexivity|]. vm_compute. discriminate.
Qed.
Print Assumptions C24_bins_refuted.

Example C24_example : match new_hist (edge_binning edges3) [Fin 2; Fin 0; Fin 7] [10; 20; 30]%Q with
  Ok h => match clips (fun x y => dlt y x) h [(Fin (-5), Fin 2); (Fin 1, Fin 2)] with Ok h' => (get_counts h', hist_size h') | _ => ([], 0%Z) end
  | _ => ([], 0%Z) end = ([10%Q], 1%Z).
Proof. vm_compute. reflexivity. Qed.

(** ** C85: bins of constant width *)

(** Sqrt: the number of bins is the square root of the number of values,
    rounded up; every value is in a bin, between its edges; no value is lost. *)
Theorem C85_sqrt data : data <> [] ->
  exists b, sqrt_compute data = Ok b /\
    length data <= b_count b * b_count b /\ (forall k, length data <= k * k -> b_count b <= k) /\
    covers b data /\
    exists h, new_hist_plain b data = Ok h /\ length (get_counts h) = b_count b /\
      (qsum (get_counts h) == qnat (length data))%Q.
Proof.
  intros N. destruct (sqrt_covers data N) as (b & E & C & P & CV & _). exists b. split; [exact E|]. rewrite C.
  destruct (ceil_sqrt_spec (length data)) as [A B]. split; [exact A|]. split; [exact B|]. split; [exact CV|].
  destruct (covers_total b data CV) as (h & Eh & S). exists h. split; [exact Eh|]. split; [|exact S].
  destruct (C23_plain_counts b data (covers_indexed b data CV)) as (h' & Eh' & L & _). rewrite Eh in Eh'. injection Eh' as <-. rewrite <- C. exact L.
Qed.
Print Assumptions C85_sqrt.

(** Scott, for any estimates of sigma and of the width such that sigma is 0 only
    if the values are all equal, and the width is positive otherwise. *)
Theorem C85_scott sigma width data : data <> [] ->
  ((sigma data == 0)%Q -> forall x y, In x data -> In y data -> (x == y)%Q) ->
  (~ (sigma data == 0)%Q -> (0 < width data)%Q /\ exists x y, In x data /\ In y data /\ (x < y)%Q) ->
  exists b, scott_compute sigma width data = Ok b /\ 1 <= b_count b /\ covers b data /\
    exists h, new_hist_plain b data = Ok h /\ (qsum (get_counts h) == qnat (length data))%Q.
Proof.
  intros N A B. destruct (scott_covers sigma width data N A B) as (b & E & P & CV & _). exists b.
  split; [exact E|]. split; [exact P|]. split; [exact CV|]. apply covers_total. exact CV.
Qed.
Print Assumptions C85_scott.

(** No data: undefined. *)
Theorem C85_empty_refuted : sqrt_compute [] = UB.
Proof. reflexivity. Qed.
Print Assumptions C85_empty_refuted.

(** A value less than one bin width below the data gets the first bin, outside
    of its edges: the quotient is rounded towards zero. *)
Theorem C85_below_refuted : exists data b v lo hi, sqrt_compute data = Ok b /\
  b_index b v = Ok 0%Z /\ b_bin_edges b 0 = Ok (lo, hi) /\ (v < lo)%Q.
Proof.
  exists [0; 1; 2; 4]%Q. eexists. exists (-1)%Q. do 2 eexists. split; [reflexivity|]. split; [reflexivity|]. split; [reflexivity|]. reflexivity.
Qed.
Print Assumptions C85_below_refuted.

Example C85_example : match sqrt_compute [0; 1; 2; 4; 4; 3]%Q with Ok b =>
  match new_hist_plain b [0; 1; 2; 4; 4; 3]%Q with Ok h => (get_counts h, b_count b) | _ => ([], 0) end | _ => ([], 0) end = ([2; 1; 3]%Q, 3).
Proof. vm_compute. reflexivity. Qed.
Example C85_scott_example : match scott_compute (fun _ => 0%Q) (fun _ => 0%Q) [7; 7]%Q with Ok b =>
  match new_hist_plain b [7; 7]%Q with Ok h => (get_counts h, b_count b) | _ => ([], 0) end | _ => ([], 0) end = ([2]%Q, 1).
Proof. vm_compute. reflexivity. Qed.

(** ** C86: mean and standard deviation *)

(** [l] pairs the visible counts with the centres of their bins: the mean is the
    weighted mean of the centres, sigma the root of the weighted variance. *)
Theorem C86_mean_sigma root h : valid h -> has_edges (h_binning h) -> (forall c, In c (h_counts h) -> (0 <= c)%Q) ->
  (0 < qsum (get_counts h))%Q ->
  exists mu median sigma l v, get_stats root h = Ok (Some mu, median, sigma) /\ centred h l /\
    (mu * qsum (get_counts h) == weighted (fun x => x) l)%Q /\
    (v * qsum (get_counts h) == weighted (fun x => (x - mu) * (x - mu)) l)%Q /\ (0 <= v)%Q /\
    ((0 < v)%Q -> sigma = root v) /\ ((v == 0)%Q -> sigma = 0%Q).
Proof.
  intros A B C T. destruct (get_stats_spec root h A B C) as (mean & median & sigma & l & E & CE & _ & P & _).
  destruct (P T) as (mu & v & -> & M & V & V0 & S1 & S2). exists mu, median, sigma, l, v. auto 10.
Qed.
Print Assumptions C86_mean_sigma.

(** The mean lies between any bounds of the centres of the visible bins. *)
Theorem C86_mean_between root h lo hi : valid h -> has_edges (h_binning h) -> (forall c, In c (h_counts h) -> (0 <= c)%Q) ->
  (0 < qsum (get_counts h))%Q ->
  (forall i x, (h_left h <= Z.of_nat i <= h_right h)%Z -> b_center (h_binning h) i = Ok x -> (lo <= x <= hi)%Q) ->
  exists mu median sigma, get_stats root h = Ok (Some mu, median, sigma) /\ (lo <= mu <= hi)%Q.
Proof.
  intros A B C T X. destruct (C86_mean_sigma root h A B C T) as (mu & median & sigma & l & v & E & (F & G) & M & _).
  exists mu, median, sigma. split; [exact E|].
  assert (K : forall p, In p l -> (0 <= fst p)%Q /\ (lo <= snd p <= hi)%Q).
  { intros p Hp. split.
    - apply C. apply (in_map fst) in Hp. rewrite F in Hp. unfold get_counts in Hp.
      assert (Hq : In (fst p) (skipn (Z.to_nat (h_left h)) (h_counts h))).
      { rewrite <- (firstn_skipn (Z.to_nat (h_right h + 1 - h_left h)) (skipn (Z.to_nat (h_left h)) (h_counts h))). apply in_or_app. left. exact Hp. }
      rewrite <- (firstn_skipn (Z.to_nat (h_left h)) (h_counts h)). apply in_or_app. auto.
    - apply In_nth_error in Hp. destruct Hp as [k Hk]. destruct p as [w x]. cbn [snd].
      assert (KL : k < length (get_counts h)). { rewrite <- F, map_length. apply nth_error_Some. congruence. }
      pose proof (get_counts_length h A) as LL. destruct A as (A1 & _). unfold hist_size in LL.
      apply (X (Z.to_nat (h_left h) + k) x); [lia|]. apply (G k w x Hk). }
  set (t := qsum (get_counts h)) in *.
  assert (W1 : (weighted (fun _ => 1) l == t)%Q) by (rewrite weighted_one, F; reflexivity).
  assert (L1 : (lo * t <= mu * t)%Q). { rewrite M, <- W1, <- weighted_scal. apply weighted_le. intros p Hp. destruct (K p Hp). split; [auto|lra]. }
  assert (L2 : (mu * t <= hi * t)%Q). { rewrite M, <- W1, <- weighted_scal. apply weighted_le. intros p Hp. destruct (K p Hp). split; [auto|lra]. }
  split; [apply (Qmult_lt_0_le_reg_r _ _ t T L1)|apply (Qmult_lt_0_le_reg_r _ _ t T L2)].
Qed.
Print Assumptions C86_mean_between.

(** With no count at all the mean is not a number and sigma is 0. *)
Theorem C86_no_counts root h : valid h -> has_edges (h_binning h) -> (forall c, In c (h_counts h) -> (0 <= c)%Q) ->
  (qsum (get_counts h) == 0)%Q -> exists median, get_stats root h = Ok (None, median, 0%Q).
Proof.
  intros A B C T. destruct (get_stats_spec root h A B C) as (mean & median & sigma & l & E & _ & Z & _).
  destruct (Z T) as [-> ->]. exists median. exact E.
Qed.
Print Assumptions C86_no_counts.

(** ** C87: median *)

(** getStats splits the visible bins before a bin k so that half of the total is
    reached in the bin k-1 or in the bin k, and the median is within half the
    width of bin k of the lower edge of that bin (the centre of the first bin
    when k is 0). *)
Theorem C87_median root h : valid h -> has_edges (h_binning h) -> (forall c, In c (h_counts h) -> (0 <= c)%Q) ->
  (0 < qsum (get_counts h))%Q ->
  exists mean median sigma k, get_stats root h = Ok (mean, median, sigma) /\
    (let l := Z.to_nat (h_left h) in let r := Z.to_nat (h_right h) in
     l <= k <= r /\
     (2 * mass (h_counts h) l (k - 1 - l) <= qsum (get_counts h))%Q /\
     (2 * mass (h_counts h) (k + 1) (r - k) <= qsum (get_counts h))%Q) /\
    ((k = 0 /\ exists x, b_center (h_binning h) 0 = Ok x /\ median = Some x) \/
     (0 < k /\ exists e f, b_bin_edges (h_binning h) k = Ok (e, f) /\
        forall m, median = Some m -> (e <= f)%Q -> (e - (f - e) / 2 <= m)%Q /\ (m <= e + (f - e) / 2)%Q)).
Proof.
  intros A B C T. destruct (get_stats_spec root h A B C) as (mean & median & sigma & l & E & CE & _ & _ & k & low & high & K & LO & HI & D1 & D2 & D3 & M).
  exists mean, median, sigma, k. split; [exact E|]. cbv zeta. set (l0 := Z.to_nat (h_left h)) in *. set (r0 := Z.to_nat (h_right h)) in *.
  assert (TT : (qsum (get_counts h) == low + high)%Q).
  { assert (GC : qsum (get_counts h) = mass (h_counts h) l0 (r0 + 1 - l0)).
    { unfold get_counts, mass. do 2 f_equal. destruct A as (A1 & _). unfold l0, r0. lia. }
    rewrite GC, LO, HI. clear - K. unfold mass.
    replace (r0 + 1 - l0) with ((k - l0) + (r0 + 1 - k)) by lia.
    assert (SK : skipn k (h_counts h) = skipn (k - l0) (skipn l0 (h_counts h))).
    { assert (W : forall {A} (x : list A) m n, skipn n (skipn m x) = skipn (m + n) x).
      { induction x as [|y x IH]; intros [|m] n; cbn; auto; destruct n; reflexivity. }
      rewrite W. f_equal. lia. }
    rewrite SK. generalize (skipn l0 (h_counts h)). generalize (k - l0) (r0 + 1 - k). intros m n x.
    assert (W : firstn (m + n) x = firstn m x ++ firstn n (skipn m x)).
    { revert x. induction m as [|m IH]; intros [|y x]; cbn; auto; [destruct n; reflexivity|f_equal; apply IH]. }
    rewrite W, qsum_app. reflexivity. }
  assert (RL : r0 < length (h_counts h)). { destruct A as (A1 & A2 & _). unfold r0. lia. }
  split; [split; [exact K|split]|].
  - rewrite TT. destruct (Nat.eq_dec k l0) as [->|NE].
    + replace (l0 - 1 - l0) with 0 by lia. assert (Z0 : (mass (h_counts h) l0 0 == 0)%Q) by reflexivity. rewrite Z0.
      rewrite <- TT. lra.
    + destruct (nth_error (h_counts h) (k - 1)) as [c|] eqn:G; [|apply nth_error_None in G; lia].
      assert (C0 : (0 <= c)%Q) by (apply C; eapply nth_error_In; exact G).
      specialize (D3 c ltac:(lia) eq_refl). replace (k - l0) with (S (k - 1 - l0)) in LO by lia.
      rewrite (mass_S_back _ _ _ c) in LO by (rewrite <- G; f_equal; lia). lra.
  - rewrite TT. destruct (nth_error (h_counts h) k) as [c|] eqn:G; [|apply nth_error_None in G; lia].
    assert (C0 : (0 <= c)%Q) by (apply C; eapply nth_error_In; exact G).
    specialize (D1 c eq_refl). replace (r0 + 1 - k) with (S (r0 - k)) in HI by lia. rewrite (mass_S_front _ _ _ c G) in HI.
    replace (k + 1) with (S k) by lia. lra.
  - destruct M as [M|(KP & e & f & ck & cp & BE & G1 & G2 & MD)]; [left; exact M|right]. split; [exact KP|].
    exists e, f. split; [exact BE|]. intros m -> EF. cbv zeta in MD. set (mx := if Qlt_b ck cp then cp else ck) in *.
    assert (MX : (ck <= mx)%Q /\ (cp <= mx)%Q).
    { unfold mx. destruct (Qlt_b ck cp) eqn:Q1; [apply Qlt_b_iff in Q1|apply Qlt_b_false in Q1]; split; lra. }
    assert (C0 : (0 <= ck)%Q /\ (0 <= cp)%Q) by (split; apply C; eapply nth_error_In; eassumption).
    specialize (D1 ck G1).
    assert (D4 : (low - high <= mx)%Q).
    { destruct (Nat.eq_dec k l0) as [Ek|NE]; [specialize (D2 Ek); lra|]. specialize (D3 cp ltac:(lia) G2). lra. }
    unfold quotient in MD. destruct (Qeq_bool (2 * mx) 0) eqn:Q0; [discriminate|].
    assert (MP : (0 < mx)%Q). { assert (~ (2 * mx == 0))%Q by (intro H; apply Qeq_bool_iff in H; congruence). lra. }
    injection MD as ->. set (q := ((f - e) * (high - low) / (2 * mx))%Q).
    assert (QE : (q * (2 * mx) == (f - e) * (high - low))%Q) by (unfold q; field; lra).
    assert (U : ((f - e) * (high - low) <= (f - e) * mx)%Q). { rewrite !(Qmult_comm (f - e)). apply Qmult_le_compat_r; lra. }
    assert (Lw : (- ((f - e) * mx) <= (f - e) * (high - low))%Q).
    { setoid_replace (- ((f - e) * mx))%Q with ((f - e) * - mx)%Q by ring. rewrite !(Qmult_comm (f - e)). apply Qmult_le_compat_r; lra. }
    assert (H2 : ((f - e) / 2 * (2 * mx) == (f - e) * mx)%Q) by field.
    assert (M2 : (0 < 2 * mx)%Q) by lra.
    assert (R1 : (- ((f - e) / 2) <= q)%Q).
    { apply (Qmult_lt_0_le_reg_r _ _ (2 * mx)%Q M2). rewrite QE. setoid_replace (- ((f - e) / 2) * (2 * mx))%Q with (- ((f - e) * mx))%Q by (rewrite <- H2; ring). exact Lw. }
    assert (R2 : (q <= (f - e) / 2)%Q) by (apply (Qmult_lt_0_le_reg_r _ _ (2 * mx)%Q M2); rewrite QE, H2; exact U).
    split; lra.
Qed.
Print Assumptions C87_median.

(** The count of a hidden bin changes the median of a clipped histogram. *)
Theorem C87_hidden_refuted root : exists mu m1 m2 sigma : Q, exists H1 H2 : hist Q,
  valid H1 /\ valid H2 /\ h_binning H1 = h_binning H2 /\ h_left H1 = h_left H2 /\ h_right H1 = h_right H2 /\
  get_counts H1 = get_counts H2 /\
  get_stats root H1 = Ok (Some mu, Some m1, sigma) /\ get_stats root H2 = Ok (Some mu, Some m2, sigma) /\ ~ (m1 == m2)%Q.
Proof.
  do 4 eexists. exists (mkHist (step_binning 2 0 1 2) [0; 1]%Q 1 1), (mkHist (step_binning 2 0 1 2) [5; 1]%Q 1 1).
  split; [unfold valid; cbn; lia|]. split; [unfold valid; cbn; lia|]. split; [reflexivity|]. split; [reflexivity|]. split; [reflexivity|].
  split; [reflexivity|]. split; [vm_compute; reflexivity|]. split; [vm_compute; reflexivity|].
  vm_compute. discriminate.
Qed.
Print Assumptions C87_hidden_refuted.

Example C87_hyps : let h := mkHist (step_binning 3 0 2 6) [1; 4; 2]%Q 0 2 in
  valid h /\ has_edges (h_binning h) /\ (forall c, In c (h_counts h) -> (0 <= c)%Q) /\ (0 < qsum (get_counts h))%Q.
Proof.
  cbv zeta. split; [unfold valid; cbn; lia|]. split; [intros i _; eexists; reflexivity|]. split; [|vm_compute; reflexivity].
  cbn [h_counts]. intros c [<-|[<-|[<-|[]]]]; lra.
Qed.
Example C87_example : match get_stats (fun q => q) (mkHist (step_binning 3 0 2 6) [1; 4; 2]%Q 0 2) with
  Ok (Some mu, Some m, s) => (Qred mu, Qred m, Qred s) | _ => (0, 0, 0)%Q end = (23 # 7, 13 # 4, 80 # 49)%Q.
Proof. vm_compute. reflexivity. Qed.
