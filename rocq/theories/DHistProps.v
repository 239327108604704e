(** Properties C129-C131: histograms in double precision, with counts of type float. *)
From Coq Require Import ZArith Reals List Bool Arith Lia Lra.
From Flocq Require Import Core IEEE754.BinarySingleNaN.
From Verif Require Import Common HistModel FloatModel FloatProofs DoubleProofs DoubleProofs2 DHistModel DHistSpec DHistProofs DHistProofs2.
Import ListNotations.
Local Open Scope nat_scope.

Ltac cval := apply (oinj B2SF sf_inj); vm_compute; reflexivity.
Lemma fmap_sf_inj (l m : list float) : map B2SF l = map B2SF m -> l = m.
Proof. revert m. induction l as [|x l IH]; intros [|y m] H; try discriminate H; [reflexivity|]. cbn in H. f_equal; [apply B2SF_inj; congruence|apply IH; congruence]. Qed.
Ltac cflist := apply (oinj (map B2SF) fmap_sf_inj); vm_compute; reflexivity.

(** ** C129: counts of type float *)

(** When every value has an index and there are as many weights as values the counts exist. *)
Theorem C129_defined {V} (b : binning V) data weights : (forall v, In v data -> exists z, b_index b v = Ok z) -> length weights = length data ->
  exists counts, fcounts b data weights = Ok counts /\ length counts = b_count b.
Proof. intros I L. destruct (ffill_ok b data weights (repeat f0 (b_count b)) I L) as [out H]. exists out. split; [exact H|]. apply (fcounts_spec b data weights out H). Qed.
Print Assumptions C129_defined.

(** The count of a bin is the sum of the weights of its values, rounded after each term from
    the first to the last. *)
Theorem C129_counts {V} (b : binning V) data weights counts i c : fcounts b data weights = Ok counts -> nth_error counts i = Some c ->
  c = fold_left fadd (weights_at b (Z.of_nat i) data weights) (f2 0 0).
Proof. intros H N. apply (fcounts_spec b data weights counts H), N. Qed.
Print Assumptions C129_counts.

(** Integer weights: the count is exact up to 2^24. *)
Theorem C129_exact {V} (b : binning V) data weights counts i c : fcounts b data weights = Ok counts -> nth_error counts i = Some c ->
  (forall w, In w (weights_at b (Z.of_nat i) data weights) -> fwhole w) -> (fexact (weights_at b (Z.of_nat i) data weights) <= IZR (2 ^ 24))%R ->
  B2R c = fexact (weights_at b (Z.of_nat i) data weights).
Proof.
  intros H N W B. rewrite (C129_counts b data weights counts i c H N). destruct (fold_exact _ W (f2 0 0) 0 eq_refl eq_refl) as [_ E]; [cbn [INR]; lra|]. rewrite E. cbn [INR]. lra.
Qed.
Print Assumptions C129_exact.

(** Weights that are not negative: the relative error of a count that did not overflow is at
    most that of one rounding for each of its values. *)
Theorem C129_error {V} (b : binning V) data weights counts i c : fcounts b data weights = Ok counts -> nth_error counts i = Some c ->
  (forall w, In w (weights_at b (Z.of_nat i) data weights) -> fpositive w) -> is_finite c = true ->
  let ws := weights_at b (Z.of_nat i) data weights in
  ((1 - bpow radix2 (-24)) ^ length ws * fexact ws <= B2R c <= (1 + bpow radix2 (-24)) ^ length ws * fexact ws)%R.
Proof.
  intros H N W F ws. rewrite (C129_counts b data weights counts i c H N) in *. pose proof (fold_error _ W (f2 0 0) eq_refl (Rle_refl 0) F) as E.
  change (B2R (f2 0 0)) with 0%R in E. rewrite Rplus_0_l in E. exact E.
Qed.
Print Assumptions C129_error.

(** Without weights the count of a bin is the number of its values, and stays at 2^24 when
    there are more. *)
Theorem C129_plain {V} (b : binning V) data counts i c : fcounts_plain b data = Ok counts -> nth_error counts i = Some c ->
  B2R c = IZR (Z.min (Z.of_nat (number_at b (Z.of_nat i) data)) (2 ^ 24)).
Proof.
  intros H N. unfold fcounts_plain in H. rewrite (C129_counts b data _ counts i c H N), weights_ones.
  rewrite (fold_ones _ 0) by lia. rewrite Z.add_0_l. apply f2_int. lia.
Qed.
Print Assumptions C129_plain.

(** The histogram of 16777217 equal values shows 16777216. *)
Theorem C129_number_refuted : exists data b counts c, dsqrt_compute data = Ok b /\ fcounts_plain b data = Ok counts /\ nth_error counts (b_count b - 1) = Some c /\
  number_at b (Z.of_nat (b_count b - 1)) data = length data /\ Z.of_nat (length data) = 16777217%Z /\ B2R c = 16777216%R.
Proof.
  destruct (Z_of_nat_complete 16777216 ltac:(lia)) as [n HN]. exists (d1 :: repeat d1 n).
  destruct (dsqrt_compute (d1 :: repeat d1 n)) as [b| | |] eqn:E; try discriminate E. exists b.
  assert (FIN : forall v, In v (d1 :: repeat d1 n) -> is_finite v = true) by (intros v [<-|I]; [reflexivity|apply repeat_spec in I; subst v; reflexivity]).
  destruct (dsqrt_parts _ _ FIN E) as (lo & hi & (_ & IH & _) & _ & _ & C1 & _ & EB).
  assert (HI : hi = d1) by (destruct IH as [<-|I]; [reflexivity|apply repeat_spec in I; exact I]).
  assert (IX : forall v, In v (d1 :: repeat d1 n) -> b_index b v = Ok (Z.of_nat (b_count b) - 1)%Z).
  { intros v I. assert (v = d1) by (destruct I as [<-|I]; [reflexivity|apply repeat_spec in I; exact I]). subst v. rewrite EB. cbn [b_index dstep_binning b_count]. unfold dstep_index. rewrite HI. replace (deq d1 d1) with true by reflexivity. reflexivity. }
  destruct (C129_defined b (d1 :: repeat d1 n) (repeat f1 (length (d1 :: repeat d1 n)))) as (counts & C & LC); [intros v I; eexists; apply IX, I|apply repeat_length|].
  destruct (nth_error counts (b_count b - 1)) as [c|] eqn:NC; [|apply nth_error_None in NC; lia].
  assert (LEN : Z.of_nat (length (d1 :: repeat d1 n)) = 16777217%Z) by (cbn [length]; rewrite repeat_length; lia).
  assert (NUM : number_at b (Z.of_nat (b_count b - 1)) (d1 :: repeat d1 n) = length (d1 :: repeat d1 n)).
  { unfold number_at. f_equal. clear -IX C1. set (l := d1 :: repeat d1 n) in *. clearbody l. induction l as [|x l IH]; [reflexivity|]. cbn [filter].
    rewrite (IX x (or_introl eq_refl)). replace (_ =? _)%Z with true by (symmetry; apply Z.eqb_eq; lia). f_equal. apply IH. intros v I. apply IX. right. exact I. }
  exists counts, c. split; [reflexivity|]. split; [exact C|]. split; [exact NC|]. split; [exact NUM|]. split; [exact LEN|].
  rewrite (C129_plain b _ counts _ c C NC), NUM, LEN. reflexivity.
Qed.
Print Assumptions C129_number_refuted.

(** ** C130: the square root strategy *)

(** There is a binning for every data but none. *)
Theorem C130_bins data : data <> [] -> exists b, dsqrt_compute data = Ok b /\ b_count b = ceil_sqrt (length data).
Proof. intros N. destruct data as [|x r]; [congruence|]. eexists. split; reflexivity. Qed.
Print Assumptions C130_bins.

(** Every value has an index: that of its bin but for a relative error of 2^-50. The largest
    is in the last bin. *)
Theorem C130_index data b lo hi v : (forall x, In x data -> is_finite x = true) -> dsqrt_compute data = Ok b -> extremes data lo hi ->
  spread (b_count b) lo hi -> (Z.of_nat (b_count b) <= 2 ^ 49)%Z -> In v data ->
  exists k, b_index b v = Ok k /\ (0 <= k <= Z.of_nat (b_count b))%Z /\
    (deq v hi = true -> k = (Z.of_nat (b_count b) - 1)%Z) /\ (deq v hi = false -> near_bin (b_count b) lo hi k v).
Proof.
  intros F E X S N I. destruct (dsqrt_parts data b F E) as (lo' & hi' & X' & FL & FH & C1 & _ & EB).
  destruct (extremes_same data lo hi lo' hi' F X X') as [EL EH]. pose proof (F _ (proj1 X)) as FLo. pose proof (F _ (proj1 (proj2 X))) as FHi.
  pose proof (spread_same _ lo hi lo' hi' FLo FHi FL FH EL EH S) as S'.
  destruct (proj2 (proj2 X') v I) as [B1 B2].
  destruct (step_index_spec _ lo' hi' C1 N FL FH S' v (F v I) B1 B2) as (k & K & R & P & Q).
  exists k. split; [rewrite EB; exact K|]. split; [exact R|].
  assert (DD : deq v hi = deq v hi') by (apply deq_same; auto).
  split; [rewrite DD; exact P|]. rewrite DD. intros D. apply Q in D. unfold near_bin, width in *. rewrite EL, EH. exact D.
Qed.
Print Assumptions C130_index.

(** A value that is not within 2^-50 of the range of the largest is counted. *)
Theorem C130_counted data b lo hi v : (forall x, In x data -> is_finite x = true) -> dsqrt_compute data = Ok b -> extremes data lo hi ->
  spread (b_count b) lo hi -> (Z.of_nat (b_count b) <= 2 ^ 49)%Z -> In v data ->
  (B2R v - B2R lo < (1 - bpow radix2 (-50)) * (B2R hi - B2R lo))%R ->
  exists k, b_index b v = Ok k /\ (0 <= k < Z.of_nat (b_count b))%Z.
Proof.
  intros F E X S N I L. destruct (C130_index data b lo hi v F E X S N I) as (k & K & R & P & Q). exists k. split; [exact K|].
  destruct (dsqrt_parts data b F E) as (_ & _ & _ & _ & _ & C1 & _).
  destruct (deq v hi) eqn:D; [rewrite (P eq_refl); lia|]. split; [lia|].
  pose proof (spread_lt _ lo hi C1 S). apply (near_counted _ lo hi k v C1 (Q eq_refl)); auto.
Qed.
Print Assumptions C130_counted.

(** The indices of the values below the largest rise with the values. *)
Theorem C130_order data b lo hi v v' k k' : (forall x, In x data -> is_finite x = true) -> dsqrt_compute data = Ok b -> extremes data lo hi ->
  spread (b_count b) lo hi -> (Z.of_nat (b_count b) <= 2 ^ 49)%Z -> In v data -> In v' data -> dle v v' = true -> dlt v' hi = true ->
  b_index b v = Ok k -> b_index b v' = Ok k' -> (k <= k')%Z.
Proof.
  intros F E X S N I I' L L' K K'. destruct (dsqrt_parts data b F E) as (lo' & hi' & X' & FL & FH & C1 & _ & EB).
  destruct (extremes_same data lo hi lo' hi' F X X') as [EL EH]. pose proof (F _ (proj1 X)) as FLo. pose proof (F _ (proj1 (proj2 X))) as FHi.
  pose proof (spread_same _ lo hi lo' hi' FLo FHi FL FH EL EH S) as S'. destruct (proj2 (proj2 X') v I) as [B1 _].
  rewrite EB in K, K'. cbn [b_index dstep_binning] in K, K'.
  assert (L2 : dlt v' hi' = true). { apply dlt_iff in L'; [|apply dfinite_num; auto|apply dfinite_num; auto]. apply dlt_iff; [apply dfinite_num; auto|apply dfinite_num; auto|]. rewrite !dext_finite in * by auto. lra. }
  apply (step_index_order _ lo' hi' C1 N FL FH S' v v' k k' (F v I) (F v' I') B1 L L2 K K').
Qed.
Print Assumptions C130_order.

(** The edges rise, and are those of equal bins but for an error of 2^-50 of the largest of
    the two ends, unless they overflow; the first is the least value. *)
Theorem C130_edges data b lo hi i j e e' : (forall x, In x data -> is_finite x = true) -> dsqrt_compute data = Ok b -> extremes data lo hi ->
  spread (b_count b) lo hi -> (Z.of_nat (b_count b) <= 2 ^ 49)%Z -> i <= j <= b_count b -> b_edge b i = Ok e -> b_edge b j = Ok e' -> is_finite e' = true ->
  dle e e' = true /\ (Rabs (B2R e - (B2R lo + INR i * width (b_count b) lo hi)) <= bpow radix2 (-50) * (Rabs (B2R lo) + Rabs (B2R hi)))%R /\
  (i = 0 -> B2R e = B2R lo).
Proof.
  intros F E X S N L A B FE. destruct (dsqrt_parts data b F E) as (lo' & hi' & X' & FL & FH & C1 & _ & EB).
  destruct (extremes_same data lo hi lo' hi' F X X') as [EL EH]. pose proof (F _ (proj1 X)) as FLo. pose proof (F _ (proj1 (proj2 X))) as FHi.
  pose proof (spread_same _ lo hi lo' hi' FLo FHi FL FH EL EH S) as S'. rewrite EB in A, B. cbn [b_edge dstep_binning] in A, B.
  destruct (step_edges _ lo' hi' C1 N FL FH S' i j e e' L A B FE) as (P & Q & R). split; [exact P|]. split; [unfold width in *; rewrite EL, EH; exact R|].
  intros ->. injection A as <-. rewrite EL. destruct S' as [S1 S2]. apply (edge_zero (b_count b) lo' hi' C1 N FL FH S1 S2).
Qed.
Print Assumptions C130_edges.

(** Equal values are all in the last bin, whatever they are. *)
Theorem C130_flat data b v w : (forall x, In x data -> is_finite x = true) -> dsqrt_compute data = Ok b -> (forall x, In x data -> deq x w = true) -> In v data ->
  b_index b v = Ok (Z.of_nat (b_count b) - 1)%Z.
Proof.
  intros F E A I. destruct (dsqrt_parts data b F E) as (lo' & hi' & X' & FL & FH & C1 & _ & EB). rewrite EB. cbn [b_index dstep_binning b_count]. unfold dstep_index.
  replace (deq v hi') with true; [reflexivity|]. symmetry. pose proof (A v I) as A1. pose proof (A hi' (proj1 (proj2 X'))) as A2.
  assert (NW : num w) by (apply (deq_num hi' w), A2).
  apply deq_iff; [apply dfinite_num, F, I|apply dfinite_num, FH|]. apply deq_iff in A1; [|apply dfinite_num, F, I|exact NW]. apply deq_iff in A2; [|apply dfinite_num, FH|exact NW]. lra.
Qed.
Print Assumptions C130_flat.

(** A value just below the largest is lost: its index is the number of bins. *)
Theorem C130_lost_refuted : exists data b v, dsqrt_compute data = Ok b /\ In v data /\ b_index b v = Ok (Z.of_nat (b_count b)) /\
  length data = 5 /\ fcounts_plain b data = Ok [f2 3 0; f2 0 0; f2 1 0].
Proof.
  exists [d0; d0; d0; d2 9007199254740991 (-53); d1]. eexists. exists (d2 9007199254740991 (-53)). split; [reflexivity|].
  split; [right; right; right; left; reflexivity|]. split; [vm_compute; reflexivity|]. split; [reflexivity|]. cflist.
Qed.
Print Assumptions C130_lost_refuted.

(** A value below an edge can be counted in the bin above it, and a value on an edge in the
    bin below it. *)
Theorem C130_below_edge_refuted : exists data b v k e, dsqrt_compute data = Ok b /\ In v data /\ b_index b v = Ok (Z.of_nat k) /\ k < b_count b /\
  b_edge b k = Ok e /\ dlt v e = true.
Proof.
  exists [d2 (-1) 0; d2 6755399441055743 (-52); d2 4 0]. eexists. exists (d2 6755399441055743 (-52)), 1. eexists. split; [reflexivity|]. split; [right; left; reflexivity|].
  split; [vm_compute; reflexivity|]. split; [vm_compute; lia|]. split; [reflexivity|]. vm_compute. reflexivity.
Qed.
Print Assumptions C130_below_edge_refuted.
Theorem C130_on_edge_refuted : exists data b v k e, dsqrt_compute data = Ok b /\ In v data /\ b_index b v = Ok (Z.of_nat k) /\
  b_edge b (k + 1) = Ok e /\ deq v e = true /\ k + 1 < b_count b.
Proof.
  exists [d1; d1; d1; d2 6004799503160661 (-52); dtwo]. eexists. exists (d2 6004799503160661 (-52)), 0. eexists. split; [reflexivity|]. split; [right; right; right; left; reflexivity|].
  split; [vm_compute; reflexivity|]. split; [reflexivity|]. split; [vm_compute; reflexivity|vm_compute; lia].
Qed.
Print Assumptions C130_on_edge_refuted.

(** The last edge can be below the largest value. *)
Theorem C130_last_edge_refuted : exists data b v e, dsqrt_compute data = Ok b /\ In v data /\ b_edge b (b_count b) = Ok e /\ dlt e v = true.
Proof.
  exists [d2 7205759403792794 (-56); d2 7205759403792794 (-56); d2 7205759403792794 (-56); d2 7205759403792794 (-56); d1]. eexists. exists d1. eexists.
  split; [reflexivity|]. split; [do 4 right; left; reflexivity|]. split; [reflexivity|]. vm_compute. reflexivity.
Qed.
Print Assumptions C130_last_edge_refuted.

(** When the width underflows or the range overflows the index is undefined. *)
Theorem C130_tiny_refuted : exists data b v, (forall x, In x data -> is_finite x = true) /\ dsqrt_compute data = Ok b /\ In v data /\ b_index b v = UB.
Proof.
  exists [d0; d0; d0; d0; d2 1 (-1074)]. eexists. exists d0. split; [intros x I; cbn [In] in I; repeat destruct I as [<-|I]; try reflexivity; destruct I|]. split; [reflexivity|]. split; [left; reflexivity|]. vm_compute. reflexivity.
Qed.
Print Assumptions C130_tiny_refuted.
Theorem C130_wide_refuted : exists data b v, (forall x, In x data -> is_finite x = true) /\ dsqrt_compute data = Ok b /\ In v data /\ b_index b v = UB.
Proof.
  exists [d2 (- (2 ^ 53 - 1)) 971; d2 1 1023; d2 (2 ^ 53 - 1) 971]. eexists. exists (d2 1 1023). split; [intros x I; cbn [In] in I; repeat destruct I as [<-|I]; try reflexivity; destruct I|]. split; [reflexivity|]. split; [right; left; reflexivity|]. vm_compute. reflexivity.
Qed.
Print Assumptions C130_wide_refuted.

(** Any double can be looked up, not only the data: unless it equals the largest value, its index is the
    integer part of its distance to the smallest value in steps, which is negative from one whole step below
    the smallest value on. *)
Theorem C130_lookup : forall data b, (forall x, In x data -> is_finite x = true) -> dsqrt_compute data = Ok b ->
  exists lo hi, extremes data lo hi /\
    forall v, deq v hi = false ->
      let q := ddiv (dsub v lo) (ddiv (dsub hi lo) (d2 (Z.of_nat (b_count b)) 0)) in
      is_finite q = true -> (Rabs (B2R q) < IZR (2 ^ 63))%R -> b_index b v = Ok (Ztrunc (B2R q)).
Proof.
  intros data b F H. destruct (dsqrt_parts data b F H) as (lo & hi & E & _ & _ & _ & _ & D). exists lo, hi. split; [exact E|].
  intros v N q FQ A. assert (T : b_index b v = to_ssize q).
  { rewrite D. unfold dstep_binning, dstep_index. cbn [b_index]. rewrite N. reflexivity. }
  rewrite T. unfold to_ssize. rewrite FQ, btrunc. apply Rabs_lt_inv in A.
  assert (L : (- 2 ^ 63 <= Ztrunc (B2R q) < 2 ^ 63)%Z).
  { split.
    - rewrite <- (Ztrunc_IZR (- 2 ^ 63)). apply Ztrunc_le. rewrite opp_IZR. lra.
    - destruct (Rle_lt_dec 0 (B2R q)) as [P|P].
      + rewrite Ztrunc_floor by exact P. apply lt_IZR. apply (Rle_lt_trans _ (B2R q)); [apply Zfloor_lb|lra].
      + apply Z.le_lt_trans with 0%Z; [|reflexivity]. rewrite <- (Ztrunc_IZR 0). apply Ztrunc_le. lra. }
  rewrite (proj2 (Z.leb_le _ _)), (proj2 (Z.ltb_lt _ _)) by lia. reflexivity.
Qed.
Print Assumptions C130_lookup.

(** The values 0, 1, 2, 4 have two bins of width 2: 1/2 has the index 0, but so has -1/2, and -5 has the index -2. *)
Example C130_lookup_example : exists b, dsqrt_compute [d2 0 0; d2 1 0; d2 2 0; d2 4 0] = Ok b /\
  b_index b (d2 1 (-1)) = Ok 0%Z /\ b_index b (d2 (-1) (-1)) = Ok 0%Z /\ b_index b (d2 (-5) 0) = Ok (-2)%Z.
Proof. eexists. split; [reflexivity|]. repeat split; vm_compute; reflexivity. Qed.

(** ** C131: the strategy of Scott *)

(** When the standard deviation is not zero the indices are those of equal bins between the
    least and the largest value, for any width. *)
Theorem C131_index sigma h data b lo hi v : (forall x, In x data -> is_finite x = true) -> deq (sigma data) d0 = false -> dscott_compute sigma h data = Ok b -> extremes data lo hi ->
  spread (b_count b) lo hi -> (1 <= Z.of_nat (b_count b) <= 2 ^ 49)%Z -> In v data ->
  exists k, b_index b v = Ok k /\ (0 <= k <= Z.of_nat (b_count b))%Z /\
    (deq v hi = true -> k = (Z.of_nat (b_count b) - 1)%Z) /\ (deq v hi = false -> near_bin (b_count b) lo hi k v).
Proof.
  intros F SG E X S N I. destruct (dscott_parts sigma h data b F SG E) as (lo' & hi' & X' & FL & FH & EB).
  destruct (extremes_same data lo hi lo' hi' F X X') as [EL EH]. pose proof (F _ (proj1 X)) as FLo. pose proof (F _ (proj1 (proj2 X))) as FHi.
  pose proof (spread_same _ lo hi lo' hi' FLo FHi FL FH EL EH S) as S'.
  destruct (proj2 (proj2 X') v I) as [B1 B2].
  destruct (step_index_spec (b_count b) lo' hi' ltac:(lia) (proj2 N) FL FH S' v (F v I) B1 B2) as (k & K & R & P & Q).
  exists k. split; [rewrite EB; exact K|]. split; [exact R|].
  assert (DD : deq v hi = deq v hi') by (apply deq_same; auto).
  split; [rewrite DD; exact P|]. rewrite DD. intros D. apply Q in D. unfold near_bin, width in *. rewrite EL, EH. exact D.
Qed.
Print Assumptions C131_index.

(** The number of bins is the least integer not below the rounded quotient of the range and
    the width, when both are positive. *)
Theorem C131_bins sigma h data b lo hi : (forall x, In x data -> is_finite x = true) -> deq (sigma data) d0 = false -> dscott_compute sigma h data = Ok b -> extremes data lo hi ->
  is_finite (dsub hi lo) = true -> is_finite (h data) = true -> (0 < B2R (h data))%R -> is_finite (ddiv (dsub hi lo) (h data)) = true ->
  Z.of_nat (b_count b) = Zceil (B2R (ddiv (dsub hi lo) (h data))).
Proof.
  intros F SG E X FR Fh Ph FQ. destruct data as [|x r]; [discriminate E|]. unfold dscott_compute in E. rewrite SG in E.
  assert (X' : extremes (x :: r) (dmin_of x r) (dmax_of x r)) by (apply extremes_of; intros v I; apply dfinite_num, F, I).
  destruct (extremes_same _ lo hi _ _ F X X') as [EL EH].
  pose proof (F _ (proj1 X)) as FLo. pose proof (F _ (proj1 (proj2 X))) as FHi. pose proof (F _ (proj1 X')) as FL'. pose proof (F _ (proj1 (proj2 X'))) as FH'.
  set (lo' := dmin_of x r) in *. set (hi' := dmax_of x r) in *.
  destruct (sub_same lo hi lo' hi' FLo FHi FL' FH' EL EH FR) as [FR' ER].
  destruct (ddiv_ext (dsub hi lo) (h (x :: r)) FR Fh) as [N1 E1]; [rewrite (dext_finite _ Fh); lra|]. destruct (ddiv_ext (dsub hi' lo') (h (x :: r)) FR' Fh) as [N2 E2]; [rewrite (dext_finite _ Fh); lra|].
  assert (EQ : ext (ddiv (dsub hi' lo') (h (x :: r))) = ext (ddiv (dsub hi lo) (h (x :: r)))) by (rewrite E1, E2, !dext_finite, ER by assumption; reflexivity).
  assert (FQ' : is_finite (ddiv (dsub hi' lo') (h (x :: r))) = true) by (apply dfinite_iff; [exact N2|]; rewrite EQ; apply dext_lt, FQ).
  rewrite !dext_finite in EQ by assumption. rewrite (dceil_val _ FQ'), EQ in E.
  destruct ((0 <=? Zceil _) && (Zceil _ <? 2 ^ 64))%Z eqn:R in E; [|discriminate E]. cbn [bind] in E. injection E as <-. cbn [b_count dstep_binning].
  apply andb_true_iff in R. destruct R as [R _]. apply Z.leb_le in R. rewrite Z2Nat.id by exact R. reflexivity.
Qed.
Print Assumptions C131_bins.

(** Equal values up to 2^50 are counted, in one bin or two. *)
Theorem C131_flat sigma h (data : list double) v : data <> [] -> (forall x, In x data -> is_finite x = true /\ B2R x = v) -> (Rabs v <= bpow radix2 50)%R -> deq (sigma data) d0 = true ->
  exists b, dscott_compute sigma h data = Ok b /\ 1 <= b_count b <= 2 /\ forall x, In x data -> exists k, b_index b x = Ok k /\ (0 <= k < Z.of_nat (b_count b))%Z.
Proof. apply dscott_flat. Qed.
Print Assumptions C131_flat.

(** A single value can have two bins. *)
Theorem C131_one_bin_refuted : exists v, forall sigma h, deq (sigma [v]) d0 = true ->
  exists b, dscott_compute sigma h [v] = Ok b /\ b_count b = 2 /\ fcounts_plain b [v] = Ok [f2 1 0; f2 0 0].
Proof.
  exists (d2 8803438023562951 (-52)). intros sigma h S. unfold dscott_compute. rewrite S. eexists. split; [reflexivity|]. split; [vm_compute; reflexivity|cflist].
Qed.
Print Assumptions C131_one_bin_refuted.

(** Large equal values have no bin: nothing is counted. *)
Theorem C131_no_bin_refuted : exists v, is_finite v = true /\ forall sigma h, deq (sigma [v; v]) d0 = true ->
  exists b, dscott_compute sigma h [v; v] = Ok b /\ b_count b = 0 /\ b_index b v = Ok (-1)%Z /\ fcounts_plain b [v; v] = Ok [].
Proof.
  exists (d2 1 53). split; [reflexivity|]. intros sigma h S. unfold dscott_compute. rewrite S. eexists. split; [reflexivity|]. split; [vm_compute; reflexivity|]. split; [vm_compute; reflexivity|cflist].
Qed.
Print Assumptions C131_no_bin_refuted.

(** ** Cases *)
Definition sample : list double := [d2 1 0; d2 3 0; d2 5 (-1); d2 7 0; d2 9 (-2); d2 4 0; d2 6 0; d2 13 (-1); d2 2 0].
Example C130_case : exists b, dsqrt_compute sample = Ok b /\ b_count b = 3 /\ extremes sample (d2 1 0) (d2 7 0) /\ spread (b_count b) (d2 1 0) (d2 7 0) /\
  (forall x, In x sample -> is_finite x = true) /\ (Z.of_nat (b_count b) <= 2 ^ 49)%Z /\ fcounts_plain b sample = Ok [f2 4 0; f2 2 0; f2 3 0] /\
  b_edge b 1 = Ok (d2 3 0).
Proof.
  eexists. split; [reflexivity|]. split; [vm_compute; reflexivity|]. split.
  { split; [left; reflexivity|]. split; [do 3 right; left; reflexivity|]. intros v I. unfold sample in I. cbn [In] in I. repeat (destruct I as [<-|I]; [split; vm_compute; reflexivity|]). destruct I. }
  split. { replace (b_count _) with 3 by (vm_compute; reflexivity). split; [reflexivity|]. destruct (d2_int 1 ltac:(lia)) as [_ ->]. destruct (d2_int 7 ltac:(lia)) as [_ ->].
    assert (bpow radix2 (-1021) <= 1)%R by (change 1%R with (bpow radix2 0); apply bpow_le; lia). cbn [INR]. lra. }
  split. { intros x I. unfold sample in I. cbn [In] in I. repeat destruct I as [<-|I]; try reflexivity. destruct I. }
  split; [replace (b_count _) with 3 by (vm_compute; reflexivity); lia|]. split; [cflist|cval].
Qed.
Example C131_case : exists b, dscott_compute (fun _ => d2 1 0) (fun _ => d2 5 (-1)) sample = Ok b /\ b_count b = 3 /\ fcounts_plain b sample = Ok [f2 4 0; f2 2 0; f2 3 0].
Proof. eexists. split; [reflexivity|]. split; [vm_compute; reflexivity|cflist]. Qed.
Example C131_flat_case : exists b, dscott_compute (fun _ => d0) (fun _ => d0) [d2 5 0; d2 5 0; d2 5 0] = Ok b /\ b_count b = 1 /\ fcounts_plain b [d2 5 0; d2 5 0; d2 5 0] = Ok [f2 3 0].
Proof. eexists. split; [reflexivity|]. split; [vm_compute; reflexivity|cflist]. Qed.
Example C129_case : exists b, dsqrt_compute sample = Ok b /\
  fcounts b sample [f2 1 0; f2 2 0; f2 3 0; f2 4 0; f2 5 0; f2 6 0; f2 7 0; f2 8 0; f2 1 (-1)] = Ok [f2 19 (-1); f2 8 0; f2 19 0].
Proof. eexists. split; [reflexivity|]. cflist. Qed.
