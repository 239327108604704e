(** Properties of the extraction of the modes of a pdf in double precision. *)
From Coq Require Import ZArith Reals List Arith Bool Lia Lra.
From Flocq Require Import Core IEEE754.BinarySingleNaN.
From Verif Require Import Common FloatModel DoubleProofs DSplineSpec DSplineProofs DModeModel DModeSpec DModeProofs DModeProofs2 DModeProofs3.
Import ListNotations.
Local Open Scope nat_scope.

(** ** C158 *)

(** Any doubles, NaN and infinities too: extractNHighestModes returns n modes. *)
Theorem C158_highest_number xs ys merge n : length xs = length ys -> 3 <= length xs ->
  exists l, dhighest_modes xs ys merge n = Ok l /\ length l = n.
Proof. intros A B. exact (highest_ok xs merge n ys A B). Qed.
Print Assumptions C158_highest_number.

(** Any doubles, n >= 1: extractNBigestModes ends within 3n+2 rounds with at least n and at
    most 3n+2 modes, none before one of a bigger area. They are modes of the first r rounds
    of the extraction of the highest modes, and no mode of these rounds that was left out is
    bigger than one of them. *)
Theorem C158_biggest xs ys merge n : length xs = length ys -> 3 <= length xs -> 1 <= n ->
  exists l, dbiggest_modes (3 * n + 2) xs ys merge n = Ok l /\ n <= length l /\ length l <= 3 * n + 2 /\ dby_area l /\
    exists r done, r <= 3 * n + 2 /\ dhighest_modes xs ys merge r = Ok done /\ (forall m, In m l -> In m done) /\
      (forall m, In m done -> In m l \/ forall a, In a l -> dlt (dm_area a) (dm_area m) = false).
Proof.
  intros A B N. assert (E : exists l, dbiggest_modes (3 * n + 2) xs ys merge n = Ok l /\ n <= length l /\ length l <= 3 * n + 2 /\ dby_area l).
  { unfold dbiggest_modes. destruct xs as [|x r] eqn:EX; [cbn in B; lia|]. rewrite <- EX in *.
    rewrite (avg_area_spec xs ys 0 (length xs - 1) A ltac:(lia) ltac:(lia) ltac:(lia)). cbn [bind snd].
    apply biggest_loop_ok; auto; try (cbn; lia). intros i j a b _ H. destruct i; discriminate H. }
  destruct E as (l & E & L1 & L2 & S). exists l. repeat (split; [assumption|]). exact (biggest_spec xs ys merge n B _ l A E).
Qed.
Print Assumptions C158_biggest.

(** The first mode has its peak at the first of the highest samples; its samples go on both
    sides until a zero, a valley under the threshold or the border; its area and mean are the
    rounded sums over those samples and its interpolated position is in the sampling or a
    NaN; the other modes are those of the pdf without these samples. *)
Theorem C158_modes xs ys merge n l : is_dpdf xs ys -> dhighest_modes xs ys merge (S n) = Ok l ->
  exists m r ys' c lo hi, l = m :: r /\ dhighest ys c /\ dmode_range ys merge c lo hi /\ lo <= c <= hi /\ hi < length ys /\
    ddescribes xs ys c lo hi m /\ dzeroed ys lo hi ys' /\ is_dpdf xs ys' /\ dhighest_modes xs ys' merge n = Ok r.
Proof. exact (highest_step xs ys merge n l). Qed.
Print Assumptions C158_modes.

(** Peaks come by decreasing height and at different samples. *)
Theorem C158_heights xs ys merge n l : is_dpdf xs ys -> dhighest_modes xs ys merge n = Ok l ->
  forall i j a b, i < j -> nth_error l i = Some a -> nth_error l j = Some b -> dlt d0 (dm_area b) = true ->
  exists ca cb, ca < length xs /\ cb < length xs /\ ca <> cb /\ dm_sample a = dval xs ca /\ dm_sample b = dval xs cb /\
    dlt d0 (dval ys cb) = true /\ dle (dval ys cb) (dval ys ca) = true.
Proof. intros I E. exact (highest_heights xs merge n ys l I E). Qed.
Print Assumptions C158_heights.

(** The area of a mode with k samples: relative error of at most k + 3 roundings. *)
Theorem C158_area xs ys c lo hi m : is_dpdf xs ys -> lo <= hi -> hi < length xs -> ddescribes xs ys c lo hi m ->
  is_finite (dm_area m) = true -> area_not_tiny xs ys lo hi ->
  (0 <= true_area xs ys lo hi /\ Rabs (B2R (dm_area m) - true_area xs ys lo hi) <= rounding (hi + 1 - lo + 3) * true_area xs ys lo hi)%R.
Proof.
  intros I L H (_ & EA & _) F T. rewrite EA in *. split; [apply area_real_nonneg; assumption|].
  pose proof (area_near xs ys lo hi I L H F T) as N. replace (hi + 1 - lo + 3) with (hi - lo + 4) by lia. exact N.
Qed.
Print Assumptions C158_area.

(** The mean of a mode with k samples is within 3k + 11 roundings of the exact mean, relative
    to the exact mean of the sizes of the positions; the exact mean is between the ends of the
    mode. *)
Theorem C158_mean xs ys c lo hi m : is_dpdf xs ys -> lo <= hi -> hi < length xs -> ddescribes xs ys c lo hi m ->
  is_finite (dm_area m) = true -> is_finite (dm_mean m) = true -> (Z.of_nat (hi - lo) <= 2 ^ 50)%Z ->
  area_not_tiny xs ys lo hi -> moment_not_tiny xs ys lo hi -> true_area xs ys lo hi <> 0%R -> not_tiny (moment_size xs ys lo hi / true_area xs ys lo hi) ->
  (Rabs (B2R (dm_mean m) - true_moment xs ys lo hi / true_area xs ys lo hi) <= rounding (3 * (hi + 1 - lo) + 11) * (moment_size xs ys lo hi / true_area xs ys lo hi) /\
   moment_size xs ys lo hi / true_area xs ys lo hi <= Rmax (Rabs (B2R (dval xs lo))) (Rabs (B2R (dval xs hi))) /\
   B2R (dval xs lo) <= true_moment xs ys lo hi / true_area xs ys lo hi <= B2R (dval xs hi))%R.
Proof.
  intros I L H (_ & EA & EM & _) F FM K T M NZ Q. rewrite EA in *. rewrite EM in *. split.
  - replace (3 * (hi + 1 - lo) + 11) with (3 * (hi - lo) + 14) by lia. exact (mean_near xs ys lo hi I L H K F FM T M NZ Q).
  - destruct (moment_inside xs ys lo hi I L H F) as [[A B] C]. pose proof (area_real_nonneg xs ys lo hi I H F) as P.
    assert (P' : (0 < true_area xs ys lo hi)%R) by lra.
    split; [apply (Rmult_le_reg_r (true_area xs ys lo hi)); [exact P'|]; unfold Rdiv; rewrite Rmult_assoc, Rinv_l, Rmult_1_r by lra; exact C|].
    split; (apply (Rmult_le_reg_r (true_area xs ys lo hi)); [exact P'|]; unfold Rdiv; rewrite Rmult_assoc, Rinv_l, Rmult_1_r by lra; assumption).
Qed.
Print Assumptions C158_mean.

(** When only zeros are left the next mode is at the first sample, with area 0 and a NaN
    for its mean. *)
Theorem C158_zeros xs ys merge m : is_dpdf xs ys -> (forall i, i < length xs -> is_finite (dcell xs i) = true) -> (forall i, i < length ys -> is_zero (dval ys i)) ->
  dhighest_modes xs ys merge 1 = Ok [m] -> dm_sample m = dval xs 0 /\ dm_area m = d2 0 0 /\ is_nan (dm_mean m) = true.
Proof. exact (zeros_left xs ys merge m). Qed.
Print Assumptions C158_zeros.

Ltac dpdf_literal := apply pdf_test_ok; vm_compute; reflexivity.
Definition dnums (l : list Z) : list double := map (fun z => d2 z 0) l.

(** The rounded total can stop the extraction of the biggest modes too early: with a mode of
    area 2^62, two modes asked for and others of area 4 and 6, the one of area 4 is returned. *)
Theorem C158_biggest_refuted : exists xs ys merge l done a m, is_dpdf xs ys /\ dbiggest_modes 8 xs ys merge 2 = Ok l /\ length l = 2 /\
  dhighest_modes xs ys merge 3 = Ok done /\ In a l /\ In m done /\ ~ In m l /\ dlt (dm_area a) (dm_area m) = true.
Proof.
  set (xs := dnums [0; 1; 2; 3; 4; 5; 6; 7]%Z). set (ys := dnums [0; 4611686018427387904; 0; 4; 0; 3; 3; 0]%Z).
  assert (T : match dbiggest_modes 8 xs ys dhalf 2, dhighest_modes xs ys dhalf 3 with
    | Ok [a; b], Ok [_; _; m] => dlt (dm_area b) (dm_area m) && dlt (dm_area m) (dm_area a) | _, _ => false end = true) by (vm_compute; reflexivity).
  remember (dbiggest_modes 8 xs ys dhalf 2) as u eqn:E1. remember (dhighest_modes xs ys dhalf 3) as v eqn:E2. symmetry in E1, E2.
  destruct u as [[|a [|b [|? ?]]]| | |]; try discriminate T. destruct v as [[|p [|q [|m [|? ?]]]]| | |]; try discriminate T. apply andb_true_iff in T. destruct T as [T1 T2].
  exists xs, ys, dhalf, [a; b], [p; q; m], b, m. split; [unfold xs, ys; dpdf_literal|]. split; [exact E1|]. split; [reflexivity|]. split; [exact E2|].
  split; [right; left; reflexivity|]. split; [right; right; left; reflexivity|]. split; [|exact T1].
  intros [->|[->|[]]].
  - rewrite (lt_asym _ _ T2) in T2. discriminate.
  - rewrite (lt_asym _ _ T1) in T1. discriminate.
Qed.
Print Assumptions C158_biggest_refuted.

(** The mean can be outside of the mode: a mode of one sample at 1.8 has a mean below it. *)
Theorem C158_mean_inside_refuted : exists xs ys merge m, is_dpdf xs ys /\ dhighest_modes xs ys merge 1 = Ok [m] /\ ddescribes xs ys 1 1 1 m /\
  dlt (dm_mean m) (dval xs 1) = true.
Proof.
  set (xs := [d2 0 0; d2 8106479329266893 (-52); d2 9 0]). set (ys := dnums [0; 1; 0]%Z).
  assert (I : is_dpdf xs ys) by (unfold xs, ys; dpdf_literal).
  assert (T : match dhighest_modes xs ys dhalf 1 with Ok [m] => dlt (dm_mean m) (dval xs 1) | _ => false end = true) by (vm_compute; reflexivity).
  destruct (dhighest_modes xs ys dhalf 1) as [[|m0 [|? ?]]| | |] eqn:E; try discriminate T.
  destruct (highest_step _ _ _ _ _ I E) as (m & r & ys' & c & lo & hi & EL & HC & MR & B & BL & D & _ & _ & ER). injection EL as <- _.
  exists xs, ys, dhalf, m0. split; [exact I|]. split; [exact E|]. split; [|exact T].
  assert (c = 1). { destruct HC as (C1 & C2 & _). destruct c as [|[|[|c]]]; [exfalso; specialize (C2 1 ltac:(cbn; lia)); vm_compute in C2; discriminate|reflexivity|exfalso; specialize (C2 1 ltac:(cbn; lia)); vm_compute in C2; discriminate|cbn in C1; lia]. }
  subst c. destruct MR as [(Z & _)|(_ & LE & RE)]; [vm_compute in Z; discriminate|]. assert (length ys = 3) by reflexivity.
  assert (lo = 1) by (destruct LE as [[? _]|[? _]]; lia). assert (hi = 1) by (destruct RE as [[? _]|(? & ? & _)]; lia). subst lo hi. exact D.
Qed.
Print Assumptions C158_mean_inside_refuted.

(** The interpolated position can be far from the peak: with abscissae of 2^28 + 0 .. 4 and
    values of 0, 2, 3, 3, 0 it is the last sample instead of 2^28 + 2.5. It is a NaN when
    the squares of the abscissae overflow. *)
Theorem C158_interpolated_refuted :
  (exists xs ys merge m, is_dpdf xs ys /\ dhighest ys 2 /\ length xs = 5 /\ dhighest_modes xs ys merge 1 = Ok [m] /\ deq (dm_sample m) (dval xs 2) = true /\ deq (dm_interp m) (dval xs 4) = true) /\
  (exists xs ys merge m, is_dpdf xs ys /\ dhighest_modes xs ys merge 1 = Ok [m] /\ is_finite (dm_mean m) = true /\ is_nan (dm_interp m) = true).
Proof.
  split.
  - set (xs := dnums [268435456; 268435457; 268435458; 268435459; 268435460]%Z). set (ys := dnums [0; 2; 3; 3; 0]%Z).
    assert (T : match dhighest_modes xs ys dhalf 1 with Ok [m] => deq (dm_sample m) (dval xs 2) && deq (dm_interp m) (dval xs 4) | _ => false end = true) by (vm_compute; reflexivity).
    destruct (dhighest_modes xs ys dhalf 1) as [[|m [|? ?]]| | |] eqn:E; try discriminate T. apply andb_true_iff in T. destruct T as [T1 T2].
    exists xs, ys, dhalf, m. split; [unfold xs, ys; dpdf_literal|]. split; [|split; [reflexivity|split; [exact E|split; assumption]]].
    split; [cbn; lia|]. split; [intros i Hi; cbn in Hi; do 5 (destruct i as [|i]; [vm_compute; reflexivity|]); lia|intros i Hi; do 2 (destruct i as [|i]; [vm_compute; reflexivity|]); lia].
  - set (xs := [d2 4503599627370496 461; d2 4503599627370497 461; d2 4503599627370498 461]). set (ys := dnums [1; 2; 1]%Z).
    assert (T : match dhighest_modes xs ys dhalf 1 with Ok [m] => is_finite (dm_mean m) && is_nan (dm_interp m) | _ => false end = true) by (vm_compute; reflexivity).
    destruct (dhighest_modes xs ys dhalf 1) as [[|m [|? ?]]| | |] eqn:E; try discriminate T. apply andb_true_iff in T. destruct T as [T1 T2].
    exists xs, ys, dhalf, m. split; [unfold xs, ys; dpdf_literal|]. split; [exact E|split; assumption].
Qed.
Print Assumptions C158_interpolated_refuted.

(** With n = 0 the last element of an empty vector is read. *)
Theorem C158_zero_refuted : exists xs ys merge, is_dpdf xs ys /\ dbiggest_modes 2 xs ys merge 0 = UB.
Proof. exists (dnums [0; 1; 2]%Z), (dnums [1; 2; 1]%Z), dhalf. split; [dpdf_literal|]. vm_compute. reflexivity. Qed.
Print Assumptions C158_zero_refuted.

(** A pdf with two peaks: their samples, areas and means. *)
Example C158_example : let xs := dnums [0; 1; 2; 3; 4; 5; 6]%Z in let ys := dnums [0; 2; 1; 4; 6; 4; 0]%Z in is_dpdf xs ys /\
  match dhighest_modes xs ys dhalf 2 with
  | Ok [m; r] => deq (dm_sample m) (d2 4 0) && deq (dm_area m) (d2 15 0) && deq (dm_sample r) (d2 1 0) && deq (dm_area r) (d2 2 0) && deq (dm_mean r) (d2 1 0)
  | _ => false
  end = true.
Proof. cbv zeta. split; [dpdf_literal|vm_compute; reflexivity]. Qed.
(** The conditions on the sizes of the products are met by a mode of one sample. *)
Example C158_sizes : let xs := dnums [0; 2; 4]%Z in let ys := dnums [0; 1; 0]%Z in
  area_not_tiny xs ys 1 1 /\ moment_not_tiny xs ys 1 1 /\ true_area xs ys 1 1 = 2%R.
Proof.
  cbv zeta. set (xs := dnums [0; 2; 4]%Z). set (ys := dnums [0; 1; 0]%Z).
  assert (W : width xs 1 = 2%R).
  { unfold width, xs, dnums, dval. cbn [Nat.eqb length map Nat.sub Nat.add nth]. destruct (DoubleProofs2.d2_int 4 ltac:(lia)) as [_ E4]. destruct (DoubleProofs2.d2_int 0 ltac:(lia)) as [_ E0]. rewrite E4, E0. lra. }
  assert (Y : B2R (dval ys 1) = 1%R) by (apply (DoubleProofs2.d2_int 1); lia). assert (X : B2R (dval xs 1) = 2%R) by (apply (DoubleProofs2.d2_int 2); lia).
  assert (B1 : (bpow radix2 (-1000) <= 1)%R) by (change 1%R with (bpow radix2 0); apply bpow_le; lia).
  split; [|split].
  - intros i Hi. assert (i = 1) by lia. subst i. rewrite W, Y. split; right; rewrite Rabs_pos_eq; lra.
  - intros i Hi. assert (i = 1) by lia. subst i. rewrite W, Y, X. split; right; rewrite Rabs_pos_eq; lra.
  - unfold true_area, rtotal. cbn [Nat.add Nat.sub seq map fold_right]. rewrite W, Y. lra.
Qed.
