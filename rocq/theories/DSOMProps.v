(** * Self-organizing maps in double precision. *)
From Coq Require Import ZArith Reals List Arith Bool Lia Lra.
From Flocq Require Import Core IEEE754.BinarySingleNaN.
From Verif Require Import Common SOMModel SOMSpec SOMProofs FloatModel FloatProofs DoubleProofs DoubleProofs2 DInterpProofs DInterpProofs2 DSOMModel DSOMSpec DSOMProofs DSOMProofs2.
Import ListNotations.
Local Open Scope R_scope.

(** ** C152: distances and the best matching unit *)

(** The distance of finite arrays is a number that is not negative (it may be infinite),
    it does not depend on their order, and it is +0 for equal arrays. *)
Theorem C152_distance (l r : list double) : all_finite l -> all_finite r ->
  dle d0 (l2 l r) = true /\ l2 l r = l2 r l /\ (Forall2 (fun a b => deq a b = true) l r -> l2 l r = d0).
Proof.
  intros FL FR. split; [|split].
  - destruct (l2_ok l r FL FR) as [N P]. apply dle_iff; [reflexivity|exact N|]. rewrite ext_d0. exact P.
  - unfold l2. rewrite l2_loop_sym by assumption. reflexivity.
  - intros E. unfold l2. rewrite l2_loop_equal; auto. clear -E. induction E; cbn; congruence.
Qed.
Print Assumptions C152_distance.

(** Unless it overflows, the square of the distance is the sum of the squares of the
    differences up to a relative error of 2^-53 for each of at most ND + 5 roundings, if no
    difference is so small that its square underflows. *)
Theorem C152_error (l r : list double) : all_finite l -> all_finite r -> not_too_close l r -> is_finite (l2 l r) = true ->
  let u := bpow radix2 (-53) in
  (1 - u) ^ (length l + 5) * sum_sq l r <= B2R (l2 l r) * B2R (l2 l r) <= (1 + u) ^ (length l + 5) * sum_sq l r.
Proof. apply l2_error. Qed.
Print Assumptions C152_error.

(** With uncertainties whose squares neither vanish nor overflow, the distance is a number
    that is not negative, and it does not depend on the order of the arrays. *)
Theorem C152_uncertainties (l r us : list double) : all_finite l -> all_finite r -> Forall sensible us ->
  dle d0 (l2u l r us) = true /\ l2u l r us = l2u r l us.
Proof.
  intros FL FR FU. split.
  - destruct (l2u_ok l r us FL FR FU) as [N P]. apply dle_iff; [reflexivity|exact N|]. rewrite ext_d0. exact P.
  - unfold l2u. rewrite l2u_loop_sym by assumption. reflexivity.
Qed.
Print Assumptions C152_uncertainties.

(** For every distance function, also one that gives NaN: if some cell is at a distance
    below the largest double, the search returns the first of the cells none is closer
    than, and its distance; if no cell is, it returns (0, 0) and the largest double. *)
Theorem C152_bmu {W} (dist : W -> double) (s : som W) : well_formed s ->
  exists x y d, dfind_bmu dist s = Ok (x, y, d) /\ (x < sx s)%nat /\ (y < sy s)%nat /\
    ((exists x' y' w', cell_at s x' y' = Some w' /\ dlt (dist w') dbl_max = true) ->
     exists w, cell_at s x y = Some w /\ d = dist w /\ dlt d dbl_max = true /\
       (forall x' y' w', cell_at s x' y' = Some w' -> dlt (dist w') d = false) /\
       (forall x' y' w', cell_at s x' y' = Some w' -> before (x', y') (x, y) -> dle (dist w') d = false)) /\
    ((forall x' y' w', cell_at s x' y' = Some w' -> dlt (dist w') dbl_max = false) -> x = 0%nat /\ y = 0%nat /\ d = dbl_max).
Proof.
  intros wf. destruct (dbmu_minimal dist s wf) as (x & y & d & E & X & Y & M). exists x, y, d. repeat (split; [assumption|]). split.
  - intros H. destruct (M H) as (w & C & D & M1 & M2). exists w. repeat (split; [assumption|]). split; [|auto].
    destruct H as (x' & y' & w' & C' & L). specialize (M1 x' y' w' C'). destruct (dfind_bmu_ok dist s wf) as (p & d' & _ & E' & N & _). rewrite E in E'.
    assert (d' = d) by congruence. subst d'. destruct (dlt_nums _ _ L) as [N1 N2]. apply dlt_iff in L; auto. apply dlt_no in M1; auto. apply dlt_iff; auto. lra.
  - intros H. rewrite (dbmu_none dist s wf H) in E. repeat split; congruence.
Qed.
Print Assumptions C152_bmu.

(** The cell found for an array is, up to the rounding, nearest in the Euclidean distance:
    no other cell whose computed distance is finite is nearer by more than the factor of
    2 (ND + 5) roundings; and a cell is found as soon as one computed distance is finite. *)
Theorem C152_nearest (s : som (list double)) (input : list double) (nd x0 y0 : nat) (w0 : list double) :
  well_formed s -> dimension nd s -> (forall x y w, cell_at s x y = Some w -> all_finite w) -> all_finite input ->
  cell_at s x0 y0 = Some w0 -> is_finite (l2 w0 input) = true ->
  exists x y w, dfind_bmu (fun c => l2 c input) s = Ok (x, y, l2 w input) /\ cell_at s x y = Some w /\
    is_finite (l2 w input) = true /\ dle (l2 w input) (l2 w0 input) = true /\
    (not_too_close w input -> not_too_close w0 input ->
     let u := bpow radix2 (-53) in
     (1 - u) ^ (nd + 5) * sum_sq w input <= (1 + u) ^ (nd + 5) * sum_sq w0 input).
Proof.
  intros wf D FC FI C0 F0. destruct (C152_bmu (fun c => l2 c input) s wf) as (x & y & d & E & X & Y & M & _).
  destruct M as (w & C & -> & L & M1 & M2). { exists x0, y0, w0. split; [exact C0|]. apply l2_below_max; auto. eapply FC, C0. }
  pose proof (FC _ _ _ C) as FW. pose proof (FC _ _ _ C0) as FW0. destruct (l2_ok w input FW FI) as [N P]. destruct (l2_ok w0 input FW0 FI) as [N0 P0].
  specialize (M1 _ _ _ C0). apply dlt_no in M1; auto.
  assert (F : is_finite (l2 w input) = true). { apply dfinite_iff; auto. pose proof (dext_lt _ F0). pose proof MX_big. lra. }
  exists x, y, w. repeat (split; [assumption|]). split; [apply dle_iff; auto|]. intros H H0. cbv zeta.
  assert (LEN : forall a b c, cell_at s a b = Some c -> length c = nd).
  { intros a b c HC. apply cell_at_some in HC. unfold dimension in D. rewrite Forall_forall in D. apply D. eapply nth_error_In. apply HC. }
  pose proof (l2_error w input FW FI H F) as [E1 _]. pose proof (l2_error w0 input FW0 FI H0 F0) as [_ E2]. rewrite (LEN _ _ _ C) in E1. rewrite (LEN _ _ _ C0) in E2.
  apply Rle_trans with (1 := E1). apply Rle_trans with (2 := E2). rewrite !dext_finite in * by assumption. apply Rmult_le_compat; lra.
Qed.
Print Assumptions C152_nearest.

(** An array equal to a cell is found at distance 0. *)
Theorem C152_equal_cell (s : som (list double)) (input : list double) (x0 y0 : nat) (w0 : list double) :
  well_formed s -> (forall x y w, cell_at s x y = Some w -> all_finite w) -> all_finite input ->
  cell_at s x0 y0 = Some w0 -> Forall2 (fun a b => deq a b = true) w0 input ->
  exists x y d, dfind_bmu (fun c => l2 c input) s = Ok (x, y, d) /\ deq d d0 = true.
Proof.
  intros wf FC FI C0 E0. pose proof (FC _ _ _ C0) as FW0. destruct (C152_distance w0 input FW0 FI) as (_ & _ & Z). specialize (Z E0).
  destruct (C152_bmu (fun c => l2 c input) s wf) as (x & y & d & E & X & Y & M & _). exists x, y, d. split; [exact E|].
  destruct M as (w & C & -> & L & M1 & M2). { exists x0, y0, w0. split; [exact C0|]. rewrite Z. vm_compute. reflexivity. }
  pose proof (FC _ _ _ C) as FW. destruct (l2_ok w input FW FI) as [N P]. specialize (M1 _ _ _ C0). rewrite Z in M1. apply dlt_no in M1; auto; try reflexivity. rewrite ext_d0 in M1.
  apply deq_iff; auto; try reflexivity. rewrite ext_d0. lra.
Qed.
Print Assumptions C152_equal_cell.

(** What does not hold. *)
(** Different arrays may be at distance 0, so the cell found for an array that is equal to
    one of the cells may be another cell. *)
Theorem C152_distinct_refuted :
  exists (a b : double) (s : som (list double)), is_finite a = true /\ is_finite b = true /\ deq a b = false /\ B2SF (l2 [a] [b]) = B2SF d0 /\
    well_formed s /\ cell_at s 1 0 = Some [b] /\ cell_at s 0 0 = Some [a] /\ omap fst (dfind_bmu (fun c => l2 c [b]) s) = Ok (0, 0)%nat.
Proof.
  exists (d2 1 (-600)), d0, (mkSom 2 1 [[d2 1 (-600)]; [d0]]). repeat (split; [vm_compute; reflexivity|]).
  split; [unfold well_formed; cbn; lia|]. repeat (split; [reflexivity|]). vm_compute. reflexivity.
Qed.
Print Assumptions C152_distinct_refuted.
(** The distance may be infinite although the Euclidean distance is a double, and then the
    cell found need not be the nearest. *)
Theorem C152_overflow_refuted :
  exists (a b c : double) (s : som (list double)), dlt a b = true /\ dlt b c = true /\ B2SF (l2 [a] [c]) = B2SF dinf /\ B2SF (l2 [b] [a]) = B2SF dinf /\
    well_formed s /\ cell_at s 0 0 = Some [c] /\ cell_at s 1 0 = Some [b] /\
    omap (fun r => (fst r, B2SF (snd r))) (dfind_bmu (fun w => l2 w [a]) s) = Ok (0%nat, 0%nat, B2SF dbl_max).
Proof.
  exists d0, (d2 1 600), (d2 1 700), (mkSom 2 1 [[d2 1 700]; [d2 1 600]]). repeat (split; [vm_compute; reflexivity|]).
  split; [unfold well_formed; cbn; lia|]. repeat (split; [reflexivity|]). vm_compute. reflexivity.
Qed.
Print Assumptions C152_overflow_refuted.
(** With an uncertainty of 0 a cell equal to the array is at no distance from it, and it is
    not the one found. *)
Theorem C152_zero_uncertainty_refuted :
  exists (s : som (list double)) (input us : list double), well_formed s /\ cell_at s 1 0 = Some input /\ all_finite input /\ all_finite us /\
    B2SF (l2u input input us) = B2SF dnan /\
    omap (fun r => (fst r, B2SF (snd r))) (dfind_bmu (fun w => l2u w input us) s) = Ok (0%nat, 0%nat, B2SF dbl_max).
Proof.
  exists (mkSom 2 1 [[d0]; [d1]]), [d1], [d0]. split; [unfold well_formed; cbn; lia|]. split; [reflexivity|]. split; [repeat constructor|]. split; [repeat constructor|].
  split; vm_compute; reflexivity.
Qed.
Print Assumptions C152_zero_uncertainty_refuted.

Lemma some_inj {A} (x y : A) : Some x = Some y -> x = y.
Proof. congruence. Qed.
Example C152_case : let l := [d2 3 0; d2 4 0] in let r := [d0; d0] in
  all_finite l /\ all_finite r /\ not_too_close l r /\ B2SF (l2 l r) = B2SF (d2 5 0) /\ B2SF (l2u l r [dhalf; dhalf]) = B2SF (d2 10 0) /\ Forall sensible [dhalf; dhalf].
Proof.
  cbv zeta. split; [repeat constructor|]. split; [repeat constructor|]. split.
  { assert (K : forall z, (1 <= z <= 4)%Z -> bpow radix2 (-500) <= Rabs (B2R (d2 z 0) - B2R d0)).
    { intros z Hz. destruct (d2_int z) as [_ V]; [lia|]. rewrite V. change (B2R d0) with 0. rewrite Rminus_0_r, Rabs_pos_eq by (apply IZR_le; lia).
      apply Rle_trans with 1; [change 1 with (bpow radix2 0); apply bpow_le; lia|]. apply IZR_le. lia. }
    intros [|[|i]] a b HA HB; cbn [nth_error] in HA, HB; [| |destruct i; discriminate]; apply some_inj in HA, HB; subst a b; right; apply K; lia. }
  split; [vm_compute; reflexivity|]. split; [vm_compute; reflexivity|].
  assert (S : sensible dhalf).
  { split; [reflexivity|]. assert (E : B2R dhalf = / 2) by (rewrite <- ext_dhalf; symmetry; apply dext_finite; reflexivity). rewrite E. rewrite Rabs_pos_eq by lra.
    change (/ 2) with (bpow radix2 (-1)). split; apply bpow_le; lia. }
  constructor; [exact S|constructor; [exact S|constructor]].
Qed.

(** ** C153: training *)

(** One training object: the cell found for it is looked up, and each cell whose
    neighbourhood factor is not 0 gets w + (f * l) * (x - w) in each component; the other
    cells and the size of the map stay as they are. *)
Theorem C153_object {I} (dist : list double -> list double -> double) (weights : I -> list double) nf lf (i n : nat) (s : som (list double)) (obj : I) (nd : nat) :
  well_formed s -> dimension nd s -> length (weights obj) = nd ->
  exists s' bx by_ d, dfind_bmu (fun c => dist c (weights obj)) s = Ok (bx, by_, d) /\
    dtrain_one dist weights nf lf i n s obj = Ok s' /\ sx s' = sx s /\ sy s' = sy s /\
    forall x y w, cell_at s x y = Some w ->
      let f := nf (bx, by_) (x, y) i n in
      exists w', cell_at s' x y = Some w' /\ length w' = nd /\
        (deq f d0 = true -> w' = w) /\
        (deq f d0 = false -> forall k a b, nth_error w k = Some a -> nth_error (weights obj) k = Some b ->
         nth_error w' k = Some (dadd a (dmul (dmul f (lf i n)) (dsub b a)))).
Proof.
  intros wf D L. destruct (dtrain_one_step dist weights nf lf i n s obj nd wf D L) as (s' & bx & by_ & d & E & T & X & Y & wf' & D' & H).
  exists s', bx, by_, d. repeat (split; [assumption|]). intros x y w C. cbv zeta. destruct (H x y w C) as (w' & C' & H1 & H2). exists w'. split; [exact C'|].
  assert (LEN : length w' = nd). { apply cell_at_some in C'. unfold dimension in D'. rewrite Forall_forall in D'. apply D'. eapply nth_error_In. apply C'. }
  split; [exact LEN|]. split; [exact H1|]. intros Z k a b HA HB. specialize (H2 Z k). assert (K : (k < nd)%nat) by (rewrite <- L; apply nth_error_Some; congruence).
  specialize (H2 K). unfold dcomp in H2. rewrite (nth_error_nth _ _ d0 HA), (nth_error_nth _ _ d0 HB) in H2. rewrite (nth_error_nth' w' d0) by lia. f_equal. exact H2.
Qed.
Print Assumptions C153_object.

(** With factors between 0 and 1 a weight never moves away from the input, a weight equal
    to it stays, and the new weight is the exact mean of weight and input up to eight
    roundings of the larger of them. *)
Theorem C153_weight (f l x w : double) (B : R) : unit_double f -> unit_double l -> is_finite x = true -> is_finite w = true ->
  Rabs (B2R x) <= B -> Rabs (B2R w) <= B -> B <= bpow radix2 1020 ->
  let w' := dadd w (dmul (dmul f l) (dsub x w)) in
  is_finite w' = true /\
  (dle w x = true -> dle w w' = true) /\ (dle x w = true -> dle w' w = true) /\ (deq w x = true -> deq w' x = true) /\
  let c := B2R f * B2R l in
  Rabs (B2R w' - ((1 - c) * B2R w + c * B2R x)) <= bpow radix2 (-50) * B + bpow radix2 (-1074).
Proof.
  intros UF UL FX FW BX BW BB. cbv zeta. assert (P1 : bpow radix2 1020 <= bpow radix2 1021) by (apply bpow_le; lia).
  destruct (weight_between f l x w UF UL FX FW ltac:(lra) ltac:(lra)) as (F & M1 & M2). fold (dupdate_weight f l x w). pose proof (dfinite_num _ FX) as NX. pose proof (dfinite_num _ FW) as NW. pose proof (dfinite_num _ F) as N.
  split; [exact F|].
  assert (K1 : dle w x = true -> dle w (dupdate_weight f l x w) = true). { intros H. apply dle_iff in H; auto. apply dle_iff; auto. rewrite !dext_finite in * by assumption. apply M1, H. }
  assert (K2 : dle x w = true -> dle (dupdate_weight f l x w) w = true). { intros H. apply dle_iff in H; auto. apply dle_iff; auto. rewrite !dext_finite in * by assumption. apply M2, H. }
  split; [exact K1|]. split; [exact K2|]. split.
  - intros H. apply deq_iff in H; auto. assert (H1 : dle w x = true) by (apply dle_iff; auto; lra). assert (H2 : dle x w = true) by (apply dle_iff; auto; lra).
    specialize (K1 H1). specialize (K2 H2). apply dle_iff in K1; auto. apply dle_iff in K2; auto. apply deq_iff; auto. lra.
  - replace (bpow radix2 (-50) * B + bpow radix2 (-1074)) with (8 * uro * B + 2 * tiny); [apply weight_error; assumption|].
    unfold uro, tiny. change (-50)%Z with (3 + -53)%Z. change (-1074)%Z with (1 + -1075)%Z. rewrite (bpow_plus radix2 3 (-53)), (bpow_plus radix2 1 (-1075)). change (bpow radix2 3) with 8. change (bpow radix2 1) with 2. reflexivity.
Qed.
Print Assumptions C153_weight.

(** However long the training and whatever the order of the objects and the distance
    function: with factors between 0 and 1 the weights stay finite and in the range of the
    objects and the initial weights, up to 2^-51 of its largest absolute value. The errors
    do not add up. *)
Theorem C153_range {I} (dist : list double -> list double -> double) (weights : I -> list double) nf lf (sample : nat -> list I) (n : nat) (s : som (list double)) (nd k : nat) (lo hi B : R) :
  well_formed s -> dimension nd s -> (forall o, length (weights o) = nd) -> (k < nd)%nat ->
  Rabs lo <= B -> Rabs hi <= B -> B <= bpow radix2 1020 ->
  (forall b c i, (i < n)%nat -> unit_double (nf b c i n)) -> (forall i, (i < n)%nat -> unit_double (lf i n)) ->
  (forall i o, (i < n)%nat -> In o (sample i) -> finite_in lo hi (dcomp k (weights o))) ->
  (forall x y w, cell_at s x y = Some w -> finite_in lo hi (dcomp k w)) ->
  exists s', dtrain dist weights nf lf sample n s = Ok s' /\ sx s' = sx s /\ sy s' = sy s /\
    forall x y w, cell_at s' x y = Some w -> length w = nd /\ finite_in (lo - bpow radix2 (-51) * B) (hi + bpow radix2 (-51) * B) (dcomp k w).
Proof.
  intros wf D WD Hk BL BH BB UN UL HO HC.
  assert (U4 : bpow radix2 (-51) = 4 * uro) by (unfold uro; change (-51)%Z with (2 + -53)%Z; rewrite bpow_plus; reflexivity).
  assert (B0 : 0 <= uro * B) by (apply Rmult_le_pos; [apply Rlt_le, uro_pos|apply Rle_trans with (2 := BL); apply Rabs_pos]).
  destruct (dtrain_from_range dist weights nf lf nd WD k lo hi B sample n Hk BL BH BB UN UL HO n 0%nat s) as (s' & E & X & Y & wf' & D' & A); auto.
  { intros x y w C. destruct (HC x y w C) as [F R]. split; [exact F|]. lra. }
  exists s'. repeat (split; [assumption|]). intros x y w C. split; [|rewrite U4; exact (A x y w C)].
  apply cell_at_some in C. unfold dimension in D'. rewrite Forall_forall in D'. apply D'. eapply nth_error_In. apply C.
Qed.
Print Assumptions C153_range.

(** The linear learning factor is between 0 and 1, it is 1 in the first iteration and it
    never is 0, so that no iteration is skipped; this for every number of iterations a
    size_t holds. The factor of the linear unit disk is 0 or 1. *)
Theorem C153_linear (i n : nat) : (i < n)%nat -> (Z.of_nat n < 2 ^ 64)%Z ->
  unit_double (dlinear_restraint i n) /\ deq (dlinear_restraint i n) d0 = false /\ (i = 0%nat -> deq (dlinear_restraint i n) d1 = true) /\
  forall radius bmu cell, unit_double (dunit_disk radius bmu cell i n).
Proof.
  intros H L. destruct (linear_value i n H L) as (F & R & O). split; [apply value_unit; auto; lra|]. pose proof (dfinite_num _ F) as N. split.
  { destruct (deq (dlinear_restraint i n) d0) eqn:E; auto. apply deq_iff in E; auto; try reflexivity. rewrite ext_d0, dext_finite in E by exact F. lra. }
  split. { intros Z. apply deq_iff; auto; try reflexivity. rewrite ext_d1, dext_finite by exact F. auto. }
  intros radius bmu cell. unfold dunit_disk. cbv zeta. destruct (dlt _ _); apply value_unit; try reflexivity; [rewrite B2R_d1|rewrite B2R_d0]; lra.
Qed.
Print Assumptions C153_linear.

(** What does not hold. *)
(** A weight can leave the range of the input and the weight. *)
Theorem C153_exact_range_refuted :
  exists (x w : double), is_finite x = true /\ is_finite w = true /\ dlt w x = true /\ unit_double d1 /\
    dlt x (dadd w (dmul (dmul d1 d1) (dsub x w))) = true.
Proof.
  exists (d2 (2 ^ 53 - 1) 0), (d2 3 (-1)). repeat (split; [vm_compute; reflexivity|]). split; [split; vm_compute; reflexivity|]. vm_compute. reflexivity.
Qed.
Print Assumptions C153_exact_range_refuted.
(** A weight different from the input need not come closer to it, however often the object
    is presented. *)
Theorem C153_progress_refuted :
  exists (f x w : double), unit_double f /\ deq f d0 = false /\ is_finite x = true /\ is_finite w = true /\ deq x w = false /\
    dadd w (dmul (dmul f d1) (dsub x w)) = w.
Proof.
  exists (d2 1 (-2)), (d2 (2 ^ 52 + 1) (-52)), d1. split; [split; vm_compute; reflexivity|]. repeat (split; [vm_compute; reflexivity|]). apply sf_inj. vm_compute. reflexivity.
Qed.
Print Assumptions C153_progress_refuted.

(** A map of two cells, trained with two objects for two iterations. *)
Example C153_case :
  let s := mkSom 2 1 [[d0]; [d2 8 0]] in
  let sample := fun _ : nat => [d2 1 0; d2 6 0] in
  well_formed s /\ dimension 1 s /\ (forall x y w, cell_at s x y = Some w -> finite_in 0 8 (dcomp 0 w)) /\
  (forall i o, In o (sample i) -> finite_in 0 8 (dcomp 0 [o])) /\
  omap (fun t => map (map B2SF) (cells t)) (dtrain l2 (fun o => [o]) (dunit_disk d1) dlinear_restraint sample 2 s) = Ok [[B2SF d1]; [B2SF (d2 6 0)]].
Proof.
  cbv zeta. assert (K : forall z, (0 <= z <= 8)%Z -> finite_in 0 8 (d2 z 0)).
  { intros z Hz. destruct (d2_int z) as [F V]; [lia|]. split; [exact F|]. rewrite V. split; apply IZR_le; lia. }
  split; [unfold well_formed; cbn; lia|]. split; [repeat constructor|]. split.
  { intros x y w C. apply cell_at_some in C. destruct C as (X & Y & C). cbn [sx sy cells] in X, Y, C. assert (y = 0%nat) as -> by lia. rewrite Nat.mul_0_l, Nat.add_0_r in C.
    destruct x as [|[|x]]; [| |lia]; apply some_inj in C; subst w; apply K; lia. }
  split. { intros i o [<-|[<-|[]]]; apply K; lia. }
  vm_compute. reflexivity.
Qed.
