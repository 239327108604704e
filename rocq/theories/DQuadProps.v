(** Property C156: numerical integration in double precision. *)
From Coq Require Import ZArith Reals List Arith Bool Lia Lra Psatz.
From Flocq Require Import Core IEEE754.BinarySingleNaN.
From Verif Require Import Common FloatModel FloatProofs DoubleProofs DoubleProofs2 DInterpProofs2 DSplineProofs DQuadModel DQuadSpec DQuadProofs DQuadProofs2 DQuadProofs3.
Import ListNotations.
Local Open Scope R_scope.

(** The integrals depend on the values of the function between the two ends only. *)
Theorem C156_inside : forall f g a b,
  usual_range a b -> (forall x, lies_between a b x -> f x = g x) ->
  (forall order, dsimpson f a b order = dsimpson g a b order) /\
  (forall previous order, dsimpson_next f a b previous order = dsimpson_next g a b previous order) /\
  (forall precision initial, dadaptive f a b precision initial = dadaptive g a b precision initial).
Proof.
  intros f g a b U H. split; [|split]; intros; [apply simpson_ext|apply next_ext|apply adaptive_ext]; assumption.
Qed.
Print Assumptions C156_inside.

(** Not when the length of the range is above the largest double: the function is then
    evaluated at infinity. *)
Theorem C156_inside_long_range_refuted : exists f g a b v w,
  is_finite a = true /\ is_finite b = true /\ dlt a b = true /\ (forall x, lies_between a b x -> f x = g x) /\
  dsimpson f a b 3 = Ok v /\ dsimpson g a b 3 = Ok w /\ is_nan v = true /\ is_nan w = false.
Proof.
  set (a := d2 (-1) 1023). set (b := d2 1 1023). set (f := fun x : double => d0). set (g := fun x : double => if is_finite x then d0 else d1).
  exists f, g, a, b. eexists. eexists.
  assert (FA : is_finite a = true) by (vm_compute; reflexivity). assert (FB : is_finite b = true) by (vm_compute; reflexivity).
  split; [exact FA|]. split; [exact FB|]. split; [vm_compute; reflexivity|]. split.
  - intros x L. unfold f, g. replace (is_finite x) with true; [reflexivity|]. symmetry.
    assert (NX : num x) by (destruct L as [[L _]|[L _]]; apply (dle_nums _ _ L)). apply (dfinite_iff x NX). pose proof (dext_lt a FA). pose proof (dext_lt b FB).
    destruct L as [[L1 L2]|[L1 L2]]; apply dle_iff in L1; apply dle_iff in L2; auto using dfinite_num; lra.
  - split; [reflexivity|]. split; [reflexivity|]. split; vm_compute; reflexivity.
Qed.
Print Assumptions C156_inside_long_range_refuted.

(** Nor when it is among the smallest doubles: the function is then evaluated above the
    upper end. *)
Theorem C156_inside_tiny_range_refuted : exists f g a b v w,
  is_finite a = true /\ is_finite b = true /\ dlt a b = true /\ (forall x, lies_between a b x -> f x = g x) /\
  dsimpson f a b 4 = Ok v /\ dsimpson g a b 4 = Ok w /\ deq v w = false.
Proof.
  set (a := d0). set (b := d2 9 (-1074)). set (f := fun x : double => d0). set (g := fun x : double => if dlt b x then d1 else d0).
  exists f, g, a, b. eexists. eexists.
  assert (FA : is_finite a = true) by (vm_compute; reflexivity). assert (FB : is_finite b = true) by (vm_compute; reflexivity). assert (AB : dlt a b = true) by (vm_compute; reflexivity).
  split; [exact FA|]. split; [exact FB|]. split; [exact AB|]. split.
  - intros x L. unfold f, g. replace (dlt b x) with false; [reflexivity|]. symmetry.
    assert (NX : num x) by (destruct L as [[L _]|[L _]]; apply (dle_nums _ _ L)). apply (dlt_no b x); auto using dfinite_num. apply dlt_iff in AB; auto using dfinite_num.
    destruct L as [[L1 L2]|[L1 L2]]; apply dle_iff in L1; apply dle_iff in L2; auto using dfinite_num; lra.
  - split; [reflexivity|]. split; [reflexivity|]. vm_compute. reflexivity.
Qed.
Print Assumptions C156_inside_tiny_range_refuted.

(** A finite result is the rule applied to the values of the function, all finite, at the
    points of the mesh, up to the rounding of N + 1 operations. *)
Theorem C156_rule : forall f a b order v,
  usual_range a b -> bpow radix2 (-600) <= Rabs (B2R b - B2R a) ->
  dsimpson f a b order = Ok v -> is_finite v = true ->
  let N := (2 ^ Z.to_nat order)%nat in
  let step := (B2R b - B2R a) / INR N in
  exists x : nat -> double,
    (forall i, (i <= N)%nat -> mesh_double a b N i (x i) /\ is_finite (f (x i)) = true) /\
    Rabs (B2R v - total N (fun i => simpson_weight N i * B2R (f (x i))) * step) <=
      roundings (N + 1) * ((total N (fun i => simpson_weight N i * Rabs (B2R (f (x i)))) + bpow radix2 (-298)) * Rabs step).
Proof.
  intros f a b order v U W H F. cbv zeta. unfold dsimpson in H. destruct (Z.ltb_spec order 3); [discriminate|]. destruct (dsteps order) as [N| | |] eqn:EN; try discriminate. cbn [bind] in H.
  apply ok_inj in H. symmetry in H. destruct (steps_range order N ltac:(lia) EN) as (HN & <- & _).
  exists (point a b N false). split.
  - intros i I. split; [apply point_mesh; assumption|]. cbv zeta in H. apply (rule_finite f a b N HN v); assumption.
  - apply (rule_near f a b N U HN W v H F).
Qed.
Print Assumptions C156_rule.

(** The same for a refinement. *)
Theorem C156_refinement : forall f a b previous order v,
  usual_range a b -> bpow radix2 (-600) <= Rabs (B2R b - B2R a) ->
  dsimpson_next f a b previous order = Ok v -> is_finite v = true ->
  let N := (2 ^ Z.to_nat order)%nat in
  let step := (B2R b - B2R a) / INR N in
  exists x : nat -> double,
    (forall i, (i <= N)%nat -> mesh_double a b N i (x i)) /\
    Rabs (B2R v - (refinement_sum N (fun i => B2R (f (x i))) * step + B2R previous / 2)) <=
      roundings (N / 2 + 5) * ((refinement_size N (fun i => B2R (f (x i))) + bpow radix2 (-298)) * Rabs step + (Rabs (B2R previous) / 2 + bpow radix2 (-300))).
Proof.
  intros f a b p order v U W H F. cbv zeta. unfold dsimpson_next in H. destruct (Z.ltb_spec order 4); [discriminate|]. destruct (dsteps order) as [N| | |] eqn:EN; try discriminate. cbn [bind] in H.
  apply ok_inj in H. symmetry in H. destruct (steps_range order N ltac:(lia) EN) as (HN & EP & OR).
  assert (N16 : (16 <= N)%nat) by (rewrite EP; change 16%nat with (2 ^ 4)%nat; apply Nat.pow_le_mono_r; lia).
  assert (EV : Nat.even N = true). { rewrite EP. replace (Z.to_nat order) with (S (Z.to_nat order - 1)) by lia. rewrite Nat.pow_succ_r', Nat.even_mul. reflexivity. }
  rewrite <- EP. exists (point a b N true). split; [intros i I; apply point_mesh; assumption|].
  apply (next_near f a b N U HN W p v N16 EV H F).
Qed.
Print Assumptions C156_refinement.

(** What the adaptive integration gives: an exception for an initial order below 3, otherwise
    the first estimate that settles; when none settles up to order 30, the behaviour is
    undefined. *)
Theorem C156_outcomes : forall f a b precision initial,
  ((initial < 3)%Z -> dadaptive f a b precision initial = Throw) /\
  ((30 < initial)%Z -> dadaptive f a b precision initial = UB) /\
  ((3 <= initial <= 30)%Z ->
    (exists k u v, (initial <= k < 30)%Z /\ estimate f a b initial k u /\ estimate f a b initial (k + 1) v /\ settled precision u v /\
       dadaptive f a b precision initial = Ok v /\
       forall j x y, (initial <= j < k)%Z -> estimate f a b initial j x -> estimate f a b initial (j + 1) y -> ~ settled precision x y) \/
    (dadaptive f a b precision initial = UB /\
       forall j x y, (initial <= j)%Z -> estimate f a b initial j x -> estimate f a b initial (j + 1) y -> ~ settled precision x y)).
Proof.
  intros f a b p i. destruct (simpson_cases f a b i) as (A & _ & B). split; [|split].
  - intros H. unfold dadaptive. rewrite A by exact H. reflexivity.
  - intros H. unfold dadaptive. rewrite B by exact H. reflexivity.
  - apply adaptive_all.
Qed.
Print Assumptions C156_outcomes.

(** A finite result comes from finite estimates: no estimate on the way overflowed or was not
    a number. *)
Theorem C156_finite : forall f a b precision initial v,
  dadaptive f a b precision initial = Ok v -> is_finite v = true ->
  exists k, (initial < k <= 30)%Z /\ estimate f a b initial k v /\
    forall j u, (j <= k)%Z -> estimate f a b initial j u -> is_finite u = true.
Proof.
  intros f a b p i v H F. destruct (C156_outcomes f a b p i) as (A & B & C).
  destruct (Z.lt_ge_cases i 3); [rewrite A in H by assumption; discriminate|]. destruct (Z.lt_ge_cases 30 i); [rewrite B in H by assumption; discriminate|].
  destruct (C ltac:(lia)) as [(k & u & w & K & EU & EW & _ & E & _)|[E _]]; rewrite E in H; [|discriminate]. apply ok_inj in H. subst w.
  exists (k + 1)%Z. split; [lia|]. split; [exact EW|]. intros j x J X. apply (estimates_finite f a b i (k + 1) v EW F j x J X).
Qed.
Print Assumptions C156_finite.

(** An estimate that is infinite or not a number ends the loop, whatever the precision, with
    such a result. *)
Theorem C156_not_finite : forall f a b precision initial u,
  (3 <= initial < 30)%Z -> dsimpson f a b initial = Ok u -> is_finite u = false ->
  exists v, dsimpson_next f a b u (initial + 1) = Ok v /\ dadaptive f a b precision initial = Ok v /\ is_finite v = false.
Proof.
  intros f a b p i u I E F. destruct (proj1 (proj2 (next_cases f a b u (i + 1))) ltac:(lia)) as [v N]. exists v. split; [exact N|].
  destruct (not_finite_settles p u v f a b (i + 1) N F) as [S FV]. split; [|exact FV].
  unfold dadaptive. rewrite E. cbn [bind]. cbn [drefine]. rewrite N. cbn [bind]. unfold dgoes_on. unfold settled in S. cbv zeta. rewrite S. reflexivity.
Qed.
Print Assumptions C156_not_finite.

(** The integral of a function that is zero is zero, after one refinement. *)
Theorem C156_zero : forall f a b precision initial,
  usual_range a b -> (forall x, lies_between a b x -> zero_double (f x)) -> (3 <= initial < 30)%Z ->
  exists v, dadaptive f a b precision initial = Ok v /\ zero_double v.
Proof.
  intros f a b p i U Z I. destruct (proj1 (proj2 (simpson_cases f a b i)) ltac:(lia)) as [u E]. destruct (proj1 (proj2 (next_cases f a b u (i + 1))) ltac:(lia)) as [v N].
  pose proof (zero_simpson f a b i u U Z E) as ZU. pose proof (zero_next f a b u (i + 1) v U Z ZU N) as ZV. exists v. split; [|exact ZV].
  unfold dadaptive. rewrite E. cbn [bind]. cbn [drefine]. rewrite N. cbn [bind]. unfold dgoes_on. pose proof (zero_settles p u v ZU ZV) as S. unfold settled in S. cbv zeta. rewrite S. reflexivity.
Qed.
Print Assumptions C156_zero.

(** The identity from 0 to 8: an ordinary range, finite estimates, and the exact integral. *)
Example C156_example :
  usual_range d0 (d2 8 0) /\ bpow radix2 (-600) <= Rabs (B2R (d2 8 0) - B2R d0) /\
  dsimpson (fun x => x) d0 (d2 8 0) 3 = Ok (d2 32 0) /\
  dadaptive (fun x => x) d0 (d2 8 0) (d2 1 (-10)) 3 = Ok (d2 32 0).
Proof.
  assert (V : B2R (d2 8 0) = 8) by (apply d2_int; lia). assert (B : bpow radix2 (-600) <= 8) by (apply Rle_trans with (bpow radix2 3); [apply bpow_le; lia|change (bpow radix2 3) with 8; lra]).
  assert (B' : bpow radix2 (-990) <= 8) by (apply Rle_trans with (bpow radix2 (-600)); [apply bpow_le; lia|exact B]).
  change (B2R d0) with 0. rewrite V. replace (8 - 0) with 8 by ring. rewrite (Rabs_pos_eq 8) by lra.
  split; [|split; [exact B|]].
  - split; [reflexivity|]. split; [reflexivity|]. split; [vm_compute; reflexivity|]. right. change (B2R d0) with 0. rewrite V. replace (8 - 0) with 8 by ring. rewrite (Rabs_pos_eq 8) by lra. exact B'.
  - split; apply (oinj B2SF sf_inj); vm_compute; reflexivity.
Qed.
