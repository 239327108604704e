(** C165: integrals in double precision against integrals of real numbers. *)
From Coq Require Import ZArith Reals List Arith Bool Lia Lra Psatz.
From Coquelicot Require Import Coquelicot.
From Flocq Require Import Core IEEE754.BinarySingleNaN.
From Verif Require Import Common FloatModel FloatProofs DoubleProofs DoubleProofs2 DInterpProofs2 DSOMProofs2 DSplineProofs DGridProofs2 DQuadModel DQuadSpec DQuadProofs DQuadProofs2 DQuadProofs3 DQuadProps
  SimpsonModel SimpsonProofs SimpsonSmoothProps CosmoProps DCosmoModel DCosmoSpec DCosmoProofs DCosmoProps DIntegralSpec DIntegralProofs DIntegralProofs2.
Local Open Scope R_scope.

Lemma estimate_orders f a b initial m v : estimate f a b initial m v -> (3 <= initial)%Z.
Proof.
  induction 1 as [v H|m u v H IH N]; [|exact IH]. unfold dsimpson in H. destruct (Z.ltb_spec initial 3); [discriminate|lia].
Qed.

(** A finite estimate is the one the rule gives with real numbers, up to the errors of the values and the roundings of
    three times as many operations as there are parts: the refinements do not pile up errors. *)
Theorem C165_estimate : forall f F a b slope size error initial m v,
  usual_range a b -> bpow radix2 (-600) <= Rabs (B2R b - B2R a) ->
  slope_within F (B2R a) (B2R b) slope -> size_within F (B2R a) (B2R b) size -> computes f F a b error ->
  estimate f a b initial m v -> is_finite v = true ->
  exists s, simpson F (B2R a) (B2R b) m = Ok s /\ Rabs (B2R v - s) <= estimate_error slope size error a b (2 ^ Z.to_nat m).
Proof.
  intros f F a b sl sz er i m v U W SL SZ CO E FV. destruct (estimates_error f F a b sl sz er U W SL SZ CO i m v (estimate_orders _ _ _ _ _ _ E) E FV) as [M B].
  eexists. split; [apply simpson_rule; exact M|exact B].
Qed.
Print Assumptions C165_estimate.

(** The same for the result of the adaptive integration. *)
Theorem C165_adaptive : forall f F a b slope size error precision initial v,
  usual_range a b -> bpow radix2 (-600) <= Rabs (B2R b - B2R a) ->
  slope_within F (B2R a) (B2R b) slope -> size_within F (B2R a) (B2R b) size -> computes f F a b error ->
  dadaptive f a b precision initial = Ok v -> is_finite v = true ->
  exists m s, (initial < m <= 30)%Z /\ simpson F (B2R a) (B2R b) m = Ok s /\ Rabs (B2R v - s) <= estimate_error slope size error a b (2 ^ Z.to_nat m).
Proof.
  intros f F a b sl sz er p i v U W SL SZ CO H FV. destruct (C156_finite f a b p i v H FV) as (m & M & E & _).
  destruct (C165_estimate f F a b sl sz er i m v U W SL SZ CO E FV) as (s & S & B). exists m, s. auto.
Qed.
Print Assumptions C165_adaptive.

(** The integral of a function that only falls or only grows. *)
Theorem C165_monotone : forall f F a b slope size error precision initial v,
  usual_range a b -> bpow radix2 (-600) <= B2R b - B2R a ->
  slope_within F (B2R a) (B2R b) slope -> size_within F (B2R a) (B2R b) size -> computes f F a b error ->
  (forall x y, B2R a <= x -> x <= y -> y <= B2R b -> F y <= F x) \/ (forall x y, B2R a <= x -> x <= y -> y <= B2R b -> F x <= F y) ->
  ex_RInt F (B2R a) (B2R b) ->
  dadaptive f a b precision initial = Ok v -> is_finite v = true ->
  exists m, (initial < m <= 30)%Z /\
    Rabs (B2R v - RInt F (B2R a) (B2R b)) <= 5 / 8 * ((B2R b - B2R a) / 2 ^ Z.to_nat m) * Rabs (F (B2R b) - F (B2R a)) + estimate_error slope size error a b (2 ^ Z.to_nat m).
Proof.
  intros f F a b sl sz er p i v U W SL SZ CO MO IN H FV. assert (W' : bpow radix2 (-600) <= Rabs (B2R b - B2R a)) by (apply Rle_trans with (1 := W), Rle_abs). pose proof (bpow_gt_0 radix2 (-600)).
  destruct (C165_adaptive f F a b sl sz er p i v U W' SL SZ CO H FV) as (m & s & M & S & B). exists m. split; [exact M|].
  assert (M3 : (3 <= m <= 30)%Z). { split; [|lia]. unfold simpson in S. destruct (Z.ltb_spec m 3); [discriminate|lia]. }
  pose proof (C41_monotone_error F (B2R a) (B2R b) m s ltac:(lra) M3 MO IN S) as Q. replace (B2R v - RInt F (B2R a) (B2R b)) with ((s - RInt F (B2R a) (B2R b)) + (B2R v - s)) by ring. eapply Rle_trans; [apply Rabs_triang|]. lra.
Qed.
Print Assumptions C165_monotone.

(** The integral of a function with four derivatives. *)
Theorem C165_smooth : forall f F a b slope size error K precision initial v,
  usual_range a b -> bpow radix2 (-600) <= B2R b - B2R a ->
  slope_within F (B2R a) (B2R b) slope -> size_within F (B2R a) (B2R b) size -> computes f F a b error ->
  (forall x, B2R a <= x <= B2R b -> forall k, (k <= 4)%nat -> ex_derive_n F k x) -> (forall x, B2R a <= x <= B2R b -> Rabs (Derive_n F 4 x) <= K) ->
  dadaptive f a b precision initial = Ok v -> is_finite v = true ->
  exists m, (initial < m <= 30)%Z /\
    Rabs (B2R v - RInt F (B2R a) (B2R b)) <= 5 / 4 * K * ((B2R b - B2R a) / 2 ^ Z.to_nat m) ^ 4 * (B2R b - B2R a) + estimate_error slope size error a b (2 ^ Z.to_nat m).
Proof.
  intros f F a b sl sz er K p i v U W SL SZ CO DE BO H FV. assert (W' : bpow radix2 (-600) <= Rabs (B2R b - B2R a)) by (apply Rle_trans with (1 := W), Rle_abs). pose proof (bpow_gt_0 radix2 (-600)).
  destruct (C165_adaptive f F a b sl sz er p i v U W' SL SZ CO H FV) as (m & s & M & S & B). exists m. split; [exact M|].
  assert (M3 : (3 <= m <= 30)%Z). { split; [|lia]. unfold simpson in S. destruct (Z.ltb_spec m 3); [discriminate|lia]. }
  pose proof (C41_smooth_error F (B2R a) (B2R b) m s K ltac:(lra) M3 DE BO S) as Q. replace (B2R v - RInt F (B2R a) (B2R b)) with ((s - RInt F (B2R a) (B2R b)) + (B2R v - s)) by ring. eapply Rle_trans; [apply Rabs_triang|]. lra.
Qed.
Print Assumptions C165_smooth.

(** The comoving distance: the Hubble distance times the integral of one over the rate. The values of the integrand
    have a relative error of 2^-47. *)
Theorem C165_comoving : forall c is_equal z p precision d,
  sensible (dc_m p) -> sensible (dc_lambda p) -> sensible (dc_k p) -> 0 <= B2R (dc_m p) -> 0 <= B2R (dc_lambda p) -> 0 <= B2R (dc_k p) ->
  0 < B2R (dc_m p) + B2R (dc_k p) + B2R (dc_lambda p) -> redshift z -> bpow radix2 (-600) <= B2R z -> is_equal d0 z = false ->
  dcomoving c is_equal z p precision = Ok d -> is_finite d = true ->
  let e := rate (B2R (dc_m p)) (B2R (dc_k p)) (B2R (dc_lambda p)) in
  exists i m, d = dmul (dhubble_distance c p) i /\ (3 < m <= 30)%Z /\
    Rabs (B2R i - RInt (fun x => 1 / e x) 0 (B2R z)) <=
      5 / 8 * (B2R z / 2 ^ Z.to_nat m) * (1 / e 0 - 1 / e (B2R z)) + estimate_error (2 / e 0) (1 / e 0) (bpow radix2 (-47) / e 0) d0 z (2 ^ Z.to_nat m).
Proof.
  intros c ie z p pr d SM SL SK PM PL PK POS RZ ZL IE H FD. cbv zeta. set (m := B2R (dc_m p)). set (k := B2R (dc_k p)). set (l := B2R (dc_lambda p)).
  unfold dcomoving in H. rewrite IE in H. destruct (dadaptive (dintegrand p) d0 z pr 3) as [i| | |] eqn:EI; try discriminate. cbn [bind] in H. apply ok_inj in H. symmetry in H. exists i.
  assert (FI : is_finite i = true) by (rewrite H in FD; apply fin_mul in FD; apply FD). pose proof (slow_computed p z SM SL SK PM PL PK POS RZ) as CO. destruct RZ as (FZ & PZ & BZ). fold m k l in CO, PM, PL, PK, POS.
  assert (Z0 : B2R d0 = 0) by reflexivity. assert (U : usual_range d0 z).
  { split; [reflexivity|]. split; [exact FZ|]. split.
    - destruct (sub_val z d0 100 ltac:(lia) FZ eq_refl) as (A & _); [rewrite Z0, Rminus_0_r, Rabs_pos_eq; assumption|exact A].
    - right. rewrite Z0, Rminus_0_r, Rabs_pos_eq by exact PZ. apply Rle_trans with (2 := ZL). apply bpow_le. lia. }
  destruct (C165_monotone (dintegrand p) (fun x => 1 / rate m k l x) d0 z (2 / rate m k l 0) (1 / rate m k l 0) (bpow radix2 (-47) / rate m k l 0) pr 3 i U) as (n & N & B); rewrite ?Z0, ?Rminus_0_r; auto.
  - apply slow_slope_within; assumption.
  - apply slow_size_within; assumption.
  - left. intros x y X Y _. pose proof (slow_slope m k l PM PK PL POS x y X Y). lra.
  - apply (ex_RInt_continuous (V := R_CompleteNormedModule)). intros x X. rewrite Rmin_left in X by exact PZ. pose proof (rate_pos m k l PM PK POS x ltac:(lra)) as P. pose proof (rad_low m k l PM PK (1 + x) ltac:(lra)) as RL. unfold rad in RL.
    apply (ex_derive_continuous (V := R_NormedModule) (fun x => 1 / rate m k l x)). unfold rate in *. auto_derive. cbn [pow] in *. split; [lra|]. split; [lra|exact I].
  - exists n. split; [exact H|]. split; [lia|]. rewrite Z0, Rminus_0_r in B. pose proof (slow_slope m k l PM PK PL POS 0 (B2R z) ltac:(lra) PZ) as SS. rewrite (Rabs_minus_sym (1 / rate m k l (B2R z))), (Rabs_pos_eq (1 / rate m k l 0 - _)) in B by lra. exact B.
Qed.
Print Assumptions C165_comoving.

(** Densities 1/4 and 5/8, and a redshift of one: the hypotheses hold, the result is finite, and about three quarters of the Hubble distance. *)
Example C165_example : let p := mkDCosmo (d2 1 (-2)) (d2 5 (-3)) (d2 70 0) in
  0 < B2R (dc_m p) + B2R (dc_k p) + B2R (dc_lambda p) /\ redshift d1 /\ bpow radix2 (-600) <= B2R d1 /\
  (exists d, dcomoving (d2 299792 0) (fun x y => deq x y) d1 p (d2 1 (-10)) = Ok d /\ is_finite d = true /\ dlt (d2 3250000 0) d = true /\ dlt d (d2 3300000 0) = true).
Proof.
  cbv zeta. set (p := mkDCosmo (d2 1 (-2)) (d2 5 (-3)) (d2 70 0)). destruct C164_example as (_ & _ & _ & _ & M & L & _ & K & _ & R1 & _). fold p in M, L, K. destruct one_val as [F1 V1].
  split; [rewrite K; lra|]. split; [exact R1|]. split; [rewrite V1; change 1 with (bpow radix2 0); apply bpow_le; lia|].
  assert (T : match dcomoving (d2 299792 0) (fun x y => deq x y) d1 p (d2 1 (-10)) with Ok d => is_finite d && dlt (d2 3250000 0) d && dlt d (d2 3300000 0) | _ => false end = true) by (vm_compute; reflexivity).
  destruct (dcomoving (d2 299792 0) (fun x y => deq x y) d1 p (d2 1 (-10))) as [d| | |]; try discriminate T. exists d. apply andb_prop in T. destruct T as [T T3]. apply andb_prop in T. destruct T as [T1 T2]. auto.
Qed.
(** The identity from 0 to 8. *)
Example C165_identity : usual_range d0 (d2 8 0) /\ slope_within (fun x => x) (B2R d0) (B2R (d2 8 0)) 1 /\ size_within (fun x => x) (B2R d0) (B2R (d2 8 0)) 8 /\ computes (fun x => x) (fun x => x) d0 (d2 8 0) 0 /\
  dadaptive (fun x => x) d0 (d2 8 0) (d2 1 (-10)) 3 = Ok (d2 32 0).
Proof.
  destruct C156_example as (U & _ & _ & A). assert (V : B2R (d2 8 0) = 8) by (apply d2_int; lia). split; [exact U|]. rewrite V. change (B2R d0) with 0. split; [intros x y _ _; lra|]. split.
  - intros x X. unfold among in X. rewrite Rmin_left, Rmax_right in X by lra. rewrite Rabs_pos_eq; lra.
  - split; [|exact A]. intros x X. split; [|rewrite Rminus_eq_0, Rabs_R0; lra].
    destruct U as (F0 & F8 & _). assert (NX : num x) by (destruct X as [[L _]|[L _]]; apply (dle_nums _ _ L)). apply (dfinite_iff x NX). pose proof (dext_lt d0 F0). pose proof (dext_lt (d2 8 0) F8). destruct X as [[L1 L2]|[L1 L2]]; apply dle_iff in L1; apply dle_iff in L2; auto using dfinite_num; lra.
Qed.
