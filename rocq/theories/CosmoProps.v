(** C106-C107: the cosmological distances; the error of Simpson's rule on monotone functions. *)
From Coq Require Import Reals List Arith Bool ZArith Lia Lra.
From Coquelicot Require Import Coquelicot.
From Verif Require Import Common CumulModel FunModel FunSpec FunProofs FunProofs2 FunProps SimpsonModel SimpsonProofs SimpsonProps CosmoModel CosmoSpec CosmoProofs.
Import ListNotations.
Local Open Scope R_scope.

(** ** C41: the error on monotone functions *)
(** On a monotone function the rule of order m is off by at most 5/8 of a step times
    the variation of the function. *)
Theorem C41_monotone_error : forall (f : R -> R) a b m v, a <= b -> (3 <= m <= 30)%Z ->
  (forall x y, a <= x -> x <= y -> y <= b -> f y <= f x) \/ (forall x y, a <= x -> x <= y -> y <= b -> f x <= f y) ->
  ex_RInt f a b ->
  simpson f a b m = Ok v ->
  Rabs (v - RInt f a b) <= 5 / 8 * ((b - a) / 2 ^ Z.to_nat m) * Rabs (f b - f a).
Proof.
  intros f a b m v L M D I H. rewrite simpson_rule in H by lia. injection H as <-. pose proof (pow_ge8 m ltac:(lia)) as N8.
  rewrite <- INR_pow2. destruct D as [D|D].
  - rewrite (Rabs_minus_sym (f b) (f a)), (Rabs_right (f a - f b)). + apply rule_falls; assumption. + pose proof (D a b ltac:(lra) L ltac:(lra)). lra.
  - rewrite (Rabs_right (f b - f a)). 2: pose proof (D a b ltac:(lra) L ltac:(lra)); lra.
    pose proof (rule_falls (fun x => - f x) a b _ L N8) as B. rewrite rule_opp in B.
    specialize (B ltac:(intros x y X Y Z; apply Ropp_le_contravar; apply D; assumption)).
    assert (J : RInt (fun x => - f x) a b = - RInt f a b) by (apply (RInt_opp (V := R_CompleteNormedModule) f a b I)).
    specialize (B (ex_RInt_opp (V := R_NormedModule) f a b I)). rewrite J in B.
    replace (- f a - - f b) with (f b - f a) in B by ring. rewrite <- Rabs_Ropp. replace (- (rule f a b (2 ^ Z.to_nat m) - RInt f a b)) with (- rule f a b (2 ^ Z.to_nat m) - - RInt f a b) by ring. exact B.
Qed.
Print Assumptions C41_monotone_error.
Example C41_monotone_error_ex : exists v, simpson (fun x => - x) 0 1 3 = Ok v /\ Rabs (v - RInt (fun x => - x) 0 1) <= 5 / 8 * ((1 - 0) / 2 ^ 3) * Rabs (- 1 - - 0).
Proof.
  eexists. split; [apply simpson_rule; lia|]. apply (C41_monotone_error (fun x => - x) 0 1 3); [lra|lia|left; intros; lra| |apply simpson_rule; lia].
  apply (ex_RInt_opp (V := R_NormedModule) (fun x => x)). apply (ex_RInt_continuous (V := R_CompleteNormedModule)). intros z _. apply continuous_id.
Qed.

(** ** C106: the comoving distance *)
Lemma slow_rate p z : RInt (slow p) 0 z = RInt (fun x => 1 / rate p x) 0 z.
Proof. apply RInt_ext. intros x _. unfold slow. rewrite parameter_rate. reflexivity. Qed.

(** The Hubble parameter is the expansion rate of the Friedmann equation; it is 1
    today and grows with the redshift. *)
Theorem C106_rate : forall p,
  (forall z, hubble_parameter z p = rate p z) /\ hubble_parameter 0 p = 1 /\
  (expanding p -> forall x y, 0 <= x -> x <= y -> hubble_parameter x p <= hubble_parameter y p).
Proof. intro p. split; [intro z; apply parameter_rate|]. split; [apply parameter_today|]. intros E x y. apply parameter_grows. exact E. Qed.
Print Assumptions C106_rate.

(** Nothing separates us from here and now. *)
Theorem C106_today : forall c p precision, comoving_distance c 0 p precision = Ok 0.
Proof. intros. unfold comoving_distance. replace (req 0 0) with true; [reflexivity|]. symmetry. apply req_iff. reflexivity. Qed.
Print Assumptions C106_today.

(** The distance that is returned lies between the Hubble distance times z / E(z)
    and times z, and is within 4 percent of the integral of 1 / E, times the
    variation of 1 / E. *)
Theorem C106_value : forall c z p precision d, 0 < c -> expanding p -> 0 < z ->
  comoving_distance c z p precision = Ok d ->
  let dh := c * 1000 / hubble_constant p in
  dh * z / rate p z <= d <= dh * z /\
  Rabs (d - dh * RInt (fun x => 1 / rate p x) 0 z) <= 5 / 128 * (dh * z) * (1 - 1 / rate p z).
Proof. intros c z p prec d C E Z H. pose proof (comoving_value c z p prec d C E Z H) as B. rewrite slow_rate, parameter_rate in B. exact B. Qed.
Print Assumptions C106_value.

(** The integration ends in time unless the precision is beyond what 2^30 steps
    give; nothing else than an overflow of the order can go wrong. *)
Theorem C106_defined : forall c z p precision, 0 < c -> expanding p -> 0 < z ->
  (exists d, comoving_distance c z p precision = Ok d) \/
  (comoving_distance c z p precision = UB /\ precision * 2 ^ 30 < 15 / 8 * (rate p z - 1)).
Proof.
  intros c z p prec C E Z. destruct (comoving_outcome c z p prec C E Z) as [[H B]|(m & _ & H)].
  - right. rewrite parameter_rate in B. split; assumption.
  - left. eexists. exact H.
Qed.
Print Assumptions C106_defined.
(** In particular with the default precision, in every flat universe up to the
    redshift 14. *)
Lemma flat_rate p z : flat p -> 0 <= omega_m p <= 1 -> 0 <= z <= 14 -> rate p z <= 582 / 10.
Proof.
  intros F M Z. unfold rate. replace (582 / 10) with (sqrt (582 / 10 * (582 / 10))) by (apply sqrt_square; lra). apply sqrt_le_1_alt.
  unfold flat in F. replace (1 - omega_m p - omega_lambda p) with 0 by lra. replace (omega_lambda p) with (1 - omega_m p) by lra.
  assert (Q : (1 + z) ^ 3 <= 15 ^ 3) by (apply pow_incr; lra). assert (Q1 : 1 <= (1 + z) ^ 3) by (apply pow_R1_Rle; lra).
  assert (Q5 : 15 ^ 3 = 3375) by ring. rewrite Q5 in Q. set (q := (1 + z) ^ 3) in *. set (w := (1 + z) ^ 2).
  assert (X : omega_m p * (q - 1) <= 1 * (3375 - 1)) by (apply Rmult_le_compat; lra). lra.
Qed.
Lemma flat_expanding p : flat p -> 0 <= omega_m p <= 1 -> 0 < hubble_constant p -> expanding p.
Proof. unfold flat, expanding. lra. Qed.
Theorem C106_defined_flat : forall c z p, 0 < c -> flat p -> 0 <= omega_m p <= 1 -> 0 < hubble_constant p -> 0 < z <= 14 ->
  exists d, comoving_distance c z p default_precision = Ok d.
Proof.
  intros c z p C F M H Z. destruct (C106_defined c z p default_precision C (flat_expanding p F M H) ltac:(lra)) as [D|[_ B]]; [exact D|].
  pose proof (flat_rate p z F M ltac:(lra)) as R. unfold default_precision in B. exfalso. assert (2 ^ 30 = 1073741824) by (simpl; ring). lra.
Qed.
Print Assumptions C106_defined_flat.
Example C106_value_ex : exists d, comoving_distance 300 1 (mkCosmo (3 / 10) (7 / 10) 70) default_precision = Ok d /\ 0 < d <= 300 * 1000 / 70.
Proof.
  destruct (C106_defined_flat 300 1 (mkCosmo (3 / 10) (7 / 10) 70)) as [d H]; try (unfold flat; cbn; lra).
  exists d. split; [exact H|]. assert (E : expanding (mkCosmo (3 / 10) (7 / 10) 70)) by (unfold expanding; cbn; lra).
  pose proof (C106_value 300 1 _ _ d ltac:(lra) E ltac:(lra) H) as [[B1 B2] _]. cbn [hubble_constant] in B1, B2. rewrite Rmult_1_r in B2. split; [|exact B2].
  eapply Rlt_le_trans; [|exact B1]. rewrite <- parameter_rate. pose proof (parameter_ge1 _ 1 E ltac:(lra)). apply Rdiv_lt_0_compat; lra.
Qed.

(** A universe that expands k times faster is k times smaller. *)
Theorem C106_scaling : forall c z m l h k precision, 0 < h -> 0 < k ->
  comoving_distance c z (mkCosmo m l (k * h)) precision = (do d <- comoving_distance c z (mkCosmo m l h) precision; Ok (d / k)).
Proof.
  intros c z m l h k prec H K. unfold comoving_distance. destruct (req z 0).
  - cbn [bind]. f_equal. field. lra.
  - change (fun x => 1 / hubble_parameter x (mkCosmo m l (k * h))) with (fun x => 1 / hubble_parameter x (mkCosmo m l h)).
    destruct (integrate_with _ _ _ _); try reflexivity. cbn [bind]. f_equal. unfold hubble_distance. cbn [hubble_constant]. field. lra.
Qed.
Print Assumptions C106_scaling.

(** Without matter and with a flat space the distance is exactly proportional to
    the redshift. *)
Theorem C106_de_sitter : forall c z h precision, 0 < c -> 0 < h -> 0 < z -> 0 <= precision ->
  comoving_distance c z (mkCosmo 0 1 h) precision = Ok (c * 1000 / h * z).
Proof.
  intros c z h prec C H Z P. assert (E : expanding (mkCosmo 0 1 h)) by (unfold expanding; cbn; lra).
  assert (R : rate (mkCosmo 0 1 h) z = 1) by (unfold rate; cbn [omega_m omega_lambda]; replace (0 * (1 + z) ^ 3 + (1 - 0 - 1) * (1 + z) ^ 2 + 1) with 1 by ring; apply sqrt_1).
  destruct (C106_defined c z (mkCosmo 0 1 h) prec C E Z) as [[d D]|[_ B]].
  - destruct (C106_value c z _ prec d C E Z D) as [B _]. rewrite R in B. cbn [hubble_constant] in B. rewrite D. f_equal. unfold Rdiv in B at 1. rewrite Rinv_1 in B. lra.
  - rewrite R in B. assert (0 <= prec * 2 ^ 30) by (apply Rmult_le_pos; [exact P|apply pow_le; lra]). lra.
Qed.
Print Assumptions C106_de_sitter.

(** ** C107: the distances of an observer *)
(** The transverse distance is the comoving one when the space is flat, at least as
    large when it is open, and at most as large when it is closed. *)
Theorem C107_transverse : forall c z p d, 0 < c -> expanding p -> 0 <= z ->
  comoving_distance c z p default_precision = Ok d ->
  exists t, transverse_distance c z p = Ok t /\
    (flat p -> t = d) /\
    (omega_m p + omega_lambda p < 1 -> d <= t) /\
    (1 < omega_m p + omega_lambda p -> - d <= t <= d).
Proof.
  intros c z p d C E Z H. unfold transverse_distance. rewrite H. cbn [bind].
  assert (D0 : 0 <= d).
  { destruct (Req_dec z 0) as [->|N]; [rewrite C106_today in H; injection H as <-; lra|].
    destruct (C106_value c z p _ d C E ltac:(lra) H) as [[B _] _]. eapply Rle_trans; [|exact B].
    rewrite <- parameter_rate. pose proof (parameter_ge1 p z E Z). pose proof (hubble_distance_pos c p C E). unfold hubble_distance in *.
    apply Rmult_le_pos; [apply Rmult_le_pos; lra|left; apply Rinv_0_lt_compat; lra]. }
  destruct (req (omega_k p) 0) eqn:K.
  - exists d. apply req_iff in K. unfold omega_k in K. split; [reflexivity|]. repeat split; intros; lra.
  - apply req_not in K. set (r := hubble_distance c p / sqrt (Rabs (omega_k p))).
    assert (R : 0 < r) by (unfold r; apply Rdiv_lt_0_compat; [apply hubble_distance_pos; assumption|apply sqrt_lt_R0; apply Rabs_pos_lt; exact K]).
    assert (X : 0 <= d / r) by (apply Rmult_le_pos; [exact D0|left; apply Rinv_0_lt_compat; exact R]).
    assert (ED : r * (d / r) = d) by (field; lra).
    eexists. split; [reflexivity|]. unfold omega_k in *. repeat split.
    + intro F. unfold flat in F. exfalso. apply K. lra.
    + intro O. destruct (rlt 0 (1 - omega_m p - omega_lambda p)) eqn:RL; [|exfalso; apply rlt_not in RL; lra].
      rewrite <- ED at 1. apply Rmult_le_compat_l; [lra|]. apply sinh_ge. exact X.
    + destruct (rlt 0 (1 - omega_m p - omega_lambda p)) eqn:RL; [exfalso; apply rlt_iff in RL; lra|].
      rewrite <- ED at 1. rewrite Ropp_mult_distr_r. apply Rmult_le_compat_l; [lra|]. apply sin_ge. exact X.
    + destruct (rlt 0 (1 - omega_m p - omega_lambda p)) eqn:RL; [exfalso; apply rlt_iff in RL; lra|].
      rewrite <- ED at 2. apply Rmult_le_compat_l; [lra|]. apply sin_le. exact X.
Qed.
Print Assumptions C107_transverse.
Example C107_transverse_ex : exists d t, comoving_distance 300 1 (mkCosmo (3 / 10) 0 70) default_precision = Ok d /\ transverse_distance 300 1 (mkCosmo (3 / 10) 0 70) = Ok t /\ d <= t.
Proof.
  assert (E : expanding (mkCosmo (3 / 10) 0 70)) by (unfold expanding; cbn; lra).
  destruct (C106_defined 300 1 (mkCosmo (3 / 10) 0 70) default_precision ltac:(lra) E ltac:(lra)) as [[d D]|[_ B]].
  - destruct (C107_transverse 300 1 _ d ltac:(lra) E ltac:(lra) D) as (t & T & _ & O & _). exists d, t. split; [exact D|]. split; [exact T|]. apply O. cbn. lra.
  - exfalso. assert (R : rate (mkCosmo (3 / 10) 0 70) 1 <= 10).
    { unfold rate. cbn [omega_m omega_lambda]. apply Rle_trans with (sqrt (10 * 10)); [apply sqrt_le_1_alt; lra|right; apply sqrt_square; lra]. }
    unfold default_precision in B. assert (2 ^ 30 = 1073741824) by (simpl; ring). lra.
Qed.

(** Light of a source at the redshift z is diluted as if the source were (1 + z)
    times the transverse distance away; today the distance is 10 and the modulus 0. *)
Theorem C107_luminous : forall c p,
  luminous_distance c 0 p = Ok 10 /\ distance_modulus c 0 p = Ok (Some 0) /\
  (forall z, z <> 0 -> luminous_distance c z p = (do t <- transverse_distance c z p; Ok ((1 + z) * t))).
Proof.
  intros c p. assert (L : luminous_distance c 0 p = Ok 10) by (unfold luminous_distance; replace (req 0 0) with true by (symmetry; apply req_iff; reflexivity); reflexivity).
  split; [exact L|]. split.
  - unfold distance_modulus. rewrite L. cbn [bind]. unfold log10. replace (10 / 10) with 1 by field.
    replace (rlt 0 1) with true by (symmetry; apply rlt_iff; lra). rewrite ln_1. do 2 f_equal. unfold Rdiv. ring.
  - intros z N. unfold luminous_distance. replace (req z 0) with false by (symmetry; apply req_not; exact N). reflexivity.
Qed.
Print Assumptions C107_luminous.

(** The modulus is five times the decimal logarithm of the distance over 10 parsec. *)
Theorem C107_modulus : forall c z p mu, distance_modulus c z p = Ok (Some mu) ->
  exists d, luminous_distance c z p = Ok d /\ 0 < d /\ 10 * Rpower 10 (mu / 5) = d.
Proof.
  intros c z p mu H. unfold distance_modulus in H. destruct (luminous_distance c z p) as [d| | |]; try discriminate. cbn [bind] in H.
  unfold log10 in H. destruct (rlt 0 (d / 10)) eqn:R; [|discriminate]. injection H as <-. apply rlt_iff in R.
  exists d. split; [reflexivity|]. split; [lra|]. unfold Rpower. replace (5 * (ln (d / 10) / ln 10) / 5 * ln 10) with (ln (d / 10)).
  - rewrite exp_ln by exact R. field.
  - field. rewrite <- ln_1. apply Rgt_not_eq. apply ln_increasing; lra.
Qed.
Print Assumptions C107_modulus.
(** It is a number whenever the space is not closed and the source not here. *)
Theorem C107_modulus_defined : forall c z p d, 0 < c -> expanding p -> omega_m p + omega_lambda p <= 1 -> 0 < z ->
  comoving_distance c z p default_precision = Ok d -> exists mu, distance_modulus c z p = Ok (Some mu).
Proof.
  intros c z p d C E O Z H. destruct (C107_transverse c z p d C E ltac:(lra) H) as (t & T & F & P & _).
  assert (D0 : 0 < d).
  { destruct (C106_value c z p _ d C E Z H) as [[B _] _]. eapply Rlt_le_trans; [|exact B].
    rewrite <- parameter_rate. pose proof (parameter_ge1 p z E ltac:(lra)). pose proof (hubble_distance_pos c p C E). unfold hubble_distance in *.
    apply Rdiv_lt_0_compat; [|lra]. apply Rmult_lt_0_compat; lra. }
  assert (T0 : 0 < t) by (destruct (Req_dec (omega_m p + omega_lambda p) 1) as [Q|Q]; [rewrite (F Q); exact D0|]; specialize (P ltac:(lra)); lra).
  unfold distance_modulus. destruct (C107_luminous c p) as (_ & _ & L). rewrite L, T by lra. cbn [bind]. unfold log10.
  assert (X : 0 < (1 + z) * t) by (apply Rmult_lt_0_compat; lra).
  replace (rlt 0 ((1 + z) * t / 10)) with true by (symmetry; apply rlt_iff; lra). eexists. reflexivity.
Qed.
Print Assumptions C107_modulus_defined.

(** Refuted: the luminous distance does not grow with the redshift. In every flat
    universe there is a source with a redshift that is nearer than the 10 parsec of
    a source without one. *)
Theorem C107_growing_refuted : forall c p, 0 < c -> flat p -> 0 <= omega_m p <= 1 -> 0 < hubble_constant p ->
  exists z d, 0 < z /\ luminous_distance c z p = Ok d /\ luminous_distance c 0 p = Ok 10 /\ d < 10.
Proof.
  intros c p C F M H. pose proof (flat_expanding p F M H) as E. pose proof (hubble_distance_pos c p C E) as P.
  set (z := Rmin 1 (1 / hubble_distance c p)).
  assert (Z : 0 < z <= 1) by (unfold z; split; [apply Rmin_glb_lt; [lra|apply Rdiv_lt_0_compat; lra]|apply Rmin_l]).
  assert (Y : hubble_distance c p * z <= 1).
  { apply Rle_trans with (hubble_distance c p * (1 / hubble_distance c p)); [apply Rmult_le_compat_l; [lra|apply Rmin_r]|]. right. field. lra. }
  destruct (C106_defined_flat c z p C F M H ltac:(lra)) as [d D]. destruct (C107_transverse c z p d C E ltac:(lra) D) as (t & T & TF & _).
  destruct (C107_luminous c p) as (L0 & _ & L). exists z, ((1 + z) * d). rewrite L, T by lra. rewrite (TF F). cbn [bind].
  split; [lra|]. split; [reflexivity|]. split; [exact L0|].
  destruct (C106_value c z p _ d C E ltac:(lra) D) as [[_ B] _]. fold (hubble_distance c p) in B.
  apply Rle_lt_trans with (2 * 1); [|lra]. destruct (Rle_lt_dec 0 d) as [D0|D0]; [apply Rmult_le_compat; lra|].
  assert ((1 + z) * d <= 0); [|lra]. assert (0 <= (1 + z) * - d) by (apply Rmult_le_pos; lra). lra.
Qed.
Print Assumptions C107_growing_refuted.

(** The volume element is never negative, and at most z^2 / E(z) when the space is
    not open. *)
Theorem C107_volume : forall c z p v, 0 < c -> expanding p -> 0 < z ->
  volume_element c z p = Ok v -> 0 <= v /\ (1 <= omega_m p + omega_lambda p -> v <= z * z / rate p z).
Proof.
  intros c z p v C E Z H. unfold volume_element in H. destruct (transverse_distance c z p) as [t| | |] eqn:T; try discriminate. cbn [bind] in H. injection H as <-.
  pose proof (parameter_ge1 p z E ltac:(lra)) as G. pose proof (hubble_distance_pos c p C E) as P. rewrite <- parameter_rate.
  set (e := hubble_parameter z p) in *. set (dh := hubble_distance c p) in *.
  assert (Q : 0 < e * dh * dh) by (apply Rmult_lt_0_compat; [apply Rmult_lt_0_compat; lra|exact P]).
  split; [apply Rmult_le_pos; [apply Rle_0_sqr|left; apply Rinv_0_lt_compat; exact Q]|]. intro O.
  destruct (comoving_distance c z p default_precision) as [d| | |] eqn:D; [|unfold transverse_distance in T; rewrite D in T; discriminate..].
  destruct (C107_transverse c z p d C E ltac:(lra) D) as (t' & T' & F & _ & K). rewrite T in T'. injection T' as <-.
  destruct (C106_value c z p _ d C E Z D) as [[_ B] _]. fold (hubble_distance c p) in B. fold dh in B.
  assert (A : Rabs t <= dh * z).
  { assert (D0 : 0 <= d) by (destruct (C106_value c z p _ d C E Z D) as [[B1 _] _]; eapply Rle_trans; [|exact B1]; fold (hubble_distance c p); fold dh; rewrite <- parameter_rate; fold e; apply Rmult_le_pos; [apply Rmult_le_pos; lra|left; apply Rinv_0_lt_compat; lra]).
    destruct (Req_dec (omega_m p + omega_lambda p) 1) as [Q1|Q1]; [rewrite (F Q1), Rabs_right by lra; exact B|]. apply Rabs_le. specialize (K ltac:(lra)). lra. }
  apply Rmult_le_reg_r with (e * dh * dh); [exact Q|]. unfold Rdiv. rewrite Rmult_assoc, Rinv_l by lra. rewrite Rmult_1_r.
  replace (z * z * / e * (e * dh * dh)) with ((dh * z) * (dh * z)) by (field; lra).
  replace (t * t) with (Rabs t * Rabs t) by (rewrite <- Rabs_mult; apply Rabs_right; apply Rle_ge; apply Rle_0_sqr).
  apply Rmult_le_compat; try apply Rabs_pos; exact A.
Qed.
Print Assumptions C107_volume.
Example C107_volume_ex : exists v, volume_element 300 1 (mkCosmo 0 1 70) = Ok v /\ v = 1.
Proof.
  unfold volume_element, transverse_distance. rewrite C106_de_sitter by (unfold default_precision; lra). cbn [bind].
  replace (req (omega_k (mkCosmo 0 1 70)) 0) with true by (symmetry; apply req_iff; unfold omega_k; cbn; lra). cbn [bind].
  eexists. split; [reflexivity|]. rewrite parameter_rate. unfold rate, hubble_distance. cbn [omega_m omega_lambda hubble_constant].
  replace (0 * (1 + 1) ^ 3 + (1 - 0 - 1) * (1 + 1) ^ 2 + 1) with 1 by ring. rewrite sqrt_1. field.
Qed.
