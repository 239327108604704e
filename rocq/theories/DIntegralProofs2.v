(** The integrand of the comoving distance. *)
From Coq Require Import ZArith Reals List Arith Bool Lia Lra Psatz.
From Flocq Require Import Core IEEE754.BinarySingleNaN.
From Verif Require Import Common FloatModel FloatProofs DoubleProofs DoubleProofs2 DInterpProofs2 DSOMProofs2 DSplineProofs DGridProofs2 DQuadModel DQuadSpec DQuadProps DCosmoModel DCosmoSpec DCosmoProofs DCosmoProps DIntegralSpec DIntegralProofs.
Local Open Scope R_scope.

Section Slow.
  Variables m k l : R.
  Hypothesis PM : 0 <= m.
  Hypothesis PK : 0 <= k.
  Hypothesis PL : 0 <= l.
  Hypothesis POS : 0 < m + k + l.
  Definition rad (w : R) : R := m * w ^ 3 + k * w ^ 2 + l.
  Lemma rad_low w : 1 <= w -> m + k + l <= rad w.
  Proof. intros W. unfold rad. replace (w ^ 3) with (w * w * w) by ring. replace (w ^ 2) with (w * w) by ring. assert (1 <= w * w) by nra. assert (1 <= w * w * w) by nra. nra. Qed.
  Lemma rate_pos x : 0 <= x -> 0 < rate m k l x.
  Proof. intros X. unfold rate. apply sqrt_lt_R0. pose proof (rad_low (1 + x) ltac:(lra)). unfold rad in *. lra. Qed.
  Lemma rad_grows u v : 1 <= u -> u <= v -> rad u <= rad v.
  Proof.
    intros U V. unfold rad. assert (u ^ 3 <= v ^ 3) by (apply pow_incr; lra). assert (u ^ 2 <= v ^ 2) by (apply pow_incr; lra).
    pose proof (Rmult_le_compat_l m _ _ PM H). pose proof (Rmult_le_compat_l k _ _ PK H0). lra.
  Qed.
  Lemma rate_grows x y : 0 <= x -> x <= y -> rate m k l x <= rate m k l y.
  Proof. intros X Y. unfold rate. apply sqrt_le_1_alt. apply (rad_grows (1 + x) (1 + y)); lra. Qed.
  (** The rate grows at most like the square of 1 + z. *)
  Lemma rate_ratio x y : 0 <= x -> x <= y -> rate m k l y <= rate m k l x * ((1 + y) / (1 + x)) ^ 2.
  Proof.
    intros X Y. set (r := (1 + y) / (1 + x)). assert (R1 : 1 <= r) by (unfold r; apply Rmult_le_reg_r with (1 + x); [lra|]; unfold Rdiv; rewrite Rmult_assoc, Rinv_l by lra; lra).
    assert (E : 1 + y = (1 + x) * r) by (unfold r; field; lra).
    assert (P : 0 <= rate m k l x * r ^ 2) by (apply Rmult_le_pos; [left; apply rate_pos, X|apply pow_le; lra]).
    rewrite <- (sqrt_Rsqr _ P). unfold rate at 1. apply sqrt_le_1_alt. unfold Rsqr.
    replace (rate m k l x * r ^ 2 * (rate m k l x * r ^ 2)) with (rate m k l x * rate m k l x * r ^ 4) by ring.
    assert (S : rate m k l x * rate m k l x = rad (1 + x)) by (unfold rate; apply sqrt_sqrt; pose proof (rad_low (1 + x) ltac:(lra)); unfold rad in *; lra).
    rewrite S, E. unfold rad. set (w := 1 + x) in *. assert (W1 : 1 <= w) by (unfold w; lra).
    rewrite !Rpow_mult_distr. assert (R2 : r ^ 2 <= r ^ 4) by (apply Rle_pow; [exact R1|lia]). assert (R3 : r ^ 3 <= r ^ 4) by (apply Rle_pow; [exact R1|lia]). assert (R4 : 1 <= r ^ 4) by (apply pow_R1_Rle; exact R1).
    assert (A3 : 0 <= m * w ^ 3) by (apply Rmult_le_pos; [exact PM|apply pow_le; lra]). assert (A2 : 0 <= k * w ^ 2) by (apply Rmult_le_pos; [exact PK|apply pow_le; lra]).
    pose proof (Rmult_le_compat_l _ _ _ A3 R3). pose proof (Rmult_le_compat_l _ _ _ A2 R2). pose proof (Rmult_le_compat_l _ _ _ PL R4). lra.
  Qed.
  Lemma slow_slope x y : 0 <= x -> x <= y -> 0 <= 1 / rate m k l x - 1 / rate m k l y <= 2 / rate m k l 0 * (y - x).
  Proof.
    intros X Y. pose proof (rate_pos 0 ltac:(lra)) as P0. pose proof (rate_pos x X) as P1. pose proof (rate_pos y ltac:(lra)) as P2. pose proof (rate_grows 0 x ltac:(lra) X) as G1. pose proof (rate_grows x y X Y) as G2. pose proof (rate_ratio x y X Y) as Q.
    set (e0 := rate m k l 0) in *. set (ex := rate m k l x) in *. set (ey := rate m k l y) in *. clearbody e0 ex ey. set (r := (1 + y) / (1 + x)) in *.
    assert (R1 : 1 <= r) by (unfold r; apply Rmult_le_reg_r with (1 + x); [lra|]; unfold Rdiv; rewrite Rmult_assoc, Rinv_l by lra; lra).
    assert (RY : r - 1 <= y - x). { unfold r. replace ((1 + y) / (1 + x) - 1) with ((y - x) * / (1 + x)) by (field; lra). rewrite <- (Rmult_1_r (y - x)) at 2. apply Rmult_le_compat_l; [lra|]. rewrite <- Rinv_1. apply Rinv_le; lra. }
    clearbody r. split.
    - unfold Rdiv. rewrite !Rmult_1_l. pose proof (Rinv_le ex ey P1 G2). lra.
    - assert (LO : / ex * / r ^ 2 <= / ey) by (rewrite <- Rinv_mult; apply Rinv_le; assumption).
      assert (RR : 1 - / r ^ 2 <= 2 * (r - 1)). { apply Rmult_le_reg_r with (r ^ 2); [apply pow_lt; lra|]. rewrite Rmult_minus_distr_r, Rinv_l by (apply pow_nonzero; lra). replace (r ^ 2) with (r * r) by ring. assert (0 <= (r - 1) * (r - 1) * (2 * r + 1)) by (apply Rmult_le_pos; [nra|lra]). lra. }
      assert (IE : 0 < / ex <= / e0) by (split; [apply Rinv_0_lt_compat, P1|apply Rinv_le; assumption]).
      unfold Rdiv. rewrite !Rmult_1_l. apply Rle_trans with (/ ex * (2 * (r - 1))); [nra|]. replace (2 * / e0 * (y - x)) with (/ e0 * (2 * (y - x))) by ring. apply Rmult_le_compat; lra.
  Qed.
  Lemma slow_slope_within z : 0 <= z -> slope_within (fun x => 1 / rate m k l x) 0 z (2 / rate m k l 0).
  Proof.
    intros Z x y HX HY. unfold among in HX, HY. rewrite Rmin_left, Rmax_right in HX, HY by exact Z. destruct (Rle_lt_dec x y) as [L|L].
    - pose proof (slow_slope x y ltac:(lra) L). rewrite Rabs_pos_eq by lra. rewrite Rabs_minus_sym, (Rabs_pos_eq (y - x)) by lra. lra.
    - pose proof (slow_slope y x ltac:(lra) ltac:(lra)). rewrite Rabs_minus_sym, Rabs_pos_eq by lra. rewrite (Rabs_pos_eq (x - y)) by lra. lra.
  Qed.
  Lemma slow_size_within z : 0 <= z -> size_within (fun x => 1 / rate m k l x) 0 z (1 / rate m k l 0).
  Proof.
    intros Z x HX. unfold among in HX. rewrite Rmin_left, Rmax_right in HX by exact Z. pose proof (slow_slope 0 x ltac:(lra) ltac:(lra)). pose proof (rate_pos x ltac:(lra)) as P. assert (0 < / rate m k l x) by (apply Rinv_0_lt_compat, P). rewrite Rabs_pos_eq; lra.
  Qed.
End Slow.

Lemma slow_computed p z : sensible (dc_m p) -> sensible (dc_lambda p) -> sensible (dc_k p) -> 0 <= B2R (dc_m p) -> 0 <= B2R (dc_lambda p) -> 0 <= B2R (dc_k p) ->
  0 < B2R (dc_m p) + B2R (dc_k p) + B2R (dc_lambda p) -> redshift z ->
  computes (dintegrand p) (fun x => 1 / rate (B2R (dc_m p)) (B2R (dc_k p)) (B2R (dc_lambda p)) x) d0 z (bpow radix2 (-47) / rate (B2R (dc_m p)) (B2R (dc_k p)) (B2R (dc_lambda p)) 0).
Proof.
  intros SM SL SK PM PL PK POS (FZ & PZ & BZ) x LX. pose proof (lies_among d0 z x eq_refl FZ LX) as AX. change (B2R d0) with 0 in AX. unfold among in AX. rewrite Rmin_left, Rmax_right in AX by exact PZ.
  assert (NX : num x) by (destruct LX as [[L _]|[L _]]; apply (dle_nums _ _ L)).
  assert (FX : is_finite x = true). { apply (dfinite_iff x NX). pose proof (dext_lt d0 eq_refl). pose proof (dext_lt z FZ). destruct LX as [[L1 L2]|[L1 L2]]; apply dle_iff in L1; apply dle_iff in L2; auto using dfinite_num; try reflexivity; lra. }
  assert (RX : redshift x) by (split; [exact FX|lra]).
  destruct (C164_rate p x SM SL SK PM PL RX (or_introl PK)) as [FR ER]. destruct SM as (_ & BM & TM). destruct SL as (_ & BL & TL). destruct SK as (_ & BK & TK).
  set (m := B2R (dc_m p)) in *. set (k := B2R (dc_k p)) in *. set (l := B2R (dc_lambda p)) in *. rewrite (Rabs_pos_eq m PM) in *. rewrite (Rabs_pos_eq k PK) in *. rewrite (Rabs_pos_eq l PL) in *.
  pose proof (rate_pos m k l PM PK POS (B2R x) ltac:(lra)) as RP. pose proof (rate_pos m k l PM PK POS 0 ltac:(lra)) as R0. pose proof (rate_grows m k l PM PK 0 (B2R x) ltac:(lra) ltac:(lra)) as RG.
  assert (LOW : bpow radix2 (-400) <= rate m k l (B2R x)).
  { rewrite <- (sqrt_Rsqr (bpow radix2 (-400))) by apply bpow_ge_0. unfold rate. apply sqrt_le_1_alt. unfold Rsqr. rewrite <- bpow_plus. change (-400 + -400)%Z with (-800)%Z.
    apply Rle_trans with (m + k + l); [|apply (rad_low m k l PM PK (1 + B2R x)); lra]. destruct TM as [TM|TM]; [|lra]. destruct TL as [TL|TL]; [|lra]. destruct TK as [TK|TK]; [lra|lra]. }
  assert (HIGH : rate m k l (B2R x) <= bpow radix2 300).
  { rewrite <- (sqrt_Rsqr (bpow radix2 300)) by apply bpow_ge_0. unfold rate. apply sqrt_le_1_alt. unfold Rsqr. rewrite <- bpow_plus. change (300 + 300)%Z with 600%Z.
    assert (W : 1 <= 1 + B2R x <= bpow radix2 101) by (replace (bpow radix2 101) with (2 * bpow radix2 100) by (rewrite twice; reflexivity); assert (1 <= bpow radix2 100) by (change 1 with (bpow radix2 0); apply bpow_le; lia); lra).
    set (w := 1 + B2R x) in *. assert (W2 : w ^ 2 <= bpow radix2 202) by (replace (bpow radix2 202) with (bpow radix2 101 ^ 2) by (cbn [pow]; rewrite Rmult_1_r, <- bpow_plus; reflexivity); apply pow_incr; lra).
    assert (W3 : w ^ 3 <= bpow radix2 303) by (replace (bpow radix2 303) with (bpow radix2 101 ^ 3) by (cbn [pow]; rewrite Rmult_1_r, <- !bpow_plus; reflexivity); apply pow_incr; lra).
    assert (P2 : 0 <= w ^ 2) by (apply pow_le; lra). assert (P3 : 0 <= w ^ 3) by (apply pow_le; lra).
    assert (A : m * w ^ 3 <= bpow radix2 403) by (change 403%Z with (100 + 303)%Z; rewrite bpow_plus; apply Rmult_le_compat; assumption). assert (C : k * w ^ 2 <= bpow radix2 302) by (change 302%Z with (100 + 202)%Z; rewrite bpow_plus; apply Rmult_le_compat; assumption).
    assert (H1 : bpow radix2 403 <= bpow radix2 598) by (apply bpow_le; lia). assert (H2 : bpow radix2 302 <= bpow radix2 598) by (apply bpow_le; lia). assert (H3 : bpow radix2 100 <= bpow radix2 598) by (apply bpow_le; lia).
    replace (bpow radix2 600) with (4 * bpow radix2 598) by (change 4 with (bpow radix2 2); rewrite <- bpow_plus; reflexivity). lra. }
  set (e := rate m k l (B2R x)) in *. set (e0 := rate m k l 0) in *. clearbody e e0. set (y := B2R (dhubble_parameter x p)) in *.
  assert (S48 : 0 < bpow radix2 (-48) <= / 16) by (split; [apply bpow_gt_0|change (/ 16) with (bpow radix2 (-4)); apply bpow_le; lia]).
  assert (B47 : bpow radix2 (-47) = 2 * bpow radix2 (-48)) by (rewrite twice; reflexivity). assert (B53 : bpow radix2 (-48) = 32 * uro) by (unfold uro; change 32 with (bpow radix2 5); rewrite <- bpow_plus; reflexivity).
  assert (YB : e / 2 <= y <= 2 * e) by (apply Rabs_le_inv in ER; nra). assert (YP : 0 < y) by lra.
  destruct one_val as [F1 V1]. destruct (ddiv_ext d1 (dhubble_parameter x p) F1 FR) as [N E]; [rewrite dext_finite by exact FR; fold y; lra|]. rewrite (dext_finite _ F1), (dext_finite _ FR), V1 in E. fold y in E.
  assert (IY : bpow radix2 (-301) <= 1 / y <= bpow radix2 401).
  { unfold Rdiv. rewrite Rmult_1_l. split.
    - change (-301)%Z with (- (301))%Z. rewrite bpow_opp. apply Rinv_le; [exact YP|]. replace (bpow radix2 301) with (2 * bpow radix2 300) by (rewrite twice; reflexivity). lra.
    - replace (bpow radix2 401) with (/ bpow radix2 (-401)) by (rewrite <- bpow_opp; reflexivity). apply Rinv_le; [apply bpow_gt_0|]. replace (bpow radix2 (-400)) with (2 * bpow radix2 (-401)) in LOW by (rewrite twice; reflexivity). lra. }
  assert (IY' : Rabs (1 / y) = 1 / y) by (apply Rabs_pos_eq; pose proof (bpow_ge_0 radix2 (-301)); lra).
  unfold dintegrand. destruct (fin_value _ _ 401 ltac:(lia) N E) as (F & V & _); [rewrite IY'; apply IY|]. split; [exact F|]. rewrite V.
  destruct (rnd_rel (1 / y)) as (d & D & ->); [rewrite IY'; apply Rle_trans with (2 := proj1 IY); apply bpow_le; lia|].
  replace (1 / y * (1 + d) - 1 / e) with (/ e * ((e - y) / y + e / y * d)) by (field; split; lra).
  assert (IE : 0 < / e <= / e0) by (split; [apply Rinv_0_lt_compat, RP|apply Rinv_le; assumption]).
  rewrite Rabs_mult, (Rabs_pos_eq (/ e)) by lra. unfold Rdiv at 3. rewrite (Rmult_comm _ (/ e0)). apply Rmult_le_compat; [lra|apply Rabs_pos|apply IE|].
  assert (EY : 0 <= e / y <= 16 / 15). { split; [apply Rmult_le_pos; [lra|left; apply Rinv_0_lt_compat, YP]|]. apply Rmult_le_reg_r with y; [exact YP|]. unfold Rdiv. rewrite Rmult_assoc, Rinv_l by lra. apply Rabs_le_inv in ER. nra. }
  assert (T1 : Rabs ((e - y) / y) <= bpow radix2 (-48) * (16 / 15)).
  { replace ((e - y) / y) with ((e - y) / e * (e / y)) by (field; split; lra). rewrite Rabs_mult. apply Rmult_le_compat; [apply Rabs_pos|apply Rabs_pos| |rewrite Rabs_pos_eq by lra; apply EY].
    unfold Rdiv. rewrite Rabs_mult, (Rabs_pos_eq (/ e)) by lra. apply Rmult_le_reg_r with e; [exact RP|]. rewrite Rmult_assoc, Rinv_l, Rmult_1_r by lra. rewrite Rabs_minus_sym. exact ER. }
  assert (T2 : Rabs (e / y * d) <= 16 / 15 * uro) by (rewrite Rabs_mult, (Rabs_pos_eq (e / y)) by apply EY; apply Rmult_le_compat; [apply EY|apply Rabs_pos|apply EY|exact D]).
  eapply Rle_trans; [apply Rabs_triang|]. rewrite B47. lra.
Qed.
