(** The solutions of a quadratic equation (MathUtils/src/lib/helpers/Solvers.cpp). *)
From Coq Require Import ZArith Reals List Arith Bool Lia Lra Psatz.
From Flocq Require Import Core IEEE754.BinarySingleNaN.
From Verif Require Import Common FunModel FunProofs InvCumulModel FloatModel FloatProofs DoubleProofs DoubleProofs2 DInterpProofs DInterpProofs2 DSOMProofs DSplineModel DSplineSpec DSplineProofs DSplineProofs2 DSplineProofs3 DSplineProofs4 DSplineProofs5 DPieceSpec DPieceProofs DModeModel DModeSpec DModeProofs DModeProofs2 DDiffProofs DDiffProofs2 DInvModel DInvProofs.
Local Open Scope R_scope.

(** ** C168 *)

(** With exact arithmetic: the numbers returned are all the solutions of y = a x^2 + b x + c, the smaller one
    first; without a solution there is no number to return (a NaN in the program). *)
Theorem C168_solutions a b c y : a <> 0 -> 0 <= b ^ 2 - 4 * a * (c - y) ->
  exists x0 x1, solve_square a b c y = Ok (x0, x1) /\ x0 <= x1 /\ (forall x, a * x ^ 2 + b * x + c = y <-> x = x0 \/ x = x1).
Proof.
  intros A D. unfold solve_square. destruct (req a 0) eqn:Q; rtest Q; [contradiction|]. cbn [negb].
  set (r := (y - c) / a + b / (2 * a) * (b / (2 * a))).
  assert (E : r = (b ^ 2 - 4 * a * (c - y)) / (2 * a) ^ 2) by (unfold r; field; exact A).
  assert (P : 0 <= r).
  { rewrite E. apply Rmult_le_pos; [exact D|]. apply Rlt_le, Rinv_0_lt_compat. assert (0 < a ^ 2) by (pose proof (Rsqr_pos_lt a A); unfold Rsqr in *; lra). nra. }
  destruct (rlt r 0) eqn:L; rtest L; [lra|]. pose proof (sqrt_pos r) as SP. pose proof (sqrt_sqrt r P) as SS. set (s := sqrt r) in *.
  exists (- s - b / (2 * a)), (s - b / (2 * a)). split; [reflexivity|]. split; [lra|]. intros x.
  assert (K : a * x ^ 2 + b * x + c - y = a * ((x - (- s - b / (2 * a))) * (x - (s - b / (2 * a))))).
  { replace ((x - (- s - b / (2 * a))) * (x - (s - b / (2 * a)))) with ((x + b / (2 * a)) ^ 2 - s * s) by ring. rewrite SS. unfold r. field. exact A. }
  split; intros H.
  - assert (Z : a * ((x - (- s - b / (2 * a))) * (x - (s - b / (2 * a)))) = 0) by lra.
    apply Rmult_integral in Z. destruct Z as [Z|Z]; [contradiction|]. apply Rmult_integral in Z. destruct Z; [left|right]; lra.
  - assert (Z : (x - (- s - b / (2 * a))) * (x - (s - b / (2 * a))) = 0) by (apply Rmult_eq_0_compat; destruct H; [left|right]; lra).
    rewrite Z in K. lra.
Qed.
Print Assumptions C168_solutions.

Theorem C168_none a b c y : a <> 0 -> b ^ 2 - 4 * a * (c - y) < 0 -> solve_square a b c y = UB /\ forall x, a * x ^ 2 + b * x + c <> y.
Proof.
  intros A D. assert (A2 : 0 < a ^ 2) by (pose proof (Rsqr_pos_lt a A); unfold Rsqr in *; lra). split.
  - unfold solve_square. destruct (req a 0) eqn:Q; rtest Q; [contradiction|]. cbn [negb]. destruct (rlt _ 0) eqn:L; rtest L; [reflexivity|exfalso].
    assert (E : (2 * a) ^ 2 * ((y - c) / a + b / (2 * a) * (b / (2 * a))) = b ^ 2 - 4 * a * (c - y)) by (field; exact A).
    rewrite <- E in D. apply Rlt_not_le in D. apply D, Rmult_le_pos; [|lra]. nra.
  - intros x H. assert (E : b ^ 2 - 4 * a * (c - y) = (2 * a * x + b) ^ 2) by (rewrite <- H; ring). rewrite E in D. pose proof (Rle_0_sqr (2 * a * x + b)) as G. unfold Rsqr in G. lra.
Qed.
Print Assumptions C168_none.

(** A linear equation has its only solution twice; without x in the equation an exception is thrown. *)
Theorem C168_linear b c y : (b <> 0 -> exists x0, solve_square 0 b c y = Ok (x0, x0) /\ forall x, b * x + c = y <-> x = x0) /\ solve_square 0 0 c y = Throw.
Proof.
  unfold solve_square. replace (req 0 0) with true by (symmetry; apply req_iff; reflexivity). cbn [negb]. split; [|reflexivity].
  intros B. destruct (req b 0) eqn:Q; rtest Q; [contradiction|]. cbn [negb]. exists ((y - c) / b). split; [reflexivity|]. intros x. split; intros H.
  - rewrite <- H. field. exact B.
  - rewrite H. field. exact B.
Qed.
Print Assumptions C168_linear.

(** *** In double precision *)

Lemma deq_zero (a : double) : is_finite a = true -> deq a d0 = true <-> B2R a = 0.
Proof.
  intros F. unfold deq. rewrite (Beqb_correct 53 1024 a d0 F eq_refl). change (B2R d0) with 0. split; intros H.
  - destruct (Req_bool_spec (B2R a) 0); [assumption|discriminate].
  - rewrite H. apply Req_bool_true. reflexivity.
Qed.

(** Only an equation without x throws, whatever the other numbers are. *)
Theorem C168_throws (a b c y : double) : is_finite a = true -> is_finite b = true ->
  (dsolve_square a b c y = Throw <-> B2R a = 0 /\ B2R b = 0) /\ dsolve_square a b c y <> UB /\ dsolve_square a b c y <> Diverge.
Proof.
  intros FA FB. unfold dsolve_square. pose proof (deq_zero a FA) as EA. pose proof (deq_zero b FB) as EB.
  destruct (deq a d0); cbn [negb]; [destruct (deq b d0); cbn [negb]|]; (split; [|split; discriminate]).
  - split; [intros _|reflexivity]. split; [apply EA|apply EB]; reflexivity.
  - split; [discriminate|]. intros [_ H]. apply EB in H. discriminate.
  - split; [discriminate|]. intros [H _]. apply EA in H. discriminate.
Qed.
Print Assumptions C168_throws.

(** The solution of a linear equation, if finite, solves it up to two roundings of y - c and an underflow. *)
Theorem C168_linear_error (a b c y : double) : is_finite a = true -> is_finite b = true -> B2R a = 0 -> B2R b <> 0 ->
  exists x, dsolve_square a b c y = Ok (x, x) /\
    (is_finite x = true -> Rabs (B2R b * B2R x - (B2R y - B2R c)) <= (2 * bpow radix2 (-53) + bpow radix2 (-106)) * Rabs (B2R y - B2R c) + Rabs (B2R b) * bpow radix2 (-1075)).
Proof.
  intros FA FB A B. unfold dsolve_square. rewrite (proj2 (deq_zero a FA) A). cbn [negb].
  assert (N : deq b d0 = false) by (destruct (deq b d0) eqn:Q; [apply (deq_zero b FB) in Q; contradiction|reflexivity]). rewrite N. cbn [negb].
  exists (ddiv (dsub y c) b). split; [reflexivity|]. intros F. pose proof (fin_div _ _ F) as FS.
  pose proof (sub_exact_near c y FS) as S. unfold near in S. replace (gam 1) with uro in S by (unfold gam; ring).
  destruct (div_err _ _ F FB B) as (e & h & E & H & ->). set (s := B2R (dsub y c)) in *. set (t := B2R y - B2R c) in *.
  replace (bpow radix2 (-106)) with (uro * uro) by (unfold uro; rewrite <- bpow_plus; reflexivity). fold uro.
  replace (B2R b * (s / B2R b * (1 + e) + h) - t) with ((s - t) + (s - t) * e + t * e + B2R b * h) by (field; exact B).
  assert (T : Rabs h <= bpow radix2 (-1075)) by exact H.
  eapply Rle_trans; [apply Rabs_triang|]. apply Rplus_le_compat; [|rewrite Rabs_mult; apply Rmult_le_compat_l; [apply Rabs_pos|exact T]].
  eapply Rle_trans; [apply Rabs_triang|]. eapply Rle_trans; [apply Rplus_le_compat_r, Rabs_triang|]. rewrite !Rabs_mult.
  pose proof uro_pos. pose proof (Rabs_pos t). pose proof (Rabs_pos e). pose proof (Rabs_pos (s - t)).
  assert (Rabs (s - t) * Rabs e <= uro * Rabs t * uro) by (apply Rmult_le_compat; assumption).
  assert (Rabs t * Rabs e <= Rabs t * uro) by (apply Rmult_le_compat_l; assumption). lra.
Qed.
Print Assumptions C168_linear_error.

(** The solutions of a quadratic equation, where finite, solve it up to 400 roundings of the size of y - c and of the
    square of b / 2 a times a. [sz] is the absolute value and 2^-300. *)
Lemma solved (a b c y s : double) (sg : bool) : is_finite a = true -> is_finite b = true -> bpow radix2 (-100) <= Rabs (B2R a) <= bpow radix2 100 ->
  s = dsub (if sg then dsqrt (dadd (ddiv (dsub y c) a) (dmul (ddiv b (dmul dtwo a)) (ddiv b (dmul dtwo a)))) else
            Bopp (dsqrt (dadd (ddiv (dsub y c) a) (dmul (ddiv b (dmul dtwo a)) (ddiv b (dmul dtwo a)))))) (ddiv b (dmul dtwo a)) -> is_finite s = true ->
  Rabs (B2R a * B2R s ^ 2 + B2R b * B2R s + B2R c - B2R y) <= 400 * bpow radix2 (-53) * (sz (B2R y - B2R c) + Rabs (B2R a) * sz (B2R b / (2 * B2R a)) ^ 2).
Proof.
  intros FA FB [AL AH] E FS. rewrite E in FS. destruct (fin_sub _ _ FS) as [FR FQ]. set (rad := dadd _ _) in *.
  assert (FSR : is_finite (dsqrt rad) = true) by (destruct sg; [exact FR|rewrite is_finite_Bopp in FR; exact FR]).
  destruct (fin_sqrt _ FSR) as [FRAD P9]. destruct (fin_add _ _ FRAD) as [F1 F2]. pose proof (fin_div _ _ F1) as F3.
  destruct (sqrt_rel rad FRAD P9) as (e1 & E1 & V1). destruct (sub_rel _ _ FR FQ FS) as (e2 & E2 & V2). rewrite <- E in V2.
  set (A := B2R a) in *. set (B := B2R b) in *. set (C := B2R y - B2R c) in *.
  assert (AP : 0 < Rabs A) by (apply Rlt_le_trans with (2 := AL), bpow_gt_0). assert (A0 : A <> 0) by (intro Q; rewrite Q, Rabs_R0 in AP; lra).
  pose proof (bpow_gt_0 radix2 (-300)) as PP. set (Z := sz (B / (2 * A))). set (K := sz C).
  assert (ZA : Rabs (B / (2 * A)) <= Z) by (unfold Z, sz; lra). assert (KA : Rabs C <= K) by (unfold K, sz; lra).
  assert (ZL : bpow radix2 (-300) <= Z) by (unfold Z, sz; pose proof (Rabs_pos (B / (2 * A))); lra). assert (KL : bpow radix2 (-300) <= K) by (unfold K, sz; pose proof (Rabs_pos C); lra).
  assert (FD : is_finite (dmul dtwo a) = true /\ B2R (dmul dtwo a) = rnd53 (2 * A)).
  { destruct (dmul_ext dtwo a (proj1 dtwo_val) FA) as [N X]. rewrite (dext_finite _ (proj1 dtwo_val)), (proj2 dtwo_val), (dext_finite a FA) in X. fold A in X.
    assert (F : is_finite (dmul dtwo a) = true).
    { apply (rnd_finite _ _ N X). apply Rle_lt_trans with (bpow radix2 101); [|apply bpow_lt; lia]. apply rnd_bound; [lia|]. rewrite Rabs_mult, (Rabs_pos_eq 2) by lra.
      replace 101%Z with (100 + 1)%Z by reflexivity. rewrite bpow_plus. change (bpow radix2 1) with 2. lra. }
    split; [exact F|apply (finite_rnd _ _ F X)]. }
  destruct FD as [FD VD].
  assert (A2 : Rabs (2 * A) = 2 * Rabs A) by (rewrite Rabs_mult, (Rabs_pos_eq 2) by lra; reflexivity).
  assert (ND : near 1 (Rabs (2 * A)) (2 * A) (B2R (dmul dtwo a))).
  { destruct (rnd_rel (2 * A)) as (d & D & R).
    { rewrite A2. apply Rle_trans with (bpow radix2 (-100)); [apply bpow_le; lia|lra]. }
    apply (near_round 0 _ _ (2 * A) d); [lra|apply near_refl; lra|exact D|rewrite VD; exact R]. }
  assert (NQ : near 19 Z (B / (2 * A)) (B2R (ddiv b (dmul dtwo a)))).
  { apply (near_more 3); [lia|lra|]. replace Z with (Z * Rabs (2 * A) * / Rabs (2 * A)) by (field; lra).
    assert (BZ : Rabs B <= Z * Rabs (2 * A)).
    { replace (Rabs B) with (Rabs (B / (2 * A)) * Rabs (2 * A)) by (rewrite <- Rabs_mult; f_equal; field; exact A0). apply Rmult_le_compat_r; [lra|exact ZA]. }
    apply (div_pad 0 1); auto; [lia|apply near_refl, BZ|].
    replace (Z * Rabs (2 * A) * / Rabs (2 * A)) with Z by (field; lra). apply Rle_trans with (2 := ZL). apply bpow_le. lia. }
  set (T := K * / Rabs A + Z * Z).
  assert (KI : 0 <= K * / Rabs A) by (apply Rmult_le_pos; [lra|apply Rlt_le, Rinv_0_lt_compat, AP]).
  set (R0 := C / A + B / (2 * A) * (B / (2 * A))).
  assert (CA : Rabs (C / A) <= K * / Rabs A) by (unfold Rdiv; rewrite Rabs_mult, Rabs_inv; apply Rmult_le_compat_r; [apply Rlt_le, Rinv_0_lt_compat, AP|exact KA]).
  assert (QQ : Rabs (B / (2 * A) * (B / (2 * A))) <= Z * Z) by (rewrite Rabs_mult; apply Rmult_le_compat; auto using Rabs_pos).
  assert (RA : Rabs R0 <= T) by (unfold R0, T; eapply Rle_trans; [apply Rabs_triang|]; lra).
  assert (T0 : 0 <= T) by (unfold T; nra).
  assert (NR : near 40 T R0 (B2R rad)).
  { unfold R0, T, rad. apply (add_near 39); auto.
    - apply (near_more 2); [lia|exact KI|]. apply (div_pad 1 0); auto; [lia| | |].
      + unfold C in *. apply (near_wide _ (Rabs (B2R y - B2R c))); [exact KA|apply sub_exact_near, F3].
      + apply near_refl. fold A; apply Rle_refl.
      + apply Rle_trans with (bpow radix2 (-300) * bpow radix2 (-100)); [rewrite <- bpow_plus; apply bpow_le; lia|]. apply Rmult_le_compat; try apply bpow_ge_0; [exact KL|].
        change (-100)%Z with (- (100))%Z. rewrite bpow_opp. apply Rinv_le; [exact AP|exact AH].
    - apply (mul_pad 19 19); auto. apply Rle_trans with (bpow radix2 (-300) * bpow radix2 (-300)); [rewrite <- bpow_plus; apply bpow_le; lia|]. apply Rmult_le_compat; try apply bpow_ge_0; exact ZL. }
  set (Y := sqrt T). assert (YY : Y * Y = T) by (apply sqrt_sqrt, T0). assert (Y0 : 0 <= Y) by apply sqrt_pos.
  assert (ZY : Z <= Y) by (apply Rnot_lt_le; intro L; unfold T in YY; nra).
  assert (V3 : B2R s = ((if sg then 1 else -1) * (sqrt (B2R rad) * (1 + e1)) - B2R (ddiv b (dmul dtwo a))) * (1 + e2)).
  { rewrite V2. destruct sg; [rewrite V1; ring|rewrite B2R_Bopp, V1; ring]. }
  assert (ONE : (if sg then 1 else -1) = 1 \/ (if sg then 1 else -1) = -1) by (destruct sg; auto).
  assert (NR4 : near 40 (4 * (Y * Y)) R0 (B2R rad)) by (rewrite YY; apply (near_wide _ T); [lra|exact NR]).
  assert (R4 : R0 <= 4 * (Y * Y)) by (rewrite YY; pose proof (Rle_abs R0); lra).
  pose proof (root_bound (B / (2 * A)) R0 Y (B2R rad) (B2R (ddiv b (dmul dtwo a))) (B2R s) e1 e2 (if sg then 1 else -1) Y0 P9 E1 E2 ONE
    (Rle_trans _ _ _ ZA ZY) (near_wide _ _ _ _ _ ZY NQ) NR4 R4 V3) as G.
  replace (A * B2R s ^ 2 + B * B2R s + B2R c - B2R y) with (A * ((B2R s + B / (2 * A)) * (B2R s + B / (2 * A)) - R0)) by (unfold R0, C; field; exact A0).
  rewrite Rabs_mult. fold uro. apply Rle_trans with (Rabs A * (400 * uro * (Y * Y))); [apply Rmult_le_compat_l; [lra|exact G]|].
  apply Req_le. rewrite YY. unfold T. field. lra.
Qed.
Theorem C168_error (a b c y : double) : is_finite a = true -> is_finite b = true -> bpow radix2 (-100) <= Rabs (B2R a) <= bpow radix2 100 ->
  exists x0 x1, dsolve_square a b c y = Ok (x0, x1) /\ forall x, x = x0 \/ x = x1 -> is_finite x = true ->
    Rabs (B2R a * B2R x ^ 2 + B2R b * B2R x + B2R c - B2R y) <= 400 * bpow radix2 (-53) * (sz (B2R y - B2R c) + Rabs (B2R a) * sz (B2R b / (2 * B2R a)) ^ 2).
Proof.
  intros FA FB H. unfold dsolve_square.
  assert (N : deq a d0 = false).
  { destruct (deq a d0) eqn:Q; [|reflexivity]. apply (deq_zero a FA) in Q. rewrite Q, Rabs_R0 in H. pose proof (bpow_gt_0 radix2 (-100)). lra. }
  rewrite N. cbn [negb]. cbv zeta. eexists _, _. split; [reflexivity|]. intros x [-> | ->] F.
  - apply (solved a b c y _ false FA FB H eq_refl F).
  - apply (solved a b c y _ true FA FB H eq_refl F).
Qed.
Print Assumptions C168_error.

(** A quadratic equation can lose its smaller solution: 0 = x^2 + 2^60 x + 1 has one near - 2^-60, but 0 is returned, where the
    right side is 1. *)
Theorem C168_cancellation_refuted : exists x0 x1, dsolve_square (d2 1 0) (d2 1 60) (d2 1 0) d0 = Ok (x0, x1) /\ B2R x1 = 0 /\
  1 * (B2R x1) ^ 2 + 2 ^ 60 * B2R x1 + 1 = 1.
Proof.
  eexists _, _. split; [reflexivity|].
  match goal with |- B2R ?x = 0 /\ _ => assert (Z : B2R x = 0) by (apply deq_zero; vm_compute; reflexivity) end. split; [exact Z|]. rewrite Z. ring.
Qed.
Print Assumptions C168_cancellation_refuted.

(** The square of b / 2 a can overflow: 0 = x^2 + 2^600 x has the solutions 0 and - 2^600, but the result is infinite. *)
Theorem C168_overflow_refuted : exists x0 x1, dsolve_square (d2 1 0) (d2 1 600) d0 d0 = Ok (x0, x1) /\ is_finite x0 = false /\ is_finite x1 = false.
Proof. eexists _, _. split; [reflexivity|]. split; vm_compute; reflexivity. Qed.
Print Assumptions C168_overflow_refuted.

(** 6 = x^2 + x has the solutions -3 and 2. *)
Example C168_example : exists x0 x1, dsolve_square (d2 1 0) (d2 1 0) d0 (d2 6 0) = Ok (x0, x1) /\ deq x0 (d2 (-3) 0) = true /\ deq x1 (d2 2 0) = true.
Proof. eexists _, _. split; [reflexivity|]. split; vm_compute; reflexivity. Qed.
Example C168_hypotheses : (1 <> 0 /\ 0 <= 1 ^ 2 - 4 * 1 * (0 - 6)) /\ 0 ^ 2 - 4 * 1 * (1 - 0) < 0 /\
  is_finite (d2 3 0) = true /\ deq (d2 3 0) d0 = false /\ exists x, dsolve_square d0 (d2 3 0) (d2 1 0) (d2 2 0) = Ok (x, x) /\ is_finite x = true.
Proof. split; [split; lra|]. split; [lra|]. split; [reflexivity|]. split; [vm_compute; reflexivity|]. eexists. split; [reflexivity|]. vm_compute. reflexivity. Qed.
(** The bounds of C168_error hold for a = 1, and its error is at most 400 (7 + 1/4) 2^-53 in the example. *)
Example C168_bounds : bpow radix2 (-100) <= Rabs (B2R (d2 1 0)) <= bpow radix2 100 /\ sz (6 - 0) + Rabs 1 * sz (1 / (2 * 1)) ^ 2 <= 7 + / 4.
Proof.
  assert (O : B2R (d2 1 0) = 1) by (vm_compute; lra). rewrite O, Rabs_R1. split.
  - change 1 with (bpow radix2 0). split; apply bpow_le; lia.
  - assert (P : 0 < bpow radix2 (-300) <= / 8) by (split; [apply bpow_gt_0|]; replace (/ 8) with (bpow radix2 (-3)) by (cbn; lra); apply bpow_le; lia).
    unfold sz. rewrite (Rabs_pos_eq (6 - 0)), (Rabs_pos_eq (1 / (2 * 1))) by lra. nra.
Qed.
