(** Property C159: numerical derivatives in double precision. *)
From Coq Require Import ZArith Reals List Bool Arith Lia Lra Psatz.
From Flocq Require Import Core IEEE754.BinarySingleNaN.
From Verif Require Import Common FloatModel FloatProofs DoubleProofs DoubleProofs2 DInterpProofs DInterpProofs2 DDiffModel DDiffSpec DDiffProofs DDiffProofs2.
Local Open Scope R_scope.

(** ** C159: the points that are looked at *)
(** The first derivative at a finite number that is not the largest is the difference of the values there and
    at a greater double, divided by a number h that is their distance up to 2^-51, and exactly unless they are
    both next to 0. h is between 2^-27 and the bigger of a multiple of 2^-25 and of the rounding of x. *)
Theorem C159_first_points : forall f x, is_finite x = true -> deq x largest_double = false ->
  exists x' h, dderivative f x = ddiv (dsub (f x') (f x)) h /\ is_finite x' = true /\ is_finite h = true /\ B2R x < B2R x' /\
    Rabs (B2R x' - B2R x - B2R h) <= bpow radix2 (-51) * B2R h /\ (bpow radix2 (-25) <= Rabs (B2R x) -> B2R x' - B2R x = B2R h) /\
    bpow radix2 (-27) <= B2R h <= bpow radix2 (-24) + bpow radix2 (-52) * Rabs (B2R x).
Proof.
  intros f x FX NM. destruct (step1 x FX NM) as [S1 S2 S3 S4 S5 S6 _ _]. exists (dadd x (dguess_h (d2 1 (-25)) x)), (dguess_h (d2 1 (-25)) x). unfold dderivative. rewrite h1_val.
  set (h := dguess_h (d2 1 (-25)) x) in *. change (- (25))%Z with (-25)%Z in *. pose proof uro_pos as UP. pose proof uro_small as US. pose proof (bpow_gt_0 radix2 (-25)) as BP. apply Rabs_le_inv in S5 as S5'.
  replace (bpow radix2 (-51)) with (4 * uro) by (unfold uro; change (-51)%Z with (2 + -53)%Z; rewrite bpow_plus; reflexivity).
  replace (bpow radix2 (-52)) with (2 * uro) by (unfold uro; change (-52)%Z with (1 + -53)%Z; rewrite bpow_plus; reflexivity).
  replace (bpow radix2 (-27)) with (bpow radix2 (-25) / 4) by (change (-25)%Z with (2 + -27)%Z; rewrite bpow_plus; change (bpow radix2 2) with 4; field).
  replace (bpow radix2 (-24)) with (2 * bpow radix2 (-25)) by (change (-24)%Z with (1 + -25)%Z; rewrite bpow_plus; reflexivity).
  repeat split; auto. nra.
Qed.
Print Assumptions C159_first_points.

(** The second derivative is the second difference of the values at three doubles, divided by the square of h. *)
Theorem C159_second_points : forall f x, is_finite x = true -> deq x largest_double = false ->
  exists xm xp h, dderivative2nd f x = ddiv (dadd (dsub (f xp) (dmul dtwo (f x))) (f xm)) (dmul h h) /\ is_finite xp = true /\ is_finite h = true /\ B2R x < B2R xp /\
    Rabs (B2R xp - B2R x - B2R h) <= bpow radix2 (-51) * B2R h /\ (bpow radix2 (-12) <= Rabs (B2R x) -> B2R xp - B2R x = B2R h) /\
    (is_finite xm = true -> Rabs (B2R x - B2R xm - B2R h) <= bpow radix2 (-53) * (Rabs (B2R x) + B2R h)) /\
    bpow radix2 (-14) <= B2R h <= bpow radix2 (-11) + bpow radix2 (-52) * Rabs (B2R x).
Proof.
  intros f x FX NM. destruct (step2 x FX NM) as [S1 S2 S3 S4 S5 S6 _ _]. exists (dsub x (dguess_h (d2 1 (-12)) x)), (dadd x (dguess_h (d2 1 (-12)) x)), (dguess_h (d2 1 (-12)) x). unfold dderivative2nd. rewrite h2_val.
  set (h := dguess_h (d2 1 (-12)) x) in *. change (- (12))%Z with (-12)%Z in *. pose proof uro_pos as UP. pose proof uro_small as US. pose proof (bpow_gt_0 radix2 (-12)) as BP. apply Rabs_le_inv in S5 as S5'.
  replace (bpow radix2 (-51)) with (4 * uro) by (unfold uro; change (-51)%Z with (2 + -53)%Z; rewrite bpow_plus; reflexivity).
  replace (bpow radix2 (-52)) with (2 * uro) by (unfold uro; change (-52)%Z with (1 + -53)%Z; rewrite bpow_plus; reflexivity).
  replace (bpow radix2 (-14)) with (bpow radix2 (-12) / 4) by (change (-12)%Z with (2 + -14)%Z; rewrite bpow_plus; change (bpow radix2 2) with 4; field).
  replace (bpow radix2 (-11)) with (2 * bpow radix2 (-12)) by (change (-11)%Z with (1 + -12)%Z; rewrite bpow_plus; reflexivity).
  repeat split; auto; [nra|]. intros FM. destruct (sub_rel x h FX S1 FM) as (d & HD & E). rewrite E. fold uro.
  replace (B2R x - (B2R x - B2R h) * (1 + d) - B2R h) with (d * - (B2R x - B2R h)) by ring. apply abs_mul; [exact HD|]. rewrite Rabs_Ropp.
  replace (B2R x - B2R h) with (B2R x + - B2R h) by ring. apply abs_add; [lra|]. rewrite Rabs_Ropp, Rabs_pos_eq; nra.
Qed.
Print Assumptions C159_second_points.

(** ** C159: accuracy *)
(** If the function is computed up to delta and its derivative varies by w at most over the step, the first
    derivative is within w + 2^28 delta, and 2^-50 of the terms, of the derivative. *)
Theorem C159_first : forall f F F' x delta w, is_finite x = true -> deq x largest_double = false ->
  let lo := B2R x in let hi := B2R x + reach1 (B2R x) in
  computes f F delta lo hi -> derivative_on F F' lo hi -> varies_within F' w (B2R x) lo hi ->
  is_finite (dderivative f x) = true ->
  Rabs (B2R (dderivative f x) - F' (B2R x)) <=
    w + bpow radix2 28 * delta + bpow radix2 (-50) * (Rabs (F' (B2R x)) + w + bpow radix2 28 * delta) + bpow radix2 (-1075).
Proof. intros f F F' x delta w FX NM lo hi. apply first_accurate; assumption. Qed.
Print Assumptions C159_first.

(** For the second derivative the terms are bigger: the rounding of the values, and that of x - h, which is as
    big as the rounding of x. *)
Theorem C159_second : forall f F F' F'' x delta w B, is_finite x = true -> Rabs (B2R x) <= bpow radix2 36 ->
  let lo := B2R x - reach2 (B2R x) in let hi := B2R x + reach2 (B2R x) in
  computes f F delta lo hi -> derivative_on F F' lo hi -> derivative_on F' F'' lo hi -> varies_within F'' w (B2R x) lo hi -> (forall r, lo <= r <= hi -> Rabs (F r) <= B) ->
  is_finite (dderivative2nd f x) = true ->
  Rabs (B2R (dderivative2nd f x) - F'' (B2R x)) <=
    4 * w + bpow radix2 29 * (delta + bpow radix2 (-53) * B + bpow radix2 (-53) * (Rabs (B2R x) + 1) * Rabs (F' (B2R x)))
    + bpow radix2 (-38) * (Rabs (B2R x) + 1) * Rabs (F'' (B2R x)) + bpow radix2 (-1075).
Proof. intros f F F' F'' x delta w B FX XB lo hi. apply second_accurate; assumption. Qed.
Print Assumptions C159_second.

(** ** C159: extreme arguments *)
(** A constant has the derivatives 0 everywhere but at the largest double; the second if its double is finite. *)
Theorem C159_constant : forall f c x, is_finite x = true -> deq x largest_double = false -> is_finite c = true -> (forall t, f t = c) ->
  (exists s, dderivative f x = B754_zero s) /\ (is_finite (dmul dtwo c) = true -> exists s, dderivative2nd f x = B754_zero s).
Proof.
  intros f c x FX NM FC E. pose proof (bpow_gt_0 radix2 1024) as MP.
  assert (Z : forall z : double, is_finite z = true -> B2R z = 0 -> exists s, z = B754_zero s).
  { intros [s|s| |s m e H] F V; try discriminate F; [exists s; reflexivity|]. exfalso. cbn in V. apply eq_0_F2R in V. destruct s; discriminate V. }
  assert (Q : forall s (d : double), is_nan d = false -> (is_finite d = true -> B2R d <> 0) -> exists s', ddiv (B754_zero s) d = B754_zero s').
  { intros s [s'|s'| |s' m e H] N V; try discriminate N; [exfalso; apply (V eq_refl); reflexivity| |]; eexists; reflexivity. }
  split.
  - destruct (C159_first_points f x FX NM) as (x' & h & -> & _ & FH & _ & _ & _ & L & _). rewrite !E.
    destruct (dsub_val c c 0 FC FC) as [FS VS]; [rewrite Rminus_diag_eq by reflexivity; apply round_0; apply valid_rnd_N|rewrite Rabs_R0; exact MP|].
    destruct (Z _ FS VS) as (s & ->). apply Q; [apply dfinite_num, FH|]. intros _. pose proof (bpow_gt_0 radix2 (-27)). lra.
  - intros FT. destruct (C159_second_points f x FX NM) as (xm & xp & h & -> & _ & FH & _ & _ & _ & _ & L & _). rewrite !E. pose proof (twice_val c FC FT) as VT.
    destruct (dsub_val c (dmul dtwo c) (- B2R c) FC FT) as [F1 V1].
    { rewrite VT. replace (B2R c - 2 * B2R c) with (- B2R c) by ring. apply rnd_format, generic_format_opp, generic_format_B2R. }
    { rewrite Rabs_Ropp. apply abs_B2R_lt_emax. }
    destruct (dadd_val (dsub c (dmul dtwo c)) c 0 F1 FC) as [F2 V2]; [rewrite V1; replace (- B2R c + B2R c) with 0 by ring; apply round_0; apply valid_rnd_N|rewrite Rabs_R0; exact MP|].
    destruct (Z _ F2 V2) as (s & ->). destruct (dmul_ext h h FH FH) as [NH EH]. apply Q; [exact NH|]. intros FF. apply (finite_rnd _ _ FF) in EH. rewrite EH, (dext_finite h FH).
    assert (H2 : bpow radix2 (-28) <= B2R h * B2R h).
    { change (-28)%Z with (-14 + -14)%Z. rewrite bpow_plus. pose proof (bpow_gt_0 radix2 (-14)). nra. }
    apply rnd_mono in H2. rewrite rnd_format in H2 by (apply generic_format_bpow; rewrite fe_val; lia). pose proof (bpow_gt_0 radix2 (-28)). lra.
Qed.
Print Assumptions C159_constant.

(** From 2^566 on the square of the step is infinite: the second derivative is 0, or not a number, whatever the
    function. *)
Theorem C159_huge : forall f x, is_finite x = true -> deq x largest_double = false -> bpow radix2 566 <= Rabs (B2R x) ->
  (exists s, dderivative2nd f x = B754_zero s) \/ dderivative2nd f x = B754_nan.
Proof.
  intros f x FX NM L. destruct (step2 x FX NM) as [S1 _ _ _ _ _ S7 _]. unfold dderivative2nd. rewrite h2_val. set (h := dguess_h (d2 1 (-12)) x) in *.
  assert (HB : bpow radix2 512 <= B2R h).
  { apply Rle_trans with (2 := S7). apply Rle_trans with (uro / 2 * bpow radix2 566); [|apply Rmult_le_compat_l; [pose proof uro_pos; lra|exact L]].
    replace (uro / 2) with (bpow radix2 (-54)); [rewrite <- bpow_plus; apply Rle_refl|]. unfold uro. change (-53)%Z with (1 + -54)%Z. rewrite bpow_plus. change (bpow radix2 1) with 2. field. }
  destruct (dmul_ext h h S1 S1) as [N E]. rewrite (dext_finite h S1) in E.
  assert (B : MX <= B2R h * B2R h). { replace MX with (bpow radix2 512 * bpow radix2 512) by (rewrite <- bpow_plus; reflexivity). pose proof (bpow_gt_0 radix2 512). apply Rmult_le_compat; lra. }
  assert (C : ext (dmul h h) = MX).
  { rewrite E. assert (G : rnd53 MX = MX) by (apply rnd_format; apply generic_format_bpow; rewrite fe_val; lia). pose proof (rnd_mono _ _ B) as M. rewrite G in M. pose proof (bpow_gt_0 radix2 1024).
    unfold crnd, Rmax, Rmin. repeat destruct (Rle_dec _ _); lra. }
  assert (I : dmul h h = B754_infinity false).
  { pose proof (bpow_gt_0 radix2 1024). apply inf_of; [exact N|lra|]. destruct (is_finite (dmul h h)) eqn:F; [|reflexivity]. pose proof (dext_lt _ F). lra. }
  rewrite I. destruct (dadd _ _) as [s|s| |s m e H]; [left|right|right|left]; try (eexists; reflexivity); reflexivity.
Qed.
Print Assumptions C159_huge.

(** At the largest double there is no step: no derivative is a number. *)
Theorem C159_largest : forall f, is_finite (f largest_double) = true -> dderivative f largest_double = B754_nan.
Proof.
  intros f F. unfold dderivative. rewrite h1_val.
  assert (H : dguess_h (d2 1 (-25)) largest_double = d0) by (apply sf_inj; vm_compute; reflexivity). rewrite H.
  assert (X : dadd largest_double d0 = largest_double) by (apply sf_inj; vm_compute; reflexivity). rewrite X.
  destruct (dsub_val (f largest_double) (f largest_double) 0 F F) as [FS VS]; [rewrite Rminus_diag_eq by reflexivity; apply round_0; apply valid_rnd_N|rewrite Rabs_R0; apply bpow_gt_0|].
  change d0 with (B754_zero false : double). destruct (dsub (f largest_double) (f largest_double)) as [s|s| |s m e HH]; try discriminate FS; [reflexivity|].
  exfalso. cbn in VS. apply eq_0_F2R in VS. destruct s; discriminate VS.
Qed.
Print Assumptions C159_largest.

(** The term with the first derivative is there: x - h and x + h are not at the same distance of x. At -2^41 the
    second derivative of t + 2^41 is 4096, and next to -2^20, where everything is computed exactly but x - h,
    that of t + 2^20 is -1/512. *)
Theorem C159_line_refuted :
  (exists f x, is_finite x = true /\ (forall t, f t = dadd t (d2 1 41)) /\ dderivative2nd f x = d2 1 12) /\
  (exists f x, is_finite x = true /\ Rabs (B2R x) <= bpow radix2 20 /\ (forall t, f t = dadd t (d2 1 20)) /\ dderivative2nd f x = d2 (-1) (-9)).
Proof.
  split.
  - exists (fun t => dadd t (d2 1 41)), (d2 (-1) 41). repeat split. apply sf_inj. vm_compute. reflexivity.
  - exists (fun t => dadd t (d2 1 20)), (d2 (-(2^53-1)) (-33)). split; [reflexivity|]. split; [|split; [reflexivity|apply sf_inj; vm_compute; reflexivity]].
    assert (E : F2R (Float radix2 (- (2 ^ 53 - 1)) (-33)) = - (bpow radix2 20 - bpow radix2 (-33))).
    { unfold F2R, Fnum, Fexp. rewrite opp_IZR, minus_IZR. change (IZR (2 ^ 53)) with (bpow radix2 53). replace (bpow radix2 20) with (bpow radix2 53 * bpow radix2 (-33)) by (rewrite <- bpow_plus; reflexivity). ring. }
    destruct (d2_exact (- (2 ^ 53 - 1)) (-33)) as [_ V].
    + apply generic_format_FLT. eexists; [reflexivity|cbn; lia|cbn; lia].
    + rewrite E, Rabs_Ropp. assert (bpow radix2 (-33) <= bpow radix2 20) by (apply bpow_le; lia). rewrite Rabs_pos_eq by lra. assert (bpow radix2 20 < bpow radix2 1024) by (apply bpow_lt; lia). pose proof (bpow_gt_0 radix2 (-33)). lra.
    + rewrite V, E, Rabs_Ropp. assert (bpow radix2 (-33) <= bpow radix2 20) by (apply bpow_le; lia). rewrite Rabs_pos_eq by lra. pose proof (bpow_gt_0 radix2 (-33)). lra.
Qed.
Print Assumptions C159_line_refuted.

(** ** An instance: the square at 1 *)
Definition dsquare (t : double) : double := dmul t t.
Lemma square_computed lo hi : - 2 <= lo -> hi <= 2 -> computes dsquare (fun r => r * r) (bpow radix2 (-50)) lo hi.
Proof.
  intros L H t FT R. unfold dsquare. destruct (dmul_ext t t FT FT) as [N E]. rewrite (dext_finite t FT) in E.
  assert (B : 0 <= B2R t * B2R t <= 4) by (split; nra).
  assert (F : is_finite (dmul t t) = true).
  { apply (rnd_finite _ _ N E). apply Rle_lt_trans with (bpow radix2 2); [|apply bpow_lt; lia]. apply rnd_bound; [lia|]. rewrite Rabs_pos_eq by lra. change (bpow radix2 2) with 4. lra. }
  split; [exact F|]. rewrite (finite_rnd _ _ F E). destruct (rnd_err (B2R t * B2R t)) as (e & h & HE & HH & ->).
  replace (B2R t * B2R t * (1 + e) + h - B2R t * B2R t) with (B2R t * B2R t * e + h) by ring.
  apply Rle_trans with (4 * uro + tiny); [apply abs_add; [apply abs_mul; [rewrite Rabs_pos_eq; lra|exact HE]|exact HH]|].
  assert (tiny <= uro) by (apply bpow_le; lia). replace (bpow radix2 (-50)) with (8 * uro) by (unfold uro; change (-50)%Z with (3 + -53)%Z; rewrite bpow_plus; reflexivity). pose proof uro_pos. lra.
Qed.
Example C159_square_first :
  let lo := B2R d1 in let hi := B2R d1 + reach1 (B2R d1) in
  computes dsquare (fun r => r * r) (bpow radix2 (-50)) lo hi /\ derivative_on (fun r => r * r) (fun r => 2 * r) lo hi /\
  varies_within (fun r => 2 * r) (bpow radix2 (-21)) (B2R d1) lo hi /\ dderivative dsquare d1 = d2 (2 ^ 26 + 1) (-25).
Proof.
  assert (V : B2R d1 = 1) by apply B2R_d1. rewrite V. unfold reach1. rewrite Rabs_R1, Rmult_1_r.
  assert (A : bpow radix2 (-50) <= bpow radix2 (-23)) by (apply bpow_le; lia). assert (A2 : bpow radix2 (-23) <= bpow radix2 (-1)) by (apply bpow_le; lia). change (bpow radix2 (-1)) with (/ 2) in A2.
  pose proof (bpow_gt_0 radix2 (-23)). split; [apply square_computed; lra|]. split; [|split].
  - intros r _. replace (2 * r) with (1 * r + r * 1) by ring. apply derivable_pt_lim_mult; apply derivable_pt_lim_id.
  - intros s HS. apply Rabs_le. replace (bpow radix2 (-21)) with (4 * bpow radix2 (-23)) by (change (-21)%Z with (2 + -23)%Z; rewrite bpow_plus; reflexivity). lra.
  - apply sf_inj. vm_compute. reflexivity.
Qed.
Example C159_square_second :
  let lo := B2R d1 - reach2 (B2R d1) in let hi := B2R d1 + reach2 (B2R d1) in
  computes dsquare (fun r => r * r) (bpow radix2 (-50)) lo hi /\ derivative_on (fun r => r * r) (fun r => 2 * r) lo hi /\
  derivative_on (fun r => 2 * r) (fun _ => 2) lo hi /\ varies_within (fun _ => 2) 0 (B2R d1) lo hi /\ (forall r, lo <= r <= hi -> Rabs (r * r) <= 4) /\
  dderivative2nd dsquare d1 = d2 2 0.
Proof.
  assert (V : B2R d1 = 1) by apply B2R_d1. rewrite V. unfold reach2. rewrite Rabs_R1, Rmult_1_r.
  assert (A : bpow radix2 (-50) <= bpow radix2 (-10)) by (apply bpow_le; lia). change (bpow radix2 (-10)) with (/ 1024) in *.
  pose proof (bpow_gt_0 radix2 (-50)). split; [apply square_computed; lra|]. split; [|split; [|split; [|split]]].
  - intros r _. replace (2 * r) with (1 * r + r * 1) by ring. apply derivable_pt_lim_mult; apply derivable_pt_lim_id.
  - intros r _. replace 2 with (2 * 1) at 1 by ring. apply (derivable_pt_lim_scal (fun r => r)). apply derivable_pt_lim_id.
  - intros s _. rewrite Rminus_diag_eq by reflexivity. rewrite Rabs_R0. lra.
  - intros r R. rewrite Rabs_pos_eq; nra.
  - apply sf_inj. vm_compute. reflexivity.
Qed.
