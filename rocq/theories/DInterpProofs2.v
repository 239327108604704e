(** Lemmas for linear interpolation in double precision: errors and exact cases. *)
From Coq Require Import ZArith Reals List Bool Arith Lia Lra Psatz.
From Flocq Require Import Core IEEE754.BinarySingleNaN Relative.
From Verif Require Import Common FloatModel FloatProofs DoubleProofs DoubleProofs2 DInterpModel DInterpSpec DInterpProofs.
Import ListNotations.
Local Open Scope R_scope.

(** ** Finite results *)
Lemma fin_add (a b : double) : is_finite (dadd a b) = true -> is_finite a = true /\ is_finite b = true.
Proof. destruct a as [s|s| |s m e H], b as [s'|s'| |s' m' e' H']; try (cbn; auto; fail); try destruct s; try destruct s'; cbn; try discriminate; auto. Qed.
Lemma fin_sub (a b : double) : is_finite (dsub a b) = true -> is_finite a = true /\ is_finite b = true.
Proof. destruct a as [s|s| |s m e H], b as [s'|s'| |s' m' e' H']; try (cbn; auto; fail); try destruct s; try destruct s'; cbn; try discriminate; auto. Qed.
Lemma fin_mul (a b : double) : is_finite (dmul a b) = true -> is_finite a = true /\ is_finite b = true.
Proof. destruct a as [s|s| |s m e H], b as [s'|s'| |s' m' e' H']; try (cbn; auto; fail); try destruct s; try destruct s'; cbn; try discriminate; auto. Qed.
Lemma fin_div (a b : double) : is_finite (ddiv a b) = true -> is_finite a = true.
Proof. destruct a as [s|s| |s m e H], b as [s'|s'| |s' m' e' H']; try (cbn; auto; fail); try destruct s; try destruct s'; cbn; try discriminate; auto. Qed.

(** ** Errors of products and quotients *)
Definition tiny : R := bpow radix2 (-1075).
Lemma tiny_pos : 0 < tiny. Proof. apply bpow_gt_0. Qed.
Lemma rnd_err r : exists e h, Rabs e <= uro /\ Rabs h <= tiny /\ rnd53 r = r * (1 + e) + h.
Proof.
  destruct (relative_error_N_FLT'_ex radix2 (3 - 1024 - 53) 53 ltac:(lia) (fun z => negb (Z.even z)) r) as (e & h & E & H & _ & Q).
  exists e, h. split; [apply rel_weaken, E|]. split; [|exact Q]. apply Rle_trans with (1 := H). unfold tiny. change (/ 2) with (bpow radix2 (-1)). rewrite <- bpow_plus. apply Rle_refl.
Qed.
Lemma mul_err (x y : double) : is_finite (dmul x y) = true -> exists e h, Rabs e <= uro /\ Rabs h <= tiny /\ B2R (dmul x y) = B2R x * B2R y * (1 + e) + h.
Proof.
  intros F. destruct (fin_mul x y F) as [FX FY]. destruct (dmul_ext x y FX FY) as [N E]. apply (finite_rnd _ _ F) in E. rewrite (dext_finite x FX), (dext_finite y FY) in E. rewrite E. apply rnd_err.
Qed.
Lemma div_err (x y : double) : is_finite (ddiv x y) = true -> is_finite y = true -> B2R y <> 0 -> exists e h, Rabs e <= uro /\ Rabs h <= tiny /\ B2R (ddiv x y) = B2R x / B2R y * (1 + e) + h.
Proof.
  intros F FY NZ. pose proof (fin_div x y F) as FX. destruct (ddiv_ext x y FX FY) as [N E]; [rewrite dext_finite by exact FY; exact NZ|]. apply (finite_rnd _ _ F) in E. rewrite (dext_finite x FX), (dext_finite y FY) in E. rewrite E. apply rnd_err.
Qed.

(** ** Bounds for real numbers *)
Lemma step_mul (u t a a' A b e h p : R) : 0 <= u -> Rabs (a' - a) <= A -> Rabs e <= u -> Rabs h <= t -> p = a' * b * (1 + e) + h ->
  Rabs (p - a * b) <= A * Rabs b * (1 + u) + u * Rabs (a * b) + t.
Proof.
  intros U HA HE HH ->. replace (a' * b * (1 + e) + h - a * b) with ((a' - a) * b * (1 + e) + a * b * e + h) by ring.
  eapply Rle_trans; [apply Rabs_triang|]. apply Rplus_le_compat; [|exact HH]. eapply Rle_trans; [apply Rabs_triang|]. apply Rplus_le_compat.
  - rewrite !Rabs_mult. apply Rmult_le_compat; [apply Rmult_le_pos; apply Rabs_pos|apply Rabs_pos|apply Rmult_le_compat_r; [apply Rabs_pos|exact HA]|].
    eapply Rle_trans; [apply Rabs_triang|]. rewrite Rabs_R1. lra.
  - rewrite Rabs_mult, Rmult_comm. apply Rmult_le_compat_r; [apply Rabs_pos|exact HE].
Qed.
Lemma step_add (u a a' A b b' B e p : R) : 0 <= u -> Rabs (a' - a) <= A -> Rabs (b' - b) <= B -> Rabs e <= u -> p = (a' + b') * (1 + e) ->
  Rabs (p - (a + b)) <= (A + B) * (1 + u) + u * Rabs (a + b).
Proof.
  intros U HA HB HE ->. replace ((a' + b') * (1 + e) - (a + b)) with ((a' - a + (b' - b)) * (1 + e) + (a + b) * e) by ring.
  eapply Rle_trans; [apply Rabs_triang|]. apply Rplus_le_compat.
  - rewrite Rabs_mult. apply Rmult_le_compat; try apply Rabs_pos; [eapply Rle_trans; [apply Rabs_triang|]; lra|]. eapply Rle_trans; [apply Rabs_triang|]. rewrite Rabs_R1. lra.
  - rewrite Rabs_mult, Rmult_comm. apply Rmult_le_compat_r; [apply Rabs_pos|exact HE].
Qed.
Lemma quot_err (u t s e1 e2 e3 h c : R) : 0 < u <= / 1024 -> Rabs e1 <= u -> Rabs e2 <= u -> Rabs e3 <= u -> Rabs h <= t ->
  c = s * ((1 + e1) / (1 + e2)) * (1 + e3) + h -> Rabs (c - s) <= 4 * u * Rabs s + t.
Proof.
  intros U H1 H2 H3 HT ->. apply Rabs_le_inv in H1, H2, H3.
  replace (s * ((1 + e1) / (1 + e2)) * (1 + e3) + h - s) with (s * (((1 + e1) * (1 + e3) - (1 + e2)) / (1 + e2)) + h) by (field; lra).
  eapply Rle_trans; [apply Rabs_triang|]. apply Rplus_le_compat; [|exact HT]. rewrite Rabs_mult, Rmult_comm. apply Rmult_le_compat_r; [apply Rabs_pos|].
  unfold Rdiv. rewrite Rabs_mult, Rabs_inv. rewrite (Rabs_pos_eq (1 + e2)) by lra. apply Rmult_le_reg_r with (1 + e2); [lra|]. rewrite Rmult_assoc, Rinv_l, Rmult_1_r by lra.
  assert (Rabs ((1 + e1) * (1 + e3) - (1 + e2)) <= 3 * u + u * u).
  { apply Rabs_le. assert (- (u * u) <= e1 * e3 <= u * u) by nra. nra. }
  nra.
Qed.

Lemma line_error (x0 y0 x1 y1 x : double) : dlt x0 x1 = true -> is_finite (dsub x1 x0) = true -> is_finite (computed_line x0 y0 x1 y1 x) = true ->
  let s := (B2R y1 - B2R y0) / (B2R x1 - B2R x0) in
  Rabs (B2R (computed_line x0 y0 x1 y1 x) - line (B2R x0) (B2R y0) (B2R x1) (B2R y1) (B2R x))
    <= 9 * uro * (Rabs (B2R y0) + Rabs (s * B2R x0) + Rabs (s * B2R x)) + 3 * tiny * (Rabs (B2R x0) + Rabs (B2R x) + 1).
Proof.
  intros LT FD F s. unfold computed_line in *. set (c := slope x0 y0 x1 y1) in *.
  destruct (fin_sub _ _ FD) as [F1 F0]. destruct (fin_add _ _ F) as [FA FP]. destruct (fin_sub _ _ FA) as [FY0 FP0]. destruct (fin_mul _ _ FP) as [FC FX].
  unfold c, slope in FC. pose proof (fin_div _ _ FC) as FDY. destruct (fin_sub _ _ FDY) as [FY1 _]. fold (slope x0 y0 x1 y1) in FC. fold c in FC.
  destruct (dlt_nums _ _ LT) as [N0 N1]. apply dlt_iff in LT; auto. rewrite !dext_finite in LT by assumption.
  destruct (sub_rel y1 y0 FY1 FY0 FDY) as (e1 & E1 & Q1). destruct (sub_rel x1 x0 F1 F0 FD) as (e2 & E2 & Q2).
  pose proof uro_pos as UP. pose proof uro_small as US. pose proof (Rabs_le_inv _ _ E2) as E2'.
  assert (NZ : B2R (dsub x1 x0) <> 0) by (rewrite Q2; apply Rmult_integral_contrapositive_currified; lra).
  destruct (div_err (dsub y1 y0) (dsub x1 x0) FC FD NZ) as (e3 & h3 & E3 & H3 & Q3). fold (slope x0 y0 x1 y1) in Q3. fold c in Q3.
  destruct (mul_err c x0 FP0) as (e4 & h4 & E4 & H4 & Q4). destruct (mul_err c x FP) as (e6 & h6 & E6 & H6 & Q6).
  destruct (sub_rel y0 (dmul c x0) FY0 FP0 FA) as (e5 & E5 & Q5). destruct (add_rel _ _ FA FP F) as (e7 & E7 & Q7).
  assert (C : Rabs (B2R c - s) <= 4 * uro * Rabs s + tiny).
  { apply (quot_err uro tiny s e1 e2 e3 h3); auto. rewrite Q3, Q1, Q2. unfold s. field. split; lra. }
  pose proof (step_mul uro tiny s (B2R c) _ (B2R x0) e4 h4 _ (Rlt_le _ _ UP) C E4 H4 Q4) as P0.
  pose proof (step_mul uro tiny s (B2R c) _ (B2R x) e6 h6 _ (Rlt_le _ _ UP) C E6 H6 Q6) as P1.
  assert (Q5' : B2R (dsub y0 (dmul c x0)) = (B2R y0 + - B2R (dmul c x0)) * (1 + e5)) by (rewrite Q5; ring).
  assert (Y : Rabs (B2R y0 - B2R y0) <= 0) by (rewrite Rminus_diag_eq, Rabs_R0 by reflexivity; lra).
  assert (P0' : Rabs (- B2R (dmul c x0) - - (s * B2R x0)) <= (4 * uro * Rabs s + tiny) * Rabs (B2R x0) * (1 + uro) + uro * Rabs (s * B2R x0) + tiny).
  { rewrite <- Rabs_Ropp. replace (- (- B2R (dmul c x0) - - (s * B2R x0))) with (B2R (dmul c x0) - s * B2R x0) by ring. exact P0. }
  pose proof (step_add uro (B2R y0) (B2R y0) 0 _ _ _ e5 _ (Rlt_le _ _ UP) Y P0' E5 Q5') as T.
  pose proof (step_add uro _ _ _ _ _ _ e7 _ (Rlt_le _ _ UP) T P1 E7 Q7) as W. clear T P0' P0 P1 Q5' Q7 Q6 Q5 Q4 Q3.
  assert (LE : line (B2R x0) (B2R y0) (B2R x1) (B2R y1) (B2R x) = B2R y0 + - (s * B2R x0) + s * B2R x) by (unfold line; fold s; ring).
  rewrite LE. eapply Rle_trans; [exact W|]. clear W.
  assert (A1 : Rabs (B2R y0 + - (s * B2R x0)) <= Rabs (B2R y0) + Rabs (s * B2R x0)) by (eapply Rle_trans; [apply Rabs_triang|]; rewrite Rabs_Ropp; lra).
  assert (A2 : Rabs (B2R y0 + - (s * B2R x0) + s * B2R x) <= Rabs (B2R y0) + Rabs (s * B2R x0) + Rabs (s * B2R x)) by (eapply Rle_trans; [apply Rabs_triang|]; lra).
  rewrite (Rabs_mult s (B2R x0)), (Rabs_mult s (B2R x)) in *. pose proof tiny_pos as TP.
  pose proof (Rabs_pos (B2R y0)). pose proof (Rabs_pos (B2R x0)). pose proof (Rabs_pos (B2R x)). pose proof (Rabs_pos s).
  set (ay := Rabs (B2R y0)) in *. set (a0 := Rabs (B2R x0)) in *. set (ax := Rabs (B2R x)) in *. set (as_ := Rabs s) in *.
  set (a1 := Rabs (B2R y0 + _)) in *. set (a2 := Rabs (B2R y0 + _ + _)) in *.
  assert (0 <= as_ * a0) by (apply Rmult_le_pos; assumption). assert (0 <= as_ * ax) by (apply Rmult_le_pos; assumption).
  set (m0 := as_ * a0) in *. set (mx := as_ * ax) in *.
  set (t := tiny) in *. set (u := uro) in *.
  replace ((4 * u * as_ + t) * a0 * (1 + u)) with (4 * u * m0 * (1 + u) + t * a0 * (1 + u)) by (unfold m0; ring).
  replace ((4 * u * as_ + t) * ax * (1 + u)) with (4 * u * mx * (1 + u) + t * ax * (1 + u)) by (unfold mx; ring).
  assert (0 <= t * a0) by (apply Rmult_le_pos; lra). assert (0 <= t * ax) by (apply Rmult_le_pos; lra).
  set (ta0 := t * a0) in *. set (tax := t * ax) in *.
  apply Rle_trans with (((0 + (4 * u * m0 * (1 + u) + ta0 * (1 + u) + u * m0 + t)) * (1 + u) + u * (ay + m0) + (4 * u * mx * (1 + u) + tax * (1 + u) + u * mx + t)) * (1 + u) + u * (ay + m0 + mx)).
  { apply Rplus_le_compat; [|apply Rmult_le_compat_l; lra]. apply Rmult_le_compat_r; [lra|]. apply Rplus_le_compat_r. apply Rplus_le_compat_l. apply Rmult_le_compat_l; lra. }
  replace (9 * u * (ay + m0 + mx) + 3 * t * (a0 + ax + 1)) with (9 * u * (ay + m0 + mx) + 3 * (ta0 + tax + t)) by (unfold ta0, tax; ring).
  assert (V1 : 1 + u <= 1025 / 1024) by lra.
  assert (V2 : (1 + u) * (1 + u) <= 1025 / 1024 * (1025 / 1024)) by (apply Rmult_le_compat; lra).
  assert (V3 : (1 + u) * (1 + u) * (1 + u) <= 1025 / 1024 * (1025 / 1024) * (1025 / 1024)) by (apply Rmult_le_compat; try lra; apply Rmult_le_pos; lra).
  set (k := 1 + u) in *. 
  replace (((0 + (4 * u * m0 * k + ta0 * k + u * m0 + t)) * k + u * (ay + m0) + (4 * u * mx * k + tax * k + u * mx + t)) * k + u * (ay + m0 + mx))
    with (u * ay * (k + 1) + u * m0 * (4 * (k * k * k) + k * k + k + 1) + u * mx * (4 * (k * k) + k + 1) + ta0 * (k * k * k) + tax * (k * k) + t * (k * k + k)) by ring.
  assert (0 <= u * ay) by (apply Rmult_le_pos; lra). assert (0 <= u * m0) by (apply Rmult_le_pos; lra). assert (0 <= u * mx) by (apply Rmult_le_pos; lra).
  assert (u * ay * (k + 1) <= u * ay * 9) by (apply Rmult_le_compat_l; lra).
  assert (u * m0 * (4 * (k * k * k) + k * k + k + 1) <= u * m0 * 9) by (apply Rmult_le_compat_l; lra).
  assert (u * mx * (4 * (k * k) + k + 1) <= u * mx * 9) by (apply Rmult_le_compat_l; lra).
  assert (ta0 * (k * k * k) <= ta0 * 3) by (apply Rmult_le_compat_l; lra). assert (tax * (k * k) <= tax * 3) by (apply Rmult_le_compat_l; lra). assert (t * (k * k + k) <= t * 3) by (apply Rmult_le_compat_l; lra).
  lra.
Qed.

(** ** Equal ordinates *)
Lemma zero_valued (z : double) : is_finite z = true -> B2R z = 0 -> exists s, z = B754_zero s.
Proof.
  destruct z as [s|s| |s m e H]; try discriminate; intros _ E; [eauto|]. exfalso. cbn in E. apply eq_0_F2R in E. destruct s; discriminate E.
Qed.
Lemma small_zero (z : double) : num z -> ext z = crd 0 -> is_finite z = true /\ B2R z = 0.
Proof.
  intros N E. rewrite crd_0 in E. assert (F : is_finite z = true) by (apply dfinite_iff; auto; rewrite E; pose proof MX_big; lra). split; [exact F|]. rewrite <- E. symmetry. apply dext_finite, F.
Qed.
Lemma flat_line (x0 x1 c x : double) : dlt x0 x1 = true -> is_finite x0 = true -> is_finite x1 = true -> is_finite x = true -> is_finite c = true ->
  is_finite (computed_line x0 c x1 c x) = true /\ B2R (computed_line x0 c x1 c x) = B2R c.
Proof.
  intros LT F0 F1 FX FC. destruct (dsub_ext c c FC FC) as [NS ES]. rewrite Rminus_diag_eq in ES by reflexivity. destruct (small_zero _ NS ES) as [FS VS]. destruct (zero_valued _ FS VS) as [sg EZ].
  assert (SL : is_finite (slope x0 c x1 c) = true /\ B2R (slope x0 c x1 c) = 0).
  { unfold slope. destruct (dsub_ext x1 x0 F1 F0) as [ND ED]. destruct (is_finite (dsub x1 x0)) eqn:FD.
    - destruct (dlt_nums _ _ LT) as [N0 N1]. apply dlt_iff in LT; auto. rewrite !dext_finite in LT by assumption.
      destruct (sub_rel x1 x0 F1 F0 FD) as (e2 & E2 & Q2). pose proof uro_small. apply Rabs_le_inv in E2.
      assert (NZ : B2R (dsub x1 x0) <> 0) by (rewrite Q2; apply Rmult_integral_contrapositive_currified; lra).
      destruct (ddiv_ext (dsub c c) (dsub x1 x0) FS FD) as [NQ EQ]; [rewrite dext_finite by exact FD; exact NZ|]. rewrite (dext_finite _ FS), VS in EQ. unfold Rdiv in EQ. rewrite Rmult_0_l in EQ. apply small_zero; assumption.
    - rewrite EZ. destruct (dsub x1 x0) as [s|s| |s m e H]; try discriminate FD; [split; reflexivity|discriminate ND]. }
  destruct SL as [FSL VSL]. unfold computed_line. set (k := slope x0 c x1 c) in *.
  assert (M : forall z : double, is_finite z = true -> is_finite (dmul k z) = true /\ B2R (dmul k z) = 0).
  { intros z FZ. destruct (dmul_ext k z FSL FZ) as [N E]. rewrite (dext_finite _ FSL), VSL, Rmult_0_l in E. apply small_zero; assumption. }
  destruct (M x0 F0) as [FM0 VM0]. destruct (M x FX) as [FM VM].
  assert (CF : forall z : double, num z -> ext z = crd (ext c) -> is_finite z = true /\ B2R z = B2R c).
  { intros z N E. rewrite crd_ext in E. assert (F : is_finite z = true) by (apply dfinite_iff; auto; rewrite E; apply dext_lt, FC). split; [exact F|]. rewrite <- !dext_finite by assumption. exact E. }
  destruct (dsub_ext c (dmul k x0) FC FM0) as [NA EA]. rewrite (dext_finite _ FM0), VM0, Rminus_0_r in EA. destruct (CF _ NA EA) as [FA VA].
  destruct (dadd_ext _ (dmul k x) FA FM) as [NB EB]. rewrite (dext_finite _ FM), VM, Rplus_0_r in EB. rewrite (dext_finite _ FA), VA, <- (dext_finite _ FC) in EB. exact (CF _ NB EB).
Qed.

(** ** Integers *)
Lemma exact_result (d : double) z : num d -> ext d = crd (IZR z) -> (Z.abs z <= 2 ^ 53)%Z -> stands_for d z.
Proof.
  intros N E B. assert (F : is_finite d = true).
  { apply (rnd_finite d (IZR z)); auto. rewrite rnd_format by (apply int_format, B). rewrite <- abs_IZR. apply Rle_lt_trans with (IZR (2 ^ 53)); [apply IZR_le, B|apply big53]. }
  split; [exact F|]. rewrite (finite_rnd _ _ F E). apply rnd_format, int_format, B.
Qed.
Lemma add_int a b x y : stands_for a x -> stands_for b y -> (Z.abs (x + y) <= 2 ^ 53)%Z -> stands_for (dadd a b) (x + y).
Proof. intros [FA VA] [FB VB] B. destruct (dadd_ext a b FA FB) as [N E]. rewrite (dext_finite a FA), (dext_finite b FB), VA, VB, <- plus_IZR in E. apply exact_result; assumption. Qed.
Lemma sub_int a b x y : stands_for a x -> stands_for b y -> (Z.abs (x - y) <= 2 ^ 53)%Z -> stands_for (dsub a b) (x - y).
Proof. intros [FA VA] [FB VB] B. destruct (dsub_ext a b FA FB) as [N E]. rewrite (dext_finite a FA), (dext_finite b FB), VA, VB, <- minus_IZR in E. apply exact_result; assumption. Qed.
Lemma mul_int a b x y : stands_for a x -> stands_for b y -> (Z.abs (x * y) <= 2 ^ 53)%Z -> stands_for (dmul a b) (x * y).
Proof. intros [FA VA] [FB VB] B. destruct (dmul_ext a b FA FB) as [N E]. rewrite (dext_finite a FA), (dext_finite b FB), VA, VB, <- mult_IZR in E. apply exact_result; assumption. Qed.
Lemma div_int a b q y : stands_for a (q * y) -> stands_for b y -> y <> 0%Z -> (Z.abs q <= 2 ^ 53)%Z -> stands_for (ddiv a b) q.
Proof.
  intros [FA VA] [FB VB] NZ B. assert (IZR y <> 0) by (apply not_0_IZR; exact NZ). destruct (ddiv_ext a b FA FB) as [N E]; [rewrite (dext_finite b FB), VB; assumption|].
  rewrite (dext_finite a FA), (dext_finite b FB), VA, VB, mult_IZR in E. apply exact_result; auto. rewrite E. f_equal. field. assumption.
Qed.
Lemma int_line (dx0 dy0 dx1 dy1 dx : double) (x0 y0 x1 y1 x s : Z) :
  stands_for dx0 x0 -> stands_for dy0 y0 -> stands_for dx1 x1 -> stands_for dy1 y1 -> stands_for dx x ->
  (Z.abs x0 <= 2 ^ 25)%Z -> (Z.abs y0 <= 2 ^ 25)%Z -> (Z.abs x1 <= 2 ^ 25)%Z -> (Z.abs y1 <= 2 ^ 25)%Z -> (Z.abs x <= 2 ^ 25)%Z ->
  (x0 < x1)%Z -> (y1 - y0 = s * (x1 - x0))%Z -> stands_for (computed_line dx0 dy0 dx1 dy1 dx) (y0 + s * (x - x0)).
Proof.
  intros S0 T0 S1 T1 SX B0 C0 B1 C1 BX LT Q.
  assert (SB : (Z.abs s <= 2 ^ 26)%Z). { assert (Z.abs (s * (x1 - x0)) <= 2 ^ 26)%Z by lia. rewrite Z.abs_mul in H. assert (1 <= Z.abs (x1 - x0))%Z by lia. nia. }
  assert (P : forall z, (Z.abs z <= 2 ^ 25)%Z -> (Z.abs (s * z) <= 2 ^ 51)%Z).
  { intros z Hz. rewrite Z.abs_mul. change (2 ^ 51)%Z with (2 ^ 26 * 2 ^ 25)%Z. apply Z.mul_le_mono_nonneg; lia. }
  pose proof (P x0 B0). pose proof (P x BX).
  assert (SL : stands_for (slope dx0 dy0 dx1 dy1) s).
  { unfold slope. apply (div_int _ _ s (x1 - x0)); [|apply sub_int; auto; lia|lia|lia]. rewrite <- Q. apply sub_int; auto; lia. }
  unfold computed_line. replace (y0 + s * (x - x0))%Z with (y0 - s * x0 + s * x)%Z by ring.
  apply add_int; [apply sub_int; [assumption|apply mul_int; auto; lia|lia]|apply mul_int; auto; lia|lia].
Qed.

(** ** Monotonicity *)
Lemma line_mono (x0 y0 x1 y1 x x' : double) : is_finite x0 = true -> is_finite x1 = true -> is_finite (dsub x1 x0) = true -> dlt x0 x1 = true -> dle y0 y1 = true -> is_finite x = true -> is_finite x' = true ->
  is_finite (computed_line x0 y0 x1 y1 x) = true -> is_finite (computed_line x0 y0 x1 y1 x') = true -> dle x x' = true ->
  dle (computed_line x0 y0 x1 y1 x) (computed_line x0 y0 x1 y1 x') = true.
Proof.
  intros F0 F1 FD LT LY FX FX' FV FV' LX. unfold computed_line in *. set (c := slope x0 y0 x1 y1) in *.
  destruct (fin_add _ _ FV) as [FA FP]. destruct (fin_add _ _ FV') as [_ FP']. destruct (fin_mul _ _ FP) as [FC _]. pose proof FC as FC'. unfold c, slope in FC'. pose proof (fin_div _ _ FC') as FDY. destruct (fin_sub _ _ FDY) as [FY1 FY0].
  assert (C0 : 0 <= ext c).
  { destruct (dsub_ext y1 y0 FY1 FY0) as [NY EY]. destruct (dle_nums _ _ LY). apply dle_iff in LY; auto. assert (0 <= ext (dsub y1 y0)) by (rewrite EY; apply crd_nonneg; lra).
    destruct (dlt_nums _ _ LT). apply dlt_iff in LT; auto. rewrite !dext_finite in LT by assumption. destruct (sub_rel x1 x0 F1 F0 FD) as (e2 & E2 & Q2). pose proof uro_small. apply Rabs_le_inv in E2.
    assert (P : 0 < B2R (dsub x1 x0)) by (rewrite Q2; apply Rmult_lt_0_compat; lra).
    destruct (ddiv_ext (dsub y1 y0) (dsub x1 x0) FDY FD) as [NQ EQ]; [rewrite dext_finite by exact FD; lra|]. unfold c, slope. rewrite EQ. apply crd_nonneg. rewrite (dext_finite _ FD). apply Rmult_le_pos; [assumption|]. left. apply Rinv_0_lt_compat, P. }
  apply dle_iff in LX; try (apply dfinite_num; assumption).
  destruct (dmul_ext c x FC FX) as [NP EP]. destruct (dmul_ext c x' FC FX') as [NP' EP'].
  destruct (dadd_ext _ _ FA FP) as [NV EV]. destruct (dadd_ext _ _ FA FP') as [NV' EV'].
  apply dle_iff; auto. rewrite EV, EV'. apply crd_mono. apply Rplus_le_compat_l. rewrite EP, EP'. apply crd_mono. apply Rmult_le_compat_l; assumption.
Qed.

(** ** Every argument has its interval *)
Lemma interval_of xs x first last_ ex : (2 <= length xs)%nat -> ascending xs -> Forall (fun x : double => is_finite x = true) xs -> num x ->
  nth_error xs 0 = Some first -> nth_error xs (length xs - 1) = Some last_ -> ex = true \/ (dle first x = true /\ dle x last_ = true) ->
  exists i x0 x1, nth_error xs i = Some x0 /\ nth_error xs (S i) = Some x1 /\ falls_in ex (length xs) i x0 x1 x.
Proof.
  intros N A F NX H0 HL IN. destruct (CumulProofs.count_while_spec (fun k => dlt k x) xs) as (K1 & K2 & K3). set (c := CumulModel.count_while _ xs) in *.
  assert (NF : forall i a, nth_error xs i = Some a -> num a) by (intros i a E; apply dfinite_num, (fin_at _ _ _ F E)).
  destruct c as [|c].
  - assert (I1 : (1 < length xs)%nat) by lia. destruct (nth_error xs 1) as [x1|] eqn:E1; [|apply nth_error_None in E1; lia].
    exists 0%nat, first, x1. split; [exact H0|]. split; [exact E1|]. specialize (K3 first H0). cbn in K3. pose proof (NF _ _ H0) as N0. apply dlt_no in K3; auto. split.
    + right. split; [reflexivity|]. destruct IN as [-> |[L _]]; [left; reflexivity|right]. apply dle_iff in L; auto. apply deq_iff; auto. lra.
    + left. pose proof (A 0%nat first x1 H0 E1) as LT. apply dlt_le. apply le_lt_trans with first; [apply dle_iff; auto|exact LT].
  - destruct (Nat.eq_dec (S c) (length xs)) as [E|E].
    + destruct (nth_error xs c) as [b|] eqn:EB; [|apply nth_error_None in EB; lia]. pose proof (K2 c b ltac:(lia) EB) as LB. cbn in LB.
      destruct c as [|c]; [lia|]. destruct (nth_error xs c) as [a|] eqn:EA; [|apply nth_error_None in EA; lia].
      exists c, a, b. split; [exact EA|]. split; [exact EB|]. split; [left; exact (K2 c a ltac:(lia) EA)|]. destruct IN as [-> |[_ L]]; [right; auto|].
      exfalso. replace (length xs - 1)%nat with (S c) in HL by lia. replace last_ with b in L by congruence. rewrite (dle_not_lt x b L) in LB. discriminate.
    + destruct (nth_error xs c) as [a|] eqn:EA; [|apply nth_error_None in EA; lia]. destruct (nth_error xs (S c)) as [b|] eqn:EB; [|apply nth_error_None in EB; lia].
      exists c, a, b. split; [exact EA|]. split; [exact EB|]. split; [left; exact (K2 c a ltac:(lia) EA)|]. left. specialize (K3 b eq_refl). cbn in K3. apply dle_iff; auto; [exact (NF _ _ EB)|]. apply dlt_no in K3; auto. exact (NF _ _ EB).
Qed.
Lemma interval_right xs x first last_ ex : (2 <= length xs)%nat -> ascending xs -> Forall (fun x : double => is_finite x = true) xs -> num x ->
  nth_error xs 0 = Some first -> nth_error xs (length xs - 1) = Some last_ -> ex = true \/ (dle first x = true /\ dle x last_ = true) ->
  exists i x0 x1, nth_error xs i = Some x0 /\ nth_error xs (S i) = Some x1 /\ falls_right ex (length xs) i x0 x1 x.
Proof.
  intros N A F NX H0 HL IN. destruct (interval_of xs x first last_ ex N A F NX H0 HL IN) as (i & x0 & x1 & E0 & E1 & FL & FR).
  assert (N0 : num x0) by (apply dfinite_num, (fin_at _ _ _ F E0)). assert (N1 : num x1) by (apply dfinite_num, (fin_at _ _ _ F E1)).
  assert (I : (S i < length xs)%nat) by (apply nth_error_Some; congruence).
  assert (LL : dle x0 x = true \/ (i = 0%nat /\ ex = true)).
  { destruct FL as [L|(Z & [L|L])]; [left; apply dlt_le, L|right; auto|left]. apply deq_iff in L; auto. apply dle_iff; auto. lra. }
  destruct (dlt x x1) eqn:LT; [exists i, x0, x1; repeat split; auto; fail|].
  apply dlt_no in LT; auto. destruct (Nat.eq_dec (S (S i)) (length xs)) as [E|E].
  - exists i, x0, x1. repeat split; auto. right. split; [exact E|]. destruct FR as [R|[R _]]; [|left; exact R]. right. apply dle_iff in R; auto. apply deq_iff; auto. lra.
  - destruct FR as [R|[_ R]]; [|congruence]. destruct (nth_error xs (S (S i))) as [x2|] eqn:E2; [|apply nth_error_None in E2; lia].
    exists (S i), x1, x2. split; [exact E1|]. split; [exact E2|]. split; left; [apply dle_iff; auto|]. apply le_lt_trans with x1; [exact R|]. apply (A (S i)); assumption.
Qed.
Lemma ordinate_at (xs ys : list double) i (x : double) : length xs = length ys -> nth_error xs i = Some x -> exists y, nth_error ys i = Some y.
Proof. intros L E. destruct (nth_error ys i) as [y|] eqn:Y; [eauto|]. apply nth_error_None in Y. assert (i < length xs)%nat by (apply nth_error_Some; congruence). lia. Qed.
Lemma same_finite (a b : double) : same_value a b -> is_finite a = true -> is_finite b = true /\ B2R a = B2R b.
Proof.
  intros [E|[E _]] F; [|destruct a; discriminate]. assert (NB : num b) by (unfold num; destruct b; auto; destruct a; discriminate E). pose proof (dfinite_num a F) as NA. apply deq_iff in E; auto.
  assert (FB : is_finite b = true) by (apply dfinite_iff; auto; rewrite <- E; apply dext_lt, F). split; [exact FB|]. rewrite <- !dext_finite by assumption. exact E.
Qed.
Lemma finite_same (a b : double) : is_finite a = true -> is_finite b = true -> B2R a = B2R b -> deq a b = true.
Proof. intros FA FB E. apply deq_iff; try (apply dfinite_num; assumption). rewrite !dext_finite by assumption. exact E. Qed.
Lemma same_deq (a b : double) : same_value a b -> is_finite b = true -> is_finite a = true /\ B2R a = B2R b.
Proof.
  intros [E|[_ E]] F; [|destruct b; discriminate]. assert (NA : num a) by (unfold num; destruct a; auto; destruct b; discriminate E). pose proof (dfinite_num b F) as NB. apply deq_iff in E; auto.
  assert (FA : is_finite a = true) by (apply dfinite_iff; auto; rewrite E; apply dext_lt, F). split; [exact FA|]. rewrite <- !dext_finite by assumption. exact E.
Qed.
