(** Proofs about Simpson's rule on monotone functions and the cosmological distances. *)
From Coq Require Import Reals List Arith Bool ZArith Lia Lra.
From Coquelicot Require Import Coquelicot.
From Verif Require Import Common CumulModel FunModel FunSpec FunProofs FunProofs2 FunProps SimpsonModel SimpsonProofs SimpsonProps CosmoModel CosmoSpec.
Import ListNotations.
Local Open Scope R_scope.

Definition falls (f : R -> R) (a b : R) : Prop := forall x y, a <= x -> x <= y -> y <= b -> f y <= f x.

Lemma piece_bounds (f : R -> R) a b u v : falls f a b -> ex_RInt f a b -> a <= u -> u <= v -> v <= b ->
  ex_RInt f u v /\ f v * (v - u) <= RInt f u v <= f u * (v - u).
Proof.
  intros M I A L B.
  assert (I1 : ex_RInt f a v) by (apply (ex_RInt_Chasles_1 (V := R_CompleteNormedModule) f a v b); [lra|exact I]).
  assert (I2 : ex_RInt f u v) by (apply (ex_RInt_Chasles_2 (V := R_CompleteNormedModule) f a u v); [lra|exact I1]).
  split; [exact I2|].
  assert (C : forall k : R, RInt (fun _ => k) u v = k * (v - u)).
  { intro k. rewrite RInt_const. unfold scal. simpl. unfold mult. simpl. ring. }
  split.
  - rewrite <- C. apply RInt_le; [exact L|apply ex_RInt_const|exact I2|]. intros x [H1 H2]. apply M; lra.
  - rewrite <- C. apply RInt_le; [exact L|exact I2|apply ex_RInt_const|]. intros x [H1 H2]. apply M; lra.
Qed.

Lemma sums_bound (f : R -> R) a b N : a <= b -> (0 < N)%nat -> falls f a b -> ex_RInt f a b ->
  forall k, (k <= N)%nat ->
  sum (F f a b N) 1 k * ((b - a) / INR N) <= RInt f a (a + INR k * ((b - a) / INR N)) <= sum (F f a b N) 0 k * ((b - a) / INR N).
Proof.
  intros L P M I. assert (IN : 0 < INR N) by (apply lt_0_INR; exact P). set (h := (b - a) / INR N).
  assert (H0 : 0 <= h) by (unfold h; apply Rmult_le_pos; [lra|left; apply Rinv_0_lt_compat; exact IN]).
  assert (EH : b - a = INR N * h) by (unfold h; field; lra).
  induction k as [|k IH]; intro K.
  - cbn [sum INR]. replace (a + 0 * h) with a by ring. rewrite RInt_point. change zero with 0. lra.
  - specialize (IH ltac:(lia)). rewrite !sum_last.
    assert (K1 : INR k * h <= INR N * h) by (apply Rmult_le_compat_r; [exact H0|apply le_INR; lia]).
    assert (K2 : INR (S k) * h <= INR N * h) by (apply Rmult_le_compat_r; [exact H0|apply le_INR; exact K]).
    assert (K0 : 0 <= INR k * h) by (apply Rmult_le_pos; [apply pos_INR|exact H0]).
    rewrite S_INR in K2. rewrite S_INR.
    destruct (piece_bounds f a b (a + INR k * h) (a + (INR k + 1) * h) M I) as [J B]; try lra.
    assert (J0 : ex_RInt f a (a + INR k * h)) by (apply (ex_RInt_Chasles_1 (V := R_CompleteNormedModule) f a (a + INR k * h) b); [lra|exact I]).
    rewrite <- (RInt_Chasles (V := R_CompleteNormedModule) f a (a + INR k * h) (a + (INR k + 1) * h) J0 J).
    match goal with |- context [Hierarchy.plus ?x ?y] => change (Hierarchy.plus x y) with (x + y) end.
    assert (D1 : F f a b N (1 + k) = f (a + (INR k + 1) * h)) by (unfold F; fold h; rewrite plus_INR; cbn [INR]; f_equal; ring).
    assert (D2 : F f a b N (0 + k) = f (a + INR k * h)) by (unfold F; fold h; rewrite Nat.add_0_l; reflexivity).
    rewrite D1, D2. replace (a + (INR k + 1) * h - (a + INR k * h)) with h in B by ring. lra.
Qed.

Lemma rule_falls (f : R -> R) a b N : a <= b -> (8 <= N)%nat -> falls f a b -> ex_RInt f a b ->
  Rabs (rule f a b N - RInt f a b) <= 5 / 8 * ((b - a) / INR N) * (f a - f b).
Proof.
  intros L N8 M I. assert (IN : 0 < INR N) by (apply lt_0_INR; lia).
  pose proof (sums_bound f a b N L ltac:(lia) M I N (Nat.le_refl N)) as B.
  set (h := (b - a) / INR N) in *. assert (H0 : 0 <= h) by (unfold h; apply Rmult_le_pos; [lra|left; apply Rinv_0_lt_compat; exact IN]).
  assert (EH : b - a = INR N * h) by (unfold h; field; lra).
  replace (a + INR N * h) with b in B by lra.
  assert (D : forall i j, (i <= j)%nat -> (j <= N)%nat -> F f a b N j <= F f a b N i).
  { intros i j Hi Hj. unfold F. fold h. assert (INR i * h <= INR j * h) by (apply Rmult_le_compat_r; [exact H0|apply le_INR; exact Hi]).
    assert (INR j * h <= INR N * h) by (apply Rmult_le_compat_r; [exact H0|apply le_INR; exact Hj]). assert (0 <= INR i * h) by (apply Rmult_le_pos; [apply pos_INR|exact H0]).
    apply M; lra. }
  assert (Fa : F f a b N 0 = f a) by (unfold F; cbn [INR]; f_equal; ring).
  assert (Fb : F f a b N N = f b) by (unfold F; fold h; f_equal; lra).
  destruct N as [|[|[|[|[|n]]]]]; try lia. set (N := S (S (S (S (S n))))) in *.
  replace (N - 5)%nat with n by lia.
  assert (S0 : sum (F f a b N) 0 N = F f a b N 0 + F f a b N 1 + F f a b N 2 + sum (F f a b N) 3 n + F f a b N (N - 2) + F f a b N (N - 1)).
  { unfold N at 2. rewrite (sum_last _ (S (S (S (S n))))), (sum_last _ (S (S (S n)))). cbn [sum]. replace (0 + S (S (S n)))%nat with (N - 2)%nat by (unfold N; lia). replace (0 + S (S (S (S n))))%nat with (N - 1)%nat by (unfold N; lia). ring. }
  assert (S1 : sum (F f a b N) 1 N = F f a b N 1 + F f a b N 2 + sum (F f a b N) 3 n + F f a b N (N - 2) + F f a b N (N - 1) + F f a b N N).
  { unfold N at 2. rewrite (sum_last _ (S (S (S (S n))))), (sum_last _ (S (S (S n)))), (sum_last _ (S (S n))). cbn [sum]. replace (1 + S (S n))%nat with (N - 2)%nat by (unfold N; lia). replace (1 + S (S (S n)))%nat with (N - 1)%nat by (unfold N; lia). replace (1 + S (S (S (S n))))%nat with N by (unfold N; lia). ring. }
  rewrite S0, S1 in B. unfold rule. fold h. replace (N - 5)%nat with n by (unfold N; lia).
  pose proof (D 0 1 ltac:(lia) ltac:(lia))%nat as D01. pose proof (D 1 2 ltac:(lia) ltac:(lia))%nat as D12.
  pose proof (D 2 (N - 2) ltac:(lia) ltac:(lia))%nat as D23. pose proof (D (N - 2) (N - 1) ltac:(lia) ltac:(lia))%nat as D34. pose proof (D (N - 1) N ltac:(lia) ltac:(lia))%nat as D45.
  rewrite Fa, Fb in *.
  set (s := sum (F f a b N) 3 n) in *. set (f1 := F f a b N 1) in *. set (f2 := F f a b N 2) in *. set (f3 := F f a b N (N - 2)) in *. set (f4 := F f a b N (N - 1)) in *.
  set (J := RInt f a b) in *.
  assert (X1 : (s + 375 / 1000 * (f a + f b) + 7 / 6 * (f1 + f4) + 23 / 24 * (f2 + f3)) * h - (f1 + f2 + s + f3 + f4 + f b) * h <= 5 / 8 * h * (f a - f b)).
  { replace (5 / 8 * h * (f a - f b)) with (5 / 8 * (f a - f b) * h) by ring. rewrite <- Rmult_minus_distr_r. apply Rmult_le_compat_r; [exact H0|]. lra. }
  assert (X2 : - (5 / 8 * h * (f a - f b)) <= (s + 375 / 1000 * (f a + f b) + 7 / 6 * (f1 + f4) + 23 / 24 * (f2 + f3)) * h - (f a + f1 + f2 + s + f3 + f4) * h).
  { replace (- (5 / 8 * h * (f a - f b))) with (- (5 / 8 * (f a - f b)) * h) by ring. rewrite <- Rmult_minus_distr_r. apply Rmult_le_compat_r; [exact H0|]. lra. }
  apply Rabs_le. lra.
Qed.
Lemma rule_opp f a b N : rule (fun x => - f x) a b N = - rule f a b N.
Proof.
  unfold rule, F. assert (E : forall n i, sum (fun i => - f (a + INR i * ((b - a) / INR N))) i n = - sum (fun i => f (a + INR i * ((b - a) / INR N))) i n).
  { induction n as [|n IH]; intro i; cbn [sum]; [ring|]. rewrite IH. ring. }
  rewrite E. ring.
Qed.

(** ** The Hubble parameter *)
Definition radicand (p : cosmology) (z : R) : R := omega_m p * ((1 + z) * (1 + z) * (1 + z)) + omega_k p * ((1 + z) * (1 + z)) + omega_lambda p.
Lemma parameter_radicand z p : hubble_parameter z p = sqrt (radicand p z).
Proof. reflexivity. Qed.
Lemma parameter_rate z p : hubble_parameter z p = rate p z.
Proof. unfold hubble_parameter, rate, omega_k. f_equal. ring. Qed.
Lemma radicand_grows p x y : expanding p -> 0 <= x -> x <= y -> radicand p x <= radicand p y.
Proof.
  intros (H0 & Hm & Hl) X Y. unfold radicand, omega_k. set (m := omega_m p) in *. set (l := omega_lambda p) in *.
  assert (E : m * ((1 + y) * (1 + y) * (1 + y)) + (1 - m - l) * ((1 + y) * (1 + y)) + l - (m * ((1 + x) * (1 + x) * (1 + x)) + (1 - m - l) * ((1 + x) * (1 + x)) + l)
     = (y - x) * (m * (y * y + x * y + x * x) + (2 * m + 1 - l) * (x + y) + (m + 2 - 2 * l))) by ring.
  assert (P : 0 <= (y - x) * (m * (y * y + x * y + x * x) + (2 * m + 1 - l) * (x + y) + (m + 2 - 2 * l))).
  { apply Rmult_le_pos; [lra|]. assert (0 <= m * (y * y + x * y + x * x)) by (apply Rmult_le_pos; [exact Hm|]; assert (0 <= x * y) by (apply Rmult_le_pos; lra); assert (0 <= x * x) by (apply Rmult_le_pos; lra); assert (0 <= y * y) by (apply Rmult_le_pos; lra); lra).
    assert (0 <= (2 * m + 1 - l) * (x + y)) by (apply Rmult_le_pos; lra). lra. }
  lra.
Qed.
Lemma radicand_today p : radicand p 0 = 1.
Proof. unfold radicand, omega_k. ring. Qed.
Lemma radicand_ge1 p z : expanding p -> 0 <= z -> 1 <= radicand p z.
Proof. intros E Z. rewrite <- (radicand_today p). apply radicand_grows; [exact E|lra|exact Z]. Qed.
Lemma parameter_ge1 p z : expanding p -> 0 <= z -> 1 <= hubble_parameter z p.
Proof. intros E Z. rewrite parameter_radicand, <- sqrt_1. apply sqrt_le_1_alt. apply radicand_ge1; assumption. Qed.
Lemma parameter_today p : hubble_parameter 0 p = 1.
Proof. rewrite parameter_radicand, radicand_today. apply sqrt_1. Qed.
Lemma parameter_grows p x y : expanding p -> 0 <= x -> x <= y -> hubble_parameter x p <= hubble_parameter y p.
Proof. intros E X Y. rewrite !parameter_radicand. apply sqrt_le_1_alt. apply radicand_grows; assumption. Qed.

Definition slow (p : cosmology) (x : R) : R := 1 / hubble_parameter x p.
Lemma slow_falls p z : expanding p -> falls (slow p) 0 z.
Proof.
  intros E x y X Y _. unfold slow. unfold Rdiv. rewrite !Rmult_1_l. apply Rinv_le_contravar.
  - pose proof (parameter_ge1 p x E X). lra.
  - apply parameter_grows; assumption.
Qed.
Lemma slow_int p z : expanding p -> 0 <= z -> ex_RInt (slow p) 0 z.
Proof.
  intros E Z. apply (ex_RInt_continuous (V := R_CompleteNormedModule)). intros x Hx. rewrite Rmin_left, Rmax_right in Hx by lra.
  apply (continuous_ext (T := R_UniformSpace) (U := R_UniformSpace) (fun x => / sqrt (radicand p x))); [intro t; unfold slow, Rdiv; rewrite parameter_radicand; symmetry; exact (Rmult_1_l _)|].
  pose proof (radicand_ge1 p x E (proj1 Hx)) as G.
  apply (ex_derive_continuous (K := R_AbsRing) (V := R_NormedModule)). unfold radicand in *. auto_derive.
  split; [lra|]. split; [|exact I]. apply Rgt_not_eq. apply sqrt_lt_R0. lra.
Qed.
Lemma slow_bounds p z x : expanding p -> 0 <= x -> x <= z -> 1 / hubble_parameter z p <= slow p x <= 1.
Proof.
  intros E X Z. split.
  - apply (slow_falls p z E); lra.
  - replace 1 with (slow p 0) by (unfold slow; rewrite parameter_today; field). apply (slow_falls p z E); lra.
Qed.

(** ** The comoving distance *)
Lemma comoving_eq c z p prec : z <> 0 ->
  comoving_distance c z p prec = do i <- adaptive (slow p) 0 z prec 3; Ok (hubble_distance c p * i).
Proof.
  intro N. unfold comoving_distance. replace (req z 0) with false; [reflexivity|]. symmetry. apply req_not. exact N.
Qed.
Lemma rule_slow_bounds p z N : expanding p -> 0 < z -> (8 <= N)%nat ->
  z / hubble_parameter z p <= rule (slow p) 0 z N <= z.
Proof.
  intros E Z N8. pose proof (rule_bounds (slow p) 0 z N (1 / hubble_parameter z p) 1 ltac:(lra) N8) as B.
  assert (H : forall x, 0 <= x <= z -> 1 / hubble_parameter z p <= slow p x <= 1) by (intros x Hx; apply slow_bounds; [exact E|lra|lra]).
  specialize (B H). replace (z / hubble_parameter z p) with (1 / hubble_parameter z p * (z - 0)) by (unfold Rdiv; ring). lra.
Qed.
Lemma rule_slow_error p z N : expanding p -> 0 < z -> (8 <= N)%nat ->
  Rabs (rule (slow p) 0 z N - RInt (slow p) 0 z) <= 5 / 8 * (z / INR N) * (1 - 1 / hubble_parameter z p).
Proof.
  intros E Z N8. pose proof (rule_falls (slow p) 0 z N ltac:(lra) N8 (slow_falls p z E) (slow_int p z E ltac:(lra))) as B.
  replace (z - 0) with z in B by ring. replace (slow p 0) with 1 in B by (unfold slow; rewrite parameter_today; field). exact B.
Qed.
Lemma INR_pow2 n : INR (2 ^ n) = 2 ^ n.
Proof. induction n as [|n IH]; [reflexivity|]. cbn [Nat.pow]. rewrite mult_INR, IH. simpl. ring. Qed.
Lemma comoving_outcome c z p prec : 0 < c -> expanding p -> 0 < z ->
  (comoving_distance c z p prec = UB /\ prec * 2 ^ 30 < 15 / 8 * (hubble_parameter z p - 1)) \/
  exists m, (4 <= m <= 30)%Z /\ comoving_distance c z p prec = Ok (hubble_distance c p * A (slow p) 0 z m).
Proof.
  intros C E Z. rewrite comoving_eq by lra. unfold adaptive. rewrite simpson_rule by lia. cbn [bind]. fold (A (slow p) 0 z 3).
  destruct (refine_spec (slow p) 0 z prec 28 40 3 ltac:(lia) ltac:(lia) ltac:(lia)) as [(e & He & ER & EG & _)|[ER EJ]].
  - right. exists e. split; [lia|]. rewrite ER. reflexivity.
  - left. rewrite ER. split; [reflexivity|]. specialize (EJ 30%Z ltac:(lia)). change (30 - 1)%Z with 29%Z in EJ.
    assert (N : ~ ((A (slow p) 0 z 29 = 0 /\ A (slow p) 0 z 30 = 0) \/ (A (slow p) 0 z 29 <> 0 /\ Rabs (A (slow p) 0 z 30 - A (slow p) 0 z 29) <= prec * Rabs (A (slow p) 0 z 29)))).
    { intro H. apply goes_on_false in H. congruence. }
    pose proof (pow_ge8 29 ltac:(lia)) as N29. pose proof (pow_ge8 30 ltac:(lia)) as N30.
    pose proof (rule_slow_bounds p z _ E Z N29) as B29. pose proof (rule_slow_error p z _ E Z N29) as R29. pose proof (rule_slow_error p z _ E Z N30) as R30.
    fold (A (slow p) 0 z 29) in B29, R29. fold (A (slow p) 0 z 30) in R30.
    rewrite INR_pow2 in R29, R30. change (Z.to_nat 29) with 29%nat in R29. change (Z.to_nat 30) with 30%nat in R30.
    assert (P2 : 2 ^ 30 = 2 * 2 ^ 29) by (simpl; ring). assert (P0 : 0 < 2 ^ 29) by (apply pow_lt; lra).
    pose proof (parameter_ge1 p z E ltac:(lra)) as G. set (e := hubble_parameter z p) in *. set (a := A (slow p) 0 z 29) in *. set (b := A (slow p) 0 z 30) in *. set (J := RInt (slow p) 0 z) in *.
    assert (Pa : 0 < z / e) by (apply Rdiv_lt_0_compat; lra).
    apply Rnot_le_lt. intro L. apply N. right. split; [lra|].
    assert (D : Rabs (b - a) <= 15 / 8 * (z / 2 ^ 30) * (1 - 1 / e)).
    { replace (b - a) with ((b - J) - (a - J)) by ring. eapply Rle_trans; [apply Rabs_triang|]. rewrite Rabs_Ropp.
      replace (15 / 8 * (z / 2 ^ 30) * (1 - 1 / e)) with (5 / 8 * (z / 2 ^ 30) * (1 - 1 / e) + 5 / 8 * (z / 2 ^ 29) * (1 - 1 / e)); [lra|]. rewrite P2. field. lra. }
    eapply Rle_trans; [exact D|]. rewrite (Rabs_right a) by lra.
    apply Rle_trans with (prec * (z / e)).
    + replace (15 / 8 * (z / 2 ^ 30) * (1 - 1 / e)) with (15 / 8 * (e - 1) * (z / e / 2 ^ 30)) by (field; lra).
      replace (prec * (z / e)) with (prec * 2 ^ 30 * (z / e / 2 ^ 30)) by (field; lra).
      apply Rmult_le_compat_r; [|exact L]. apply Rlt_le. apply Rdiv_lt_0_compat; [exact Pa|lra].
    + apply Rmult_le_compat_l; [|lra]. apply Rmult_le_reg_r with (2 ^ 30); [lra|]. rewrite Rmult_0_l. lra.
Qed.
Lemma hubble_distance_pos c p : 0 < c -> expanding p -> 0 < hubble_distance c p.
Proof. intros C [H _]. unfold hubble_distance. apply Rdiv_lt_0_compat; lra. Qed.
Lemma pow_ge16 m : (4 <= m)%Z -> 16 <= INR (2 ^ Z.to_nat m).
Proof. intro H. replace 16 with (INR 16) by (simpl; ring). apply le_INR. change 16%nat with (2 ^ 4)%nat. apply Nat.pow_le_mono_r; lia. Qed.
Lemma comoving_value c z p prec d : 0 < c -> expanding p -> 0 < z -> comoving_distance c z p prec = Ok d ->
  hubble_distance c p * z / hubble_parameter z p <= d <= hubble_distance c p * z /\
  Rabs (d - hubble_distance c p * RInt (slow p) 0 z) <= 5 / 128 * (hubble_distance c p * z) * (1 - 1 / hubble_parameter z p).
Proof.
  intros C E Z H. pose proof (hubble_distance_pos c p C E) as P.
  destruct (comoving_outcome c z p prec C E Z) as [[H' _]|(m & Hm & H')]; rewrite H' in H; [discriminate|]. injection H as <-.
  pose proof (pow_ge8 m ltac:(lia)) as N8. pose proof (rule_slow_bounds p z _ E Z N8) as B. pose proof (rule_slow_error p z _ E Z N8) as R. pose proof (pow_ge16 m ltac:(lia)) as N16.
  fold (A (slow p) 0 z m) in B, R. set (N := INR (2 ^ Z.to_nat m)) in *. set (a := A (slow p) 0 z m) in *. set (D := hubble_distance c p) in *.
  pose proof (parameter_ge1 p z E ltac:(lra)) as G. set (e := hubble_parameter z p) in *. split; [split|].
  - unfold Rdiv in *. rewrite Rmult_assoc. apply Rmult_le_compat_l; lra.
  - apply Rmult_le_compat_l; lra.
  - rewrite <- Rmult_minus_distr_l, Rabs_mult, (Rabs_right D) by lra.
    replace (5 / 128 * (D * z) * (1 - 1 / e)) with (D * (5 / 8 * (z / 16) * (1 - 1 / e))) by (field; lra).
    apply Rmult_le_compat_l; [lra|]. eapply Rle_trans; [exact R|].
    assert (1 / e <= 1) by (apply Rmult_le_reg_r with e; [lra|]; unfold Rdiv; rewrite Rmult_assoc, Rinv_l by lra; lra).
    apply Rmult_le_compat_r; [lra|]. apply Rmult_le_compat_l; [lra|]. unfold Rdiv. apply Rmult_le_compat_l; [lra|]. apply Rinv_le_contravar; lra.
Qed.

(** ** Sines *)
Lemma sinh_ge x : 0 <= x -> x <= sinh x.
Proof.
  intro X. destruct (Req_dec x 0) as [->|N]; [rewrite sinh_0; lra|].
  destruct (MVT_gen (fun t => sinh t - t) 0 x (fun t => cosh t - 1)) as [t [Ht E]].
  - intros t _. auto_derive; [exact I|]. unfold cosh. lra.
  - intros t _. apply continuity_pt_minus; [apply derivable_continuous_pt; exists (cosh t); apply derivable_pt_lim_sinh|apply derivable_continuous_pt; apply derivable_pt_id].
  - rewrite sinh_0 in E. assert (C : 1 <= cosh t).
    { unfold cosh. pose proof (exp_pos t) as P. rewrite exp_Ropp. assert (exp t * / exp t = 1) by (apply Rinv_r; lra).
      assert (0 < / exp t) by (apply Rinv_0_lt_compat; lra). assert (0 <= (exp t - / exp t) * (exp t - / exp t)) by apply Rle_0_sqr.
      assert (4 <= (exp t + / exp t) * (exp t + / exp t)) by nra. assert (2 <= exp t + / exp t) by nra. lra. }
    assert (0 <= (cosh t - 1) * (x - 0)) by (apply Rmult_le_pos; lra). lra.
Qed.
Lemma sin_le x : 0 <= x -> sin x <= x.
Proof. intro X. destruct (Req_dec x 0) as [->|N]; [rewrite sin_0; lra|]. left. apply sin_lt_x. lra. Qed.
Lemma sin_ge x : 0 <= x -> - x <= sin x.
Proof.
  intro X. destruct (Rle_lt_dec x PI) as [L|L].
  - pose proof (sin_ge_0 x X L). lra.
  - pose proof (SIN_bound x). pose proof PI_RGT_0. assert (2 <= PI) by apply PI_2_aux || (pose proof PI2_1; lra). lra.
Qed.
