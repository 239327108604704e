(** Proofs about distances and best matching units in double precision. *)
From Coq Require Import ZArith Reals List Arith Bool Lia Lra Psatz.
From Flocq Require Import Core IEEE754.BinarySingleNaN.
From Verif Require Import Common SOMModel SOMSpec SOMProofs FloatModel FloatProofs DoubleProofs DoubleProofs2 DInterpProofs DInterpProofs2 DSOMModel DSOMSpec.
Import ListNotations.
Local Open Scope R_scope.

(** ** Squares *)
Lemma num_cases (x : double) : num x \/ x = B754_nan.
Proof. destruct x; auto; left; reflexivity. Qed.
Lemma square_nonneg (z : double) : num z -> num (dmul z z) /\ 0 <= ext (dmul z z).
Proof.
  intros N. pose proof MX_big. destruct (is_finite z) eqn:F.
  - destruct (dmul_ext z z F F) as [M E]. split; [exact M|]. rewrite E. apply crd_nonneg. nra.
  - destruct z as [s|s| |s m e H']; try discriminate. unfold dmul. cbn. rewrite xorb_nilpotent. cbn. split; [reflexivity|lra].
Qed.
Lemma opposite_finite (z z' : double) : is_finite z = true -> is_finite z' = true -> B2R z' = - B2R z -> B2R z <> 0 -> z' = Bopp z.
Proof.
  intros F F' E NZ. apply B2R_inj.
  - destruct z' as [s|s| |s m e H']; try discriminate; [|reflexivity]. exfalso. cbn in E. lra.
  - destruct z as [s|s| |s m e H']; try discriminate; [|reflexivity]. exfalso. cbn in NZ. lra.
  - rewrite E. symmetry. apply B2R_Bopp.
Qed.
Lemma square_opp (z z' : double) : num z -> num z' -> ext z' = - ext z -> dmul z z = dmul z' z'.
Proof.
  intros N N' E. pose proof MX_big as BIG. destruct (is_finite z) eqn:F.
  - assert (F' : is_finite z' = true). { apply dfinite_iff; auto. rewrite E. pose proof (dext_lt z F). lra. }
    rewrite !dext_finite in E by assumption. destruct (Req_dec (B2R z) 0) as [Z|NZ].
    + destruct (zero_valued z F Z) as [s ->]. destruct (zero_valued z' F') as [s' ->]; [lra|]. unfold dmul. cbn. rewrite !xorb_nilpotent. reflexivity.
    + rewrite (opposite_finite z z' F F' E NZ). clear z' N' E F'. destruct z as [s|s| |s m e H']; try discriminate; [cbn in NZ; lra|].
      apply sf_inj. unfold dmul. cbn [Bopp Bmult]. rewrite !B2SF_SF2B. rewrite !xorb_nilpotent. reflexivity.
  - destruct z as [s|s| |s m e H']; try discriminate.
    assert (G : exists s', z' = B754_infinity s').
    { destruct (is_finite z') eqn:F'; [|destruct z' as [t|t| |t m e H']; try discriminate; eauto].
      pose proof (dext_lt z' F') as B. rewrite E in B. destruct s; unfold ext in B; lra. }
    destruct G as [s' ->]. unfold dmul. cbn. rewrite !xorb_nilpotent. reflexivity.
Qed.
Lemma sub_num (a b : double) : is_finite a = true -> is_finite b = true -> num (dsub a b) /\ num (dsub b a) /\ ext (dsub b a) = - ext (dsub a b).
Proof.
  intros FA FB. destruct (dsub_ext a b FA FB) as [N E]. destruct (dsub_ext b a FB FA) as [N' E']. split; [exact N|]. split; [exact N'|].
  rewrite E, E'. replace (ext b - ext a) with (- (ext a - ext b)) by ring. apply crnd_opp; typeclasses eauto.
Qed.
Lemma square_sym (a b : double) : is_finite a = true -> is_finite b = true -> dmul (dsub a b) (dsub a b) = dmul (dsub b a) (dsub b a).
Proof. intros FA FB. destruct (sub_num a b FA FB) as (N & N' & E). apply square_opp; assumption. Qed.

(** ** The square root *)
Lemma neg_value m e : F2R (Float radix2 (Z.neg m) e) < 0.
Proof. apply F2R_lt_0. reflexivity. Qed.
Lemma sqrt_nonneg (z : double) : num z -> 0 <= ext z -> num (dsqrt z) /\ 0 <= ext (dsqrt z).
Proof.
  intros N P. pose proof MX_big. destruct (is_finite z) eqn:F.
  - destruct (Bsqrt_correct 53 1024 prec53 emax53 mode_NE z) as (E & FS & _). fold (dsqrt z) in E, FS.
    rewrite dext_finite in P by exact F.
    assert (FZ : is_finite (dsqrt z) = true).
    { rewrite FS. destruct z as [s|s| |s m e H']; try discriminate; [reflexivity|]. destruct s; [|reflexivity]. exfalso.
      pose proof (neg_value m e) as Q; cbn [B2R cond_Zopp Z.opp] in *; lra. }
    split; [apply dfinite_num, FZ|]. rewrite dext_finite by exact FZ. rewrite E. cbn [round_mode].
    rewrite <- (round_0 radix2 (SpecFloat.fexp 53 1024) ZnearestE). apply rnd_mono. apply sqrt_pos.
  - rewrite (inf_of z N P F). cbn. split; [reflexivity|lra].
Qed.
Lemma sqrt_finite (z : double) : num z -> 0 <= ext z -> (is_finite (dsqrt z) = true <-> is_finite z = true).
Proof.
  intros N P. destruct (is_finite z) eqn:F.
  - split; auto. intros _. destruct (Bsqrt_correct 53 1024 prec53 emax53 mode_NE z) as (E & FS & _). fold (dsqrt z) in E, FS.
    rewrite FS. destruct z as [s|s| |s m e H']; try discriminate; [reflexivity|]. destruct s; [|reflexivity]. exfalso.
    rewrite dext_finite in P by exact F. pose proof (neg_value m e) as Q; cbn [B2R cond_Zopp Z.opp] in *; lra.
  - rewrite (inf_of z N P F). cbn. split; discriminate.
Qed.
Lemma sqrt_value (z : double) : is_finite z = true -> 0 <= B2R z -> B2R (dsqrt z) = rnd53 (sqrt (B2R z)).
Proof. intros F P. destruct (Bsqrt_correct 53 1024 prec53 emax53 mode_NE z) as (E & _). exact E. Qed.
(** The smallest number above 0. *)
Lemma least_positive (z : double) : is_finite z = true -> 0 < B2R z -> bpow radix2 (-1074) <= B2R z.
Proof.
  intros F P. destruct z as [s|s| |s m e H']; try discriminate; cbn in P; [lra|].
  destruct s; [exfalso; pose proof (neg_value m e) as Q; cbn [B2R cond_Zopp Z.opp] in *; lra|].
  pose proof (generic_format_B2R 53 1024 (B754_finite false m e H')) as G. apply (generic_format_ge_bpow radix2 (SpecFloat.fexp 53 1024) (-1074)); auto.
  intros e0. unfold SpecFloat.fexp, SpecFloat.emin. lia.
Qed.
Lemma sqrt_rel (z : double) : is_finite z = true -> 0 <= B2R z -> exists d, Rabs d <= uro /\ B2R (dsqrt z) = sqrt (B2R z) * (1 + d).
Proof.
  intros F P. pose proof uro_pos. rewrite sqrt_value by assumption. destruct (Req_dec (B2R z) 0) as [->|NZ].
  - exists 0. rewrite Rabs_R0. split; [lra|]. rewrite sqrt_0, round_0 by auto with typeclass_instances. ring.
  - apply rnd_rel. rewrite Rabs_pos_eq by apply sqrt_pos.
    apply Rle_trans with (sqrt (bpow radix2 (-1074))).
    + replace (bpow radix2 (-1074)) with (bpow radix2 (-537) * bpow radix2 (-537)) by (rewrite <- bpow_plus; reflexivity).
      rewrite sqrt_square by apply bpow_ge_0. apply bpow_le. lia.
    + apply sqrt_le_1_alt, least_positive; auto. lra.
Qed.

(** ** The distance *)
Lemma l2_loop_ok : forall l r acc, all_finite l -> all_finite r -> num acc -> 0 <= ext acc ->
  num (l2_loop acc l r) /\ ext acc <= ext (l2_loop acc l r).
Proof.
  induction l as [|a l IH]; intros [|b r] acc FL FR N P; try (cbn [l2_loop]; split; [assumption|lra]).
  inversion FL as [|? ? FA FL']; subst. inversion FR as [|? ? FB FR']; subst. cbn [l2_loop].
  destruct (sub_num a b FA FB) as (ND & _ & _). destruct (square_nonneg _ ND) as [NS PS].
  destruct (add_nonneg acc _ N NS P PS) as (NA & G1 & G2). destruct (IH r _ FL' FR' NA) as [NR GR]; [lra|]. split; [exact NR|lra].
Qed.
Lemma l2_ok l r : all_finite l -> all_finite r -> num (l2 l r) /\ 0 <= ext (l2 l r).
Proof. intros FL FR. destruct (l2_loop_ok l r d0 FL FR num_d0) as [N G]; [rewrite ext_d0; lra|]. rewrite ext_d0 in G. apply sqrt_nonneg; assumption. Qed.
Lemma l2_loop_sym : forall l r acc, all_finite l -> all_finite r -> l2_loop acc l r = l2_loop acc r l.
Proof.
  induction l as [|a l IH]; intros [|b r] acc FL FR; try reflexivity.
  inversion FL as [|? ? FA FL']; subst. inversion FR as [|? ? FB FR']; subst. cbn [l2_loop]. rewrite (square_sym a b FA FB). apply IH; assumption.
Qed.
Lemma sub_self (a : double) : is_finite a = true -> is_finite (dsub a a) = true /\ B2R (dsub a a) = 0.
Proof. intros F. destruct (dsub_ext a a F F) as [N E]. rewrite Rminus_diag_eq in E by reflexivity. apply small_zero; assumption. Qed.
Lemma dsub_equal (a b : double) : deq a b = true -> is_finite a = true -> is_finite b = true -> exists s, dsub a b = B754_zero s.
Proof.
  intros E FA FB. apply deq_iff in E; try (apply dfinite_num; assumption). destruct (dsub_ext a b FA FB) as [N V].
  rewrite E, Rminus_diag_eq in V by reflexivity. destruct (small_zero _ N V) as [F Z]. apply zero_valued; assumption.
Qed.
Lemma l2_loop_equal : forall l r, all_finite l -> all_finite r -> length l = length r -> Forall2 (fun a b => deq a b = true) l r -> l2_loop d0 l r = d0.
Proof.
  induction l as [|a l IH]; intros [|b r] FL FR L E; try reflexivity.
  inversion FL as [|? ? FA FL']; subst. inversion FR as [|? ? FB FR']; subst. inversion E as [|? ? ? ? EA E']; subst. cbn [l2_loop].
  destruct (dsub_equal a b EA FA FB) as [s ->]. replace (dmul (B754_zero s) (B754_zero s)) with d0 by (destruct s; reflexivity).
  change (dadd d0 d0) with d0. apply IH; auto.
Qed.

(** ** The error *)
Lemma pow_up n : 1 <= (1 + uro) ^ n.
Proof. apply pow_R1_Rle. pose proof uro_pos. lra. Qed.
Lemma pow_down n : 0 <= (1 - uro) ^ n <= 1.
Proof. pose proof uro_pos. pose proof uro_small. split; [apply pow_le; lra|]. apply Rle_trans with (1 ^ n); [apply pow_incr; split; lra|rewrite pow1; lra]. Qed.
Lemma sum_sq_nonneg : forall l r, 0 <= sum_sq l r.
Proof. induction l as [|a l IH]; intros [|b r]; cbn [sum_sq]; try lra. specialize (IH r). pose proof (Rle_0_sqr (B2R a - B2R b)) as Q. unfold Rsqr in Q. lra. Qed.
Definition apart (a b : double) : Prop := B2R a = B2R b \/ bpow radix2 (-500) <= Rabs (B2R a - B2R b).
Lemma far_tail a l b r : not_too_close (a :: l) (b :: r) -> apart a b /\ not_too_close l r.
Proof. intros H. split; [exact (H 0%nat a b eq_refl eq_refl)|]. intros i x y HX HY. exact (H (S i) x y HX HY). Qed.
Lemma factor3 e1 e2 : Rabs e1 <= uro -> Rabs e2 <= uro -> (1 - uro) ^ 3 <= (1 + e1) * (1 + e1) * (1 + e2) <= (1 + uro) ^ 3.
Proof.
  intros H1 H2. apply Rabs_le_inv in H1, H2. pose proof uro_pos. pose proof uro_small. cbn [pow]. rewrite !Rmult_1_r.
  rewrite <- !Rmult_assoc.
  assert (0 <= (1 - uro) * (1 - uro)) by nra. assert (0 <= (1 + e1) * (1 + e1)) by nra.
  assert ((1 - uro) * (1 - uro) <= (1 + e1) * (1 + e1)) by (apply Rmult_le_compat; lra). assert ((1 + e1) * (1 + e1) <= (1 + uro) * (1 + uro)) by (apply Rmult_le_compat; lra).
  split; apply Rmult_le_compat; lra.
Qed.
Lemma square_error (a b : double) : is_finite (dmul (dsub a b) (dsub a b)) = true -> apart a b ->
  let s := (B2R a - B2R b) * (B2R a - B2R b) in
  (1 - uro) ^ 3 * s <= B2R (dmul (dsub a b) (dsub a b)) <= (1 + uro) ^ 3 * s.
Proof.
  intros F H s. destruct (fin_mul _ _ F) as [FD _]. destruct (fin_sub a b FD) as [FA FB]. destruct (sub_rel a b FA FB FD) as (e1 & H1 & E1).
  destruct (dmul_ext _ _ FD FD) as [N E]. apply (finite_rnd _ _ F) in E. rewrite dext_finite in E by exact FD. rewrite E, E1.
  pose proof uro_pos as UP. pose proof uro_small as US.
  destruct H as [H|H].
  - unfold s. rewrite H. replace (B2R b - B2R b) with 0 by ring. rewrite !Rmult_0_l, round_0 by auto with typeclass_instances. lra.
  - assert (S0 : 0 <= s) by (unfold s; apply Rle_0_sqr).
    destruct (rnd_rel ((B2R a - B2R b) * (1 + e1) * ((B2R a - B2R b) * (1 + e1)))) as (e2 & H2 & E2).
    { rewrite Rabs_mult. rewrite Rabs_mult. apply Rabs_le_inv in H1. rewrite (Rabs_pos_eq (1 + e1)) by lra.
      apply Rle_trans with (bpow radix2 (-501) * bpow radix2 (-501)); [rewrite <- bpow_plus; apply bpow_le; lia|].
      assert (bpow radix2 (-501) <= Rabs (B2R a - B2R b) * (1 + e1)).
      { replace (bpow radix2 (-501)) with (bpow radix2 (-500) * / 2) by (change (/ 2) with (bpow radix2 (-1)); rewrite <- bpow_plus; reflexivity).
        apply Rmult_le_compat; try lra. apply bpow_ge_0. }
      apply Rmult_le_compat; try apply bpow_ge_0; assumption. }
    rewrite E2. destruct (factor3 e1 e2 H1 H2) as [L U].
    replace ((B2R a - B2R b) * (1 + e1) * ((B2R a - B2R b) * (1 + e1)) * (1 + e2)) with ((1 + e1) * (1 + e1) * (1 + e2) * s) by (unfold s; ring).
    split; apply Rmult_le_compat_r; assumption.
Qed.
Lemma l2_loop_error : forall l r acc (A : R) k, (3 <= k)%nat -> all_finite l -> all_finite r -> not_too_close l r -> is_finite acc = true -> 0 <= B2R acc -> 0 <= A ->
  (1 - uro) ^ k * A <= B2R acc <= (1 + uro) ^ k * A -> is_finite (l2_loop acc l r) = true ->
  (1 - uro) ^ (k + length l) * (A + sum_sq l r) <= B2R (l2_loop acc l r) <= (1 + uro) ^ (k + length l) * (A + sum_sq l r).
Proof.
  pose proof uro_pos as UP. pose proof uro_small as US.
  induction l as [|a l IH]; intros r acc A k K FL FR H FA PA A0 B F.
  - cbn [l2_loop sum_sq length]. rewrite Nat.add_0_r, Rplus_0_r. exact B.
  - destruct r as [|b r].
    + cbn [l2_loop sum_sq length]. rewrite Rplus_0_r. rewrite !pow_add. pose proof (pow_up (S (length l))). pose proof (pow_down (S (length l))). pose proof (pow_down k). pose proof (pow_up k).
      assert (0 <= (1 - uro) ^ k * A) by (apply Rmult_le_pos; lra). assert (0 <= (1 + uro) ^ k * A) by (apply Rmult_le_pos; lra). split; nra.
    + inversion FL as [|? ? Fa FL']; subst. inversion FR as [|? ? Fb FR']; subst. destruct (far_tail _ _ _ _ H) as [HA HT]. cbn [l2_loop] in F |- *. cbn [sum_sq length].
      set (q := dmul (dsub a b) (dsub a b)) in *. destruct (sub_num a b Fa Fb) as (ND & _ & _). destruct (square_nonneg _ ND) as [NQ PQ]. fold q in NQ, PQ.
      assert (EA : 0 <= ext acc) by (rewrite dext_finite by exact FA; exact PA). destruct (add_nonneg acc q (dfinite_num acc FA) NQ EA PQ) as (NS & G1 & G2).
      assert (FS : is_finite (dadd acc q) = true).
      { apply dfinite_iff; auto. destruct (l2_loop_ok l r (dadd acc q) FL' FR' NS) as [_ G]; [lra|]. pose proof (dext_lt _ F). pose proof MX_big. lra. }
      destruct (fin_add _ _ FS) as [_ FQ]. destruct (square_error a b FQ HA) as [Q1 Q2]. fold q in Q1, Q2. set (s := (B2R a - B2R b) * (B2R a - B2R b)) in *.
      assert (S0 : 0 <= s) by (unfold s; apply Rle_0_sqr). destruct (add_rel acc q FA FQ FS) as (e & He & Ee). apply Rabs_le_inv in He.
      rewrite dext_finite in PQ by exact FQ.
      replace (k + S (length l))%nat with (S k + length l)%nat by lia. rewrite <- Rplus_assoc.
      apply IH; auto; try lia; try lra; try nra.
      rewrite Ee. assert (K3 : (1 - uro) ^ k * s <= B2R q <= (1 + uro) ^ k * s).
      { replace k with (3 + (k - 3))%nat by lia. rewrite !pow_add. pose proof (pow_up (k - 3)). pose proof (pow_down (k - 3)). pose proof (pow_down 3). pose proof (pow_up 3).
        assert (0 <= (1 - uro) ^ 3 * s) by (apply Rmult_le_pos; lra). assert (0 <= (1 + uro) ^ 3 * s) by (apply Rmult_le_pos; lra). split; nra. }
      cbn [pow]. pose proof (pow_down k). pose proof (pow_up k). set (L := (1 - uro) ^ k) in *. set (U := (1 + uro) ^ k) in *.
      assert (0 <= L * (A + s)) by (apply Rmult_le_pos; lra). assert (0 <= U * (A + s)) by (apply Rmult_le_pos; lra). split.
      * replace ((1 - uro) * L * (A + s)) with (L * (A + s) * (1 - uro)) by ring. apply Rmult_le_compat; try lra.
      * replace ((1 + uro) * U * (A + s)) with (U * (A + s) * (1 + uro)) by ring. apply Rmult_le_compat; lra.
Qed.
Lemma l2_error l r : all_finite l -> all_finite r -> not_too_close l r -> is_finite (l2 l r) = true ->
  (1 - uro) ^ (length l + 5) * sum_sq l r <= B2R (l2 l r) * B2R (l2 l r) <= (1 + uro) ^ (length l + 5) * sum_sq l r.
Proof.
  intros FL FR H F. pose proof uro_pos as UP. pose proof uro_small as US. unfold l2 in *. destruct (l2_loop_ok l r d0 FL FR num_d0) as [N G]; [rewrite ext_d0; lra|]. rewrite ext_d0 in G.
  apply (proj1 (sqrt_finite _ N G)) in F. set (z := l2_loop d0 l r) in *. assert (P : 0 <= B2R z) by (rewrite dext_finite in G by exact F; exact G).
  assert (B : (1 - uro) ^ (3 + length l) * (0 + sum_sq l r) <= B2R z <= (1 + uro) ^ (3 + length l) * (0 + sum_sq l r)).
  { apply l2_loop_error; auto; try lra. 1,2 : cbn; lra. }
  rewrite Rplus_0_l in B. destruct (sqrt_rel z F P) as (e & He & ->). apply Rabs_le_inv in He.
  replace (sqrt (B2R z) * (1 + e) * (sqrt (B2R z) * (1 + e))) with (sqrt (B2R z) * sqrt (B2R z) * ((1 + e) * (1 + e))) by ring. rewrite sqrt_sqrt by exact P.
  replace (length l + 5)%nat with ((3 + length l) + 2)%nat by lia. rewrite !(pow_add _ (3 + length l) 2). pose proof (sum_sq_nonneg l r).
  assert (SQ : (1 - uro) ^ 2 <= (1 + e) * (1 + e) <= (1 + uro) ^ 2) by (cbn [pow]; rewrite !Rmult_1_r; split; apply Rmult_le_compat; lra).
  pose proof (pow_down (3 + length l)). pose proof (pow_up (3 + length l)). pose proof (pow_down 2). set (L := (1 - uro) ^ (3 + length l)) in *. set (U := (1 + uro) ^ (3 + length l)) in *.
  assert (0 <= L * sum_sq l r) by (apply Rmult_le_pos; lra). assert (0 <= (1 + e) * (1 + e)) by apply Rle_0_sqr. split.
  - replace (L * (1 - uro) ^ 2 * sum_sq l r) with (L * sum_sq l r * (1 - uro) ^ 2) by ring. apply Rmult_le_compat; [assumption|apply pow_down|apply B|apply SQ].
  - replace (U * (1 + uro) ^ 2 * sum_sq l r) with (U * sum_sq l r * (1 + uro) ^ 2) by ring. apply Rmult_le_compat; [assumption|assumption|apply B|apply SQ].
Qed.
(** A distance that does not overflow is far below the largest double. *)
Lemma dbl_max_value : is_finite dbl_max = true /\ bpow radix2 1023 <= B2R dbl_max.
Proof.
  destruct highest_value as [E F]. unfold DInterpModel.dhighest in *. fold dbl_max in E, F. split; [exact F|]. rewrite E.
  replace MX with (bpow radix2 1023 + bpow radix2 1023) by (replace MX with (2 * bpow radix2 1023) by (change 2 with (bpow radix2 1); rewrite <- bpow_plus; reflexivity); ring).
  assert (bpow radix2 (1024 - 53) <= bpow radix2 1023) by (apply bpow_le; lia). lra.
Qed.
Lemma l2_below_max l r : all_finite l -> all_finite r -> is_finite (l2 l r) = true -> dlt (l2 l r) dbl_max = true.
Proof.
  intros FL FR F. destruct dbl_max_value as [FM VM]. destruct (l2_ok l r FL FR) as [N _]. apply dlt_iff; auto; [apply dfinite_num, FM|]. rewrite !dext_finite by assumption.
  unfold l2 in *. destruct (l2_loop_ok l r d0 FL FR num_d0) as [NL G]; [rewrite ext_d0; lra|]. rewrite ext_d0 in G. apply (proj1 (sqrt_finite _ NL G)) in F. set (z := l2_loop d0 l r) in *.
  assert (P : 0 <= B2R z) by (rewrite dext_finite in G by exact F; exact G). rewrite sqrt_value by assumption.
  apply Rle_lt_trans with (bpow radix2 512).
  - rewrite <- (rnd_format (bpow radix2 512)) by (apply generic_format_bpow; cbn; lia). apply rnd_mono.
    rewrite <- (sqrt_square (bpow radix2 512)) by apply bpow_ge_0. apply sqrt_le_1_alt. rewrite <- bpow_plus. apply Rlt_le. pose proof (dext_lt z F) as B. rewrite dext_finite in B by exact F. apply B.
  - apply Rlt_le_trans with (2 := VM). apply bpow_lt. lia.
Qed.

(** ** The distance with uncertainties *)
Lemma div_nonneg (x y : double) : num x -> 0 <= ext x -> is_finite y = true -> 0 < B2R y -> num (ddiv x y) /\ 0 <= ext (ddiv x y).
Proof.
  intros N P FY PY. pose proof MX_big. destruct (is_finite x) eqn:F.
  - destruct (ddiv_ext x y F FY) as [M E]; [rewrite dext_finite by exact FY; lra|]. split; [exact M|]. rewrite E. apply crd_nonneg. rewrite (dext_finite y FY). apply Rmult_le_pos; [exact P|]. apply Rlt_le, Rinv_0_lt_compat, PY.
  - rewrite (inf_of x N P F). destruct y as [s|s| |s m e H']; try discriminate; cbn in PY; [lra|].
    destruct s; [exfalso; pose proof (neg_value m e) as Q; cbn [B2R cond_Zopp Z.opp] in *; lra|]. cbn. split; [reflexivity|lra].
Qed.
Lemma uncertainty_square (u : double) : sensible u -> is_finite (dmul u u) = true /\ 0 < B2R (dmul u u).
Proof.
  intros (F & L & U). destruct (dmul_ext u u F F) as [N E]. rewrite (dext_finite u F) in E.
  assert (B : bpow radix2 (-1000) <= B2R u * B2R u <= bpow radix2 1000).
  { replace (B2R u * B2R u) with (Rabs (B2R u) * Rabs (B2R u)) by (rewrite <- Rabs_mult; apply Rabs_pos_eq; nra).
    split; [replace (bpow radix2 (-1000)) with (bpow radix2 (-500) * bpow radix2 (-500)) by (rewrite <- bpow_plus; reflexivity)|replace (bpow radix2 1000) with (bpow radix2 500 * bpow radix2 500) by (rewrite <- bpow_plus; reflexivity)];
      apply Rmult_le_compat; try apply bpow_ge_0; try apply Rabs_pos; assumption. }
  assert (R : bpow radix2 (-1000) <= rnd53 (B2R u * B2R u) <= bpow radix2 1000).
  { rewrite <- (rnd_format (bpow radix2 (-1000))) by (apply generic_format_bpow; cbn; lia). rewrite <- (rnd_format (bpow radix2 1000)) by (apply generic_format_bpow; cbn; lia). split; apply rnd_mono, B. }
  pose proof (bpow_gt_0 radix2 (-1000)). assert (bpow radix2 1000 < MX) by (apply bpow_lt; lia).
  assert (FM : is_finite (dmul u u) = true) by (apply (rnd_finite _ _ N E); rewrite Rabs_pos_eq; lra). split; [exact FM|]. rewrite (finite_rnd _ _ FM E). lra.
Qed.
Lemma l2u_loop_ok : forall l r us acc, all_finite l -> all_finite r -> Forall sensible us -> num acc -> 0 <= ext acc ->
  num (l2u_loop acc l r us) /\ ext acc <= ext (l2u_loop acc l r us).
Proof.
  induction l as [|a l IH]; intros [|b r] [|u us] acc FL FR FU N P; try (cbn [l2u_loop]; split; [assumption|lra]).
  inversion FL as [|? ? FA FL']; subst. inversion FR as [|? ? FB FR']; subst. inversion FU as [|? ? SU FU']; subst. cbn [l2u_loop].
  destruct (sub_num a b FA FB) as (ND & _ & _). destruct (square_nonneg _ ND) as [NS PS]. destruct (uncertainty_square u SU) as [FQ PQ].
  destruct (div_nonneg _ _ NS PS FQ PQ) as [NV PV]. destruct (add_nonneg acc _ N NV P PV) as (NA & G1 & G2). destruct (IH r us _ FL' FR' FU' NA) as [NR GR]; [lra|]. split; [exact NR|lra].
Qed.
Lemma l2u_loop_sym : forall l r us acc, all_finite l -> all_finite r -> l2u_loop acc l r us = l2u_loop acc r l us.
Proof.
  induction l as [|a l IH]; intros [|b r] [|u us] acc FL FR; try reflexivity.
  inversion FL as [|? ? FA FL']; subst. inversion FR as [|? ? FB FR']; subst. cbn [l2u_loop]. rewrite (square_sym a b FA FB). apply IH; assumption.
Qed.
Lemma l2u_ok l r us : all_finite l -> all_finite r -> Forall sensible us -> num (l2u l r us) /\ 0 <= ext (l2u l r us).
Proof. intros FL FR FU. destruct (l2u_loop_ok l r us d0 FL FR FU num_d0) as [N G]; [rewrite ext_d0; lra|]. rewrite ext_d0 in G. apply sqrt_nonneg; assumption. Qed.

(** ** The best matching unit *)
Lemma not_below (x y : double) : num y -> (dlt x y = false <-> (num x -> ext y <= ext x)).
Proof.
  intros NY. destruct (num_cases x) as [NX| ->].
  - rewrite dlt_no by assumption. tauto.
  - split; intros; [discriminate|reflexivity].
Qed.
Lemma not_le (x y : double) : num y -> (dle x y = false <-> (num x -> ext y < ext x)).
Proof.
  intros NY. destruct (num_cases x) as [NX| ->].
  - rewrite dle_no by assumption. tauto.
  - split; intros; [discriminate|reflexivity].
Qed.
Local Open Scope nat_scope.
Section Bmu.
  Context {W : Type}.
  Variable dist : W -> double.
  Lemma dbmu_loop_spec (start : double) (Hs : num start) : forall l pre best closest p d,
    num closest ->
    (forall i w, nth_error pre i = Some w -> dlt (dist w) closest = false) ->
    ((best = 0 /\ closest = start) \/
     (exists w, nth_error pre best = Some w /\ closest = dist w /\ dlt (dist w) start = true
        /\ forall i w', i < best -> nth_error pre i = Some w' -> dle (dist w') closest = false)) ->
    dbmu_loop dist l (length pre) best closest = (p, d) ->
    num d /\
    (forall i w, nth_error (pre ++ l) i = Some w -> dlt (dist w) d = false) /\
    ((p = 0 /\ d = start) \/
     (exists w, nth_error (pre ++ l) p = Some w /\ d = dist w /\ dlt (dist w) start = true
        /\ forall i w', i < p -> nth_error (pre ++ l) i = Some w' -> dle (dist w') d = false)).
  Proof.
    induction l as [|w r IH]; intros pre best closest p d Nc Hmin Hbest E; cbn [dbmu_loop] in E.
    - injection E as <- <-. rewrite app_nil_r. auto.
    - replace (pre ++ w :: r) with ((pre ++ [w]) ++ r) by (rewrite <- app_assoc; reflexivity).
      replace (S (length pre)) with (length (pre ++ [w])) in E by (rewrite app_length; simpl; lia).
      destruct (dlt (dist w) closest) eqn:L.
      + destruct (dlt_nums _ _ L) as [Nw _]. assert (LR := proj1 (dlt_iff _ _ Nw Nc) L).
        apply IH with (best := length pre) (closest := dist w); auto.
        * intros i w' H. destruct (Nat.lt_ge_cases i (length pre)).
          -- rewrite nth_error_app1 in H by auto. apply Hmin in H. rewrite not_below in H |- * by auto. intros X. specialize (H X). lra.
          -- rewrite nth_error_app2 in H by auto. destruct (i - length pre) as [|m]; simpl in H; [|destruct m; discriminate].
             injection H as <-. apply not_below; auto. intros _. lra.
        * right. exists w. split; [rewrite nth_error_app2, Nat.sub_diag by lia; reflexivity|].
          split; auto. split.
          -- destruct Hbest as [[_ ->]|(w0 & _ & -> & L0 & _)]; auto. apply dlt_iff in L0; auto. apply dlt_iff; auto. lra.
          -- intros i w' Hi H. rewrite nth_error_app1 in H by auto. apply Hmin in H. rewrite not_below in H by auto. apply not_le; auto. intros X. specialize (H X). lra.
      + apply IH with (best := best) (closest := closest); auto.
        * intros i w' H. destruct (Nat.lt_ge_cases i (length pre)).
          -- rewrite nth_error_app1 in H by auto. eauto.
          -- rewrite nth_error_app2 in H by auto. destruct (i - length pre) as [|m]; simpl in H; [|destruct m; discriminate].
             injection H as <-. auto.
        * destruct Hbest as [B|(w0 & Hn & -> & L0 & B)]; [left; auto|right].
          exists w0. assert (best < length pre) by (apply nth_error_Some; congruence).
          split; [rewrite nth_error_app1; auto|]. split; auto. split; auto.
          intros i w' Hi H'. rewrite nth_error_app1 in H' by lia. eauto.
  Qed.
End Bmu.

Lemma dfind_bmu_ok {W} (dist : W -> double) (s : som W) : well_formed s ->
  exists p d, p < sx s * sy s /\ dfind_bmu dist s = Ok (x_of s p, y_of s p, d) /\ num d /\
    (forall i w, nth_error (cells s) i = Some w -> dlt (dist w) d = false) /\
    ((p = 0 /\ d = dbl_max) \/
     (exists w, nth_error (cells s) p = Some w /\ d = dist w /\ dlt (dist w) dbl_max = true
        /\ forall i w', i < p -> nth_error (cells s) i = Some w' -> dle (dist w') d = false)).
Proof.
  intros (A & B & L). destruct (dbmu_loop dist (cells s) 0 0 dbl_max) as [p d] eqn:E.
  assert (NM : num dbl_max) by (apply dfinite_num, dbl_max_value).
  destruct (dbmu_loop_spec dist dbl_max NM (cells s) [] 0 dbl_max p d) as (N & M & P); auto.
  { intros i w H. destruct i; discriminate. }
  exists p, d. split.
  { destruct P as [[-> _]|(w & H & _)]; [nia|]. rewrite <- L. apply nth_error_Some. cbn in H. congruence. }
  split; auto. unfold dfind_bmu. rewrite E. destruct (cells s); [simpl in L; nia|reflexivity].
Qed.
Lemma dbmu_minimal {W} (dist : W -> double) (s : som W) : well_formed s ->
  exists x y d, dfind_bmu dist s = Ok (x, y, d) /\ x < sx s /\ y < sy s /\
    ((exists x' y' w', cell_at s x' y' = Some w' /\ dlt (dist w') dbl_max = true) ->
     exists w, cell_at s x y = Some w /\ d = dist w /\
       (forall x' y' w', cell_at s x' y' = Some w' -> dlt (dist w') d = false) /\
       (forall x' y' w', cell_at s x' y' = Some w' -> before (x', y') (x, y) -> dle (dist w') d = false)).
Proof.
  intro wf. destruct (dfind_bmu_ok dist s wf) as (p & d & Hp & E & N & M & P).
  exists (x_of s p), (y_of s p), d. split; auto. split; [apply x_of_lt; auto|]. split; [apply y_of_lt; auto|].
  intros (x' & y' & w' & Hc & Hl). apply cell_at_some in Hc. destruct Hc as (_ & _ & Hc).
  destruct P as [[-> ->]|(w & Hw & -> & L & F)].
  - apply M in Hc. congruence.
  - exists w. rewrite cell_at_pos by auto. split; auto. split; auto. split.
    + intros a b c H. apply cell_at_some in H. destruct H as (_ & _ & H). eauto.
    + intros a b c H Hb. apply cell_at_some in H. destruct H as (X & Y & H). apply (F (a + b * sx s)); auto.
      apply (before_pos s) in Hb; auto. 2:{ apply x_of_lt; auto. }
      rewrite pos_of_xy in Hb; auto.
Qed.
Lemma dbmu_none {W} (dist : W -> double) (s : som W) : well_formed s ->
  (forall x y w, cell_at s x y = Some w -> dlt (dist w) dbl_max = false) ->
  dfind_bmu dist s = Ok (0, 0, dbl_max).
Proof.
  intros wf H. destruct (dfind_bmu_ok dist s wf) as (p & d & Hp & E & N & M & P).
  destruct P as [[-> ->]|(w & Hw & -> & L & F)].
  - rewrite E. f_equal. unfold x_of, y_of. destruct wf as (A & B & _).
    rewrite Nat.mod_small, Nat.mod_small, Nat.div_small; auto; lia.
  - rewrite <- (cell_at_pos s wf) in Hw by auto. apply H in Hw. congruence.
Qed.
