(** The rounding errors of the numerical integration in double precision. *)
From Coq Require Import ZArith Reals List Arith Bool Lia Lra Psatz.
From Flocq Require Import Core IEEE754.BinarySingleNaN.
From Verif Require Import Common FloatModel FloatProofs DoubleProofs DoubleProofs2 DInterpModel DInterpSpec DInterpProofs DInterpProofs2
  DSOMProofs DSOMProofs2 DSplineModel DSplineSpec DSplineProofs DSplineProofs3 DSplineProofs4 DSplineProofs5 DQuadModel DQuadSpec DQuadProofs.
Import ListNotations.
Local Open Scope R_scope.

Definition rsum (g : nat -> R) (i n : nat) : R := fold_right Rplus 0 (map g (seq i n)).
Lemma rsum_S g i n : rsum g i (S n) = g i + rsum g (S i) n. Proof. reflexivity. Qed.
Lemma rsum_abs g n : forall i, Rabs (rsum g i n) <= rsum (fun k => Rabs (g k)) i n.
Proof. induction n as [|n IH]; intros i; [unfold rsum; cbn; rewrite Rabs_R0; lra|]. rewrite !rsum_S. pose proof (Rabs_triang (g i) (rsum g (S i) n)). specialize (IH (S i)). lra. Qed.
Lemma rsum_pos g n : forall i, 0 <= rsum (fun k => Rabs (g k)) i n.
Proof. intros i. pose proof (rsum_abs g n i). pose proof (Rabs_pos (rsum g i n)). lra. Qed.
Lemma rsum_ext g g' n : forall i, (forall k, (i <= k < i + n)%nat -> g k = g' k) -> rsum g i n = rsum g' i n.
Proof. induction n as [|n IH]; intros i H; [reflexivity|]. rewrite !rsum_S, (H i), (IH (S i)) by (lia || (intros; apply H; lia)). reflexivity. Qed.

Lemma loop_fin g : forall n i s, is_finite (dsum_loop g i n s) = true -> is_finite s = true /\ forall k, (i <= k < i + n)%nat -> is_finite (g k) = true.
Proof.
  induction n as [|n IH]; intros i s F; cbn [dsum_loop] in F; [split; [exact F|intros; lia]|].
  destruct (IH _ _ F) as [F1 F2]. destruct (fin_add _ _ F1) as [F3 F4]. split; [exact F3|]. intros k K. destruct (Nat.eq_dec k i) as [->|]; [exact F4|apply F2; lia].
Qed.
Lemma loop_near g : forall n i (s : double) S r m, is_finite (dsum_loop g i n s) = true -> Rabs r <= S -> near m S r (B2R s) ->
  near (m + n) (S + rsum (fun k => Rabs (B2R (g k))) i n) (r + rsum (fun k => B2R (g k)) i n) (B2R (dsum_loop g i n s)).
Proof.
  induction n as [|n IH]; intros i s S r m F A B.
  - unfold rsum. cbn [dsum_loop seq map fold_right]. rewrite !Rplus_0_r, Nat.add_0_r. exact B.
  - cbn [dsum_loop] in *. rewrite !rsum_S. destruct (loop_fin g n _ _ F) as [F1 _].
    specialize (IH (Datatypes.S i) (dadd s (g i)) (S + Rabs (B2R (g i))) (r + B2R (g i)) (Datatypes.S m) F).
    replace (m + Datatypes.S n)%nat with (Datatypes.S m + n)%nat by lia. rewrite <- !Rplus_assoc. apply IH.
    + pose proof (Rabs_triang r (B2R (g i))). lra.
    + apply add_near; [exact F1|exact A|lra|exact B|apply near_refl; lra].
Qed.

Lemma B2R_38 : B2R (d2 3 (-3)) = 3 / 8 /\ is_finite (d2 3 (-3)) = true.
Proof.
  split; [|reflexivity]. change (B2R (d2 3 (-3))) with (F2R (Float radix2 6755399441055744 (-54))). unfold F2R, Fnum, Fexp.
  change (bpow radix2 (-54)) with (/ IZR (Z.pow_pos 2 54)). change (Z.pow_pos 2 54) with 18014398509481984%Z. field.
Qed.
Definition t300 : R := bpow radix2 (-300).
Lemma t300_pos : 0 < t300. Proof. apply bpow_gt_0. Qed.
Lemma t300_low c : / 64 <= c -> bpow radix2 (-1022) <= c * t300.
Proof.
  intros H. apply Rle_trans with (bpow radix2 (-6) * bpow radix2 (-300)); [rewrite <- bpow_plus; apply bpow_le; lia|].
  unfold t300. apply Rmult_le_compat_r; [apply bpow_ge_0|]. change (bpow radix2 (-6)) with (/ 64). exact H.
Qed.
Definition psz (u v : double) : R := Rabs (B2R u) + Rabs (B2R v) + t300.
Lemma psz_pos u v : t300 <= psz u v.
Proof. unfold psz. pose proof (Rabs_pos (B2R u)). pose proof (Rabs_pos (B2R v)). lra. Qed.
Lemma psz_abs u v : Rabs (B2R u + B2R v) <= psz u v.
Proof. unfold psz. pose proof (Rabs_triang (B2R u) (B2R v)). pose proof t300_pos. lra. Qed.
Lemma sum_pair (u v : double) : is_finite (dadd u v) = true -> near 1 (psz u v) (B2R u + B2R v) (B2R (dadd u v)).
Proof.
  intros F. apply (near_wide 1 (Rabs (B2R u) + Rabs (B2R v))); [unfold psz; pose proof t300_pos; lra|].
  apply (add_near 0); [exact F|lra|lra|apply near_refl; lra|apply near_refl; lra].
Qed.
Lemma prod_pair (c u v : double) rc : is_finite (dmul c (dadd u v)) = true -> B2R c = rc -> / 4 <= rc ->
  near 2 (rc * psz u v) (rc * (B2R u + B2R v)) (B2R (dmul c (dadd u v))).
Proof.
  intros F C R. destruct (fin_mul _ _ F) as [_ F2]. apply (mul_pad 0 1); [exact F|rewrite Rabs_pos_eq; lra|apply psz_abs|rewrite C; apply near_refl; rewrite Rabs_pos_eq; lra|apply sum_pair, F2|].
  apply Rle_trans with (1 := t300_low rc ltac:(lra)). apply Rmult_le_compat_l; [lra|apply psz_pos].
Qed.
Lemma quot_pair (x : double) (n : nat) m S r : is_finite (ddiv x (dint n)) = true -> (1 <= n <= 24)%nat -> Rabs r <= S -> / 4 * t300 <= S -> near m S r (B2R x) ->
  near (Datatypes.S m) (S / INR n) (r / INR n) (B2R (ddiv x (dint n))).
Proof.
  intros F N A L B. destruct (dint_val n ltac:(lia)) as [FN VN].
  assert (NR : 1 <= INR n <= 24) by (split; [change 1 with (INR 1)|replace 24 with (INR 24) by (cbn; lra)]; apply le_INR; lia).
  replace (S / INR n) with (S * / Rabs (INR n)) by (rewrite Rabs_pos_eq by lra; reflexivity).
  replace (Datatypes.S m) with (Datatypes.S (m + 2 * 0)) by lia. apply div_pad; [exact F|exact FN|lra|lia|exact A|exact B|rewrite VN; apply near_refl; lra|].
  rewrite Rabs_pos_eq by lra. apply Rle_trans with (/ 64 * / 2 * t300).
  - apply Rle_trans with (bpow radix2 (-7) * bpow radix2 (-300)); [rewrite <- bpow_plus; apply bpow_le; lia|]. change (bpow radix2 (-7)) with (/ 128). unfold t300. pose proof (bpow_gt_0 radix2 (-300)). lra.
  - assert (/ 24 <= / INR n) by (apply Rinv_le; lra). pose proof t300_pos. apply Rle_trans with (/ 4 * t300 * / 24); [lra|]. apply Rmult_le_compat; lra.
Qed.

Section Rule.
  Variables (f : double -> double) (a b : double) (N : nat).
  Hypothesis U : usual_range a b.
  Hypothesis HN : (8 <= Z.of_nat N <= 2 ^ 30)%Z.
  Hypothesis W : bpow radix2 (-600) <= Rabs (B2R b - B2R a).
  Let h := ddiv (dsub b a) (dint N).
  Let w := B2R b - B2R a.
  Definition point (four : bool) (i : nat) : double :=
    if (i =? 0)%nat then a else if (i =? N)%nat then b else if (i =? 1)%nat then dadd a h else if (i =? N - 1)%nat then dsub b h
    else if (i =? N - 2)%nat then dsub b (dmul (dint 2) h) else if four && (i =? N - 4)%nat then dsub b (dmul (dint 4) h) else dadd a (dmul (dint i) h).
  Lemma point_mesh four i : (i <= N)%nat -> mesh_double a b N i (point four i).
  Proof.
    intros I. pose proof (mesh_up a b N U HN) as MU. pose proof (mesh_down a b N U HN) as MD. destruct (mesh_ends a b N U HN) as [M0 MN].
    unfold point. destruct (Nat.eqb_spec i 0) as [->|]; [exact M0|]. destruct (Nat.eqb_spec i N) as [->|]; [exact MN|].
    destruct (Nat.eqb_spec i 1) as [->|]; [apply mesh_up1; assumption|]. destruct (Nat.eqb_spec i (N - 1)) as [->|]; [apply mesh_down1; assumption|].
    destruct (Nat.eqb_spec i (N - 2)) as [->|]; [apply MD; lia|]. destruct four; cbn [andb]; [|apply MU; lia]. destruct (Nat.eqb_spec i (N - 4)) as [->|]; [apply MD; lia|]. apply MU. lia.
  Qed.
  Lemma step_near : near 2 (Rabs (w / INR N)) (w / INR N) (B2R h).
  Proof. apply scaled_near. apply (step_scaled a b N U HN). Qed.
  Lemma step_low S : / 4 * t300 <= S -> bpow radix2 (-1022) <= S * Rabs (w / INR N).
  Proof.
    intros H. destruct (N_R N HN) as [N1 N2]. unfold Rdiv. rewrite Rabs_mult, Rabs_inv, (Rabs_pos_eq (INR N)) by lra.
    assert (B : bpow radix2 (-30) <= / INR N) by (change (bpow radix2 (-30)) with (/ bpow radix2 30); apply Rinv_le; lra).
    apply Rle_trans with (bpow radix2 (-2) * bpow radix2 (-300) * (bpow radix2 (-600) * bpow radix2 (-30))).
    - rewrite <- !bpow_plus. apply bpow_le. lia.
    - pose proof (bpow_gt_0 radix2 (-2)). pose proof (bpow_gt_0 radix2 (-300)). pose proof (bpow_gt_0 radix2 (-600)). pose proof (bpow_gt_0 radix2 (-30)).
      apply Rmult_le_compat; [nra|nra|exact H|]. apply Rmult_le_compat; [lra|lra|exact W|exact B].
  Qed.

  Lemma point_0 four : point four 0 = a. Proof. reflexivity. Qed.
  Lemma point_N four : point four N = b.
  Proof. unfold point. destruct (Nat.eqb_spec N 0); [lia|]. rewrite Nat.eqb_refl. reflexivity. Qed.
  Lemma point_1 four : point four 1 = dadd a h.
  Proof. unfold point. cbn [Nat.eqb]. destruct N as [|[|n]]; [lia|lia|reflexivity]. Qed.
  Lemma point_N1 four : point four (N - 1) = dsub b h.
  Proof.
    unfold point. destruct (Nat.eqb_spec (N - 1) 0); [lia|]. destruct (Nat.eqb_spec (N - 1) N); [lia|]. destruct (Nat.eqb_spec (N - 1) 1); [lia|]. rewrite Nat.eqb_refl. reflexivity.
  Qed.
  Lemma point_N2 four : point four (N - 2) = dsub b (dmul (dint 2) h).
  Proof.
    unfold point. destruct (Nat.eqb_spec (N - 2) 0); [lia|]. destruct (Nat.eqb_spec (N - 2) N); [lia|]. destruct (Nat.eqb_spec (N - 2) 1); [lia|]. destruct (Nat.eqb_spec (N - 2) (N - 1)); [lia|].
    rewrite Nat.eqb_refl. reflexivity.
  Qed.
  Lemma point_N4 : (16 <= N)%nat -> point true (N - 4) = dsub b (dmul (dint 4) h).
  Proof.
    intros H. unfold point. destruct (Nat.eqb_spec (N - 4) 0); [lia|]. destruct (Nat.eqb_spec (N - 4) N); [lia|]. destruct (Nat.eqb_spec (N - 4) 1); [lia|]. destruct (Nat.eqb_spec (N - 4) (N - 1)); [lia|].
    destruct (Nat.eqb_spec (N - 4) (N - 2)); [lia|]. rewrite Nat.eqb_refl. reflexivity.
  Qed.
  Lemma point_in four k : (2 <= k <= N - 3)%nat -> (four = true -> k <> N - 4)%nat -> point four k = dadd a (dmul (dint k) h).
  Proof.
    intros K H. unfold point. destruct (Nat.eqb_spec k 0); [lia|]. destruct (Nat.eqb_spec k N); [lia|]. destruct (Nat.eqb_spec k 1); [lia|]. destruct (Nat.eqb_spec k (N - 1)); [lia|].
    destruct (Nat.eqb_spec k (N - 2)); [lia|]. destruct four; cbn [andb]; [|reflexivity]. destruct (Nat.eqb_spec k (N - 4)); [exfalso; apply H; auto|reflexivity].
  Qed.

  Lemma rsum_app g n : forall i m, rsum g i (n + m) = rsum g i n + rsum g (i + n) m.
  Proof.
    induction n as [|n IH]; intros i m; [unfold rsum at 2; cbn [Nat.add seq map fold_right]; rewrite Nat.add_0_r; ring|].
    cbn [Nat.add]. rewrite !rsum_S, IH. replace (S i + n)%nat with (i + S n)%nat by lia. ring.
  Qed.
  Lemma total_parts g : total N g = g 0%nat + g 1%nat + g 2%nat + rsum g 3 (N - 5) + g (N - 2)%nat + g (N - 1)%nat + g N.
  Proof.
    unfold total. change (fold_right Rplus 0 (map g (seq 0 (S N)))) with (rsum g 0 (S N)). replace (S N) with (3 + (N - 5 + 3))%nat by lia.
    rewrite !rsum_app. assert (T : forall i, rsum g i 3 = g i + g (S i) + g (S (S i))) by (intros i; unfold rsum; cbn [seq map fold_right]; ring). rewrite !T. cbn [Nat.add].
    replace (S (S (S (N - 5)))) with (N - 2)%nat by lia. replace (S (N - 2)) with (N - 1)%nat by lia. replace (S (N - 1)) with N by lia. ring.
  Qed.
  Lemma total_simpson F : total N (fun i => simpson_weight N i * F i) =
    rsum F 3 (N - 5) + 3 / 8 * (F 0%nat + F N) + 7 / 6 * (F 1%nat + F (N - 1)%nat) + 23 / 24 * (F 2%nat + F (N - 2)%nat).
  Proof.
    rewrite total_parts.
    assert (E : forall k, (k = 0 \/ k = N)%nat -> simpson_weight N k = 3 / 8). { intros k [-> | ->]; unfold simpson_weight; [|rewrite Nat.eqb_refl, orb_true_r]; reflexivity. }
    assert (E1 : forall k, (k = 1 \/ k = N - 1)%nat -> simpson_weight N k = 7 / 6).
    { intros k K. unfold simpson_weight. destruct (Nat.eqb_spec k 0); [lia|]. destruct (Nat.eqb_spec k N); [lia|]. cbn [orb].
      destruct (Nat.eqb_spec k 1); [reflexivity|]. destruct (Nat.eqb_spec k (N - 1)); [reflexivity|lia]. }
    assert (E2 : forall k, (k = 2 \/ k = N - 2)%nat -> simpson_weight N k = 23 / 24).
    { intros k K. unfold simpson_weight. destruct (Nat.eqb_spec k 0); [lia|]. destruct (Nat.eqb_spec k N); [lia|]. cbn [orb].
      destruct (Nat.eqb_spec k 1); [lia|]. destruct (Nat.eqb_spec k (N - 1)); [lia|]. cbn [orb]. destruct (Nat.eqb_spec k 2); [reflexivity|]. destruct (Nat.eqb_spec k (N - 2)); [reflexivity|lia]. }
    rewrite (E 0%nat), (E N), (E1 1%nat), (E1 (N - 1)%nat), (E2 2%nat), (E2 (N - 2)%nat) by auto.
    rewrite (rsum_ext (fun i => simpson_weight N i * F i) F); [ring|]. intros k K. replace (simpson_weight N k) with 1; [ring|].
    unfold simpson_weight. destruct (Nat.eqb_spec k 0); [lia|]. destruct (Nat.eqb_spec k N); [lia|]. cbn [orb].
    destruct (Nat.eqb_spec k 1); [lia|]. destruct (Nat.eqb_spec k (N - 1)); [lia|]. cbn [orb]. destruct (Nat.eqb_spec k 2); [lia|]. destruct (Nat.eqb_spec k (N - 2)); [lia|reflexivity].
  Qed.

  Let F (four : bool) (i : nat) : R := B2R (f (point four i)).
  Lemma rule_near v :
    v = dmul (dadd (dadd (dadd (dsum_loop (fun i => f (dadd a (dmul (dint i) h))) 3 (N - 5) d0)
              (dmul (d2 3 (-3)) (dadd (f a) (f b))))
            (ddiv (dmul (dint 7) (dadd (f (dadd a h)) (f (dsub b h)))) (dint 6)))
          (ddiv (dmul (dint 23) (dadd (f (dadd a (dmul (dint 2) h))) (f (dsub b (dmul (dint 2) h))))) (dint 24))) h ->
    is_finite v = true ->
    near (N + 1) ((total N (fun i => simpson_weight N i * Rabs (F false i)) + bpow radix2 (-298)) * Rabs (w / INR N))
      (total N (fun i => simpson_weight N i * F false i) * (w / INR N)) (B2R v).
  Proof.
    intros -> FV. destruct (fin_mul _ _ FV) as [F3 FH]. destruct (fin_add _ _ F3) as [F2 FT3]. destruct (fin_add _ _ F2) as [F1 FT2]. destruct (fin_add _ _ F1) as [FA FT1].
    destruct (dint_val 7 ltac:(lia)) as [_ V7]. destruct (dint_val 23 ltac:(lia)) as [_ V23].
    replace (INR 7) with 7 in V7 by (cbn; lra). replace (INR 23) with 23 in V23 by (cbn; lra).
    assert (Z0 : Rabs 0 <= 0) by (rewrite Rabs_R0; lra). assert (Z1 : near 0 0 0 (B2R d0)) by (apply (near_refl 0 0 0), Z0).
    pose proof (loop_near _ _ _ _ 0 0 0 FA Z0 Z1) as NA. rewrite !Rplus_0_l in NA. cbn [Nat.add] in NA.
    pose proof (prod_pair (d2 3 (-3)) (f a) (f b) (3 / 8) FT1 (proj1 B2R_38) ltac:(lra)) as NT1.
    pose proof (fin_div _ _ FT2) as FP2. pose proof (fin_div _ _ FT3) as FP3.
    pose proof (prod_pair _ _ _ 7 FP2 V7 ltac:(lra)) as NP2. pose proof (prod_pair _ _ _ 23 FP3 V23 ltac:(lra)) as NP3.
    set (u1 := f (dadd a h)) in *. set (v1 := f (dsub b h)) in *. set (u2 := f (dadd a (dmul (dint 2) h))) in *. set (v2 := f (dsub b (dmul (dint 2) h))) in *.
    assert (AB : forall c u v, 0 <= c -> Rabs (c * (B2R u + B2R v)) <= c * psz u v) by (intros c u v C; rewrite Rabs_mult, (Rabs_pos_eq c) by exact C; apply Rmult_le_compat_l; [exact C|apply psz_abs]).
    assert (LO : forall c u v, / 4 <= c -> / 4 * t300 <= c * psz u v) by (intros c u v C; pose proof (psz_pos u v); pose proof t300_pos; apply Rmult_le_compat; lra).
    pose proof (quot_pair _ 6 2 _ _ FT2 ltac:(lia) (AB 7 u1 v1 ltac:(lra)) (LO 7 u1 v1 ltac:(lra)) NP2) as NT2.
    pose proof (quot_pair _ 24 2 _ _ FT3 ltac:(lia) (AB 23 u2 v2 ltac:(lra)) (LO 23 u2 v2 ltac:(lra)) NP3) as NT3.
    replace (INR 6) with 6 in NT2 by (cbn; lra). replace (INR 24) with 24 in NT3 by (cbn; lra).
    set (A := rsum (fun k => B2R (f (dadd a (dmul (dint k) h)))) 3 (N - 5)) in *. set (SA := rsum (fun k => Rabs (B2R (f (dadd a (dmul (dint k) h))))) 3 (N - 5)) in *.
    assert (HA : Rabs A <= SA) by apply rsum_abs. assert (PA : 0 <= SA) by (pose proof (Rabs_pos A); lra).
    pose proof (AB (3 / 8) (f a) (f b) ltac:(lra)) as B1. pose proof (AB 7 u1 v1 ltac:(lra)) as B2. pose proof (AB 23 u2 v2 ltac:(lra)) as B3.
    assert (B2' : Rabs (7 * (B2R u1 + B2R v1) / 6) <= 7 * psz u1 v1 / 6) by (unfold Rdiv; rewrite Rabs_mult, (Rabs_pos_eq (/ 6)) by lra; lra).
    assert (B3' : Rabs (23 * (B2R u2 + B2R v2) / 24) <= 23 * psz u2 v2 / 24) by (unfold Rdiv; rewrite Rabs_mult, (Rabs_pos_eq (/ 24)) by lra; lra).
    pose proof (psz_pos (f a) (f b)) as Q1. pose proof (psz_pos u1 v1) as Q2. pose proof (psz_pos u2 v2) as Q3. pose proof t300_pos as TP.
    assert (N1 : near (S (N - 5)) (SA + 3 / 8 * psz (f a) (f b)) (A + 3 / 8 * (B2R (f a) + B2R (f b))) (B2R (dadd (dsum_loop (fun i => f (dadd a (dmul (dint i) h))) 3 (N - 5) d0) (dmul (d2 3 (-3)) (dadd (f a) (f b)))))).
    { apply add_near; [exact F1|exact HA|exact B1|exact NA|]. apply (near_more 2); [lia|lra|exact NT1]. }
    assert (H1 : Rabs (A + 3 / 8 * (B2R (f a) + B2R (f b))) <= SA + 3 / 8 * psz (f a) (f b)) by (apply Rle_trans with (1 := Rabs_triang _ _); lra).
    pose proof (add_near _ _ _ _ _ _ _ F2 H1 B2' N1 (near_more 3 (S (N - 5)) (7 * psz u1 v1 / 6) _ _ ltac:(lia) ltac:(lra) NT2)) as N2.
    assert (H2 : Rabs (A + 3 / 8 * (B2R (f a) + B2R (f b)) + 7 * (B2R u1 + B2R v1) / 6) <= SA + 3 / 8 * psz (f a) (f b) + 7 * psz u1 v1 / 6) by (apply Rle_trans with (1 := Rabs_triang _ _); lra).
    pose proof (add_near _ _ _ _ _ _ _ F3 H2 B3' N2 (near_more 3 (S (S (N - 5))) (23 * psz u2 v2 / 24) _ _ ltac:(lia) ltac:(lra) NT3)) as N3.
    assert (H3 : Rabs (A + 3 / 8 * (B2R (f a) + B2R (f b)) + 7 * (B2R u1 + B2R v1) / 6 + 23 * (B2R u2 + B2R v2) / 24) <= SA + 3 / 8 * psz (f a) (f b) + 7 * psz u1 v1 / 6 + 23 * psz u2 v2 / 24) by (apply Rle_trans with (1 := Rabs_triang _ _); lra).
    assert (L3 : / 4 * t300 <= SA + 3 / 8 * psz (f a) (f b) + 7 * psz u1 v1 / 6 + 23 * psz u2 v2 / 24) by lra.
    pose proof (mul_pad _ _ _ _ _ _ _ _ FV H3 (Rle_refl _) N3 step_near (step_low _ L3)) as NV.
    assert (E1 : total N (fun i => simpson_weight N i * F false i) = A + 3 / 8 * (B2R (f a) + B2R (f b)) + 7 * (B2R u1 + B2R v1) / 6 + 23 * (B2R u2 + B2R v2) / 24).
    { rewrite total_simpson. unfold F. rewrite point_0, point_N, point_1, point_N1, point_N2, (point_in false 2) by (lia || discriminate).
      rewrite (rsum_ext _ (fun k => B2R (f (dadd a (dmul (dint k) h))))) by (intros k K; rewrite point_in by (lia || discriminate); reflexivity).
      fold A u1 v1 u2 v2. lra. }
    assert (E2 : total N (fun i => simpson_weight N i * Rabs (F false i)) + (3 / 8 + 7 / 6 + 23 / 24) * t300 = SA + 3 / 8 * psz (f a) (f b) + 7 * psz u1 v1 / 6 + 23 * psz u2 v2 / 24).
    { rewrite (total_simpson (fun i => Rabs (F false i))). unfold F. rewrite point_0, point_N, point_1, point_N1, point_N2, (point_in false 2) by (lia || discriminate).
      rewrite (rsum_ext _ (fun k => Rabs (B2R (f (dadd a (dmul (dint k) h)))))) by (intros k K; rewrite point_in by (lia || discriminate); reflexivity).
      fold SA u1 v1 u2 v2. unfold psz. lra. }
    rewrite E1. apply (near_wide _ ((SA + 3 / 8 * psz (f a) (f b) + 7 * psz u1 v1 / 6 + 23 * psz u2 v2 / 24) * Rabs (w / INR N))).
    - apply Rmult_le_compat_r; [apply Rabs_pos|]. rewrite <- E2. apply Rplus_le_compat_l. unfold t300. replace (bpow radix2 (-298)) with (4 * bpow radix2 (-300)); [pose proof (bpow_gt_0 radix2 (-300)); lra|].
      change 4 with (bpow radix2 2). rewrite <- bpow_plus. reflexivity.
    - replace (N + 1)%nat with (S (S (S (S (N - 5))) + 2)) by lia. exact NV.
  Qed.

  Lemma next_near (p v : double) : (16 <= N)%nat -> Nat.even N = true ->
    v = dadd (dmul (dadd (dsub (dadd (dsum_loop (fun j => f (dadd a (dmul (dint (2 * j + 1)) h))) 1 (N / 2 - 2) d0)
              (ddiv (dmul (dint 7) (dadd (f (dadd a h)) (f (dsub b h)))) (dint 6)))
            (ddiv (dmul (dint 5) (dadd (f (dadd a (dmul (dint 2) h))) (f (dsub b (dmul (dint 2) h))))) (dint 24)))
          (ddiv (dadd (f (dadd a (dmul (dint 4) h))) (f (dsub b (dmul (dint 4) h)))) (dint 24))) h)
        (ddiv p (dint 2)) ->
    is_finite v = true ->
    near (N / 2 + 5) ((refinement_size N (F true) + bpow radix2 (-298)) * Rabs (w / INR N) + (Rabs (B2R p) / 2 + bpow radix2 (-300)))
      (refinement_sum N (F true) * (w / INR N) + B2R p / 2) (B2R v).
  Proof.
    intros N16 EV -> FV. destruct (fin_add _ _ FV) as [FM FP]. destruct (fin_mul _ _ FM) as [F3 FH]. destruct (fin_add _ _ F3) as [F2 FT3]. destruct (fin_sub _ _ F2) as [F1 FT2]. destruct (fin_add _ _ F1) as [FA FT1].
    assert (M8 : (8 <= N / 2)%nat) by (apply Nat.div_le_lower_bound; lia).
    assert (MN : (2 * (N / 2) = N)%nat) by (clear -EV; apply Nat.even_spec in EV; destruct EV as [m E]; rewrite E, (Nat.mul_comm 2 m), Nat.div_mul by lia; lia).
    destruct (dint_val 7 ltac:(lia)) as [_ V7]. destruct (dint_val 5 ltac:(lia)) as [_ V5].
    replace (INR 7) with 7 in V7 by (cbn; lra). replace (INR 5) with 5 in V5 by (cbn; lra).
    assert (Z0 : Rabs 0 <= 0) by (rewrite Rabs_R0; lra). assert (Z1 : near 0 0 0 (B2R d0)) by (apply (near_refl 0 0 0), Z0).
    pose proof (loop_near _ _ _ _ 0 0 0 FA Z0 Z1) as NA. rewrite !Rplus_0_l in NA. cbn [Nat.add] in NA.
    pose proof (fin_div _ _ FT1) as FP1. pose proof (fin_div _ _ FT2) as FP2. pose proof (fin_div _ _ FT3) as FP3.
    pose proof (prod_pair _ _ _ 7 FP1 V7 ltac:(lra)) as NP1. pose proof (prod_pair _ _ _ 5 FP2 V5 ltac:(lra)) as NP2. pose proof (sum_pair _ _ FP3) as NP3.
    set (u1 := f (dadd a h)) in *. set (v1 := f (dsub b h)) in *. set (u2 := f (dadd a (dmul (dint 2) h))) in *. set (v2 := f (dsub b (dmul (dint 2) h))) in *.
    set (u4 := f (dadd a (dmul (dint 4) h))) in *. set (v4 := f (dsub b (dmul (dint 4) h))) in *.
    assert (AB : forall c u v, 0 <= c -> Rabs (c * (B2R u + B2R v)) <= c * psz u v) by (intros c u v C; rewrite Rabs_mult, (Rabs_pos_eq c) by exact C; apply Rmult_le_compat_l; [exact C|apply psz_abs]).
    assert (LO : forall c u v, / 4 <= c -> / 4 * t300 <= c * psz u v) by (intros c u v C; pose proof (psz_pos u v); pose proof t300_pos; apply Rmult_le_compat; lra).
    pose proof (psz_pos u1 v1) as Q1. pose proof (psz_pos u2 v2) as Q2. pose proof (psz_pos u4 v4) as Q4. pose proof t300_pos as TP.
    pose proof (quot_pair _ 6 2 _ _ FT1 ltac:(lia) (AB 7 u1 v1 ltac:(lra)) (LO 7 u1 v1 ltac:(lra)) NP1) as NT1.
    pose proof (quot_pair _ 24 2 _ _ FT2 ltac:(lia) (AB 5 u2 v2 ltac:(lra)) (LO 5 u2 v2 ltac:(lra)) NP2) as NT2.
    assert (L4 : / 4 * t300 <= psz u4 v4) by lra. pose proof (quot_pair _ 24 1 _ _ FT3 ltac:(lia) (psz_abs u4 v4) L4 NP3) as NT3.
    assert (NPV : near 1 ((Rabs (B2R p) + t300) / INR 2) (B2R p / INR 2) (B2R (ddiv p (dint 2)))).
    { pose proof (Rabs_pos (B2R p)). apply quot_pair; [exact FP|lia|lra|lra|apply near_refl; lra]. }
    replace (INR 2) with 2 in NPV by (cbn; lra). replace (INR 6) with 6 in NT1 by (cbn; lra). replace (INR 24) with 24 in NT2, NT3 by (cbn; lra).
    set (A := rsum (fun k => B2R (f (dadd a (dmul (dint (2 * k + 1)) h)))) 1 (N / 2 - 2)) in *. set (SA := rsum (fun k => Rabs (B2R (f (dadd a (dmul (dint (2 * k + 1)) h))))) 1 (N / 2 - 2)) in *.
    assert (HA : Rabs A <= SA) by apply rsum_abs. assert (PA : 0 <= SA) by (pose proof (Rabs_pos A); lra).
    pose proof (AB 7 u1 v1 ltac:(lra)) as B1. pose proof (AB 5 u2 v2 ltac:(lra)) as B2. pose proof (psz_abs u4 v4) as B3.
    assert (B1' : Rabs (7 * (B2R u1 + B2R v1) / 6) <= 7 * psz u1 v1 / 6) by (unfold Rdiv; rewrite Rabs_mult, (Rabs_pos_eq (/ 6)) by lra; lra).
    assert (B2' : Rabs (5 * (B2R u2 + B2R v2) / 24) <= 5 * psz u2 v2 / 24) by (unfold Rdiv; rewrite Rabs_mult, (Rabs_pos_eq (/ 24)) by lra; lra).
    assert (B3' : Rabs ((B2R u4 + B2R v4) / 24) <= psz u4 v4 / 24) by (unfold Rdiv; rewrite Rabs_mult, (Rabs_pos_eq (/ 24)) by lra; lra).
    set (m := (N / 2 - 2)%nat) in *.
    pose proof (add_near _ _ _ _ _ _ _ F1 HA B1' NA (near_more 3 m (7 * psz u1 v1 / 6) _ _ ltac:(lia) ltac:(lra) NT1)) as N1.
    assert (H1 : Rabs (A + 7 * (B2R u1 + B2R v1) / 6) <= SA + 7 * psz u1 v1 / 6) by (apply Rle_trans with (1 := Rabs_triang _ _); lra).
    pose proof (sub_near _ _ _ _ _ _ _ F2 H1 B2' N1 (near_more 3 (S m) (5 * psz u2 v2 / 24) _ _ ltac:(lia) ltac:(lra) NT2)) as N2.
    assert (H2 : Rabs (A + 7 * (B2R u1 + B2R v1) / 6 - 5 * (B2R u2 + B2R v2) / 24) <= SA + 7 * psz u1 v1 / 6 + 5 * psz u2 v2 / 24)
      by (unfold Rminus; apply Rle_trans with (1 := Rabs_triang _ _); rewrite Rabs_Ropp; lra).
    pose proof (add_near _ _ _ _ _ _ _ F3 H2 B3' N2 (near_more 2 (S (S m)) (psz u4 v4 / 24) _ _ ltac:(lia) ltac:(lra) NT3)) as N3.
    assert (H3 : Rabs (A + 7 * (B2R u1 + B2R v1) / 6 - 5 * (B2R u2 + B2R v2) / 24 + (B2R u4 + B2R v4) / 24) <= SA + 7 * psz u1 v1 / 6 + 5 * psz u2 v2 / 24 + psz u4 v4 / 24) by (apply Rle_trans with (1 := Rabs_triang _ _); lra).
    assert (L3 : / 4 * t300 <= SA + 7 * psz u1 v1 / 6 + 5 * psz u2 v2 / 24 + psz u4 v4 / 24) by lra.
    pose proof (mul_pad _ _ _ _ _ _ _ _ FM H3 (Rle_refl _) N3 step_near (step_low _ L3)) as NM.
    assert (PD : Rabs (B2R p / 2) <= (Rabs (B2R p) + t300) / 2) by (unfold Rdiv; rewrite Rabs_mult, (Rabs_pos_eq (/ 2)) by lra; lra).
    assert (PP : 0 <= (Rabs (B2R p) + t300) / 2) by (pose proof (Rabs_pos (B2R p)); lra).
    assert (HM : Rabs ((A + 7 * (B2R u1 + B2R v1) / 6 - 5 * (B2R u2 + B2R v2) / 24 + (B2R u4 + B2R v4) / 24) * (w / INR N)) <= (SA + 7 * psz u1 v1 / 6 + 5 * psz u2 v2 / 24 + psz u4 v4 / 24) * Rabs (w / INR N))
      by (rewrite Rabs_mult; apply Rmult_le_compat_r; [apply Rabs_pos|exact H3]).
    pose proof (add_near _ _ _ _ _ _ _ FV HM PD NM (near_more 1 (S (S (S (S m)) + 2)) ((Rabs (B2R p) + t300) / 2) _ _ ltac:(lia) PP NPV)) as NV.
    assert (E1 : refinement_sum N (F true) = A + 7 * (B2R u1 + B2R v1) / 6 - 5 * (B2R u2 + B2R v2) / 24 + (B2R u4 + B2R v4) / 24).
    { unfold refinement_sum. change (fold_right Rplus 0 (map (fun j => F true (2 * j + 1)%nat) (seq 1 (N / 2 - 2)))) with (rsum (fun j => F true (2 * j + 1)%nat) 1 m).
      unfold F. rewrite point_1, point_N1, point_N2, (point_in true 2), (point_in true 4), point_N4 by (lia || (intros; lia)).
      rewrite (rsum_ext _ (fun k => B2R (f (dadd a (dmul (dint (2 * k + 1)) h))))) by (intros k K; rewrite point_in by (unfold m in K; lia || (intros; unfold m in K; lia)); reflexivity).
      fold A u1 v1 u2 v2 u4 v4. lra. }
    assert (E2 : refinement_size N (F true) + (7 / 6 + 5 / 24 + 1 / 24) * t300 = SA + 7 * psz u1 v1 / 6 + 5 * psz u2 v2 / 24 + psz u4 v4 / 24).
    { unfold refinement_size. change (fold_right Rplus 0 (map (fun j => Rabs (F true (2 * j + 1)%nat)) (seq 1 (N / 2 - 2)))) with (rsum (fun j => Rabs (F true (2 * j + 1)%nat)) 1 m).
      unfold F. rewrite point_1, point_N1, point_N2, (point_in true 2), (point_in true 4), point_N4 by (lia || (intros; lia)).
      rewrite (rsum_ext _ (fun k => Rabs (B2R (f (dadd a (dmul (dint (2 * k + 1)) h)))))) by (intros k K; rewrite point_in by (unfold m in K; lia || (intros; unfold m in K; lia)); reflexivity).
      fold SA u1 v1 u2 v2 u4 v4. unfold psz. lra. }
    rewrite E1. apply (near_wide _ ((SA + 7 * psz u1 v1 / 6 + 5 * psz u2 v2 / 24 + psz u4 v4 / 24) * Rabs (w / INR N) + (Rabs (B2R p) + t300) / 2)).
    - apply Rplus_le_compat; [|unfold t300; pose proof (bpow_gt_0 radix2 (-300)); lra]. apply Rmult_le_compat_r; [apply Rabs_pos|]. rewrite <- E2. apply Rplus_le_compat_l. unfold t300.
      replace (bpow radix2 (-298)) with (4 * bpow radix2 (-300)); [pose proof (bpow_gt_0 radix2 (-300)); lra|].
      change 4 with (bpow radix2 2). rewrite <- bpow_plus. reflexivity.
    - apply (near_more (S (S (S (S (S m)) + 2)))); [unfold m; lia| |exact NV].
      apply Rplus_le_le_0_compat; [|exact PP]. apply Rmult_le_pos; [lra|apply Rabs_pos].
  Qed.
  Lemma rule_finite v :
    v = dmul (dadd (dadd (dadd (dsum_loop (fun i => f (dadd a (dmul (dint i) h))) 3 (N - 5) d0)
              (dmul (d2 3 (-3)) (dadd (f a) (f b))))
            (ddiv (dmul (dint 7) (dadd (f (dadd a h)) (f (dsub b h)))) (dint 6)))
          (ddiv (dmul (dint 23) (dadd (f (dadd a (dmul (dint 2) h))) (f (dsub b (dmul (dint 2) h))))) (dint 24))) h ->
    is_finite v = true -> forall i, (i <= N)%nat -> is_finite (f (point false i)) = true.
  Proof.
    intros -> FV i I. destruct (fin_mul _ _ FV) as [F3 FH]. destruct (fin_add _ _ F3) as [F2 FT3]. destruct (fin_add _ _ F2) as [F1 FT2]. destruct (fin_add _ _ F1) as [FA FT1].
    apply fin_div in FT2, FT3. destruct (fin_mul _ _ FT1) as [_ P1]. destruct (fin_mul _ _ FT2) as [_ P2]. destruct (fin_mul _ _ FT3) as [_ P3].
    destruct (fin_add _ _ P1) as [A0 AN]. destruct (fin_add _ _ P2) as [A1 AN1]. destruct (fin_add _ _ P3) as [A2 AN2]. destruct (loop_fin _ _ _ _ FA) as [_ AL].
    destruct (Nat.eq_dec i 0) as [->|]; [rewrite point_0; exact A0|]. destruct (Nat.eq_dec i N) as [EN|]; [rewrite EN, point_N; exact AN|].
    destruct (Nat.eq_dec i 1) as [->|]; [rewrite point_1; exact A1|]. destruct (Nat.eq_dec i (N - 1)) as [->|]; [rewrite point_N1; exact AN1|].
    destruct (Nat.eq_dec i (N - 2)) as [->|]; [rewrite point_N2; exact AN2|]. rewrite point_in by (lia || discriminate).
    destruct (Nat.eq_dec i 2) as [->|]; [exact A2|]. apply AL. lia.
  Qed.
End Rule.
