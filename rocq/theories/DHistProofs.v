(** Proofs about histograms in double precision. *)
From Coq Require Import ZArith Reals List Bool Arith Lia Lra.
From Flocq Require Import Core IEEE754.BinarySingleNaN Relative Plus_error.
From Verif Require Import Common HistModel FloatModel FloatProofs DoubleProofs DoubleProofs2 DHistModel DHistSpec.
Import ListNotations.
Local Open Scope R_scope.

(** ** Extremes *)
Lemma dmin_of_spec l : (forall v, In v l -> num v) -> forall m, num m ->
  (dmin_of m l = m \/ In (dmin_of m l) l) /\ num (dmin_of m l) /\ ext (dmin_of m l) <= ext m /\ forall v, In v l -> ext (dmin_of m l) <= ext v.
Proof.
  induction l as [|x l IH]; intros N m NM; cbn [dmin_of].
  - split; [left; reflexivity|]. split; [exact NM|]. split; [lra|]. intros v [].
  - assert (NX : num x) by (apply N; left; reflexivity).
    match goal with |- context [dmin_of ?z l] => remember z as y eqn:Y end.
    destruct (IH (fun v I => N v (or_intror I)) y) as (A & B & C & D); [rewrite Y; destruct (dlt x m); assumption|].
    assert (LL : ext y <= ext x /\ ext y <= ext m).
    { rewrite Y. destruct (dlt x m) eqn:E; [apply dlt_iff in E|apply dlt_no in E]; auto; split; lra. }
    destruct LL as [L1 L2].
    split; [|split; [exact B|split; [lra|]]].
    + destruct A as [A|A]; [|right; right; exact A]. rewrite A, Y. destruct (dlt x m); [right; left; reflexivity|left; reflexivity].
    + intros v [<-|I]; [lra|apply D, I].
Qed.
Lemma dmax_of_spec l : (forall v, In v l -> num v) -> forall m, num m ->
  (dmax_of m l = m \/ In (dmax_of m l) l) /\ num (dmax_of m l) /\ ext m <= ext (dmax_of m l) /\ forall v, In v l -> ext v <= ext (dmax_of m l).
Proof.
  induction l as [|x l IH]; intros N m NM; cbn [dmax_of].
  - split; [left; reflexivity|]. split; [exact NM|]. split; [lra|]. intros v [].
  - assert (NX : num x) by (apply N; left; reflexivity).
    match goal with |- context [dmax_of ?z l] => remember z as y eqn:Y end.
    destruct (IH (fun v I => N v (or_intror I)) y) as (A & B & C & D); [rewrite Y; destruct (dlt x m); assumption|].
    assert (LL : ext x <= ext y /\ ext m <= ext y).
    { rewrite Y. destruct (dlt x m) eqn:E; [apply dlt_iff in E|apply dlt_no in E]; auto; split; lra. }
    destruct LL as [L1 L2].
    split; [|split; [exact B|split; [lra|]]].
    + destruct A as [A|A]; [|right; right; exact A]. rewrite A, Y. destruct (dlt x m); [left; reflexivity|right; left; reflexivity].
    + intros v [<-|I]; [lra|apply D, I].
Qed.
Lemma extremes_of x r : (forall v, In v (x :: r) -> num v) -> extremes (x :: r) (dmin_of x r) (dmax_of x r).
Proof.
  intros N. assert (NX : num x) by (apply N; left; reflexivity).
  destruct (dmin_of_spec r (fun v I => N v (or_intror I)) x NX) as (A & B & C & D).
  destruct (dmax_of_spec r (fun v I => N v (or_intror I)) x NX) as (A' & B' & C' & D').
  split; [destruct A as [->|A]; [left; reflexivity|right; exact A]|]. split; [destruct A' as [->|A']; [left; reflexivity|right; exact A']|].
  intros v I. assert (NV : num v) by (apply N, I). split; apply dle_iff; auto; destruct I as [<-|I]; auto.
Qed.

(** ** Indices *)
Lemma dnat_exact n : (Z.of_nat n <= 2 ^ 53)%Z -> is_finite (dnat n) = true /\ B2R (dnat n) = INR n.
Proof. intros H. unfold dnat. rewrite INR_IZR_INZ. apply d2_int. lia. Qed.

Section Step.
  Variables (n : nat) (lo hi : double).
  Hypothesis (N1 : (1 <= n)%nat) (N2 : (Z.of_nat n <= 2 ^ 49)%Z) (FL : is_finite lo = true) (FH : is_finite hi = true).
  Hypothesis FR : is_finite (dsub hi lo) = true.
  Hypothesis RANGE : INR n * bpow radix2 (-1021) <= B2R hi - B2R lo.
  Let step := ddiv (dsub hi lo) (dnat n).
  Let w := (B2R hi - B2R lo) / INR n.

  Lemma npos : 1 <= INR n. Proof. apply (le_INR 1). exact N1. Qed.
  Lemma w_low : bpow radix2 (-1021) <= w.
  Proof. pose proof npos. unfold w. apply Rmult_le_reg_r with (INR n); [lra|]. unfold Rdiv. rewrite Rmult_assoc, Rinv_l by lra. lra. Qed.
  Lemma step_val : is_finite step = true /\ exists d2 d3, Rabs d2 <= uro /\ Rabs d3 <= uro /\
    B2R (dsub hi lo) = (B2R hi - B2R lo) * (1 + d2) /\ B2R step = w * (1 + d2) * (1 + d3).
  Proof.
    pose proof npos as NP. pose proof w_low as WL. pose proof uro_pos as U0. pose proof uro_small as U1.
    destruct (dnat_exact n ltac:(lia)) as [FN EN]. destruct (sub_rel hi lo FH FL FR) as (d2 & D2 & E2).
    assert (NZ : ext (dnat n) <> 0) by (rewrite dext_finite, EN by exact FN; lra).
    destruct (ddiv_ext (dsub hi lo) (dnat n) FR FN NZ) as [NS ES]. rewrite (dext_finite _ FR), (dext_finite _ FN), EN, E2 in ES.
    replace ((B2R hi - B2R lo) * (1 + d2) / INR n) with (w * (1 + d2)) in ES by (unfold w; field; lra).
    pose proof (bpow_gt_0 radix2 (-1021)) as BP. apply Rabs_le_inv in D2 as D2'.
    assert (P : bpow radix2 (-1022) <= w * (1 + d2)).
    { replace (bpow radix2 (-1022)) with (bpow radix2 (-1021) * / 2) by (change (/ 2) with (bpow radix2 (-1)); rewrite <- bpow_plus; reflexivity).
      apply Rmult_le_compat; lra. }
    assert (F : is_finite step = true).
    { apply dfinite_iff; [exact NS|]. unfold step. rewrite ES. pose proof (dext_lt _ FR) as B. rewrite <- (crd_ext (dsub hi lo)) in B at 2.
      assert (0 <= crd (w * (1 + d2))) by (apply crd_nonneg; nra). pose proof MX_big.
      assert (crd (w * (1 + d2)) <= ext (dsub hi lo)); [|pose proof (dext_lt _ FR); lra].
      rewrite <- (crd_ext (dsub hi lo)). apply crd_mono. rewrite (dext_finite _ FR), E2.
      apply Rmult_le_compat_r; [lra|]. unfold w. apply Rmult_le_reg_r with (INR n); [lra|]. unfold Rdiv. rewrite Rmult_assoc, Rinv_l by lra.
      assert (0 <= B2R hi - B2R lo) by nra. nra. }
    split; [exact F|]. apply (finite_rnd _ _ F) in ES. destruct (rnd_rel (w * (1 + d2))) as (d3 & D3 & E3); [rewrite Rabs_pos_eq; [exact P|nra]|].
    exists d2, d3. repeat split; auto. rewrite <- E3. exact ES.
  Qed.

  Lemma step_pos : 0 < B2R step.
  Proof.
    destruct step_val as (_ & a & b & A & B & _ & E). rewrite E. apply Rabs_le_inv in A, B. pose proof uro_small. pose proof uro_pos. pose proof w_low. pose proof (bpow_gt_0 radix2 (-1021)).
    apply Rmult_lt_0_compat; [apply Rmult_lt_0_compat; lra|lra].
  Qed.

  (** The quotient that is truncated. *)
  Lemma quotient_val v : is_finite v = true -> B2R lo <= B2R v <= B2R hi ->
    exists x, 0 <= x /\ is_finite (ddiv (dsub v lo) step) = true /\ B2R (ddiv (dsub v lo) step) = rnd53 x /\ rnd53 x <= INR n + / 2 /\
      exists d1 d2 d3, Rabs d1 <= uro /\ Rabs d2 <= uro /\ Rabs d3 <= uro /\ (B2R v - B2R lo) * (1 + d1) = x * w * (1 + d2) * (1 + d3).
  Proof.
    intros FV B. pose proof npos as NP. pose proof w_low as WL. pose proof uro_pos as U0. pose proof uro_small as U1.
    destruct step_val as (FS & d2 & d3 & D2 & D3 & ER & ES). pose proof step_pos as SP.
    destruct (dsub_ext v lo FV FL) as [ND ED]. rewrite (dext_finite v FV), (dext_finite lo FL) in ED.
    assert (LE : ext (dsub v lo) <= ext (dsub hi lo)).
    { rewrite ED. destruct (dsub_ext hi lo FH FL) as [_ E']. rewrite E', (dext_finite hi FH), (dext_finite lo FL). apply crd_mono. lra. }
    assert (GE : 0 <= ext (dsub v lo)) by (rewrite ED; apply crd_nonneg; lra).
    assert (FD : is_finite (dsub v lo) = true) by (apply dfinite_iff; auto; pose proof (dext_lt _ FR); pose proof MX_big; lra).
    destruct (sub_rel v lo FV FL FD) as (d1 & D1 & E1). rewrite (dext_finite _ FD) in GE, LE. rewrite (dext_finite _ FR) in LE.
    assert (NZ : ext step <> 0) by (rewrite dext_finite by exact FS; lra).
    destruct (ddiv_ext (dsub v lo) step FD FS NZ) as [NQ EQ]. rewrite (dext_finite _ FD), (dext_finite _ FS) in EQ.
    set (x := B2R (dsub v lo) / B2R step) in *.
    assert (X0 : 0 <= x) by (apply Rmult_le_pos; [exact GE|apply Rlt_le, Rinv_0_lt_compat, SP]).
    assert (XS : x * B2R step = B2R (dsub v lo)) by (unfold x; field; lra).
    apply Rabs_le_inv in D1 as D1', D2 as D2', D3 as D3'.
    assert (XN : x <= INR n * (1 + 2 * uro)).
    { apply Rmult_le_reg_r with (B2R step); [exact SP|]. rewrite XS. apply Rle_trans with (1 := LE). rewrite ER, ES.
      replace (B2R hi - B2R lo) with (INR n * w) by (unfold w; field; lra).
      assert (0 < INR n * w * (1 + d2)) by (pose proof (bpow_gt_0 radix2 (-1021)); apply Rmult_lt_0_compat; [apply Rmult_lt_0_compat; lra|lra]).
      replace (INR n * (1 + 2 * uro) * (w * (1 + d2) * (1 + d3))) with (INR n * w * (1 + d2) * ((1 + 2 * uro) * (1 + d3))) by ring.
      rewrite <- (Rmult_1_r (INR n * w * (1 + d2))) at 1. apply Rmult_le_compat_l; [lra|]. nra. }
    assert (NH : INR n * uro <= / 16).
    { rewrite uro_val. replace (/ 16) with (IZR (2 ^ 49) * / 9007199254740992) by (change (IZR (2 ^ 49)) with (IZR 562949953421312); field).
      apply Rmult_le_compat_r; [lra|]. rewrite INR_IZR_INZ. apply IZR_le. exact N2. }
    assert (RN : rnd53 x <= INR n + / 2).
    { replace (INR n + / 2) with (IZR (2 * Z.of_nat n + 1) / 2) by (rewrite plus_IZR, mult_IZR, <- INR_IZR_INZ; field).
      rewrite <- (rnd_format (IZR (2 * Z.of_nat n + 1) / 2)) by (apply half_format; lia). apply rnd_mono.
      rewrite plus_IZR, mult_IZR, <- INR_IZR_INZ. lra. }
    assert (FQ : is_finite (ddiv (dsub v lo) step) = true).
    { apply (rnd_finite _ x NQ EQ). assert (0 <= rnd53 x) by (rewrite <- (rnd_format 0) by apply generic_format_0; apply rnd_mono, X0).
      rewrite Rabs_pos_eq by assumption. apply Rle_lt_trans with (1 := RN). apply Rlt_trans with (2 := big53).
      rewrite INR_IZR_INZ. pose proof (IZR_le _ _ N2). change (IZR (2 ^ 53)) with 9007199254740992. change (IZR (2 ^ 49)) with 562949953421312 in H0. lra. }
    exists x. split; [exact X0|]. split; [exact FQ|]. split; [apply (finite_rnd _ _ FQ EQ)|]. split; [exact RN|].
    exists d1, d2, d3. repeat split; auto. rewrite <- E1, <- XS, ES. ring.
  Qed.

  Lemma index_near v : is_finite v = true -> B2R lo <= B2R v <= B2R hi ->
    exists k, to_ssize (ddiv (dsub v lo) step) = Ok k /\ k = Ztrunc (B2R (ddiv (dsub v lo) step)) /\ (0 <= k <= Z.of_nat n)%Z /\ near_bin n lo hi k v.
  Proof.
    intros FV B. pose proof npos as NP. pose proof w_low as WL. pose proof uro_pos as U0. pose proof uro_small as U1. pose proof (bpow_gt_0 radix2 (-1021)) as BP.
    destruct (quotient_val v FV B) as (x & X0 & FQ & EQ & RN & d1 & d2 & d3 & D1 & D2 & D3 & E).
    set (k := Ztrunc (rnd53 x)).
    assert (R0 : 0 <= rnd53 x) by (rewrite <- (rnd_format 0) by apply generic_format_0; apply rnd_mono, X0).
    assert (KF : k = Zfloor (rnd53 x)) by (apply Ztrunc_floor, R0).
    assert (K0 : (0 <= k)%Z) by (rewrite KF; apply Zfloor_lub; exact R0).
    assert (K1 : IZR k <= rnd53 x) by (rewrite KF; apply Zfloor_lb).
    assert (K2 : rnd53 x < IZR k + 1) by (rewrite KF; apply Zfloor_ub).
    assert (KN : (k <= Z.of_nat n)%Z). { apply Zlt_succ_le. apply lt_IZR. rewrite succ_IZR, <- INR_IZR_INZ. lra. }
    assert (Z63 : (k < 2 ^ 63)%Z) by lia.
    exists k. split; [|split; [unfold k; rewrite EQ; reflexivity|split; [lia|]]].
    { unfold to_ssize. rewrite FQ, btrunc, EQ. fold k. rewrite (proj2 (Z.leb_le _ _)), (proj2 (Z.ltb_lt _ _)) by lia. reflexivity. }
    assert (BX : x < IZR k + 1).
    { destruct (Rlt_dec x (IZR k + 1)) as [H|H]; [exact H|]. exfalso.
      assert (IZR k + 1 <= rnd53 x); [|lra]. rewrite <- plus_IZR. rewrite <- (rnd_format (IZR (k + 1))) by (apply int_format; lia). apply rnd_mono. rewrite plus_IZR. lra. }
    assert (BL : IZR k <= x * (1 + uro)).
    { destruct (Rle_dec (bpow radix2 (-1022)) x) as [H|H].
      - apply Rle_trans with (1 := K1). apply rnd_le; lra.
      - assert (rnd53 x < 1). { apply Rle_lt_trans with (bpow radix2 (-1022) * (1 + uro)); [apply rnd_le; lra|].
          assert (bpow radix2 (-1022) <= / 2) by (change (/ 2) with (bpow radix2 (-1)); apply bpow_le; lia). pose proof (bpow_gt_0 radix2 (-1022)). nra. }
        assert (k < 1)%Z by (apply lt_IZR; lra). replace k with 0%Z by lia. nra. }
    assert (W : bpow radix2 (-50) = 8 * uro) by (change 8 with (bpow radix2 3); unfold uro; rewrite <- bpow_plus; reflexivity).
    unfold near_bin. change (width n lo hi) with w. rewrite W. set (y := B2R v - B2R lo) in *. set (u := uro) in *.
    apply Rabs_le_inv in D1, D2, D3. assert (K0' : 0 <= IZR k) by (apply IZR_le in K0; exact K0).
    assert (W0 : 0 < w) by lra. assert (Y0 : 0 <= y) by (unfold y; lra).
    assert (XW : 0 <= x * w) by (apply Rmult_le_pos; lra).
    split.
    - assert (A1 : x * w * ((1 - u) * (1 - u)) <= y * (1 + u)).
      { apply Rle_trans with (y * (1 + d1)); [|apply Rmult_le_compat_l; lra]. rewrite E. rewrite Rmult_assoc with (r3 := 1 + d3). apply Rmult_le_compat_l; [exact XW|]. nra. }
      assert (A2 : IZR k * w <= x * w * (1 + u)) by (replace (x * w * (1 + u)) with (x * (1 + u) * w) by ring; apply Rmult_le_compat_r; lra).
      assert (KW : 0 <= IZR k * w) by (apply Rmult_le_pos; lra).
      apply Rmult_le_reg_r with ((1 + u) * (1 + u)); [nra|].
      apply Rle_trans with (IZR k * w * ((1 - u) * (1 - u))).
      { rewrite Rmult_assoc. apply Rmult_le_compat_l; [exact KW|]. assert (0 <= u * u) by nra. nra. }
      apply Rle_trans with (x * w * (1 + u) * ((1 - u) * (1 - u))); [apply Rmult_le_compat_r; [nra|exact A2]|].
      replace (x * w * (1 + u) * ((1 - u) * (1 - u))) with (x * w * ((1 - u) * (1 - u)) * (1 + u)) by ring.
      replace (y * ((1 + u) * (1 + u))) with (y * (1 + u) * (1 + u)) by ring. apply Rmult_le_compat_r; [lra|exact A1].
    - assert (A1 : y * (1 - u) <= x * w * ((1 + u) * (1 + u))).
      { apply Rle_trans with (y * (1 + d1)); [apply Rmult_le_compat_l; lra|]. rewrite E. rewrite Rmult_assoc with (r3 := 1 + d3). apply Rmult_le_compat_l; [exact XW|]. nra. }
      assert (A2 : x * w < (IZR k + 1) * w) by (apply Rmult_lt_compat_r; lra).
      apply Rmult_lt_reg_r with (1 - u); [lra|]. apply Rle_lt_trans with (1 := A1).
      apply Rlt_le_trans with ((IZR k + 1) * w * ((1 + u) * (1 + u))); [apply Rmult_lt_compat_r; [nra|exact A2]|].
      rewrite Rmult_assoc with (r2 := 1 + 8 * u). apply Rmult_le_compat_l; [nra|]. nra.
  Qed.
  Lemma index_order v v' : is_finite v = true -> is_finite v' = true -> B2R lo <= B2R v <= B2R hi -> B2R lo <= B2R v' <= B2R hi -> B2R v <= B2R v' ->
    (Ztrunc (B2R (ddiv (dsub v lo) step)) <= Ztrunc (B2R (ddiv (dsub v' lo) step)))%Z.
  Proof.
    intros FV FV' B B' H. apply Ztrunc_le. destruct step_val as (FS & _). pose proof step_pos as SP.
    destruct (quotient_val v FV B) as (x & _ & FQ & _). destruct (quotient_val v' FV' B') as (x' & _ & FQ' & _).
    assert (FIN : forall z, is_finite z = true -> B2R lo <= B2R z <= B2R hi -> is_finite (dsub z lo) = true).
    { intros z FZ BZ. destruct (dsub_ext z lo FZ FL) as [ND ED]. destruct (dsub_ext hi lo FH FL) as [_ E']. rewrite (dext_finite z FZ), (dext_finite lo FL) in ED. rewrite (dext_finite hi FH), (dext_finite lo FL) in E'.
      apply dfinite_iff; auto. rewrite ED. assert (crd (B2R z - B2R lo) <= crd (B2R hi - B2R lo)) by (apply crd_mono; lra). assert (0 <= crd (B2R z - B2R lo)) by (apply crd_nonneg; lra).
      pose proof (dext_lt _ FR). rewrite E' in H2. pose proof MX_big. lra. }
    assert (NZ : ext step <> 0) by (rewrite dext_finite by exact FS; lra).
    destruct (ddiv_ext (dsub v lo) step (FIN v FV B) FS NZ) as [_ E]. destruct (ddiv_ext (dsub v' lo) step (FIN v' FV' B') FS NZ) as [_ E'].
    rewrite <- (dext_finite _ FQ), <- (dext_finite _ FQ'), E, E'. apply crd_mono. rewrite (dext_finite step FS).
    apply Rmult_le_compat_r; [apply Rlt_le, Rinv_0_lt_compat, SP|].
    destruct (dsub_ext v lo FV FL) as [_ D]. destruct (dsub_ext v' lo FV' FL) as [_ D']. rewrite D, D'. apply crd_mono. rewrite !dext_finite by assumption. lra.
  Qed.

  (** Edges. *)
  Lemma add_fin (x y : double) : is_finite (dadd x y) = true -> is_finite x = true /\ is_finite y = true.
  Proof.
    destruct x as [s|s| |s m e H], y as [s'|s'| |s' m' e' H']; cbn; try (intros; split; congruence). destruct (Bool.eqb s s'); cbn; intros; discriminate.
  Qed.
  Lemma edge_parts i : (i <= n)%nat -> is_finite (dstep_edge lo step i) = true ->
    is_finite (dmul (dnat i) step) = true /\ ext (dmul (dnat i) step) = crd (INR i * B2R step).
  Proof.
    intros L F. destruct (add_fin _ _ F) as [A _]. split; [exact A|]. destruct step_val as (FS & _). destruct (dnat_exact i ltac:(lia)) as [FI EI].
    destruct (dmul_ext (dnat i) step FI FS) as [_ E]. rewrite E, (dext_finite _ FI), (dext_finite _ FS), EI. reflexivity.
  Qed.
  Lemma edges_rise i j : (i <= j <= n)%nat -> is_finite (dstep_edge lo step j) = true ->
    is_finite (dstep_edge lo step i) = true /\ ext (dstep_edge lo step i) <= ext (dstep_edge lo step j).
  Proof.
    intros L F. destruct step_val as (FS & _). pose proof step_pos as SP. destruct (edge_parts j ltac:(lia) F) as [FJ EJ].
    destruct (dnat_exact i ltac:(lia)) as [FI EI]. destruct (dmul_ext (dnat i) step FI FS) as [NI E]. rewrite (dext_finite _ FI), (dext_finite _ FS), EI in E.
    assert (LE : INR i <= INR j) by (apply le_INR; lia). assert (I0 : 0 <= INR i) by apply pos_INR.
    assert (LE2 : ext (dmul (dnat i) step) <= ext (dmul (dnat j) step)) by (rewrite E, EJ; apply crd_mono; apply Rmult_le_compat_r; lra).
    assert (P : 0 <= ext (dmul (dnat i) step)) by (rewrite E; apply crd_nonneg; apply Rmult_le_pos; lra).
    assert (F1 : is_finite (dmul (dnat i) step) = true) by (apply dfinite_iff; auto; pose proof (dext_lt _ FJ); pose proof MX_big; lra).
    unfold dstep_edge in *. destruct (dadd_ext _ _ F1 FL) as [N1' E1]. destruct (dadd_ext _ _ FJ FL) as [N2' E2].
    assert (LE3 : ext (dadd (dmul (dnat i) step) lo) <= ext (dadd (dmul (dnat j) step) lo)) by (rewrite E1, E2; apply crd_mono; lra).
    split; [|exact LE3]. apply dfinite_iff; [exact N1'|]. split; [|pose proof (dext_lt _ F); lra].
    apply Rlt_le_trans with (ext lo); [apply dext_lt, FL|]. rewrite E1. rewrite <- (crd_ext lo) at 1. apply crd_mono. lra.
  Qed.
  Lemma edge_zero : is_finite (dstep_edge lo step 0) = true /\ B2R (dstep_edge lo step 0) = B2R lo.
  Proof.
    destruct step_val as (FS & _). destruct (dnat_exact 0 ltac:(lia)) as [FI EI]. destruct (dmul_ext (dnat 0) step FI FS) as [NI E].
    rewrite (dext_finite _ FI), EI in E. cbn [INR] in E. rewrite Rmult_0_l, crd_0 in E.
    assert (F1 : is_finite (dmul (dnat 0) step) = true) by (apply dfinite_iff; auto; pose proof MX_big; lra).
    unfold dstep_edge. destruct (dadd_ext _ _ F1 FL) as [N1' E1]. rewrite E, Rplus_0_l, crd_ext in E1.
    assert (F : is_finite (dadd (dmul (dnat 0) step) lo) = true) by (apply dfinite_iff; [exact N1'|]; rewrite E1; apply dext_lt, FL).
    split; [exact F|]. rewrite <- dext_finite, E1, dext_finite; auto.
  Qed.
  Lemma edge_near i : (i <= n)%nat -> is_finite (dstep_edge lo step i) = true ->
    Rabs (B2R (dstep_edge lo step i) - (B2R lo + INR i * w)) <= bpow radix2 (-50) * (Rabs (B2R lo) + Rabs (B2R hi)).
  Proof.
    intros L F. pose proof npos as NP. pose proof w_low as WL. pose proof uro_pos as U0. pose proof uro_small as U1. pose proof (bpow_gt_0 radix2 (-1021)) as BP.
    pose proof (bpow_gt_0 radix2 (-50)) as B50.
    destruct (Nat.eq_dec i 0) as [->|I0].
    { rewrite (proj2 edge_zero). cbn [INR]. replace (B2R lo - (B2R lo + 0 * w)) with 0 by ring. rewrite Rabs_R0. apply Rmult_le_pos; [lra|]. pose proof (Rabs_pos (B2R lo)). pose proof (Rabs_pos (B2R hi)). lra. }
    assert (I1 : 1 <= INR i) by (apply (le_INR 1); lia). assert (IN : INR i <= INR n) by (apply le_INR; exact L).
    destruct step_val as (FS & a & b & A & B & _ & ES). destruct (edge_parts i L F) as [FM EM]. apply (finite_rnd _ _ FM) in EM.
    destruct (add_rel _ _ FM FL F) as (d & D & E). fold (dstep_edge lo step i) in E.
    apply Rabs_le_inv in A as A', B as B', D as D'.
    assert (SL : bpow radix2 (-1022) <= B2R step).
    { rewrite ES. replace (bpow radix2 (-1022)) with (bpow radix2 (-1021) * / 2) by (change (/ 2) with (bpow radix2 (-1)); rewrite <- bpow_plus; reflexivity).
      rewrite Rmult_assoc. apply Rmult_le_compat; try lra. nra. }
    destruct (rnd_rel (INR i * B2R step)) as (c & C & EC).
    { pose proof (bpow_gt_0 radix2 (-1022)). rewrite Rabs_pos_eq; [|apply Rmult_le_pos; lra]. nra. }
    apply Rabs_le_inv in C as C'. rewrite EC, ES in EM.
    set (m := B2R (dmul (dnat i) step)) in *. set (t := INR i * w).
    assert (T0 : 0 <= t) by (unfold t; apply Rmult_le_pos; lra).
    assert (T1 : t <= B2R hi - B2R lo). { unfold t. replace (B2R hi - B2R lo) with (INR n * w) by (unfold w; field; lra). apply Rmult_le_compat_r; lra. }
    assert (M : m = t * ((1 + a) * (1 + b) * (1 + c))) by (rewrite EM; unfold t; ring).
    set (u := uro) in *.
    assert (G : - (4 * u) <= (1 + a) * (1 + b) * (1 + c) - 1 <= 4 * u).
    { assert (P1 : (1 - u) * (1 - u) <= (1 + a) * (1 + b) <= (1 + u) * (1 + u)) by (split; apply Rmult_le_compat; lra).
      assert (P2 : (1 - u) * (1 - u) * (1 - u) <= (1 + a) * (1 + b) * (1 + c) <= (1 + u) * (1 + u) * (1 + u)) by (split; apply Rmult_le_compat; nra).
      assert (0 <= u * u <= u * / 1024) by nra. assert (0 <= u * u * u <= u * u) by nra. lra. }
    set (g := (1 + a) * (1 + b) * (1 + c) - 1) in *.
    assert (EE : B2R (dstep_edge lo step i) - (B2R lo + t) = t * g * (1 + d) + d * (B2R lo + t)).
    { rewrite E, M. replace ((1 + a) * (1 + b) * (1 + c)) with (1 + g) by (unfold g; ring). ring. }
    rewrite EE. assert (W : bpow radix2 (-50) = 8 * u) by (change 8 with (bpow radix2 3); unfold u, uro; rewrite <- bpow_plus; reflexivity). rewrite W.
    set (q := Rabs (B2R lo) + Rabs (B2R hi)).
    assert (TQ : t <= q). { unfold q. apply Rle_trans with (1 := T1). unfold Rabs. destruct (Rcase_abs (B2R lo)), (Rcase_abs (B2R hi)); lra. }
    assert (LQ : Rabs (B2R lo + t) <= q). { unfold q. unfold Rabs. destruct (Rcase_abs (B2R lo + t)), (Rcase_abs (B2R lo)), (Rcase_abs (B2R hi)); lra. }
    apply Rle_trans with (1 := Rabs_triang _ _). rewrite !Rabs_mult, (Rabs_pos_eq t T0).
    assert (GA : Rabs g <= 4 * u) by (apply Rabs_le; lra). assert (DA : Rabs (1 + d) <= 3 / 2) by (apply Rabs_le; lra).
    assert (X1 : t * Rabs g * Rabs (1 + d) <= q * (4 * u) * (3 / 2)).
    { repeat apply Rmult_le_compat; try apply Rabs_pos; try lra. apply Rmult_le_pos; [lra|apply Rabs_pos]. }
    assert (X2 : Rabs d * Rabs (B2R lo + t) <= u * q) by (apply Rmult_le_compat; try apply Rabs_pos; lra).
    assert (0 <= q) by lra. nra.
  Qed.
End Step.
