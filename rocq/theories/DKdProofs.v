(** Proofs about the KdTree in double precision. *)
From Coq Require Import List Arith Bool ZArith Reals Permutation Sorted Lia Lra.
From Flocq Require Import Core IEEE754.BinarySingleNaN Relative.
From Verif Require Import Common FloatModel FloatProofs DoubleProofs DoubleProofs2 DKdModel DKdSpec.
From Verif Require KdTreeProofs.
Import ListNotations.
Local Open Scope R_scope.

(** ** Squares and sums, with infinities *)
Lemma crd_top r : MX <= r -> crd r = MX.
Proof.
  intros H. apply Rle_antisym; [|]. - unfold crnd. pose proof MX_big. apply Rmax_lub; [lra|apply Rmin_l].
  - apply Rle_trans with (crd MX); [|apply crd_mono, H]. change MX with (@ext 53 1024 dinf). rewrite crd_ext. apply Rle_refl.
Qed.
Lemma square_ext (d : double) : num d -> num (dmul d d) /\ ext (dmul d d) = crd (ext d * ext d).
Proof.
  intros N. destruct (is_finite d) eqn:F; [apply dmul_ext; exact F|]. pose proof MX_big.
  destruct d as [s|[|]| |s m e B]; try discriminate F; try discriminate N; (split; [reflexivity|]); cbn [ext]; symmetry; (replace (ext (dmul _ _)) with MX by reflexivity); apply crd_top; nra.
Qed.
Lemma add_nn (x y : double) : num x -> num y -> 0 <= ext x -> 0 <= ext y -> num (dadd x y) /\ ext (dadd x y) = crd (ext x + ext y).
Proof.
  intros NX NY PX PY. pose proof MX_big. destruct (is_finite x) eqn:FX; [destruct (is_finite y) eqn:FY; [apply dadd_ext; assumption|]|].
  - rewrite (inf_of y NY PY FY). split; [destruct x; try discriminate FX; reflexivity|]. replace (ext (dadd x (B754_infinity false))) with MX by (destruct x; try discriminate FX; reflexivity). symmetry. apply crd_top. cbn [ext]. lra.
  - rewrite (inf_of x NX PX FX) in *. assert (E : dadd (B754_infinity false) y = B754_infinity false).
    { destruct y as [s|[|]| |s m e B]; try discriminate NY; try reflexivity. cbn [ext] in PY. lra. }
    rewrite E. split; [reflexivity|]. symmetry. apply crd_top. cbn [ext]. lra.
Qed.
Lemma nan_add_l (x y : double) : is_nan x = true -> is_nan (dadd x y) = true.
Proof. destruct x; try discriminate. reflexivity. Qed.
Lemma nan_add_r (x y : double) : is_nan y = true -> is_nan (dadd x y) = true.
Proof. destruct y; try discriminate. destruct x; reflexivity. Qed.
Lemma nan_sq (x : double) : is_nan x = true -> is_nan (dmul x x) = true.
Proof. destruct x; try discriminate. reflexivity. Qed.

(** NaN, or at least [b]. *)
Definition above (b : R) (x : double) : Prop := is_nan x = true \/ (num x /\ b <= ext x).
Lemma above_add b x y : 0 <= b -> above b x -> above 0 y -> above b (dadd x y).
Proof.
  intros P [NX|[NX X]] A; [left; apply nan_add_l, NX|]. destruct A as [NY|[NY Y]]; [left; apply nan_add_r, NY|].
  right. destruct (add_nonneg x y NX NY ltac:(lra) Y) as (N & G & _). split; [exact N|lra].
Qed.
Lemma above_add_r b x y : 0 <= b -> above 0 x -> above b y -> above b (dadd x y).
Proof.
  intros P [NX|[NX X]] A; [left; apply nan_add_l, NX|]. destruct A as [NY|[NY Y]]; [left; apply nan_add_r, NY|].
  right. destruct (add_nonneg x y NX NY X ltac:(lra)) as (N & _ & G). split; [exact N|lra].
Qed.
Lemma above_sq x : above 0 (dmul x x).
Proof.
  destruct (is_nan x) eqn:N; [left; apply nan_sq, N|]. destruct (square_ext x N) as [N' E]. right. split; [exact N'|]. rewrite E. apply crd_nonneg. apply Rle_0_sqr.
Qed.
Lemma above_weaken b b' x : b' <= b -> above b x -> above b' x.
Proof. intros H [N|[N L]]; [left; exact N|right; split; [exact N|lra]]. Qed.

Section P.
  Context {T : Type}.
  Variable coord : T -> nat -> double.
  Variable sort : nat -> list T -> list T.
  Variable N S_ : nat.
  Hypothesis Hs : dsorts coord sort.
  Hypothesis S_pos : (1 <= S_)%nat.
  Hypothesis N_pos : (1 <= N)%nat.

  Lemma dist_above e c b : forall todo i acc, 0 <= b -> above b acc -> above b (dsquare_dist coord e c todo i acc).
  Proof.
    induction todo as [|k IH]; intros i acc P A; cbn [dsquare_dist]; [exact A|]. apply IH; [exact P|]. apply above_add; [exact P|exact A|apply above_sq].
  Qed.
  Lemma dist_axis e c ax b : forall todo i acc, 0 <= b -> above 0 acc -> (i <= ax < i + todo)%nat ->
    above b (dmul (dsub (coord e ax) (c ax)) (dsub (coord e ax) (c ax))) -> above b (dsquare_dist coord e c todo i acc).
  Proof.
    induction todo as [|k IH]; intros i acc P A L B; [lia|]. cbn [dsquare_dist]. destruct (Nat.eq_dec i ax) as [->|NE].
    - apply dist_above; [exact P|]. apply above_add_r; assumption.
    - apply IH; [exact P|apply above_add; [lra|exact A|apply above_sq]|lia|exact B].
  Qed.
  (** A coordinate at the distance of the radius. *)
  Lemma far_away e c ax r : (ax < N)%nat -> num r -> 0 <= ext r -> num (dsub (coord e ax) (c ax)) -> ext r <= Rabs (ext (dsub (coord e ax) (c ax))) ->
    dclose_to coord N c r e = false.
  Proof.
    intros L NR PR ND D. unfold dclose_to. destruct (square_ext r NR) as [NS ES].
    assert (A : above (ext (dmul r r)) (dsquare_dist coord e c N 0 d0)).
    { apply dist_axis with (ax := ax); [rewrite ES; apply crd_nonneg, Rle_0_sqr| |lia|].
      - right. split; [reflexivity|]. rewrite ext_d0. lra.
      - right. destruct (square_ext _ ND) as [N' E']. split; [exact N'|]. rewrite ES, E'. apply crd_mono.
        set (d := ext (dsub (coord e ax) (c ax))) in *. replace (d * d) with (Rabs d * Rabs d) by (rewrite <- Rabs_mult; apply Rabs_pos_eq, Rle_0_sqr). apply Rmult_le_compat; lra. }
    destruct A as [A|[A B]]; [apply lt_nan_l, A|]. apply dlt_no; assumption.
  Qed.
  Lemma inf_or (x : double) : num x -> is_finite x = true \/ x = B754_infinity true \/ x = B754_infinity false.
  Proof. destruct x as [s|[|]| |s m e B]; cbn; intros H; try (left; reflexivity); try (right; auto); discriminate H. Qed.
  (** Pruning on the right: p >= v > c + r. *)
  Lemma prune_right (p v c r : double) : is_finite p = true -> is_finite v = true -> num r -> 0 <= ext r -> dlt (dadd c r) v = true -> ext v <= ext p ->
    num (dsub p c) /\ ext r <= Rabs (ext (dsub p c)).
  Proof.
    intros FP FV NR PR L G. destruct (dlt_nums _ _ L) as [NA NV]. apply dlt_iff in L; [|assumption|assumption].
    assert (NC : num c) by (destruct c; [reflexivity|reflexivity|discriminate NA|reflexivity]). pose proof MX_big.
    pose proof (dext_lt v FV) as BV. destruct (inf_or c NC) as [FC|[->| ->]].
    - destruct (inf_or r NR) as [FR|[->| ->]]; [|cbn [ext] in PR; lra|].
      + destruct (dadd_ext c r FC FR) as [_ EA]. rewrite EA in L. destruct (dsub_ext p c FP FC) as [ND ED]. split; [exact ND|].
        assert (LT : ext c + ext r < ext p). { destruct (Rlt_dec (ext c + ext r) (ext p)) as [Q|Q]; [exact Q|]. exfalso. assert (crd (ext p) <= crd (ext c + ext r)) by (apply crd_mono; lra). rewrite crd_ext in H0. lra. }
        assert (ext r <= ext (dsub p c)) by (rewrite ED, <- (crd_ext r); apply crd_mono; lra). rewrite Rabs_pos_eq; lra.
      + exfalso. assert (E : dadd c (B754_infinity false) = B754_infinity false) by (destruct c; try discriminate FC; reflexivity). rewrite E in L. cbn [ext] in L. lra.
    - assert (E : dsub p (B754_infinity true) = B754_infinity false) by (destruct p; try discriminate FP; reflexivity). rewrite E. split; [reflexivity|]. cbn [ext]. rewrite Rabs_pos_eq by lra. apply dext_le.
    - exfalso. assert (E : dadd (B754_infinity false) r = B754_infinity false) by (destruct r as [?|[|]| |? ? ? ?]; try reflexivity; [cbn [ext] in PR; lra|discriminate NR]). rewrite E in L. cbn [ext] in L. lra.
  Qed.
  Lemma prune_left (p v c r : double) : is_finite p = true -> is_finite v = true -> num r -> 0 <= ext r -> dlt v (dsub c r) = true -> ext p <= ext v ->
    num (dsub p c) /\ ext r <= Rabs (ext (dsub p c)).
  Proof.
    intros FP FV NR PR L G. destruct (dlt_nums _ _ L) as [NV NA]. apply dlt_iff in L; [|assumption|assumption].
    assert (NC : num c) by (destruct c; [reflexivity|reflexivity|discriminate NA|reflexivity]). pose proof MX_big.
    pose proof (dext_lt v FV) as BV. destruct (inf_or c NC) as [FC|[->| ->]].
    - destruct (inf_or r NR) as [FR|[->| ->]]; [|cbn [ext] in PR; lra|].
      + destruct (dsub_ext c r FC FR) as [_ EA]. rewrite EA in L. destruct (dsub_ext p c FP FC) as [ND ED]. split; [exact ND|].
        assert (LT : ext p < ext c - ext r). { destruct (Rlt_dec (ext p) (ext c - ext r)) as [Q|Q]; [exact Q|]. exfalso. assert (crd (ext c - ext r) <= crd (ext p)) by (apply crd_mono; lra). rewrite crd_ext in H0. lra. }
        assert (ext (dsub p c) <= - ext r). { rewrite ED. rewrite <- (crd_ext r). rewrite <- crnd_opp. apply crd_mono. lra. } rewrite Rabs_left1; lra.
      + exfalso. assert (E : dsub c (B754_infinity false) = B754_infinity true) by (destruct c; try discriminate FC; reflexivity). rewrite E in L. cbn [ext] in L. lra.
    - exfalso. assert (E : dsub (B754_infinity true) r = B754_infinity true) by (destruct r as [?|[|]| |? ? ? ?]; try reflexivity; [cbn [ext] in PR; lra|discriminate NR]). rewrite E in L. cbn [ext] in L. lra.
    - assert (E : dsub p (B754_infinity false) = B754_infinity true) by (destruct p; try discriminate FP; reflexivity). rewrite E. split; [reflexivity|]. cbn [ext]. rewrite Rabs_left1 by lra. pose proof (dext_le r). lra.
  Qed.

  (** The middle of two moderate numbers. *)
  Lemma double_format (x : double) : is_finite x = true -> Rabs (B2R x) < bpow radix2 1023 -> crd (2 * B2R x) = 2 * B2R x.
  Proof.
    intros F B. apply crnd_id.
    - pose proof (generic_format_B2R 53 1024 x) as G. apply FLT_format_generic in G; [|reflexivity]. destruct G as [f E1 E2 E3].
      apply generic_format_FLT. exists (Float radix2 (Fnum f) (Fexp f + 1)); [|exact E2|cbn in *; lia]. rewrite E1. unfold F2R. cbn [Fnum Fexp]. rewrite bpow_plus. change (bpow radix2 1) with 2. ring.
    - apply Rabs_lt_inv in B. change MX with (bpow radix2 (1 + 1023)). rewrite bpow_plus. change (bpow radix2 1) with 2. lra.
  Qed.
  Lemma middle (a b : double) : is_finite a = true -> is_finite b = true -> Rabs (B2R a) < bpow radix2 1023 -> Rabs (B2R b) < bpow radix2 1023 -> ext a <= ext b ->
    is_finite (ddiv (dadd a b) dtwo) = true /\ ext a <= ext (ddiv (dadd a b) dtwo) <= ext b.
  Proof.
    intros FA FB BA BB L. destruct (dadd_ext a b FA FB) as [NS ES].
    assert (L1 : 2 * B2R a <= ext (dadd a b)) by (rewrite ES, <- (double_format a FA BA); apply crd_mono; rewrite !dext_finite in * by assumption; lra).
    assert (L2 : ext (dadd a b) <= 2 * B2R b) by (rewrite ES, <- (double_format b FB BB); apply crd_mono; rewrite !dext_finite in * by assumption; lra).
    assert (M : MX = 2 * bpow radix2 1023) by (change MX with (bpow radix2 (1 + 1023)); rewrite bpow_plus; reflexivity).
    apply Rabs_lt_inv in BA, BB. assert (FS : is_finite (dadd a b) = true) by (apply dfinite_iff; [exact NS|lra]).
    destruct (ddiv_ext (dadd a b) dtwo FS eq_refl) as [NV EV]; [rewrite ext_dtwo; lra|]. rewrite ext_dtwo in EV.
    assert (A1 : ext a <= ext (ddiv (dadd a b) dtwo)) by (rewrite EV, <- (crd_ext a); apply crd_mono; rewrite (dext_finite a FA); lra).
    assert (A2 : ext (ddiv (dadd a b) dtwo) <= ext b) by (rewrite EV, <- (crd_ext b); apply crd_mono; rewrite (dext_finite b FB); lra).
    split; [|lra]. apply dfinite_iff; [exact NV|]. pose proof (dext_lt a FA). pose proof (dext_lt b FB). lra.
  Qed.

  Lemma split_spec axis data : (axis < N)%nat -> (forall e, In e data -> moderate coord N e) -> (2 <= length data)%nat ->
    exists v, dsplit_value coord axis (sort axis data) = Ok v /\ is_finite v = true /\
      (forall y, In y (firstn (length (sort axis data) / 2) (sort axis data)) -> ext (coord y axis) <= ext v) /\
      (forall y, In y (skipn (length (sort axis data) / 2) (sort axis data)) -> ext v <= ext (coord y axis)).
  Proof.
    intros Hax Hu Hl. destruct (Hs axis data) as [P SS]. set (s := sort axis data) in *.
    assert (Els : length s = length data) by (apply Permutation_length, P).
    assert (Hus : forall e, In e s -> moderate coord N e) by (intros e I; apply Hu; eapply Permutation_in; eassumption).
    assert (FIN : forall e, In e s -> is_finite (coord e axis) = true) by (intros e I; apply (Hus e I axis Hax)).
    assert (NUM : forall e, In e s -> num (coord e axis)) by (intros e I; apply dfinite_num, FIN, I).
    assert (SS' : StronglySorted (fun x y => dle (coord x axis) (coord y axis) = true) s).
    { apply SS. intros e I. apply NUM. eapply Permutation_in; [apply Permutation_sym, P|exact I]. }
    assert (Hh : (1 <= length s / 2 /\ length s / 2 < length s)%nat).
    { rewrite Els. split; [apply Nat.div_le_lower_bound; lia|apply Nat.div_lt; lia]. }
    unfold dsplit_value. destruct (length s / 2)%nat as [|k]; [lia|].
    destruct (KdTreeProofs.nth_error_ok 1 1 (le_n 1) (le_n 1) s k ltac:(lia)) as (x & Hx). destruct (KdTreeProofs.nth_error_ok 1 1 (le_n 1) (le_n 1) s (S k) ltac:(lia)) as (y & Hy). rewrite Hx, Hy.
    destruct (KdTreeProofs.sorted_split _ _ _ _ SS' Hx) as (X1 & X2). destruct (KdTreeProofs.sorted_split _ _ _ _ SS' Hy) as (Y1 & Y2).
    assert (IX : In x s) by (eapply nth_error_In; exact Hx). assert (IY : In y s) by (eapply nth_error_In; exact Hy).
    assert (INF : forall n z, In z (firstn n s) -> In z s) by (intros n z I; rewrite <- (firstn_skipn n s); apply in_or_app; auto).
    assert (INS : forall n z, In z (skipn n s) -> In z s) by (intros n z I; rewrite <- (firstn_skipn n s); apply in_or_app; auto).
    set (a := coord x axis) in *. set (b := coord y axis) in *.
    assert (Hab : ext a <= ext b).
    { apply dle_iff; [apply NUM, IX|apply NUM, IY|]. apply Y1. clear - Hx. revert k Hx. induction s as [|z s IH]; intros [|k] Hx; try discriminate.
      - injection Hx as ->. left. reflexivity.
      - right. apply (IH k). exact Hx. }
    assert (B : forall v : double, ext a <= ext v <= ext b ->
       (forall z, In z (firstn (S k) s) -> ext (coord z axis) <= ext v) /\ (forall z, In z (skipn (S k) s) -> ext v <= ext (coord z axis))).
    { intros v [Ha Hb]. split; intros z Hz.
      - destruct (KdTreeProofs.firstn_S_in _ _ _ _ Hx Hz) as [Hz'| ->]; [|fold a; assumption]. specialize (X1 z Hz'). apply dle_iff in X1; [fold a in X1; lra|apply NUM, (INF k), Hz'|apply NUM, IX].
      - destruct (KdTreeProofs.skipn_nth_in _ _ _ _ Hy Hz) as [->|Hz']; [fold b; assumption|]. specialize (Y2 z Hz'). apply dle_iff in Y2; [fold b in Y2; lra|apply NUM, IY|apply NUM, (INS (S (S k))), Hz']. }
    destruct (Hus x IX axis Hax) as [FA BA]. destruct (Hus y IY axis Hax) as [FB BB]. fold a in FA, BA. fold b in FB, BB.
    destruct (deq a b) eqn:E.
    - apply deq_iff in E; [|apply NUM, IX|apply NUM, IY]. exists a. split; [reflexivity|]. split; [exact FA|]. apply B. lra.
    - destruct (middle a b FA FB BA BB Hab) as [FV V]. eexists. split; [reflexivity|]. split; [exact FV|]. apply B. exact V.
  Qed.

  Lemma build_total : forall fuel axis data, (axis < N)%nat -> (forall e, In e data -> moderate coord N e) -> (length data <= fuel)%nat ->
    exists t, dbuild coord sort N S_ fuel axis data = Ok t /\
      forall c r, num r -> 0 <= ext r -> Permutation (dfind_points coord N t c r) (filter (dclose_to coord N c r) data).
  Proof.
    induction fuel as [|fuel IH]; intros axis data Hax Hu Hl; cbn [dbuild].
    - destruct data; [|cbn in Hl; lia]. cbn [length]. destruct (Nat.ltb_spec S_ 0); [lia|]. eexists. split; [reflexivity|]. intros. apply Permutation_refl.
    - destruct (Nat.ltb_spec S_ (length data)) as [H|H]; [|eexists; split; [reflexivity|]; intros; apply Permutation_refl].
      destruct (split_spec axis data Hax Hu) as (v & Hv & FV & V1 & V2); [lia|]. rewrite Hv. cbn [bind].
      destruct (Hs axis data) as [Ps _]. set (s := sort axis data) in *. set (h := (length s / 2)%nat) in *.
      assert (Els : length s = length data) by (apply Permutation_length, Ps).
      assert (Hh : (1 <= h /\ h < length s)%nat). { unfold h. rewrite Els. split; [apply Nat.div_le_lower_bound; lia|apply Nat.div_lt; lia]. }
      assert (Hm : ((axis + 1) mod N < N)%nat) by (apply Nat.mod_upper_bound; lia).
      assert (Hus : forall x, In x s -> moderate coord N x) by (intros x Hx; apply Hu; eapply Permutation_in; eassumption).
      assert (Ecut : firstn h s ++ skipn h s = s) by apply firstn_skipn.
      assert (I1 : forall x, In x (firstn h s) -> In x s) by (intros x I; rewrite <- Ecut; apply in_or_app; auto).
      assert (I2 : forall x, In x (skipn h s) -> In x s) by (intros x I; rewrite <- Ecut; apply in_or_app; auto).
      destruct (IH ((axis + 1) mod N)%nat (firstn h s) Hm) as (l & L1 & L4); [intros x Hx; apply Hus, I1, Hx|rewrite firstn_length; lia|].
      destruct (IH ((axis + 1) mod N)%nat (skipn h s) Hm) as (r & R1 & R4); [intros x Hx; apply Hus, I2, Hx|rewrite skipn_length; lia|].
      rewrite L1, R1. cbn [bind]. eexists. split; [reflexivity|]. intros c rad NR PR. cbn [dfind_points].
      eapply Permutation_trans; [|apply KdTreeProofs.filter_permutation; exact Ps]. rewrite <- Ecut at 1. rewrite filter_app.
      destruct (dlt (dadd (c axis) rad) v) eqn:E1.
      + rewrite (KdTreeProofs.filter_false _ (skipn h s)), app_nil_r; [apply L4; assumption|]. intros x Hx.
        destruct (prune_right (coord x axis) v (c axis) rad) as [ND D]; auto; [apply (Hus x (I2 x Hx) axis Hax)|].
        apply far_away with (ax := axis); assumption.
      + destruct (dlt v (dsub (c axis) rad)) eqn:E2.
        * rewrite (KdTreeProofs.filter_false _ (firstn h s)); [apply R4; assumption|]. intros x Hx.
          destruct (prune_left (coord x axis) v (c axis) rad) as [ND D]; auto; [apply (Hus x (I1 x Hx) axis Hax)|].
          apply far_away with (ax := axis); assumption.
        * apply Permutation_app; [apply L4|apply R4]; assumption.
  Qed.
End P.
Lemma computed_eq {T} (coord : T -> nat -> double) e c : forall todo i acc,
  dsquare_dist coord e c todo i acc = fold_left (fun acc i => dadd acc (dmul (dsub (coord e i) (c i)) (dsub (coord e i) (c i)))) (seq i todo) acc.
Proof. induction todo as [|k IH]; intros i acc; cbn [dsquare_dist seq fold_left]; [reflexivity|]. apply IH. Qed.

(** ** Accuracy *)
Definition eta : R := bpow radix2 (-1075).
Lemma eta_pos : 0 < eta. Proof. apply bpow_gt_0. Qed.
Lemma rnd_both x : exists e h, Rabs e <= uro /\ Rabs h <= eta /\ rnd53 x = x * (1 + e) + h.
Proof.
  destruct (error_N_FLT radix2 (SpecFloat.emin 53 1024) 53 eq_refl (fun n => negb (Z.even n)) x) as (e & h & E & H & _ & R).
  exists e, h. split; [|split; [|exact R]].
  - apply Rle_trans with (1 := E). unfold uro. change (/ 2) with (bpow radix2 (-1)). rewrite <- bpow_plus. apply Rle_refl.
  - apply Rle_trans with (1 := H). unfold eta. change (/ 2) with (bpow radix2 (-1)). rewrite <- bpow_plus. apply Rle_refl.
Qed.
Lemma rnd_bounds x : 0 <= x -> x * (1 - uro) - eta <= rnd53 x <= x * (1 + uro) + eta.
Proof. intros P. destruct (rnd_both x) as (e & h & E & H & R). apply Rabs_le_inv in E, H. rewrite R. split; nra. Qed.

(** A number that is at most b < 2^1024 after rounding does not overflow. *)
Lemma crd_rnd x b : 0 <= x -> x <= b -> generic_format radix2 (SpecFloat.fexp 53 1024) b -> b < MX -> crd x = rnd53 x /\ crd x <= b.
Proof.
  intros P L F B. assert (0 <= rnd53 x) by (rewrite <- (rnd_format 0) by apply generic_format_0; apply rnd_mono, P).
  assert (rnd53 x <= b) by (rewrite <- (rnd_format b F); apply rnd_mono, L).
  assert (E : crd x = rnd53 x) by (apply crnd_small; rewrite Rabs_pos_eq by assumption; lra). split; [exact E|]. rewrite E. assumption.
Qed.
Lemma bpow_format e : (-1022 <= e <= 1023)%Z -> generic_format radix2 (SpecFloat.fexp 53 1024) (bpow radix2 e).
Proof. intros H. apply generic_format_bpow. unfold SpecFloat.fexp, SpecFloat.emin. lia. Qed.

Section Accuracy.
  Context {T : Type}.
  Variable coord : T -> nat -> double.
  Variables (e : T) (c : nat -> double) (n : nat).
  Hypothesis FE : forall i, (i < n)%nat -> is_finite (coord e i) = true.
  Hypothesis FC : forall i, (i < n)%nat -> is_finite (c i) = true.
  Let x (i : nat) := B2R (coord e i) - B2R (c i).
  Let loop todo i acc := dsquare_dist coord e c todo i acc.
  Fixpoint exact_from (todo i : nat) : R := match todo with O => 0 | S k => x i ^ 2 + exact_from k (S i) end.
  Lemma exact_from_nonneg todo : forall i, 0 <= exact_from todo i.
  Proof. induction todo as [|k IH]; intros i; cbn [exact_from]; [lra|]. pose proof (pow2_ge_0 (x i)). pose proof (IH (S i)). lra. Qed.

  Lemma delta_ext i : (i < n)%nat -> num (dsub (coord e i) (c i)) /\ ext (dsub (coord e i) (c i)) = crd (x i).
  Proof. intros L. destruct (dsub_ext (coord e i) (c i) (FE i L) (FC i L)) as [N E]. rewrite (dext_finite _ (FE i L)), (dext_finite _ (FC i L)) in E. split; assumption. Qed.

  (** From above: while the exact sum is small. *)
  Lemma dist_upper : forall todo i acc, (i + todo <= n)%nat -> is_finite acc = true -> 0 <= B2R acc ->
    forall k, (1 + uro) ^ (k + todo) * (B2R acc + (1 + uro) ^ 3 * exact_from todo i + INR todo * eta) <= bpow radix2 1001 -> exact_from todo i <= bpow radix2 1000 ->
    is_finite (loop todo i acc) = true /\ 0 <= B2R (loop todo i acc) /\
    B2R (loop todo i acc) <= (1 + uro) ^ todo * (B2R acc + (1 + uro) ^ 3 * exact_from todo i + INR todo * eta).
  Proof.
    pose proof uro_pos as U0. pose proof eta_pos as H0. pose proof uro_small as U1.
    induction todo as [|m IH]; intros i acc L FA PA k B X; unfold loop in *; cbn [dsquare_dist exact_from] in *.
    - split; [exact FA|]. split; [exact PA|]. cbn [pow INR]. lra.
    - assert (Li : (i < n)%nat) by lia. pose proof (exact_from_nonneg m (S i)) as PX. pose proof (pow2_ge_0 (x i)) as PXI.
      destruct (delta_ext i Li) as [ND ED]. set (d := dsub (coord e i) (c i)) in *.
      assert (XB : Rabs (x i) <= bpow radix2 500).
      { apply Rsqr_incr_0_var; [|apply bpow_ge_0]. rewrite <- Rsqr_abs. unfold Rsqr. rewrite <- bpow_plus. change (500 + 500)%Z with 1000%Z. lra. }
      assert (FD : is_finite d = true).
      { apply dfinite_iff; [exact ND|]. rewrite ED. assert (bpow radix2 500 < MX) by (apply bpow_lt; lia). apply Rabs_le_inv in XB.
        pose proof (bpow_format 500 ltac:(lia)) as F500. assert (G : forall z, z <= bpow radix2 500 -> crd z <= bpow radix2 500).
        { intros z Z. rewrite <- (crnd_id 53 1024 (bpow radix2 500)); [apply crd_mono, Z|exact F500|]. pose proof (bpow_gt_0 radix2 500). lra. }
        pose proof (G (x i) ltac:(lra)). pose proof (G (- x i) ltac:(lra)). rewrite crnd_opp in H2. lra. }
      destruct (sub_rel (coord e i) (c i) (FE i Li) (FC i Li) FD) as (a & A & EA). fold d (x i) in EA.
      destruct (square_ext d ND) as [NS ES]. rewrite (dext_finite d FD) in ES.
      apply Rabs_le_inv in A. assert (SQ : B2R d * B2R d <= (1 + uro) ^ 2 * x i ^ 2).
      { rewrite EA. replace (x i * (1 + a) * (x i * (1 + a))) with ((1 + a) ^ 2 * x i ^ 2) by ring. apply Rmult_le_compat_r; [exact PXI|]. apply pow_incr. lra. }
      assert (SQ0 : 0 <= B2R d * B2R d) by apply Rle_0_sqr.
      assert (SB : B2R d * B2R d <= bpow radix2 1001).
      { apply Rle_trans with (1 := SQ). replace (bpow radix2 1001) with (2 * bpow radix2 1000) by (change 2 with (bpow radix2 1); rewrite <- bpow_plus; reflexivity). apply Rmult_le_compat; [nra|exact PXI|nra|lra]. }
      assert (M1 : bpow radix2 1001 < MX) by (apply bpow_lt; lia). assert (M2 : bpow radix2 1002 < MX) by (apply bpow_lt; lia).
      destruct (crd_rnd _ _ SQ0 SB (bpow_format 1001 ltac:(lia)) M1) as [ER RB].
      assert (P0 : 0 <= crd (B2R d * B2R d)) by (apply crd_nonneg, SQ0).
      assert (FS : is_finite (dmul d d) = true) by (apply dfinite_iff; [exact NS|]; rewrite ES; pose proof MX_big; lra).
      rewrite (dext_finite _ FS) in ES. pose proof (rnd_bounds _ SQ0) as [_ UB]. rewrite <- ER, <- ES in UB. rewrite <- ES in RB, P0.
      assert (TB : B2R (dmul d d) <= (1 + uro) ^ 3 * x i ^ 2 + eta).
      { apply Rle_trans with (1 := UB). apply Rplus_le_compat_r. replace ((1 + uro) ^ 3 * x i ^ 2) with ((1 + uro) ^ 2 * x i ^ 2 * (1 + uro)) by ring. apply Rmult_le_compat_r; lra. }
      assert (G1 : 1 <= (1 + uro) ^ (k + m)) by (apply pow_R1_Rle; lra).
      assert (G3 : 1 <= (1 + uro) ^ 3) by (apply pow_R1_Rle; lra).
      assert (IM : 0 <= INR m) by apply pos_INR.
      assert (ME : 0 <= INR m * eta) by (apply Rmult_le_pos; lra).
      assert (XE : 0 <= (1 + uro) ^ 3 * exact_from m (S i)) by (apply Rmult_le_pos; lra).
      assert (INRS : INR (S m) = INR m + 1) by apply S_INR.
      rewrite INRS in *.
      destruct (dadd_ext acc (dmul d d) FA FS) as [NA EAd]. rewrite (dext_finite _ FA), (dext_finite _ FS) in EAd.
      set (w := 1 + uro) in *. set (t := B2R (dmul d d)) in *. set (s := B2R acc) in *. set (X' := exact_from m (S i)) in *.
      assert (REST : w ^ (k + S m) * (s + w ^ 3 * (x i ^ 2 + X') + (INR m + 1) * eta) = w ^ (S k + m) * ((s + (w ^ 3 * x i ^ 2 + eta)) + w ^ 3 * X' + INR m * eta)).
      { replace (k + S m)%nat with (S k + m)%nat by lia. ring. }
      rewrite REST in B. assert (WK : 1 <= w ^ (S k + m)) by (apply pow_R1_Rle; unfold w; lra).
      assert (ST : s + t <= bpow radix2 1001).
      { apply Rle_trans with (2 := B). assert (0 <= s + (w ^ 3 * x i ^ 2 + eta) + w ^ 3 * X' + INR m * eta) by lra. nra. }
      destruct (crd_rnd (s + t) _ ltac:(lra) ST (bpow_format 1001 ltac:(lia)) M1) as [_ CB].
      assert (FAd : is_finite (dadd acc (dmul d d)) = true).
      { apply dfinite_iff; [exact NA|]. rewrite EAd. assert (0 <= crd (s + t)) by (apply crd_nonneg; lra). pose proof MX_big. lra. }
      destruct (add_rel acc (dmul d d) FA FS FAd) as (b & Bb & EB). fold s t in EB. apply Rabs_le_inv in Bb.
      assert (PAd : 0 <= B2R (dadd acc (dmul d d))) by (rewrite EB; apply Rmult_le_pos; lra).
      assert (UBA : B2R (dadd acc (dmul d d)) <= (s + (w ^ 3 * x i ^ 2 + eta)) * w) by (rewrite EB; apply Rmult_le_compat; [lra|lra|lra|unfold w; lra]).
      set (s' := B2R (dadd acc (dmul d d))) in *.
      assert (STEP : s' + w ^ 3 * X' + INR m * eta <= w * (s + (w ^ 3 * x i ^ 2 + eta) + w ^ 3 * X' + INR m * eta)).
      { assert (0 <= (w - 1) * (w ^ 3 * X' + INR m * eta)) by (apply Rmult_le_pos; unfold w; [|fold w]; lra). lra. }
      destruct (IH (S i) (dadd acc (dmul d d)) ltac:(lia) FAd PAd k) as (F' & P' & U').
      { apply Rle_trans with (2 := B). fold s' X'. replace (w ^ (S k + m)) with (w ^ (k + m) * w) by (cbn [Nat.add pow]; ring). rewrite Rmult_assoc. apply Rmult_le_compat_l; [lra|exact STEP]. }
      { fold X' in X. fold X'. lra. }
      split; [exact F'|]. split; [exact P'|]. fold s' X' in U'. apply Rle_trans with (1 := U').
      apply Rle_trans with (w ^ m * (w * (s + (w ^ 3 * x i ^ 2 + eta) + w ^ 3 * X' + INR m * eta))).
      + apply Rmult_le_compat_l; [apply pow_le; unfold w; lra|exact STEP].
      + cbn [pow]. apply Req_le. ring.
  Qed.

  (** From below. *)
  Lemma dist_lower : forall todo i acc, (i + todo <= n)%nat -> num acc -> 0 <= ext acc ->
    num (loop todo i acc) /\
    (bpow radix2 1001 <= ext (loop todo i acc) \/ (1 - uro) ^ todo * (ext acc + (1 - uro) ^ 3 * exact_from todo i) - INR todo * eta <= ext (loop todo i acc)).
  Proof.
    pose proof uro_pos as U0. pose proof eta_pos as H0. pose proof uro_small as U1.
    assert (M1 : bpow radix2 1001 < MX) by (apply bpow_lt; lia). assert (M2 : bpow radix2 1002 < MX) by (apply bpow_lt; lia).
    induction todo as [|m IH]; intros i acc L NA PA; unfold loop in *; cbn [dsquare_dist exact_from].
    - split; [exact NA|]. right. cbn [INR pow]. lra.
    - assert (Li : (i < n)%nat) by lia. pose proof (exact_from_nonneg m (S i)) as PX. pose proof (pow2_ge_0 (x i)) as PXI.
      destruct (delta_ext i Li) as [ND ED]. set (d := dsub (coord e i) (c i)) in *. destruct (square_ext d ND) as [NS ES].
      assert (PS : 0 <= ext (dmul d d)) by (rewrite ES; apply crd_nonneg, Rle_0_sqr).
      destruct (add_nn acc (dmul d d) NA NS PA PS) as [NAd EAd]. destruct (add_nonneg acc (dmul d d) NA NS PA PS) as (_ & GA1 & GA2).
      set (acc' := dadd acc (dmul d d)) in *.
      destruct (IH (S i) acc' ltac:(lia) NAd ltac:(lra)) as [NL LL]. split; [exact NL|].
      assert (BIG : bpow radix2 1001 <= ext acc' -> bpow radix2 1001 <= ext (dsquare_dist coord e c m (S i) acc')).
      { intros H. destruct (dist_above coord e c (bpow radix2 1001) m (S i) acc' (bpow_ge_0 _ _)) as [Q|[_ Q]]; [right; split; [exact NAd|exact H]|unfold num in NL; congruence|exact Q]. }
      destruct (Rle_dec (bpow radix2 1001) (ext acc')) as [Q|Q]; [left; apply BIG, Q|]. apply Rnot_le_lt in Q.
      destruct LL as [LL|LL]; [left; exact LL|]. right. apply Rle_trans with (2 := LL).
      assert (FD : is_finite d = true).
      { destruct (is_finite d) eqn:F; [reflexivity|]. exfalso. assert (ext (dmul d d) = MX); [|lra].
        destruct d as [s|[|]| |s mm ee BB]; try discriminate F; try discriminate ND; reflexivity. }
      destruct (sub_rel (coord e i) (c i) (FE i Li) (FC i Li) FD) as (a & A & EA). fold d (x i) in EA. apply Rabs_le_inv in A.
      rewrite (dext_finite d FD) in ES. assert (SQ0 : 0 <= B2R d * B2R d) by apply Rle_0_sqr.
      assert (SQ : (1 - uro) ^ 2 * x i ^ 2 <= B2R d * B2R d).
      { rewrite EA. replace (x i * (1 + a) * (x i * (1 + a))) with ((1 + a) ^ 2 * x i ^ 2) by ring. apply Rmult_le_compat_r; [exact PXI|]. apply pow_incr. lra. }
      assert (FS : is_finite (dmul d d) = true) by (apply dfinite_iff; [exact NS|]; pose proof MX_big; lra).
      assert (ER : B2R (dmul d d) = rnd53 (B2R d * B2R d)) by (apply finite_rnd; [exact FS|exact ES]).
      pose proof (rnd_bounds _ SQ0) as [LB _]. rewrite <- ER in LB.
      assert (FA : is_finite acc = true) by (apply dfinite_iff; [exact NA|]; pose proof MX_big; lra).
      assert (FAd : is_finite acc' = true) by (apply dfinite_iff; [exact NAd|]; pose proof MX_big; lra).
      destruct (add_rel acc (dmul d d) FA FS FAd) as (b & Bb & EB). apply Rabs_le_inv in Bb. fold acc' in EB.
      rewrite (dext_finite _ FA) in *. rewrite (dext_finite _ FAd) in *. rewrite (dext_finite _ FS) in *.
      rewrite S_INR. set (w := 1 - uro) in *. set (t := B2R (dmul d d)) in *. set (s := B2R acc) in *. set (X' := exact_from m (S i)) in *.
      assert (W : 0 < w < 1) by (unfold w; lra).
      assert (TB : w ^ 3 * x i ^ 2 - eta <= t).
      { apply Rle_trans with (2 := LB). replace (w ^ 3 * x i ^ 2) with (w ^ 2 * x i ^ 2 * w) by ring. assert (w ^ 2 * x i ^ 2 * w <= B2R d * B2R d * w) by (apply Rmult_le_compat_r; lra). lra. }
      assert (AB : (s + t) * w <= B2R acc') by (rewrite EB; apply Rmult_le_compat_l; unfold w; lra).
      assert (PW : 0 <= w ^ m <= 1). { split; [apply pow_le; lra|]. rewrite <- (pow1 m). apply pow_incr. lra. }
      assert (PW3 : 0 <= w ^ 3 <= 1). { split; [apply pow_le; lra|]. rewrite <- (pow1 3). apply pow_incr. lra. }
      assert (STEP : w * (s + w ^ 3 * (x i ^ 2 + X')) - eta <= B2R acc' + w ^ 3 * X').
      { assert (w * (s + (w ^ 3 * x i ^ 2 - eta)) <= B2R acc') by (apply Rle_trans with (2 := AB); rewrite Rmult_comm; apply Rmult_le_compat_r; lra).
        assert (0 <= (1 - w) * (w ^ 3 * X')) by (apply Rmult_le_pos; [lra|apply Rmult_le_pos; lra]). assert (w * eta <= eta) by nra. lra. }
      assert (ST2 : w ^ m * (w * (s + w ^ 3 * (x i ^ 2 + X')) - eta) <= w ^ m * (B2R acc' + w ^ 3 * X')) by (apply Rmult_le_compat_l; lra).
      assert (w ^ m * eta <= eta) by nra. replace (w ^ S m) with (w ^ m * w) by (cbn [pow]; ring). lra.
  Qed.
  Lemma exact_from_spec todo : forall i, exact_from todo i = fold_right (fun i s => (B2R (coord e i) - B2R (c i)) ^ 2 + s) 0 (seq i todo).
  Proof. induction todo as [|k IH]; intros i; cbn [exact_from seq fold_right]; [reflexivity|]. rewrite IH. reflexivity. Qed.
End Accuracy.

Lemma pow_upper k : INR k * uro <= / 2 -> (1 + uro) ^ k <= 1 + 2 * INR k * uro.
Proof.
  pose proof uro_pos as U. induction k as [|k IH]; intros H; [cbn; lra|]. rewrite S_INR in *. pose proof (pos_INR k).
  assert (INR k * uro <= / 2) by nra. specialize (IH H1). cbn [pow].
  apply Rle_trans with ((1 + uro) * (1 + 2 * INR k * uro)); [apply Rmult_le_compat_l; lra|].
  assert (INR k * uro * uro <= / 2 * uro) by (apply Rmult_le_compat_r; lra). lra.
Qed.
Lemma pow_lower k : 1 - INR k * uro <= (1 - uro) ^ k.
Proof.
  pose proof uro_pos as U. pose proof uro_small as U1. induction k as [|k IH]; [cbn; lra|]. rewrite S_INR. pose proof (pos_INR k). cbn [pow].
  apply Rle_trans with ((1 - uro) * (1 - INR k * uro)); [|apply Rmult_le_compat_l; lra].
  assert (0 <= INR k * uro * uro) by (repeat apply Rmult_le_pos; lra). lra.
Qed.
Section Tolerance.
  Context {T : Type}.
  Variable coord : T -> nat -> double.
  Variables (e : T) (c : nat -> double) (n : nat) (r : double).
  Hypothesis FE : forall i, (i < n)%nat -> is_finite (coord e i) = true.
  Hypothesis FC : forall i, (i < n)%nat -> is_finite (c i) = true.
  Hypothesis N1024 : (n <= 1024)%nat.
  Hypothesis FR : is_finite r = true.
  Hypothesis R_low : bpow radix2 (-400) <= B2R r.
  Hypothesis R_high : B2R r <= bpow radix2 500.
  Let q := B2R r * B2R r.

  Lemma n_bound : 0 <= INR n <= 1024.
  Proof. split; [apply pos_INR|]. replace 1024 with (INR 1024) by (rewrite INR_IZR_INZ; reflexivity). apply le_INR, N1024. Qed.
  Lemma q_low : bpow radix2 (-800) <= q.
  Proof. change (-800)%Z with (-400 + -400)%Z. rewrite bpow_plus. pose proof (bpow_ge_0 radix2 (-400)). apply Rmult_le_compat; lra. Qed.
  Lemma q_high : q <= bpow radix2 1000.
  Proof. change 1000%Z with (500 + 500)%Z. rewrite bpow_plus. pose proof (bpow_ge_0 radix2 (-400)). apply Rmult_le_compat; lra. Qed.
  Lemma eta_q : 1025 * eta <= q * bpow radix2 (-100).
  Proof.
    apply Rle_trans with (bpow radix2 (-800) * bpow radix2 (-100)); [|apply Rmult_le_compat_r; [apply bpow_ge_0|apply q_low]].
    rewrite <- bpow_plus. apply Rle_trans with (bpow radix2 11 * eta); [apply Rmult_le_compat_r; [apply bpow_ge_0|cbn; lra]|].
    unfold eta. rewrite <- bpow_plus. apply bpow_le. lia.
  Qed.
  Lemma radius_square : is_finite (dmul r r) = true /\ q * (1 - uro) - eta <= B2R (dmul r r) <= q * (1 + uro) + eta /\ B2R (dmul r r) <= bpow radix2 1000.
  Proof.
    assert (NR : num r) by (destruct r; try discriminate FR; reflexivity).
    destruct (square_ext r NR) as [NS ES]. rewrite (dext_finite r FR) in ES. fold q in ES.
    assert (Q0 : 0 <= q) by (pose proof q_low; pose proof (bpow_ge_0 radix2 (-800)); lra).
    assert (M1 : bpow radix2 1000 < MX) by (apply bpow_lt; lia).
    destruct (crd_rnd q _ Q0 q_high (bpow_format 1000 ltac:(lia)) M1) as [E B].
    assert (P0 : 0 <= crd q) by (apply crd_nonneg, Q0).
    assert (FS : is_finite (dmul r r) = true) by (apply dfinite_iff; [exact NS|]; rewrite ES; pose proof MX_big; lra).
    split; [exact FS|]. rewrite (dext_finite _ FS) in ES. rewrite ES. split; [|exact B]. rewrite E. apply rnd_bounds, Q0.
  Qed.
  Lemma uro_bpow : uro = bpow radix2 (-53).
  Proof. rewrite uro_val. reflexivity. Qed.
  Lemma pow40 : bpow radix2 (-40) = 8192 * uro.
  Proof. rewrite uro_bpow. change 8192 with (bpow radix2 13). rewrite <- bpow_plus. reflexivity. Qed.
  Lemma pow100 : 0 < bpow radix2 (-100) <= uro / 1024.
  Proof. split; [apply bpow_gt_0|]. rewrite uro_bpow. unfold Rdiv. change (/ 1024) with (bpow radix2 (-10)). rewrite <- bpow_plus. apply bpow_le. lia. Qed.

  Lemma near_arith Q E u w3 wn W h N t z : 0 <= E -> 0 < Q -> 0 < u -> u <= / 1000000 -> 0 <= w3 -> 0 <= wn -> 0 < t <= u / 1024 ->
    1 <= wn -> wn * w3 <= W -> W <= 1 + 2100 * u -> 0 <= h -> 0 <= N <= 1024 -> 1025 * h <= Q * t ->
    E <= Q * (1 - 8192 * u) -> wn <= W -> Q * (1 - u) - h <= z -> wn * (w3 * E + N * h) < z.
  Proof.
    intros PE PQ Pu U P3 Pn Tt W1 W2 W3 Ph PN H HE W4 Z.
    assert (A1 : wn * w3 * E <= W * E) by (apply Rmult_le_compat_r; lra).
    assert (A2 : N * h <= 1024 * h) by (apply Rmult_le_compat_r; lra).
    assert (A3 : wn * (N * h) <= W * (1024 * h)) by (apply Rmult_le_compat; [lra|apply Rmult_le_pos; lra|lra|lra]).
    assert (A4 : W * (E + 1024 * h) <= (1 + 2100 * u) * (Q * (1 - 8192 * u) + Q * t)) by (apply Rmult_le_compat; lra).
    assert (A5 : Q * t <= Q * (u / 1024)) by (apply Rmult_le_compat_l; lra).
    assert (A6 : (1 + 2100 * u) * (Q * (1 - 8192 * u) + Q * t) <= (1 + 2100 * u) * (Q * (1 - 8191 * u))) by (apply Rmult_le_compat_l; lra).
    assert (A7 : 0 < Q * u) by (apply Rmult_lt_0_compat; lra).
    assert (A8 : 0 <= Q * u * u) by (apply Rmult_le_pos; lra).
    replace (wn * (w3 * E + N * h)) with (wn * w3 * E + wn * (N * h)) by ring. lra.
  Qed.
  Lemma far_arith Q E u w3 wn W h N t z : 0 <= E -> 0 < Q -> 0 < u -> u <= / 1000000 -> 0 <= w3 -> 0 <= wn -> 0 < t <= u / 1024 ->
    W <= wn * w3 -> 1 - 1100 * u <= W -> 0 <= h -> 0 <= N <= 1024 -> 1025 * h <= Q * t ->
    Q * (1 + 8192 * u) <= E -> z <= Q * (1 + u) + h -> z <= wn * (0 + w3 * E) - N * h.
  Proof.
    intros PE PQ Pu U P3 Pn Tt W2 W3 Ph PN H HE Z.
    assert (A1 : W * E <= wn * w3 * E) by (apply Rmult_le_compat_r; lra).
    assert (A2 : N * h <= 1024 * h) by (apply Rmult_le_compat_r; lra).
    assert (A4 : (1 - 1100 * u) * (Q * (1 + 8192 * u)) <= W * E). { apply Rmult_le_compat; [lra|apply Rmult_le_pos; lra|lra|lra]. }
    assert (A5 : Q * t <= Q * (u / 1024)) by (apply Rmult_le_compat_l; lra).
    assert (A7 : 0 < Q * u) by (apply Rmult_lt_0_compat; lra).
    assert (A8 : Q * u * u <= Q * u * (/ 1000000)) by (apply Rmult_le_compat_l; lra).
    replace (wn * (0 + w3 * E)) with (wn * w3 * E) by ring. lra.
  Qed.
  Lemma uro_tiny : uro <= / 1000000.
  Proof. rewrite uro_bpow. apply Rle_trans with (bpow radix2 (-20)); [apply bpow_le; lia|]. cbn. lra. Qed.

  Lemma near_found : exact_from coord e c n 0 <= q * (1 - bpow radix2 (-40)) -> dlt (dsquare_dist coord e c n 0 d0) (dmul r r) = true.
  Proof.
    intros H. destruct radius_square as (FS & [RL RU] & RB). pose proof n_bound as NB. pose proof eta_q as EQ. pose proof q_low as QL. pose proof q_high as QH.
    pose proof (bpow_gt_0 radix2 (-800)) as P800. pose proof pow100 as P100. rewrite pow40 in H. pose proof uro_pos as U0. pose proof uro_tiny as U1. pose proof eta_pos as H0.
    pose proof (exact_from_nonneg coord e c n 0) as PE. set (E := exact_from coord e c n 0) in *.
    assert (W0 : INR (n + 3) * uro <= / 2). { rewrite plus_INR. cbn [INR]. nra. }
    pose proof (pow_upper _ W0) as W1. assert (W2 : (1 + uro) ^ (n + 3) <= 1 + 2100 * uro). { rewrite plus_INR in W1. cbn [INR] in W1. nra. }
    assert (PN : 1 <= (1 + uro) ^ n) by (apply pow_R1_Rle; lra). assert (P3 : 1 <= (1 + uro) ^ 3) by (apply pow_R1_Rle; lra).
    assert (PS : (1 + uro) ^ n * (1 + uro) ^ 3 <= (1 + uro) ^ (n + 3)) by (rewrite pow_add; lra).
    assert (PM : (1 + uro) ^ n <= (1 + uro) ^ (n + 3)) by (apply Rle_pow; [lra|lia]).
    assert (LT : (1 + uro) ^ n * ((1 + uro) ^ 3 * E + INR n * eta) < B2R (dmul r r)).
    { apply (near_arith q E uro _ _ ((1 + uro) ^ (n + 3)) eta (INR n) (bpow radix2 (-100))); lra. }
    assert (B0 : B2R d0 = 0) by reflexivity.
    assert (M1 : bpow radix2 1000 <= bpow radix2 1001) by (apply bpow_le; lia).
    destruct (dist_upper coord e c n FE FC n 0 d0 (le_n _) eq_refl ltac:(rewrite B0; lra) 0) as (F & P & U).
    { rewrite B0, Rplus_0_l, Nat.add_0_l. fold E. lra. }
    { fold E. assert (0 <= q * (8192 * uro)) by (apply Rmult_le_pos; lra). lra. }
    rewrite B0, Rplus_0_l in U. fold E in U.
    apply dlt_iff; [apply finite_num, F|apply finite_num, FS|]. rewrite (dext_finite _ F), (dext_finite _ FS). lra.
  Qed.
  Lemma far_not_found : q * (1 + bpow radix2 (-40)) <= exact_from coord e c n 0 -> dlt (dsquare_dist coord e c n 0 d0) (dmul r r) = false.
  Proof.
    intros H. destruct radius_square as (FS & [RL RU] & RB). pose proof n_bound as NB. pose proof eta_q as EQ. pose proof q_low as QL. pose proof q_high as QH.
    pose proof (bpow_gt_0 radix2 (-800)) as P800. pose proof pow100 as P100. rewrite pow40 in H. pose proof uro_pos as U0. pose proof uro_tiny as U1. pose proof eta_pos as H0.
    pose proof (exact_from_nonneg coord e c n 0) as PE. set (E := exact_from coord e c n 0) in *.
    assert (W1 : 1 - 1100 * uro <= (1 - uro) ^ (n + 3)). { apply Rle_trans with (2 := pow_lower _). rewrite plus_INR. cbn [INR]. nra. }
    assert (PN : 0 <= (1 - uro) ^ n) by (apply pow_le; lra). assert (P3 : 0 <= (1 - uro) ^ 3) by (apply pow_le; lra).
    assert (PS : (1 - uro) ^ (n + 3) <= (1 - uro) ^ n * (1 - uro) ^ 3) by (rewrite pow_add; lra).
    assert (B0 : ext d0 = 0) by reflexivity.
    assert (M1 : bpow radix2 1000 <= bpow radix2 1001) by (apply bpow_le; lia).
    destruct (dist_lower coord e c n FE FC n 0 d0 (le_n _) eq_refl ltac:(rewrite B0; lra)) as (N & [B|B]).
    - apply dlt_no; [exact N|apply finite_num, FS|]. rewrite (dext_finite _ FS). lra.
    - apply dlt_no; [exact N|apply finite_num, FS|]. rewrite (dext_finite _ FS). apply Rle_trans with (2 := B). rewrite B0. fold E.
      apply (far_arith q E uro _ _ ((1 - uro) ^ (n + 3)) eta (INR n) (bpow radix2 (-100))); lra.
  Qed.
End Tolerance.
