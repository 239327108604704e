(** Properties C42, C43, C45, C88, C89: cumulatives and discrete sampling. *)
From Coq Require Import QArith List ZArith Bool Arith Lia Lqa.
From Verif Require Import Common DblModel DblProofs CumulModel CumulSpec CumulProofs.
Import ListNotations.
Local Open Scope nat_scope.

(** ** C88: cumulative of a pdf, normalization *)

(** The value at a sample is the sum of the pdf up to that sample; sizes must agree. *)
Theorem C88_from_pdf xs pdf :
  (length xs <> length pdf -> from_pdf xs pdf = Throw) /\
  (length xs = length pdf -> exists c, from_pdf xs pdf = Ok c /\ c_x c = xs /\ length (c_y c) = length pdf /\
     forall i y, nth_error (c_y c) i = Some y -> (y == total_of (firstn (S i) pdf))%Q).
Proof.
  unfold from_pdf, new_cumul. rewrite running_length. split; intros H.
  - destruct (Nat.eqb_spec (length xs) (length pdf)); [contradiction|reflexivity].
  - rewrite H, Nat.eqb_refl. eexists. split; [reflexivity|]. cbn [c_x c_y]. split; [reflexivity|]. split; [apply running_length|].
    intros i y E. apply running_nth in E. rewrite E. ring.
Qed.
Print Assumptions C88_from_pdf.

(** The constructors: samples with the given coordinates, which must be of the same number;
    a dataset gives its points, or their partial sums when it is a pdf. *)
Theorem C88_from_vectors xs ys :
  (length xs <> length ys -> new_cumul xs ys = Throw) /\
  (length xs = length ys -> exists c, new_cumul xs ys = Ok c /\ c_x c = xs /\ c_y c = ys).
Proof.
  unfold new_cumul. split; intros H.
  - destruct (Nat.eqb_spec (length xs) (length ys)); [contradiction|reflexivity].
  - rewrite H, Nat.eqb_refl. eexists. repeat split.
Qed.
Print Assumptions C88_from_vectors.
Theorem C88_from_points (d : list (Q * Q)) :
  length (c_x (cumul_of_dataset d)) = length d /\ length (c_y (cumul_of_dataset d)) = length d /\
  (forall i x y, nth_error d i = Some (x, y) ->
     nth_error (c_x (cumul_of_dataset d)) i = Some x /\ nth_error (c_y (cumul_of_dataset d)) i = Some y) /\
  exists c, from_pdf_dataset d = Ok c /\ length (c_x c) = length d /\ length (c_y c) = length d /\
    forall i x y, nth_error d i = Some (x, y) ->
      nth_error (c_x c) i = Some x /\
      exists s, nth_error (c_y c) i = Some s /\ (s == total_of (firstn (S i) (map snd d)))%Q.
Proof.
  unfold cumul_of_dataset. cbn [c_x c_y]. rewrite !map_length. split; [reflexivity|]. split; [reflexivity|]. split.
  - intros i x y H. rewrite !nth_error_map, H. split; reflexivity.
  - destruct (C88_from_pdf (map fst d) (map snd d)) as [_ H]. rewrite !map_length in H. destruct (H eq_refl) as (c & E & Ex & L & S0).
    exists c. unfold from_pdf_dataset. split; [exact E|]. rewrite Ex, map_length. split; [reflexivity|]. split; [exact L|].
    intros i x y Hi. rewrite nth_error_map, Hi. split; [reflexivity|].
    destruct (nth_error (c_y c) i) as [s|] eqn:Es.
    + exists s. split; [reflexivity | apply S0; exact Es].
    + apply nth_error_None in Es. assert (i < length d) by (apply nth_error_Some; congruence). lia.
Qed.
Print Assumptions C88_from_points.

(** A pdf without negative values over rising abscissae gives a cumulative, with
    the sum of the pdf as total. *)
Theorem C88_is_cumulative xs pdf c : rising xs -> (forall q, In q pdf -> (0 <= q)%Q) -> pdf <> [] -> from_pdf xs pdf = Ok c ->
  exists total, is_cumulative c total /\ (total == total_of pdf)%Q.
Proof.
  intros R P N E. unfold from_pdf, new_cumul in E. rewrite running_length in E.
  destruct (Nat.eqb_spec (length xs) (length pdf)) as [L|L]; [|discriminate]. injection E as <-.
  assert (PL : 1 <= length pdf) by (destruct pdf; [congruence|cbn; lia]).
  destruct (nth_ok (running 0 pdf) (length pdf - 1)) as [t T]; [rewrite running_length; lia|]. exists t. split.
  - unfold is_cumulative. cbn [c_x c_y]. rewrite running_length. split; [exact L|]. split; [exact R|].
    split; [apply running_rising; exact P|]. split; [|exact T]. intros y Hy. apply (running_nonneg pdf); auto.
  - apply running_last. exact T.
Qed.
Print Assumptions C88_is_cumulative.

(** Normalizing makes the last value 1, keeps the proportions and the abscissae,
    and does not change what findValue returns. *)
Theorem C88_normalize c total : is_cumulative c total -> (0 < total)%Q ->
  exists c' t', normalize c = Ok (Some c') /\ is_cumulative c' t' /\ (t' == 1)%Q /\ c_x c' = c_x c /\
    (forall i y', nth_error (c_y c') i = Some y' -> exists y, nth_error (c_y c) i = Some y /\ (y' * total == y)%Q) /\
    (forall ratio pos, (0 <= ratio <= 1)%Q -> find_value c' ratio pos = find_value c ratio pos).
Proof.
  intros I TP. destruct (normalize_spec c total I TP) as (c' & E & Ex & Ey & I' & T1). exists c', (total / total)%Q.
  split; [exact E|]. split; [exact I'|]. split; [exact T1|]. split; [exact Ex|]. split.
  - intros i y' H. rewrite Ey, nth_error_map in H. destruct (nth_error (c_y c) i) as [y|]; [|discriminate]. cbn in H. injection H as <-.
    exists y. split; [reflexivity|]. field. lra.
  - intros ratio pos R. apply (find_value_normalized c total); auto.
Qed.
Print Assumptions C88_normalize.

(** ** C43: findValue *)

(** findValue returns the abscissa of the first sample that reaches the ratio of
    the total, the last abscissa of its plateau, or the middle of both. *)
Theorem C43_find_value c total ratio : is_cumulative c total -> (0 <= ratio <= 1)%Q ->
  exists k m xk xm, first_reaching (c_y c) (total * ratio) k /\ plateau_end (c_y c) k m /\
    nth_error (c_x c) k = Some xk /\ nth_error (c_x c) m = Some xm /\
    find_value c ratio TrayBegin = Ok xk /\ find_value c ratio TrayEnd = Ok xm /\
    (exists v, find_value c ratio TrayMiddle = Ok v /\ (v == (xk + xm) / 2)%Q).
Proof.
  intros I R. destruct (find_value_spec c total ratio TrayBegin I R) as (k & m & xk & xm & F & Pl & A & B & V).
  exists k, m, xk, xm. split; [exact F|]. split; [exact Pl|]. split; [exact A|]. split; [exact B|]. split; [exact V|].
  assert (K : forall pos, find_value c ratio pos = Ok (match pos with TrayBegin => xk | TrayMiddle => (1 # 2) * (xk + xm) | TrayEnd => xm end)%Q).
  { intros pos. destruct (find_value_spec c total ratio pos I R) as (k' & m' & xk' & xm' & F' & Pl' & A' & B' & V').
    assert (k' = k) by (apply (first_reaching_unique (c_y c) (total * ratio) (total * ratio)); [reflexivity|exact F'|exact F]). subst k'.
    assert (m' = m) by (apply (plateau_end_unique (c_y c) k); auto; apply I). subst m'.
    rewrite A in A'. injection A' as <-. rewrite B in B'. injection B' as <-. exact V'. }
  split; [apply (K TrayEnd)|]. eexists. split; [apply (K TrayMiddle)|]. field.
Qed.
Print Assumptions C43_find_value.

(** A ratio outside [0,1] throws. *)
Theorem C43_ratio_range c ratio pos : ((1 < ratio)%Q \/ (ratio < 0)%Q) -> find_value c ratio pos = Throw.
Proof.
  intros H. unfold find_value. destruct (Qlt_b 1 ratio) eqn:A; [reflexivity|]. destruct (Qlt_b ratio 0) eqn:B; [reflexivity|].
  apply Qlt_b_false in A. apply Qlt_b_false in B. lra.
Qed.
Print Assumptions C43_ratio_range.

(** Larger ratios give larger abscissae. *)
Theorem C43_monotone c total r1 r2 pos v1 v2 : is_cumulative c total -> (0 <= r1)%Q -> (r1 <= r2)%Q -> (r2 <= 1)%Q ->
  find_value c r1 pos = Ok v1 -> find_value c r2 pos = Ok v2 -> (v1 <= v2)%Q.
Proof.
  intros I A B C E1 E2. pose proof I as (L & RX & RY & P & T).
  destruct (find_value_spec c total r1 pos I ltac:(lra)) as (k & m & xk & xm & F & (y & z & P1 & P2 & P3 & P4 & P5) & X1 & X2 & V). rewrite E1 in V. injection V as ->.
  destruct (find_value_spec c total r2 pos I ltac:(lra)) as (k' & m' & xk' & xm' & F' & (y' & z' & Q1 & Q2 & Q3 & Q4 & Q5) & X1' & X2' & V'). rewrite E2 in V'. injection V' as ->.
  assert (T0 : (0 <= total)%Q) by (apply P; eapply nth_error_In; exact T).
  assert (TR : (total * r1 <= total * r2)%Q) by (rewrite !(Qmult_comm total); apply Qmult_le_compat_r; auto).
  assert (KK : k <= k').
  { destruct (le_lt_dec k k') as [|H]; [auto|exfalso]. destruct F as [_ F]. destruct F' as [(u & U1 & U2) _]. specialize (F k' u H U1). lra. }
  assert (MM : m <= m').
  { destruct (le_lt_dec m m') as [|H]; [auto|exfalso]. specialize (Q5 m z H P2). assert (y <= y')%Q by (apply (rising_le (c_y c) k k'); auto). lra. }
  assert (xk <= xk')%Q by (apply (rising_le (c_x c) k k'); auto). assert (xm <= xm')%Q by (apply (rising_le (c_x c) m m'); auto).
  destruct pos; lra.
Qed.
Print Assumptions C43_monotone.

(** A cumulative whose last value is negative makes findValue read past the end. *)
Theorem C43_negative_refuted : exists c ratio, length (c_x c) = length (c_y c) /\ (0 <= ratio <= 1)%Q /\ find_value c ratio TrayBegin = UB.
Proof. exists (mkCumul [1; 2] [(-3); (-2)])%Q, (1 # 2)%Q. split; [reflexivity|]. split; [lra|reflexivity]. Qed.
Print Assumptions C43_negative_refuted.

(** ** C42: findMinInterval *)

(** The interval returned holds the requested part of the total, and no interval
    between two different samples that holds it is narrower. *)
Theorem C42_min_interval c total rate : is_cumulative c total -> 2 <= length (c_x c) -> (0 < total)%Q -> (0 < rate <= 1)%Q ->
  exists i j lo hi, find_min_interval c rate = Ok (lo, hi) /\ i < j /\
    nth_error (c_x c) i = Some lo /\ nth_error (c_x c) j = Some hi /\ holds c i j (rate * total) /\
    forall i' j' a b, i' < j' -> nth_error (c_x c) i' = Some a -> nth_error (c_x c) j' = Some b ->
      holds c i' j' (rate * total) -> (hi - lo <= b - a)%Q.
Proof. apply find_min_interval_spec. Qed.
Print Assumptions C42_min_interval.

Theorem C42_rate_range c rate : ((1 < rate)%Q \/ (rate <= 0)%Q) -> find_min_interval c rate = Throw /\ find_centered_interval c rate = Throw.
Proof.
  intros H. unfold find_min_interval, find_centered_interval. destruct (Qlt_b 1 rate) eqn:A; [auto|]. destruct (Qle_bool rate 0) eqn:B; [auto|].
  apply Qlt_b_false in A. assert (~ (rate <= 0)%Q) by (intro X; apply Qle_bool_iff in X; congruence). lra.
Qed.
Print Assumptions C42_rate_range.

(** A tactic for the hypotheses of the examples. *)
Ltac rising_literal :=
  let i := fresh in let j := fresh in let a := fresh in let b := fresh in let H := fresh in let A := fresh in let B := fresh in
  intros i j a b H A B;
  do 6 (try destruct i as [|i]); do 6 (try destruct j as [|j]); cbn in A, B; try lia; try discriminate;
  injection A as <-; injection B as <-; lra.

(** With a total of zero the interval can be reversed. *)
Theorem C42_zero_total_refuted : exists c lo hi, is_cumulative c 0 /\ find_min_interval c 1 = Ok (lo, hi) /\ (hi < lo)%Q.
Proof.
  exists (mkCumul [1; 2; 3] [0; 0; 0])%Q, 3%Q, 2%Q. split; [|split; [vm_compute; reflexivity|reflexivity]].
  split; [reflexivity|]. split; [rising_literal|]. split; [rising_literal|]. split; [|reflexivity].
  cbn [c_y]. intros y [<-|[<-|[<-|[]]]]; lra.
Qed.
Print Assumptions C42_zero_total_refuted.

Definition pdf5 : cumul := mkCumul [1; 2; 3; 5; 9]%Q [1; 3; 7; 7; 8]%Q.
Example C42_hyps : is_cumulative pdf5 8 /\ 2 <= length (c_x pdf5).
Proof.
  split; [|cbn; lia]. split; [reflexivity|]. split; [rising_literal|]. split; [rising_literal|]. split; [|reflexivity].
  cbn [c_y pdf5]. intros y [<-|[<-|[<-|[<-|[<-|[]]]]]]; lra.
Qed.
Example C42_example : find_min_interval pdf5 (1 # 2) = Ok (2, 3)%Q /\ find_min_interval pdf5 (3 # 4) = Ok (1, 3)%Q.
Proof. vm_compute. auto. Qed.
Example C43_example : find_value pdf5 (1 # 2) TrayBegin = Ok 3%Q /\ find_value pdf5 (1 # 2) TrayEnd = Ok 5%Q.
Proof. vm_compute. auto. Qed.

(** ** C89: centred intervals *)

(** With strictly rising values the interval is not reversed: it goes from the
    first sample reaching (1-rate)/2 of the total to the first one reaching (1+rate)/2. *)
Theorem C89_centered c total rate : is_cumulative c total -> strictly_rising (c_y c) -> (0 < rate <= 1)%Q ->
  exists i j lo hi, find_centered_interval c rate = Ok (lo, hi) /\ i <= j /\ (lo <= hi)%Q /\
    nth_error (c_x c) i = Some lo /\ nth_error (c_x c) j = Some hi /\
    first_reaching (c_y c) (total * ((1 - rate) / 2)) i /\ first_reaching (c_y c) (total * ((1 + rate) / 2)) j.
Proof.
  intros I SR [R0 R1]. unfold find_centered_interval.
  destruct (Qlt_b 1 rate) eqn:A; [apply Qlt_b_iff in A; lra|]. destruct (Qle_bool rate 0) eqn:B; [apply Qle_bool_iff in B; lra|]. cbn [orb].
  assert (H1 : (0 <= (1 # 2) - rate / 2 <= 1)%Q) by (unfold Qdiv; change (/ 2)%Q with (1 # 2)%Q; lra).
  assert (H2 : (0 <= (1 # 2) + rate / 2 <= 1)%Q) by (unfold Qdiv; change (/ 2)%Q with (1 # 2)%Q; lra).
  destruct (find_value_spec c total _ TrayEnd I H1) as (k & m & xk & xm & F & Pl & X1 & X2 & V). rewrite V. cbn [bind].
  destruct (find_value_spec c total _ TrayBegin I H2) as (k' & m' & xk' & xm' & F' & Pl' & X1' & X2' & V'). rewrite V'. cbn [bind].
  assert (m = k).
  { destruct Pl as (y & z & P1 & P2 & P3 & P4 & P5). destruct (Nat.eq_dec m k) as [|NE]; [auto|exfalso].
    assert (y < z)%Q by (apply (SR k m); auto; lia). lra. } subst m.
  pose proof I as (L & RX & RY & P & T).
  assert (T0 : (0 <= total)%Q) by (apply P; eapply nth_error_In; exact T).
  assert (E1 : (total * ((1 # 2) - rate / 2) == total * ((1 - rate) / 2))%Q) by field.
  assert (E2 : (total * ((1 # 2) + rate / 2) == total * ((1 + rate) / 2))%Q) by field.
  assert (TR : (total * ((1 - rate) / 2) <= total * ((1 + rate) / 2))%Q).
  { rewrite !(Qmult_comm total). apply Qmult_le_compat_r; [|exact T0]. unfold Qdiv. change (/ 2)%Q with (1 # 2)%Q. lra. }
  assert (KK : k <= k').
  { destruct (le_lt_dec k k') as [|H]; [auto|exfalso]. destruct F as [_ F]. destruct F' as [(u & U1 & U2) _]. specialize (F k' u H U1). lra. }
  exists k, k', xm, xk'. split; [reflexivity|]. split; [exact KK|]. split; [apply (rising_le (c_x c) k k'); auto|].
  split; [exact X2|]. split; [exact X1'|]. split.
  - destruct F as [(u & U1 & U2) F]. split; [exists u; split; [exact U1|lra]|]. intros i y Hi Hy. specialize (F i y Hi Hy). lra.
  - destruct F' as [(u & U1 & U2) F']. split; [exists u; split; [exact U1|lra]|]. intros i y Hi Hy. specialize (F' i y Hi Hy). lra.
Qed.
Print Assumptions C89_centered.

(** With plateaus the interval can be reversed. *)
Theorem C89_reversed_refuted : exists c total rate lo hi, is_cumulative c total /\ (0 < total)%Q /\ (0 < rate <= 1)%Q /\
  find_centered_interval c rate = Ok (lo, hi) /\ (hi < lo)%Q.
Proof.
  exists (mkCumul [1; 2; 3; 4; 5] [0; 0; 1; 1; 1])%Q, 1%Q, (1 # 2)%Q, 5%Q, 3%Q. split.
  - split; [reflexivity|]. split; [rising_literal|]. split; [rising_literal|]. split; [|reflexivity].
    cbn [c_y]. intros y [<-|[<-|[<-|[<-|[<-|[]]]]]]; lra.
  - split; [lra|]. split; [lra|]. split; [vm_compute; reflexivity|reflexivity].
Qed.
Print Assumptions C89_reversed_refuted.

Example C89_example : strictly_rising [1; 3; 7; 8]%Q /\ find_centered_interval (mkCumul [1; 2; 3; 4]%Q [1; 3; 7; 8]%Q) (1 # 2) = Ok (2, 3)%Q.
Proof. split; [rising_literal|vm_compute; reflexivity]. Qed.

(** ** C45: discrete sampling *)

(** The knot k is sampled exactly for the p such that p * total is above the sum
    of the pdf before k and not above the sum up to k: an interval of length
    pdf[k] / total. *)
Theorem C45_sample {K} (knots : list K) pdf : length knots = length pdf -> pdf <> [] ->
  (forall q, In q pdf -> (0 <= q)%Q) -> (0 < total_of pdf)%Q ->
  exists cdf, inverse_cdf pdf = Some cdf /\
    (forall p k knot, (0 < p <= 1)%Q -> nth_error knots k = Some knot ->
       (total_of (firstn k pdf) < p * total_of pdf)%Q -> (p * total_of pdf <= total_of (firstn (S k) pdf))%Q ->
       sample_discrete knots cdf p = Ok knot) /\
    (forall p, (0 < p <= 1)%Q -> exists k knot q, sample_discrete knots cdf p = Ok knot /\ nth_error knots k = Some knot /\
       nth_error pdf k = Some q /\ (0 < q)%Q /\
       (total_of (firstn k pdf) < p * total_of pdf)%Q /\ (p * total_of pdf <= total_of (firstn (S k) pdf))%Q).
Proof.
  intros L N P T. destruct (inverse_cdf_spec pdf N P T) as (cdf & E & _). exists cdf. split; [exact E|].
  assert (S : forall p, (0 < p <= 1)%Q -> exists k knot, sample_discrete knots cdf p = Ok knot /\ nth_error knots k = Some knot /\
       (total_of (firstn k pdf) < p * total_of pdf)%Q /\ (p * total_of pdf <= total_of (firstn (S k) pdf))%Q).
  { intros p Hp. destruct (sample_discrete_spec knots pdf p L N P T Hp) as (cdf' & k & knot & E' & A & B & C & D).
    rewrite E in E'. injection E' as <-. exists k, knot. auto. }
  split.
  - intros p k knot Hp Hk A B. destruct (S p Hp) as (k' & knot' & S1 & S2 & S3 & S4).
    assert (k' = k).
    { destruct (lt_eq_lt_dec k' k) as [[H|H]|H]; [|exact H|]; exfalso.
      - pose proof (firstn_total_mono pdf (Datatypes.S k') k P ltac:(lia)). lra.
      - pose proof (firstn_total_mono pdf (Datatypes.S k) k' P ltac:(lia)). lra. }
    subst k'. rewrite Hk in S2. injection S2 as <-. exact S1.
  - intros p Hp. destruct (S p Hp) as (k & knot & S1 & S2 & S3 & S4). pose proof (nth_lt _ _ _ S2) as KL. rewrite L in KL.
    destruct (nth_ok pdf k KL) as [q Hq]. exists k, knot, q. split; [exact S1|]. split; [exact S2|]. split; [exact Hq|].
    split; [|split; [exact S3|exact S4]]. pose proof (total_firstn_S pdf k q Hq). lra.
Qed.
Print Assumptions C45_sample.

Theorem C45_range {K} (knots : list K) cdf p : ((p < 0)%Q \/ (1 < p)%Q) -> sample_discrete knots cdf p = Throw.
Proof.
  intros H. unfold sample_discrete. destruct (Qlt_b p 0) eqn:A; [reflexivity|]. destruct (Qlt_b 1 p) eqn:B; [reflexivity|].
  apply Qlt_b_false in A. apply Qlt_b_false in B. lra.
Qed.
Print Assumptions C45_range.

(** p = 0 gives the first knot even if it has no probability. *)
Theorem C45_zero_refuted : exists (knots : list nat) pdf cdf, length knots = length pdf /\ inverse_cdf pdf = Some cdf /\
  nth_error pdf 0 = Some 0%Q /\ nth_error knots 0 = Some 7 /\ sample_discrete knots cdf 0 = Ok 7.
Proof. exists [7; 8], [0; 1]%Q. eexists. split; [reflexivity|]. split; [reflexivity|]. split; [reflexivity|]. split; reflexivity. Qed.
Print Assumptions C45_zero_refuted.

(** Fewer knots than pdf values are accepted and lead to an invalid access. *)
Theorem C45_mismatch_refuted : exists (knots : list nat) pdf cdf, inverse_cdf pdf = Some cdf /\ sample_discrete knots cdf 1 = UB.
Proof. exists [7], [1; 1]%Q. eexists. split; reflexivity. Qed.
Print Assumptions C45_mismatch_refuted.

Example C45_example : match inverse_cdf [1; 0; 2; 1]%Q with
  | Some cdf => map (sample_discrete [10; 20; 30; 40]%nat cdf) [1 # 4; 1 # 3; 3 # 4; 1]%Q
  | None => [] end = [Ok 10; Ok 30; Ok 30; Ok 40].
Proof. vm_compute. reflexivity. Qed.
