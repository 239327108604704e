(** Properties C125-C128: cumulatives and discrete sampling in double precision. *)
From Coq Require Import ZArith Reals List Bool Arith Lia Lra.
From Flocq Require Import Core IEEE754.BinarySingleNaN.
From Verif Require Import Common CumulModel FloatModel FloatProofs DoubleProofs DCumulModel DCumulSpec CumulProofs DCumulProofs.
Import ListNotations.
Local Open Scope nat_scope.

(** Cumulatives compared by computation. *)
Definition sf_cum (c : dcumul) := (map B2SF (d_x c), map B2SF (d_y c)).
Lemma sf_cum_inj c c' : sf_cum c = sf_cum c' -> c = c'.
Proof. destruct c as [a b], c' as [e f]. unfold sf_cum. cbn [d_x d_y]. intros H. injection H as A B. f_equal; apply map_sf_inj; assumption. Qed.
Ltac ccum := apply (oinj sf_cum sf_cum_inj); vm_compute; reflexivity.
Ltac cval := apply (oinj B2SF sf_inj); vm_compute; reflexivity.
Ltac cpair := apply (oinj sf_pair pair_sf_inj); vm_compute; reflexivity.
Ltac clist := apply map_sf_inj; vm_compute; reflexivity.

(** ** C125: cumulative of a pdf, normalization *)

(** A pdf without negative values and without NaN gives a cumulative: its values rise, none
    is NaN. *)
Theorem C125_from_pdf xs pdf : length xs = length pdf -> pdf <> [] -> (forall p, In p pdf -> dle d0 p = true) ->
  exists c total, dfrom_pdf xs pdf = Ok c /\ d_x c = xs /\ is_dcumulative c total.
Proof.
  intros L N P. unfold dfrom_pdf, dnew. rewrite drunning_length, L, Nat.eqb_refl.
  assert (PL : 1 <= length pdf) by (destruct pdf; [congruence|cbn; lia]).
  destruct (nth_ok (drunning d0 pdf) (length pdf - 1)) as [t T]; [rewrite drunning_length; lia|].
  eexists. exists t. split; [reflexivity|]. split; [reflexivity|]. unfold is_dcumulative. cbn [d_x d_y]. rewrite drunning_length. split; [exact L|].
  assert (Z : (0 <= ext d0)%R) by (rewrite ext_d0; lra). split; [apply drunning_rising; auto using num_d0|]. split; [|exact T].
  intros y H. apply In_nth_error in H. destruct H as [i H]. destruct (drunning_from pdf P d0 num_d0 Z i y H) as [NY G]. apply dle_iff; auto using num_d0.
Qed.
Print Assumptions C125_from_pdf.
Theorem C125_sizes xs pdf : length xs <> length pdf -> dfrom_pdf xs pdf = Throw.
Proof. intros H. unfold dfrom_pdf, dnew. rewrite drunning_length. destruct (Nat.eqb_spec (length xs) (length pdf)); [contradiction|reflexivity]. Qed.
Print Assumptions C125_sizes.

(** The value at the sample i is the exact sum of the i+1 first values of the pdf but for a
    relative error of (1 + 2^-53)^(i+1) - 1, unless it overflowed. *)
Theorem C125_error xs pdf c i y : (forall p, In p pdf -> dle d0 p = true) -> dfrom_pdf xs pdf = Ok c -> nth_error (d_y c) i = Some y -> is_finite y = true ->
  (Rabs (B2R y - exact_sum (firstn (S i) pdf)) <= ((1 + bpow radix2 (-53)) ^ S i - 1) * exact_sum (firstn (S i) pdf))%R.
Proof.
  intros P E H F. unfold dfrom_pdf, dnew in E. destruct (Nat.eqb _ _); [|discriminate]. injection E as <-. cbn [d_y] in H.
  pose proof (running_error pdf P d0 eq_refl (Rle_refl 0) i y H F) as X. change (B2R d0) with 0%R in X. rewrite !Rplus_0_l in X. exact X.
Qed.
Print Assumptions C125_error.

(** Normalizing a cumulative with a positive finite total makes the last value exactly 1; the
    others rise, are between 0 and 1, and are the quotients by the total, rounded. *)
Theorem C125_normalize c total : is_dcumulative c total -> is_finite total = true -> dlt d0 total = true ->
  exists c', dnormalize c = Ok c' /\ d_x c' = d_x c /\ is_dcumulative c' d1 /\
    forall i y', nth_error (d_y c') i = Some y' -> dle d0 y' = true /\ dle y' d1 = true /\
      exists y, nth_error (d_y c) i = Some y /\ B2R y' = round radix2 (FLT_exp (-1074) 53) ZnearestE (B2R y / B2R total).
Proof.
  intros IC FT TP. destruct (dnormalize_spec c total IC FT TP) as (c' & E & EX & EY & IC'). exists c'. split; [exact E|]. split; [exact EX|]. split; [exact IC'|].
  intros i y' H. destruct (cum_nums c' d1 IC' i y' H) as [N B]. split; [apply dle_iff; auto using num_d0; rewrite ext_d0; lra|]. split; [apply dle_iff; auto using num_d1; apply B|].
  rewrite EY, nth_error_map in H. destruct (nth_error (d_y c) i) as [y|] eqn:Y; [|discriminate]. injection H as <-. exists y. split; [reflexivity|].
  pose proof (cum_finite c total IC FT y (nth_error_In _ _ Y)) as FY. apply dlt_iff in TP; [|apply num_d0|apply dfinite_num; exact FT]. rewrite ext_d0, (dext_finite total FT) in TP.
  assert (F' : is_finite (ddiv y total) = true) by (apply dfinite_iff; auto; rewrite ext_d1 in B; pose proof MX_big; lra).
  pose proof (Bdiv_correct 53 1024 prec53 emax53 mode_NE y total ltac:(lra)) as C.
  destruct (Rlt_bool _ _) eqn:O; [destruct C as [C _]; exact C|]. unfold binary_overflow in C. cbn [overflow_to_inf] in C. apply B2SF_inf in C. unfold ddiv in F'. unfold double in *. rewrite C in F'. discriminate F'.
Qed.
Print Assumptions C125_normalize.

(** A finite pdf can have an infinite total: normalizing then gives NaN. *)
Theorem C125_overflow_refuted : exists xs pdf c c', (forall p, In p pdf -> is_finite p = true /\ dlt d0 p = true) /\
  dfrom_pdf xs pdf = Ok c /\ dnormalize c = Ok c' /\ d_y c' = [d0; dnan].
Proof.
  exists [d0; d1], [d2 1 1023; d2 1 1023], (mkD [d0; d1] [d2 1 1023; dinf]), (mkD [d0; d1] [d0; dnan]).
  split; [intros p [<-|[<-|[]]]; vm_compute; auto|]. split; [ccum|]. split; [ccum|reflexivity].
Qed.
Print Assumptions C125_overflow_refuted.

Definition dpdf : list double := [d2 1 0; d2 1 1; d2 1 2; d0; d2 1 (-3)].
Definition dcum : dcumul := mkD [d2 1 0; d2 2 0; d2 3 0; d2 5 0; d2 9 0] [d2 1 0; d2 3 0; d2 7 0; d2 7 0; d2 57 (-3)].
Example C125_example : dfrom_pdf (d_x dcum) dpdf = Ok dcum /\ is_dcumulative dcum (d2 57 (-3)) /\ is_finite (d2 57 (-3)) = true /\ dlt d0 (d2 57 (-3)) = true /\
  (forall p, In p dpdf -> dle d0 p = true).
Proof.
  split; [ccum|]. split; [|split; [reflexivity|]; split; [reflexivity|]].
  - split; [reflexivity|]. split; [|split; [|reflexivity]].
    + intros i j a b H A B. do 5 (try destruct i as [|i]); do 5 (try destruct j as [|j]); cbn [nth_error d_x d_y dcum] in A, B; try lia; try (destruct i; discriminate); try (destruct j; discriminate);
      injection A as <-; injection B as <-; vm_compute; reflexivity.
    + intros y H. cbn [In d_x d_y dcum dpdf] in H. repeat destruct H as [<-|H]; try (vm_compute; reflexivity). destruct H.
  - intros y H. cbn [In d_x d_y dcum dpdf] in H. repeat destruct H as [<-|H]; try (vm_compute; reflexivity). destruct H.
Qed.

(** ** C126: findValue and findCenteredInterval *)

(** With a finite total findValue succeeds for every ratio between 0 and 1: it returns the
    abscissa of the first sample reaching the rounded ratio of the total, the last abscissa of
    its plateau, or half of their sum. *)
Theorem C126_find_value c total ratio : is_dcumulative c total -> is_finite total = true -> dle d0 ratio = true -> dle ratio d1 = true ->
  exists k m xk xm, dfirst_reaching (d_y c) (dmul total ratio) k /\ dplateau_end (d_y c) k m /\
    nth_error (d_x c) k = Some xk /\ nth_error (d_x c) m = Some xm /\
    dfind_value c ratio TrayBegin = Ok xk /\ dfind_value c ratio TrayEnd = Ok xm /\ dfind_value c ratio TrayMiddle = Ok (dmul dhalf (dadd xk xm)).
Proof.
  intros IC FT R0 R1. destruct (dfind_value_spec c total ratio TrayBegin IC FT R0 R1) as (k & m & xk & xm & F & Pl & A & B & V).
  exists k, m, xk, xm. split; [exact F|]. split; [exact Pl|]. split; [exact A|]. split; [exact B|]. split; [exact V|].
  pose proof IC as (L & RY & P & T). destruct (cum_nums c total IC _ _ T) as [_ [T0 _]]. destruct (mul_total total ratio FT T0 R0 R1) as [NV _].
  assert (NA : forall y, In y (d_y c) -> num y) by (intros y H; apply le0, P, H).
  assert (K : forall pos, dfind_value c ratio pos = Ok (match pos with TrayBegin => xk | TrayMiddle => dmul dhalf (dadd xk xm) | TrayEnd => xm end)).
  { intros pos. destruct (dfind_value_spec c total ratio pos IC FT R0 R1) as (k' & m' & xk' & xm' & F' & Pl' & A' & B' & V').
    assert (k' = k) by (apply (dfirst_unique (d_y c) (dmul total ratio)); auto). subst k'.
    assert (m' = m) by (apply (dplateau_unique (d_y c) k); auto). subst m'.
    rewrite A in A'. injection A' as <-. rewrite B in B'. injection B' as <-. exact V'. }
  split; [apply (K TrayEnd)|apply (K TrayMiddle)].
Qed.
Print Assumptions C126_find_value.

(** Rounding does not break the order: a larger ratio gives no smaller abscissa. *)
Theorem C126_monotone c total r1 r2 : is_dcumulative c total -> is_finite total = true -> drising (d_x c) -> (forall x, In x (d_x c) -> is_finite x = true) ->
  dle d0 r1 = true -> dle r1 r2 = true -> dle r2 d1 = true ->
  forall pos, pos <> TrayMiddle -> exists v1 v2, dfind_value c r1 pos = Ok v1 /\ dfind_value c r2 pos = Ok v2 /\ dle v1 v2 = true.
Proof.
  intros IC FT RX FX R0 R12 R1 pos NM. pose proof IC as (L & RY & P & T).
  destruct (dle_nums _ _ R12) as [N1 N2]. pose proof R0 as R0'. apply dle_iff in R0'; auto using num_d0. pose proof R12 as R12'. apply dle_iff in R12'; auto. pose proof R1 as R1'. apply dle_iff in R1'; auto using num_d1.
  assert (Z1 : dle r1 d1 = true) by (apply dle_iff; auto using num_d1; lra). assert (Z2 : dle d0 r2 = true) by (apply dle_iff; auto using num_d0; lra).
  destruct (dfind_value_spec c total r1 pos IC FT R0 Z1) as (k & m & xk & xm & F & (y & z & P1 & P2 & P3 & P4 & P5) & X1 & X2 & V).
  destruct (dfind_value_spec c total r2 pos IC FT Z2 R1) as (k' & m' & xk' & xm' & F' & (y' & z' & Q1 & Q2 & Q3 & Q4 & Q5) & X1' & X2' & V').
  assert (NA : forall i a, nth_error (d_y c) i = Some a -> num a) by (intros i a H; eapply cum_nums; eauto).
  destruct (cum_nums c total IC _ _ T) as [_ [T0 _]]. destruct (mul_total total r1 FT T0 R0 Z1) as [NV1 _]. destruct (mul_total total r2 FT T0 Z2 R1) as [NV2 _].
  assert (TR : (ext (dmul total r1) <= ext (dmul total r2))%R).
  { rewrite ext_d0 in R0'. rewrite ext_d1 in R1'. pose proof MX_big. destruct (dmul_ext total r1 FT) as [_ E1]; [apply dfinite_iff; auto; lra|]. destruct (dmul_ext total r2 FT) as [_ E2]; [apply dfinite_iff; auto; lra|].
    rewrite E1, E2. apply crd_mono. apply Rmult_le_compat_l; lra. }
  assert (KK : k <= k').
  { destruct (le_lt_dec k k') as [|H]; [auto|exfalso]. destruct F as [_ F]. destruct F' as [(u & U1 & U2) _]. specialize (F k' u H U1). apply dlt_iff in F; eauto. apply dle_iff in U2; eauto. lra. }
  assert (MM : m <= m').
  { destruct (le_lt_dec m m') as [|H]; [auto|exfalso]. specialize (Q5 m z H P2). apply dlt_iff in Q5; eauto. assert (ext y <= ext y')%R by (apply (drising_le (d_y c) k k'); auto). apply deq_iff in P4; eauto. lra. }
  assert (XL : forall i j a b, i <= j -> nth_error (d_x c) i = Some a -> nth_error (d_x c) j = Some b -> dle a b = true).
  { intros i j a b H A B. apply dle_iff; try (apply dfinite_num, FX; eapply nth_error_In; eassumption). apply (xs_le (d_x c) (d_y c) L RX i j); auto. }
  destruct pos; [|congruence|].
  - exists xk, xk'. split; [exact V|]. split; [exact V'|]. apply (XL k k'); auto.
  - exists xm, xm'. split; [exact V|]. split; [exact V'|]. apply (XL m m'); auto.
Qed.
Print Assumptions C126_monotone.

(** findCenteredInterval never fails for a rate in ]0,1]: it goes from the last sample of the
    plateau of the first sample reaching (1/2 - rate/2) of the total to the first sample
    reaching (1/2 + rate/2) of it, all operations rounded. *)
Theorem C126_centered c total rate : is_dcumulative c total -> is_finite total = true -> dlt d0 rate = true -> dle rate d1 = true ->
  exists k m k' lo hi, dfind_centered_interval c rate = Ok (lo, hi) /\ k <= k' /\
    dfirst_reaching (d_y c) (dmul total (dsub dhalf (ddiv rate dtwo))) k /\ dplateau_end (d_y c) k m /\
    dfirst_reaching (d_y c) (dmul total (dadd dhalf (ddiv rate dtwo))) k' /\
    nth_error (d_x c) m = Some lo /\ nth_error (d_x c) k' = Some hi.
Proof.
  intros IC FT R0 R1. pose proof IC as (L & RY & P & T). destruct (dlt_nums _ _ R0) as [_ NR]. unfold dfind_centered_interval.
  apply dlt_iff in R0; auto using num_d0. apply dle_iff in R1; auto using num_d1. pose proof MX_big as BIG.
  destruct (dlt d1 rate) eqn:E1; [apply dlt_iff in E1; auto using num_d1; lra|].
  destruct (dle rate d0) eqn:E2; [apply dle_iff in E2; auto using num_d0; lra|]. cbn [orb]. rewrite ext_d0 in R0. rewrite ext_d1 in R1.
  assert (FR : is_finite rate = true) by (apply dfinite_iff; auto; lra).
  destruct (ddiv_ext rate dtwo FR eq_refl ltac:(rewrite ext_dtwo; lra)) as [NH EH]. rewrite ext_dtwo in EH. set (h := ddiv rate dtwo) in *.
  assert (H2 : (crd (/ 2) = / 2)%R) by (rewrite <- ext_dhalf; apply crd_ext).
  assert (HB : (0 <= ext h <= / 2)%R).
  { rewrite EH. split; [apply crd_nonneg; lra|]. rewrite <- H2. apply crd_mono. lra. }
  assert (FH : is_finite h = true) by (apply dfinite_iff; auto; lra).
  destruct (dsub_ext dhalf h eq_refl FH) as [NL EL]. destruct (dadd_ext dhalf h eq_refl FH) as [NU EU]. rewrite ext_dhalf in EL, EU.
  set (lo := dsub dhalf h) in *. set (hi := dadd dhalf h) in *.
  assert (LB : (0 <= ext lo <= / 2)%R).
  { rewrite EL. split; [apply crd_nonneg; lra|]. rewrite <- H2. apply crd_mono. lra. }
  assert (UB : (/ 2 <= ext hi <= 1)%R).
  { rewrite EU. split; [rewrite <- H2; apply crd_mono; lra|]. rewrite <- crd_1. apply crd_mono. lra. }
  assert (L0 : dle d0 lo = true) by (apply dle_iff; auto using num_d0; rewrite ext_d0; lra). assert (L1 : dle lo d1 = true) by (apply dle_iff; auto using num_d1; rewrite ext_d1; lra).
  assert (U0 : dle d0 hi = true) by (apply dle_iff; auto using num_d0; rewrite ext_d0; lra). assert (U1 : dle hi d1 = true) by (apply dle_iff; auto using num_d1; rewrite ext_d1; lra).
  destruct (dfind_value_spec c total lo TrayEnd IC FT L0 L1) as (k & m & xk & xm & F & Pl & A & B & V). rewrite V. cbn [bind].
  destruct (dfind_value_spec c total hi TrayBegin IC FT U0 U1) as (k' & m' & xk' & xm' & F' & Pl' & A' & B' & V'). rewrite V'. cbn [bind].
  exists k, m, k', xm, xk'. split; [reflexivity|]. split; [|auto].
  destruct (le_lt_dec k k') as [|H]; [auto|exfalso]. destruct F as [_ F]. destruct F' as [(u & W1 & W2) _]. specialize (F k' u H W1).
  destruct (cum_nums c total IC _ _ T) as [_ [T0 _]]. destruct (mul_total total lo FT T0 L0 L1) as [NV1 _]. destruct (mul_total total hi FT T0 U0 U1) as [NV2 _].
  destruct (cum_nums c total IC _ _ W1) as [Nu _]. apply dlt_iff in F; auto. apply dle_iff in W2; auto.
  destruct (dmul_ext total lo FT) as [_ X1]; [apply dfinite_iff; auto; lra|]. destruct (dmul_ext total hi FT) as [_ X2]; [apply dfinite_iff; auto; lra|].
  assert (ext (dmul total lo) <= ext (dmul total hi))%R by (rewrite X1, X2; apply crd_mono; apply Rmult_le_compat_l; lra). lra.
Qed.
Print Assumptions C126_centered.

Theorem C126_range c v pos : (dlt d1 v = true \/ dlt v d0 = true -> dfind_value c v pos = Throw) /\
  (dlt d1 v = true \/ dle v d0 = true -> dfind_centered_interval c v = Throw /\ dfind_min_interval c v = Throw).
Proof.
  unfold dfind_value, dfind_centered_interval, dfind_min_interval. split; intros [H|H]; rewrite H; try rewrite orb_true_r; cbn [orb]; auto.
Qed.
Print Assumptions C126_range.

(** A NaN ratio is accepted and gives the first plateau. *)
Theorem C126_nan_ratio_refuted : exists c total, is_dcumulative c total /\ dfind_value c dnan TrayBegin = Ok (d2 1 0) /\ dfind_centered_interval c dnan = Ok (d2 1 0, d2 1 0).
Proof. exists dcum, (d2 57 (-3)). split; [apply C125_example|]. split; [cval|cpair]. Qed.
Print Assumptions C126_nan_ratio_refuted.
(** A NaN in the cumulative makes findValue go before the first sample. *)
Theorem C126_nan_value_refuted : exists c, length (d_x c) = length (d_y c) /\ dfind_value c dhalf TrayBegin = UB.
Proof. exists (mkD [d1] [dnan]). split; [reflexivity|vm_compute; reflexivity]. Qed.
Print Assumptions C126_nan_value_refuted.
(** The middle of a plateau between finite abscissae can be infinite. *)
Theorem C126_middle_overflow_refuted : exists c total, is_dcumulative c total /\ is_finite total = true /\ (forall x, In x (d_x c) -> is_finite x = true) /\
  dfind_value c dhalf TrayMiddle = Ok dinf.
Proof.
  exists (mkD [d2 1 1023; d2 1 1023] [d1; d1]), d1. split; [|split; [reflexivity|split; [|cval]]].
  - split; [reflexivity|]. split; [|split; [|reflexivity]].
    + intros [|[|i]] [|[|j]] a b H A B; cbn [nth_error d_x d_y dcum] in A, B; try lia; try (destruct i; discriminate); try (destruct j; discriminate). injection A as <-. injection B as <-. reflexivity.
    + intros y [<-|[<-|[]]]; reflexivity.
  - intros x [<-|[<-|[]]]; reflexivity.
Qed.
Print Assumptions C126_middle_overflow_refuted.
(** Normalizing can change what findValue returns. *)
Theorem C126_normalize_refuted : exists c c' total ratio, is_dcumulative c total /\ dnormalize c = Ok c' /\ dle d0 ratio = true /\ dle ratio d1 = true /\
  dfind_value c ratio TrayBegin = Ok (d2 2 0) /\ dfind_value c' ratio TrayBegin = Ok (d2 1 0).
Proof.
  exists (mkD [d2 1 0; d2 2 0] [d2 3 0; d2 187 0]). eexists. exists (d2 187 0), (d2 0x106d84ca9c106e (-58)). split.
  - split; [reflexivity|]. split; [|split; [|reflexivity]].
    + intros [|[|i]] [|[|j]] a b H A B; cbn [nth_error d_x d_y dcum] in A, B; try lia; try (destruct i; discriminate); try (destruct j; discriminate). injection A as <-. injection B as <-. reflexivity.
    + intros y [<-|[<-|[]]]; reflexivity.
  - split; [reflexivity|]. split; [reflexivity|]. split; [reflexivity|]. split; cval.
Qed.
Print Assumptions C126_normalize_refuted.

Example C126_example : dle d0 dhalf = true /\ dle dhalf d1 = true /\ dfind_value dcum dhalf TrayBegin = Ok (d2 3 0) /\ dfind_value dcum dhalf TrayEnd = Ok (d2 5 0) /\
  dfind_centered_interval dcum dhalf = Ok (d2 2 0, d2 3 0).
Proof. split; [reflexivity|]. split; [reflexivity|]. split; [cval|]. split; [cval|cpair]. Qed.

(** ** C127: findMinInterval *)

(** The interval returned holds the requested part of the total, both as computed, or is the
    whole range; no interval between two different samples that holds it is narrower, widths
    as computed. *)
Theorem C127_min_interval c total rate : is_dcumulative c total -> is_finite total = true -> drising (d_x c) -> (forall x, In x (d_x c) -> is_finite x = true) ->
  2 <= length (d_x c) -> dlt d0 rate = true -> dle rate d1 = true -> dlt d0 (dmul rate total) = true ->
  exists i j lo hi, dfind_min_interval c rate = Ok (lo, hi) /\ i < j /\
    nth_error (d_x c) i = Some lo /\ nth_error (d_x c) j = Some hi /\
    (dholds c i j (dmul rate total) \/ (i = 0 /\ j = length (d_x c) - 1)) /\
    forall i' j' a b, i' < j' -> nth_error (d_x c) i' = Some a -> nth_error (d_x c) j' = Some b -> dholds c i' j' (dmul rate total) -> dle (dsub hi lo) (dsub b a) = true.
Proof. apply dfind_min_interval_spec. Qed.
Print Assumptions C127_min_interval.

(** What is computed to hold a probability holds it but for two rounding errors. *)
Theorem C127_holds_error c total i j p : is_dcumulative c total -> is_finite total = true -> i <= j -> is_finite p = true -> dholds c i j p ->
  exists yi yj y0, nth_error (d_y c) i = Some yi /\ nth_error (d_y c) j = Some yj /\ nth_error (d_y c) 0 = Some y0 /\
    (B2R p <= (1 + bpow radix2 (-53)) ^ 2 * (B2R yj - B2R yi + (if Nat.eqb i 0 then B2R y0 else 0)))%R.
Proof.
  intros IC FT IJ FP (yi & yj & y0 & A & B & C & D). exists yi, yj, y0. split; [exact A|]. split; [exact B|]. split; [exact C|].
  pose proof (cum_finite c total IC FT) as FY. pose proof (FY _ (nth_error_In _ _ A)) as FA. pose proof (FY _ (nth_error_In _ _ B)) as FB. pose proof (FY _ (nth_error_In _ _ C)) as FC.
  destruct (cum_nums c total IC _ _ A) as [_ PA]. destruct (cum_nums c total IC _ _ C) as [_ PC]. rewrite (dext_finite _ FA) in PA. rewrite (dext_finite _ FC) in PC.
  pose proof IC as (L & RY & P & T). pose proof (drising_le (d_y c) i j yi yj RY P IJ A B) as AB. rewrite (dext_finite _ FA), (dext_finite _ FB) in AB.
  destruct (sub_error yj yi FB FA ltac:(lra)) as (FS & BS & ES). change uro with (bpow radix2 (-53)) in ES. set (u := bpow radix2 (-53)) in *. assert (U0 : (0 < u)%R) by apply bpow_gt_0.
  set (k := if Nat.eqb i 0 then y0 else d0) in *. assert (FK : is_finite k = true) by (unfold k; destruct (Nat.eqb i 0); [exact FC|reflexivity]).
  assert (KE : B2R k = if Nat.eqb i 0 then B2R y0 else 0%R) by (unfold k; destruct (Nat.eqb i 0); reflexivity).
  assert (PK : (0 <= B2R k)%R) by (rewrite KE; destruct (Nat.eqb i 0); lra).
  destruct (dle_nums _ _ D) as [NP NA]. apply dle_iff in D; auto. rewrite (dext_finite p FP) in D. rewrite <- KE.
  pose proof (add_upper _ _ FS FK (proj1 BS) PK) as X. change uro with u in X.
  assert ((1 + u) * (B2R (dsub yj yi) + B2R k) <= (1 + u) * ((1 + u) * (B2R yj - B2R yi + B2R k)))%R by (apply Rmult_le_compat_l; [lra|]; nra).
  cbn [pow]. lra.
Qed.
Print Assumptions C127_holds_error.

(** When the required part underflows to zero the interval can be reversed. *)
Theorem C127_underflow_refuted : exists c total lo hi, is_dcumulative c total /\ dlt d0 total = true /\ dfind_min_interval c dhalf = Ok (lo, hi) /\ dlt hi lo = true.
Proof.
  exists (mkD [d2 1 0; d2 2 0; d2 3 0] [d2 1 (-1074); d2 1 (-1074); d2 1 (-1074)]), (d2 1 (-1074)), (d2 3 0), (d2 2 0).
  split; [|split; [reflexivity|split; [cpair|reflexivity]]].
  split; [reflexivity|]. split; [|split; [|reflexivity]].
  - intros [|[|[|i]]] [|[|[|j]]] a b H A B; cbn [nth_error d_x d_y dcum] in A, B; try lia; try (destruct i; discriminate); try (destruct j; discriminate); injection A as <-; injection B as <-; reflexivity.
  - intros y [<-|[<-|[<-|[]]]]; reflexivity.
Qed.
Print Assumptions C127_underflow_refuted.
(** Rounding can hide the narrowest interval: the first two samples hold all of the total,
    exactly, and yet the whole range is returned. *)
Theorem C127_exact_refuted : exists c total y0 y1 x0 x1 x2, is_dcumulative c total /\ d_x c = [x0; x1; x2] /\ nth_error (d_y c) 0 = Some y0 /\ nth_error (d_y c) 1 = Some y1 /\ dlt x1 x2 = true /\  (B2R y1 - B2R y0 + B2R y0 = B2R total)%R /\ dfind_min_interval c d1 = Ok (x0, x2).
Proof.
  exists (mkD [d2 1 0; d2 2 0; d2 3 0] [d2 1 (-54); d2 9007199254740991 (-53); d2 9007199254740991 (-53)]), (d2 9007199254740991 (-53)), (d2 1 (-54)), (d2 9007199254740991 (-53)), (d2 1 0), (d2 2 0), (d2 3 0).
  split; [|split; [reflexivity|split; [reflexivity|split; [reflexivity|split; [reflexivity|split; [ring|cpair]]]]]].
  split; [reflexivity|]. split; [|split; [|reflexivity]].
  - intros [|[|[|i]]] [|[|[|j]]] a b H A B; cbn [nth_error d_x d_y dcum] in A, B; try lia; try (destruct i; discriminate); try (destruct j; discriminate); injection A as <-; injection B as <-; reflexivity.
  - intros y [<-|[<-|[<-|[]]]]; reflexivity.
Qed.
Print Assumptions C127_exact_refuted.
Example C127_example : drising (d_x dcum) /\ (forall x, In x (d_x dcum) -> is_finite x = true) /\ 2 <= length (d_x dcum) /\ dlt d0 dhalf = true /\ dle dhalf d1 = true /\ dlt d0 (dmul dhalf (d2 57 (-3))) = true /\ dfind_min_interval dcum dhalf = Ok (d2 2 0, d2 3 0).
Proof.
  split; [|split; [|split; [cbn; lia|split; [reflexivity|split; [reflexivity|split; [reflexivity|cpair]]]]]].
  - intros i j a b H A B. do 5 (try destruct i as [|i]); do 5 (try destruct j as [|j]); cbn [nth_error d_x d_y dcum] in A, B; try lia; try (destruct i; discriminate); try (destruct j; discriminate);
    injection A as <-; injection B as <-; vm_compute; reflexivity.
  - intros x H. cbn [In d_x d_y dcum dpdf] in H. repeat destruct H as [<-|H]; try reflexivity. destruct H.
Qed.

(** ** C128: discrete sampling *)

(** For a pdf without negative values, with a positive finite total, every p between 0 and 1
    gives a knot: the first one whose value in the table is at least p. For p above 0 its
    probability is not zero. *)
Theorem C128_sample {K} (knots : list K) pdf p : length knots = length pdf -> pdf <> [] -> (forall q, In q pdf -> dle d0 q = true) ->
  is_finite (dtotal pdf) = true -> dlt d0 (dtotal pdf) = true -> dle d0 p = true -> dle p d1 = true ->
  exists k knot q, dsample_discrete knots (dinverse_cdf pdf) p = Ok knot /\ nth_error knots k = Some knot /\ nth_error pdf k = Some q /\   dfirst_reaching (dinverse_cdf pdf) p k /\ (dlt d0 p = true -> dlt d0 q = true).
Proof.
  intros L NE P FT TP P0 P1. pose proof (dsums_total pdf NE) as T. set (total := dtotal pdf) in *. destruct (dinverse_spec pdf total P T FT TP) as [E IC]. pose proof IC as (_ & RY & PY & TY). cbn [d_y] in *.
  destruct (dle_nums _ _ P1) as [NP _]. pose proof P0 as P0'. apply dle_iff in P0'; auto using num_d0. pose proof P1 as P1'. apply dle_iff in P1'; auto using num_d1.
  unfold dsample_discrete. destruct (dlt p d0) eqn:E1; [apply dlt_iff in E1; auto using num_d0; lra|]. destruct (dlt d1 p) eqn:E2; [apply dlt_iff in E2; auto using num_d1; lra|]. cbn [orb].
  destruct (count_while_spec (fun v => dlt v p) (dinverse_cdf pdf)) as (K1 & K2 & K3). set (k := count_while _ _) in *.
  assert (LC : length (dinverse_cdf pdf) = length pdf) by (rewrite E, map_length; apply dsums_length).
  pose proof (nth_lt _ _ _ TY) as TL.
  assert (KL : k < length (dinverse_cdf pdf)).
  { destruct (Nat.eq_dec k (length (dinverse_cdf pdf))) as [X|X]; [|lia]. exfalso. pose proof (K2 (length (dinverse_cdf pdf) - 1) d1 ltac:(lia) TY) as Y. apply dlt_iff in Y; auto using num_d1. lra. }
  destruct (nth_ok knots k ltac:(lia)) as [knot Kn]. destruct (nth_ok pdf k ltac:(lia)) as [q Q]. destruct (nth_ok (dinverse_cdf pdf) k KL) as [v V].
  destruct (cum_nums _ _ IC _ _ V) as [NV BV]. pose proof (K3 v V) as PV. apply dlt_no in PV; auto.
  exists k, knot, q. unfold at_. rewrite Kn. split; [reflexivity|]. split; [reflexivity|]. split; [exact Q|]. split.
  { split; [exists v; split; [exact V|apply dle_iff; auto]|]. intros i y I H. apply (K2 i y I H). }
  intros PP. apply dlt_iff in PP; auto using num_d0. rewrite ext_d0 in PP. destruct (le0 q (P q (nth_error_In _ _ Q))) as [NQ BQ].
  apply dlt_iff; auto using num_d0. rewrite ext_d0. destruct BQ as [BQ|BQ]; [exact BQ|exfalso].
  pose proof V as V'. rewrite E, nth_error_map in V'. destruct (nth_error (dsums pdf) k) as [s|] eqn:S'; [|discriminate]. injection V' as V'.
  pose proof (dsums_cum pdf total P T) as IS. pose proof (cum_nums _ _ IS _ _ S') as [NS BS].
  assert (TP' : (0 < ext total)%R) by (apply dlt_iff in TP; [rewrite ext_d0 in TP; exact TP|apply num_d0|apply dfinite_num; exact FT]).
  destruct (div_total total s FT TP' NS BS) as (_ & EV & _). rewrite V' in EV.
  destruct k as [|k'].
  - destruct pdf as [|p0 r]; [discriminate|]. cbn in S', Q. injection S' as <-. injection Q as <-. rewrite <- BQ in EV. unfold Rdiv in EV. rewrite Rmult_0_l, crd_0 in EV. lra.
  - destruct (nth_ok (dsums pdf) k') as [s' S'']; [rewrite dsums_length; lia|]. pose proof (cum_nums _ _ IS _ _ S'') as [NS' BS'].
    pose proof (dsums_step pdf k' s' s q S'' S' Q) as ST.
    destruct (div_total total s' FT TP' NS' BS') as (NV' & EV' & _).
    assert (SS : ext s = ext s').
    { pose proof (cum_finite _ _ IS FT s' (nth_error_In _ _ S'')) as F1. pose proof MX_big. assert (F2 : is_finite q = true) by (apply dfinite_iff; auto; lra).
      destruct (dadd_ext s' q F1 F2) as [_ EA]. rewrite ST, EA, <- BQ, Rplus_0_r. apply crd_ext. }
    assert (X : nth_error (dinverse_cdf pdf) k' = Some (ddiv s' total)) by (rewrite E, nth_error_map, S''; reflexivity).
    pose proof (K2 k' _ ltac:(lia) X) as Y. apply dlt_iff in Y; auto. rewrite EV' in Y. rewrite EV, SS in PV. lra.
Qed.
Print Assumptions C128_sample.
Theorem C128_range {K} (knots : list K) cdf p : dlt p d0 = true \/ dlt d1 p = true -> dsample_discrete knots cdf p = Throw.
Proof. unfold dsample_discrete. intros [H|H]; rewrite H; try rewrite orb_true_r; reflexivity. Qed.
Print Assumptions C128_range.
(** The table of a pdf: it rises from a first value that is not negative to exactly 1. *)
Theorem C128_table pdf : pdf <> [] -> (forall q, In q pdf -> dle d0 q = true) -> is_finite (dtotal pdf) = true -> dlt d0 (dtotal pdf) = true ->
  length (dinverse_cdf pdf) = length pdf /\ drising (dinverse_cdf pdf) /\ nth_error (dinverse_cdf pdf) (length pdf - 1) = Some d1 /\ (forall v, In v (dinverse_cdf pdf) -> dle d0 v = true /\ dle v d1 = true).
Proof.
  intros NE P FT TP. pose proof (dsums_total pdf NE) as T. set (total := dtotal pdf) in *. destruct (dinverse_spec pdf total P T FT TP) as [E IC]. pose proof IC as (_ & RY & PY & TY). cbn [d_y] in *.
  assert (LC : length (dinverse_cdf pdf) = length pdf) by (rewrite E, map_length; apply dsums_length). split; [exact LC|]. split; [exact RY|]. split; [rewrite <- LC; exact TY|].
  intros v H. split; [apply PY, H|]. apply In_nth_error in H. destruct H as [i H]. destruct (cum_nums _ _ IC i v H) as [N B]. apply dle_iff; auto using num_d1. apply B.
Qed.
Print Assumptions C128_table.
(** NaN is accepted and gives the first knot, whatever its probability. *)
Theorem C128_nan_refuted : exists pdf, nth_error pdf 0 = Some d0 /\ dsample_discrete [7; 8] (dinverse_cdf pdf) dnan = Ok 7.
Proof. exists [d0; d1]. split; [reflexivity|vm_compute; reflexivity]. Qed.
Print Assumptions C128_nan_refuted.
(** When the total overflows, knots of positive probability are lost. *)
Theorem C128_overflow_refuted : exists pdf, (forall q, In q pdf -> is_finite q = true /\ dlt d0 q = true) /\ dinverse_cdf pdf = [d0; dnan; dnan] /\ forall p, dlt d0 p = true -> dle p d1 = true -> dsample_discrete [7; 8; 9] (dinverse_cdf pdf) p = Ok 8.
Proof.
  exists [d2 1 1023; d2 1 1023; d2 1 1023]. split; [intros q [<-|[<-|[<-|[]]]]; split; reflexivity|]. split; [clist|].
  intros p P0 P1. replace (dinverse_cdf [d2 1 1023; d2 1 1023; d2 1 1023]) with [d0; dnan; dnan] by (symmetry; clist).
  unfold dsample_discrete. destruct (dlt_nums _ _ P0) as [_ N]. pose proof P0 as P0'. apply dlt_iff in P0'; auto using num_d0. apply dle_iff in P1; auto using num_d1.
  destruct (dlt p d0) eqn:E1; [apply dlt_iff in E1; auto using num_d0; lra|]. destruct (dlt d1 p) eqn:E2; [apply dlt_iff in E2; auto using num_d1; lra|]. cbn [orb count_while]. rewrite P0.
  assert (X : dlt dnan p = false) by (apply lt_nan_l; reflexivity). rewrite X. reflexivity.
Qed.
Print Assumptions C128_overflow_refuted.
Example C128_example : (forall q, In q dpdf -> dle d0 q = true) /\ is_finite (dtotal dpdf) = true /\ dlt d0 (dtotal dpdf) = true /\
  map (dsample_discrete [10; 20; 30; 40; 50] (dinverse_cdf dpdf)) [d2 1 (-4); d2 1 (-1); d2 63 (-6); d1] = [Ok 10; Ok 30; Ok 50; Ok 50].
Proof. split; [apply C125_example|]. split; [vm_compute; reflexivity|]. split; vm_compute; reflexivity. Qed.
