(** Proofs about histograms in double precision: the strategies, and counts of type float. *)
From Coq Require Import ZArith Reals List Bool Arith Lia Lra.
From Flocq Require Import Core IEEE754.BinarySingleNaN Relative Plus_error.
From Verif Require Import Common HistModel FloatModel FloatProofs DoubleProofs DoubleProofs2 DHistModel DHistSpec DHistProofs.
Import ListNotations.
Local Open Scope R_scope.

(** ** Counts *)
Lemma fadd_at_nth l : forall k w i, nth_error (fadd_at l k w) i = if (i =? k)%nat then option_map (fun c => fadd c w) (nth_error l i) else nth_error l i.
Proof.
  induction l as [|c l IH]; intros [|k] w [|i]; cbn; try reflexivity.
  - destruct (i =? k)%nat; reflexivity.
  - apply IH.
Qed.
Lemma fadd_at_length l : forall k w, length (fadd_at l k w) = length l.
Proof. induction l as [|c l IH]; intros [|k] w; cbn; auto. Qed.
Lemma ffill_spec {V} (b : binning V) data : forall weights counts out, ffill (b_index b) data weights counts = Ok out ->
  length out = length counts /\ forall i, nth_error out i = option_map (fold_left fadd (weights_at b (Z.of_nat i) data weights)) (nth_error counts i).
Proof.
  induction data as [|v data IH]; intros weights counts out H; cbn [ffill] in H.
  - injection H as <-. split; [reflexivity|]. intros i. cbn. destruct (nth_error counts i); reflexivity.
  - destruct (b_index b v) as [z| | |] eqn:Z; try discriminate H. cbn [bind] in H. destruct weights as [|w ws]; [discriminate H|].
    apply IH in H. destruct H as [L N]. split.
    + rewrite L. destruct (_ && _); [apply fadd_at_length|reflexivity].
    + intros i. rewrite N. unfold weights_at. cbn [combine filter fst]. rewrite Z.
      destruct ((0 <=? z) && (z <? Z.of_nat (length counts)))%Z eqn:R.
      * apply andb_true_iff in R. destruct R as [R1 R2]. apply Z.leb_le in R1. apply Z.ltb_lt in R2. rewrite fadd_at_nth.
        destruct (i =? Z.to_nat z)%nat eqn:E.
        -- apply Nat.eqb_eq in E. subst i. rewrite Z2Nat.id by exact R1. rewrite Z.eqb_refl. cbn [map snd fold_left]. destruct (nth_error counts (Z.to_nat z)); reflexivity.
        -- apply Nat.eqb_neq in E. destruct (z =? Z.of_nat i)%Z eqn:E'; [apply Z.eqb_eq in E'; lia|reflexivity].
      * destruct (z =? Z.of_nat i)%Z eqn:E'; [|reflexivity]. apply Z.eqb_eq in E'. subst z.
        assert (NE : nth_error counts i = None).
        { apply nth_error_None. apply andb_false_iff in R. destruct R as [R|R]; [apply Z.leb_gt in R; lia|apply Z.ltb_ge in R; lia]. }
        rewrite NE. reflexivity.
Qed.
Lemma fcounts_spec {V} (b : binning V) data weights out : fcounts b data weights = Ok out ->
  length out = b_count b /\ forall i c, nth_error out i = Some c -> c = fold_left fadd (weights_at b (Z.of_nat i) data weights) f0.
Proof.
  intros H. apply ffill_spec in H. destruct H as [L N]. rewrite repeat_length in L. split; [exact L|]. intros i c C. rewrite N in C.
  destruct (nth_error (repeat f0 (b_count b)) i) as [x|] eqn:X; [|discriminate C]. apply nth_error_In, repeat_spec in X. subst x. cbn [option_map] in C. injection C as <-. reflexivity.
Qed.
Lemma ffill_ok {V} (b : binning V) data : forall weights counts, (forall v, In v data -> exists z, b_index b v = Ok z) -> length weights = length data ->
  exists out, ffill (b_index b) data weights counts = Ok out.
Proof.
  induction data as [|v data IH]; intros [|w ws] counts I L; try discriminate L; cbn [ffill]; [eexists; reflexivity|].
  destruct (I v (or_introl eq_refl)) as [z Z]. rewrite Z. cbn [bind]. apply IH; [intros; apply I; right; assumption|cbn in L; lia].
Qed.

(** ** Sums of floats *)
Notation rnd24 := (round radix2 (SpecFloat.fexp 24 128) ZnearestE).
Notation MF := (bpow radix2 128).
Lemma MF_big : IZR (2 ^ 24) < MF. Proof. change (IZR (2 ^ 24)) with (bpow radix2 24). apply bpow_lt. lia. Qed.
Lemma int_format24 z : (Z.abs z <= 2 ^ 24)%Z -> generic_format radix2 (SpecFloat.fexp 24 128) (IZR z).
Proof.
  intros H. destruct (Z.eq_dec (Z.abs z) (2 ^ 24)) as [E|E].
  - assert (generic_format radix2 (SpecFloat.fexp 24 128) (IZR (2 ^ 24))).
    { change (IZR (2 ^ 24)) with (bpow radix2 24). apply generic_format_bpow. cbn. lia. }
    destruct (Z.abs_eq_or_opp z) as [A|A]; rewrite A in E; [rewrite E; exact H0|]. replace z with (- 2 ^ 24)%Z by lia. rewrite opp_IZR. apply generic_format_opp, H0.
  - apply generic_format_FLT. exists (Float radix2 z 0); [unfold F2R; cbn; ring|cbn; lia|cbn; lia].
Qed.
Lemma small24 z : (Z.abs z <= 2 ^ 24)%Z -> Rabs (IZR z) < MF.
Proof. intros H. rewrite <- abs_IZR. apply Rle_lt_trans with (IZR (2 ^ 24)); [apply IZR_le, H|apply MF_big]. Qed.
Lemma fadd_int (x y : float) a b : is_finite x = true -> is_finite y = true -> B2R x = IZR a -> B2R y = IZR b -> (Z.abs (a + b) <= 2 ^ 24)%Z ->
  is_finite (fadd x y) = true /\ B2R (fadd x y) = IZR (a + b).
Proof.
  intros FX FY EX EY H. pose proof (Bplus_correct 24 128 prec24 emax24 mode_NE x y FX FY) as C. cbn [round_mode] in C. rewrite EX, EY, <- plus_IZR in C.
  rewrite round_generic in C by (try apply int_format24; auto with typeclass_instances). rewrite Rlt_bool_true in C by (apply small24, H).
  destruct C as (C1 & C2 & _). split; assumption.
Qed.
Lemma f2_int z : (Z.abs z <= 2 ^ 24)%Z -> is_finite (f2 z 0) = true /\ B2R (f2 z 0) = IZR z.
Proof.
  intros H. assert (E : F2R (Float radix2 z 0) = IZR z) by (unfold F2R; cbn; ring).
  pose proof (binary_normalize_correct 24 128 prec24 emax24 mode_NE z 0 false) as C. cbn [round_mode] in C. rewrite E in C.
  rewrite round_generic in C by (try apply int_format24; auto with typeclass_instances). rewrite Rlt_bool_true in C by (apply small24, H).
  destruct C as (C1 & C2 & _). split; assumption.
Qed.
Lemma fold_exact l : (forall w, In w l -> fwhole w) -> forall t a, is_finite t = true -> B2R t = INR a -> INR a + fexact l <= IZR (2 ^ 24) ->
  is_finite (fold_left fadd l t) = true /\ B2R (fold_left fadd l t) = INR a + fexact l.
Proof.
  induction l as [|w l IH]; intros W t a FT ET H; cbn [fold_left fexact fold_right] in *; [rewrite Rplus_0_r; auto|].
  destruct (W w (or_introl eq_refl)) as (FW & m & EW). fold (fexact l) in *.
  assert (P : 0 <= fexact l).
  { clear -W. assert (W' : forall w, In w l -> fwhole w) by (intros; apply W; right; assumption). clear W. induction l as [|x l IH]; cbn; [lra|]. destruct (W' x (or_introl eq_refl)) as (_ & k & ->).
    pose proof (pos_INR k). specialize (IH (fun v I => W' v (or_intror I))). fold (fexact l). lra. }
  assert (B : (Z.of_nat a + Z.of_nat m <= 2 ^ 24)%Z). { apply le_IZR. rewrite plus_IZR, <- !INR_IZR_INZ. rewrite EW in H. lra. }
  destruct (fadd_int t w (Z.of_nat a) (Z.of_nat m) FT FW) as [F E]; [rewrite ET; apply INR_IZR_INZ|rewrite EW; apply INR_IZR_INZ|lia|].
  assert (E' : B2R (fadd t w) = INR (a + m)) by (rewrite E, INR_IZR_INZ, Nat2Z.inj_add; reflexivity).
  destruct (IH (fun v I => W v (or_intror I)) (fadd t w) (a + m)%nat F E') as [F2 E2]; [rewrite plus_INR; rewrite EW in H; lra|].
  split; [exact F2|]. rewrite E2, plus_INR, EW. ring.
Qed.
(** Adding ones. *)
Lemma f2_inj_sum a : (0 <= a < 2 ^ 24)%Z -> fadd (f2 a 0) f1 = f2 (a + 1) 0.
Proof.
  intros H. destruct (f2_int a ltac:(lia)) as [FA EA]. destruct (f2_int 1 ltac:(lia)) as [F1' E1]. destruct (f2_int (a + 1) ltac:(lia)) as [FB EB].
  destruct (fadd_int (f2 a 0) f1 a 1 FA F1' EA E1 ltac:(lia)) as [F E].
  assert (NZ : IZR (a + 1) <> 0) by (intros Z; apply eq_IZR in Z; lia).
  assert (ST : forall x : float, is_finite x = true -> B2R x <> 0 -> is_finite_strict x = true) by (intros [s|s| |s m e B] FX; cbn; try discriminate; intros; congruence).
  apply B2R_inj; [apply ST; [exact F|rewrite E; exact NZ]|apply ST; [exact FB|rewrite EB; exact NZ]|]. rewrite E, EB. reflexivity.
Qed.
Lemma f2_full : fadd (f2 (2 ^ 24) 0) f1 = f2 (2 ^ 24) 0.
Proof. apply B2SF_inj. vm_compute. reflexivity. Qed.
Lemma fold_ones n : forall a, (0 <= a <= 2 ^ 24)%Z -> fold_left fadd (repeat f1 n) (f2 a 0) = f2 (Z.min (a + Z.of_nat n) (2 ^ 24)) 0.
Proof.
  induction n as [|n IH]; intros a H; cbn [repeat fold_left]; [rewrite Z.add_0_r, Z.min_l by lia; reflexivity|].
  destruct (Z.eq_dec a (2 ^ 24)) as [->|N].
  - rewrite f2_full, IH by lia. f_equal. lia.
  - rewrite f2_inj_sum, IH by lia. f_equal. lia.
Qed.
Lemma weights_ones {V} (b : binning V) i data : weights_at b i data (repeat f1 (length data)) = repeat f1 (number_at b i data).
Proof.
  unfold weights_at, number_at. induction data as [|v data IH]; [reflexivity|]. cbn [length repeat combine filter fst]. destruct (match b_index b v with Ok z => Z.eqb z i | _ => false end); cbn [map snd length repeat]; rewrite IH; reflexivity.
Qed.

(** Sums of weights that are not negative. *)
Definition uf : R := bpow radix2 (-24).
Lemma fadd_err (x y : float) : is_finite x = true -> is_finite y = true -> 0 <= B2R x -> 0 <= B2R y -> is_finite (fadd x y) = true ->
  (1 - uf) * (B2R x + B2R y) <= B2R (fadd x y) <= (1 + uf) * (B2R x + B2R y).
Proof.
  intros FX FY PX PY F. destruct (plus_ext 24 128 prec24 emax24 x y FX FY) as [N E].
  pose proof (Bplus_correct 24 128 prec24 emax24 mode_NE x y FX FY) as C.
  destruct (Rlt_bool _ _) eqn:O; [|destruct C as [C _]; unfold fadd in F; unfold binary_overflow in C; cbn [overflow_to_inf] in C; apply B2SF_inf in C; unfold float in *; rewrite C in F; discriminate F].
  destruct C as (C & _). unfold fadd. rewrite C. cbn [round_mode].
  destruct (FLT_plus_error_N_ex radix2 (SpecFloat.emin 24 128) 24 (fun n => negb (Z.even n)) (B2R x) (B2R y)) as (eps & B & R).
  { apply generic_format_B2R. } { apply generic_format_B2R. }
  change (SpecFloat.fexp 24 128) with (FLT_exp (SpecFloat.emin 24 128) 24). change ZnearestE with (Znearest (fun n => negb (Z.even n))). rewrite R.
  assert (U : u_ro radix2 24 = uf) by (unfold u_ro, uf; change (/ 2) with (bpow radix2 (-1)); rewrite <- bpow_plus; reflexivity).
  assert (U0 : 0 < uf) by apply bpow_gt_0.
  assert (B' : Rabs eps <= uf). { apply Rle_trans with (1 := B). rewrite U. apply Rmult_le_reg_r with (1 + uf); [lra|]. unfold Rdiv. rewrite Rmult_assoc, Rinv_l by lra. nra. }
  apply Rabs_le_inv in B'. rewrite (Rmult_comm (B2R x + B2R y)). split; apply Rmult_le_compat_r; lra.
Qed.
Lemma fold_not_finite l : forall t : float, is_finite t = false -> is_finite (fold_left fadd l t) = false.
Proof.
  induction l as [|w l IH]; intros t H; cbn [fold_left]; [exact H|]. apply IH.
  destruct t as [s|s| |s m e B]; try discriminate H; destruct w as [s'|s'| |s' m' e' B']; cbn; try reflexivity. destruct (Bool.eqb s s'); reflexivity.
Qed.
Lemma fold_error l : (forall w, In w l -> fpositive w) -> forall t, is_finite t = true -> 0 <= B2R t -> is_finite (fold_left fadd l t) = true ->
  (1 - uf) ^ length l * (B2R t + fexact l) <= B2R (fold_left fadd l t) <= (1 + uf) ^ length l * (B2R t + fexact l).
Proof.
  assert (U0 : 0 < uf) by apply bpow_gt_0. assert (U1 : uf < 1) by (change 1 with (bpow radix2 0); apply bpow_lt; lia).
  induction l as [|w l IH]; intros P t FT PT F; cbn [fold_left fexact fold_right length pow] in *; [lra|]. fold (fexact l).
  destruct (P w (or_introl eq_refl)) as [FW PW].
  assert (FA : is_finite (fadd t w) = true) by (destruct (is_finite (fadd t w)) eqn:Q; [reflexivity|]; apply (fold_not_finite l) in Q; congruence).
  pose proof (fadd_err t w FT FW PT PW FA) as [E1 E2].
  assert (PA : 0 <= B2R (fadd t w)). { apply Rle_trans with (2 := E1). apply Rmult_le_pos; lra. }
  destruct (IH (fun v I => P v (or_intror I)) (fadd t w) FA PA F) as [I1 I2].
  assert (S0 : 0 <= fexact l).
  { clear -P. assert (W' : forall v, In v l -> fpositive v) by (intros; apply P; right; assumption). clear P. induction l as [|x l IH]; cbn; [lra|]. destruct (W' x (or_introl eq_refl)) as (_ & k).
    specialize (IH (fun v I => W' v (or_intror I))). fold (fexact l). lra. }
  assert (G1 : 0 <= (1 - uf) ^ length l) by (apply pow_le; lra). assert (G2 : 0 <= (1 + uf) ^ length l) by (apply pow_le; lra).
  set (g := (1 - uf) ^ length l) in *. set (h := (1 + uf) ^ length l) in *. set (s := fexact l) in *. set (q := B2R t + B2R w) in *.
  replace (B2R t + (B2R w + s)) with (q + s) by (unfold q; ring). split.
  - apply Rle_trans with (2 := I1). replace ((1 - uf) * g * (q + s)) with (g * ((1 - uf) * (q + s))) by ring. apply Rmult_le_compat_l; [exact G1|]. nra.
  - apply Rle_trans with (1 := I2). replace ((1 + uf) * h * (q + s)) with (h * ((1 + uf) * (q + s))) by ring. apply Rmult_le_compat_l; [exact G2|]. nra.
Qed.

(** ** Equal bins between two doubles *)
Lemma step_index_spec n lo hi : (1 <= n)%nat -> (Z.of_nat n <= 2 ^ 49)%Z -> is_finite lo = true -> is_finite hi = true -> spread n lo hi ->
  forall v, is_finite v = true -> dle lo v = true -> dle v hi = true ->
  exists k, dstep_index n lo (ddiv (dsub hi lo) (dnat n)) hi v = Ok k /\ (0 <= k <= Z.of_nat n)%Z /\
    (deq v hi = true -> k = (Z.of_nat n - 1)%Z) /\ (deq v hi = false -> near_bin n lo hi k v).
Proof.
  intros N1 N2 FL FH [FR RG] v FV LV VH.
  apply dle_iff in LV; [|apply dfinite_num; assumption|apply dfinite_num; assumption]. apply dle_iff in VH; [|apply dfinite_num; assumption|apply dfinite_num; assumption].
  rewrite !dext_finite in LV, VH by assumption. unfold dstep_index. destruct (deq v hi) eqn:E.
  - exists (Z.of_nat n - 1)%Z. split; [reflexivity|]. split; [lia|]. split; [reflexivity|discriminate].
  - destruct (index_near n lo hi N1 N2 FL FH FR RG v FV (conj LV VH)) as (k & K & _ & B & NB). exists k. split; [exact K|]. split; [exact B|]. split; [discriminate|]. intros _. exact NB.
Qed.
Lemma step_index_order n lo hi : (1 <= n)%nat -> (Z.of_nat n <= 2 ^ 49)%Z -> is_finite lo = true -> is_finite hi = true -> spread n lo hi ->
  forall v v' k k', is_finite v = true -> is_finite v' = true -> dle lo v = true -> dle v v' = true -> dlt v' hi = true ->
  dstep_index n lo (ddiv (dsub hi lo) (dnat n)) hi v = Ok k -> dstep_index n lo (ddiv (dsub hi lo) (dnat n)) hi v' = Ok k' -> (k <= k')%Z.
Proof.
  intros N1 N2 FL FH [FR RG] v v' k k' FV FV' LV VV VH K K'.
  apply dle_iff in LV; [|apply dfinite_num; assumption|apply dfinite_num; assumption]. apply dle_iff in VV; [|apply dfinite_num; assumption|apply dfinite_num; assumption].
  apply dlt_iff in VH; [|apply dfinite_num; assumption|apply dfinite_num; assumption].
  rewrite !dext_finite in LV, VV, VH by assumption. unfold dstep_index in *.
  assert (NE : forall z, is_finite z = true -> B2R z < B2R hi -> deq z hi = false).
  { intros z FZ L. destruct (deq z hi) eqn:E; [|reflexivity]. apply deq_iff in E; [|apply dfinite_num; assumption|apply dfinite_num; assumption]. rewrite !dext_finite in E by assumption. lra. }
  rewrite (NE v FV ltac:(lra)) in K. rewrite (NE v' FV' ltac:(lra)) in K'.
  destruct (index_near n lo hi N1 N2 FL FH FR RG v FV ltac:(lra)) as (j & J & EJ & _). destruct (index_near n lo hi N1 N2 FL FH FR RG v' FV' ltac:(lra)) as (j' & J' & EJ' & _).
  rewrite J in K. rewrite J' in K'. injection K as <-. injection K' as <-. rewrite EJ, EJ'. apply index_order; auto; lra.
Qed.
(** A value that is not close to the largest is in a bin. *)
Lemma near_counted n lo hi k v : (1 <= n)%nat -> near_bin n lo hi k v -> B2R lo < B2R hi ->
  B2R v - B2R lo < (1 - bpow radix2 (-50)) * (B2R hi - B2R lo) -> (k < Z.of_nat n)%Z.
Proof.
  intros N1 [A _] L H. assert (NP : 1 <= INR n) by (apply (le_INR 1), N1). apply lt_IZR. rewrite <- INR_IZR_INZ.
  assert (E : bpow radix2 (-50) < 1) by (change 1 with (bpow radix2 0); apply bpow_lt; lia).
  assert (W : 0 < width n lo hi) by (unfold width; apply Rmult_lt_0_compat; [lra|apply Rinv_0_lt_compat; lra]).
  assert (EH : B2R hi - B2R lo = INR n * width n lo hi) by (unfold width; field; lra). rewrite EH in H.
  assert (X : IZR k * (width n lo hi * (1 - bpow radix2 (-50))) < INR n * (width n lo hi * (1 - bpow radix2 (-50)))) by lra.
  apply Rmult_lt_reg_r in X; [exact X|]. apply Rmult_lt_0_compat; lra.
Qed.
Lemma step_edges n lo hi : (1 <= n)%nat -> (Z.of_nat n <= 2 ^ 49)%Z -> is_finite lo = true -> is_finite hi = true -> spread n lo hi ->
  forall i j a b, (i <= j <= n)%nat -> Ok (dstep_edge lo (ddiv (dsub hi lo) (dnat n)) i) = Ok a -> Ok (dstep_edge lo (ddiv (dsub hi lo) (dnat n)) j) = Ok b -> is_finite b = true ->
  dle a b = true /\ is_finite a = true /\ Rabs (B2R a - (B2R lo + INR i * width n lo hi)) <= bpow radix2 (-50) * (Rabs (B2R lo) + Rabs (B2R hi)).
Proof.
  intros N1 N2 FL FH [FR RG] i j a b L A B F. injection A as <-. injection B as <-.
  destruct (edges_rise n lo hi N1 N2 FL FH FR RG i j L F) as [FI LE]. split; [apply dle_iff; [apply dfinite_num, FI|apply dfinite_num, F|exact LE]|].
  split; [exact FI|]. apply (edge_near n lo hi N1 N2 FL FH FR RG i ltac:(lia) FI).
Qed.

(** ** The strategies *)
Lemma ceil_sqrt_pos n : (1 <= n)%nat -> (1 <= ceil_sqrt n)%nat.
Proof. intros H. unfold ceil_sqrt. destruct (Nat.eqb _ _) eqn:E; [apply Nat.eqb_eq in E; destruct (Nat.sqrt n); lia|lia]. Qed.
Lemma dsqrt_parts data b : (forall v, In v data -> is_finite v = true) -> dsqrt_compute data = Ok b ->
  exists lo hi, extremes data lo hi /\ is_finite lo = true /\ is_finite hi = true /\ (1 <= b_count b)%nat /\ b_count b = ceil_sqrt (length data) /\
    b = dstep_binning (b_count b) lo (ddiv (dsub hi lo) (dnat (b_count b))) hi.
Proof.
  intros F H. destruct data as [|x r]; [discriminate H|]. unfold dsqrt_compute in H. injection H as <-.
  assert (E : extremes (x :: r) (dmin_of x r) (dmax_of x r)) by (apply extremes_of; intros v I; apply dfinite_num, F, I).
  exists (dmin_of x r), (dmax_of x r). split; [exact E|]. destruct E as (A & B & _). split; [apply F, A|]. split; [apply F, B|].
  split; [apply ceil_sqrt_pos; cbn [length]; lia|]. split; reflexivity.
Qed.
Lemma dscott_parts sigma h data b : (forall v, In v data -> is_finite v = true) -> deq (sigma data) d0 = false -> dscott_compute sigma h data = Ok b ->
  exists lo hi, extremes data lo hi /\ is_finite lo = true /\ is_finite hi = true /\
    b = dstep_binning (b_count b) lo (ddiv (dsub hi lo) (dnat (b_count b))) hi.
Proof.
  intros F SG H. destruct data as [|x r]; [discriminate H|]. unfold dscott_compute in H. rewrite SG in H.
  assert (E : extremes (x :: r) (dmin_of x r) (dmax_of x r)) by (apply extremes_of; intros v I; apply dfinite_num, F, I).
  destruct (to_size (dceil (ddiv (dsub (dmax_of x r) (dmin_of x r)) (h (x :: r))))) as [n| | |] eqn:N; try discriminate H. cbn [bind] in H. injection H as <-.
  exists (dmin_of x r), (dmax_of x r). split; [exact E|]. destruct E as (A & B & _). split; [apply F, A|]. split; [apply F, B|]. reflexivity.
Qed.

(** Equal values with the strategy of Scott. *)
Lemma dceil_val (x : double) : is_finite x = true -> to_size (dceil x) = if ((0 <=? Zceil (B2R x)) && (Zceil (B2R x) <? 2 ^ 64))%Z then Ok (Z.to_nat (Zceil (B2R x))) else UB.
Proof.
  intros F. destruct (Bnearbyint_correct 53 1024 emax53 mode_UP x) as (E & F' & _).
  assert (V : B2R (dceil x) = IZR (Zceil (B2R x))).
  { unfold dceil. rewrite E. unfold round, F2R, scaled_mantissa, cexp, FIX_exp. cbn. rewrite !Rmult_1_r. reflexivity. }
  unfold to_size. unfold dceil at 1. rewrite F', F, btrunc, V, Ztrunc_IZR. reflexivity.
Qed.
Lemma half_val : is_finite dhalf = true /\ B2R dhalf = / 2.
Proof. split; [reflexivity|]. rewrite <- dext_finite by reflexivity. apply ext_dhalf. Qed.
Lemma one_val : is_finite d1 = true /\ B2R d1 = 1.
Proof. split; [reflexivity|]. rewrite <- dext_finite by reflexivity. apply ext_d1. Qed.
Lemma small_finite (z : double) x : num z -> ext z = crd x -> Rabs x <= IZR (2 ^ 53) -> is_finite z = true /\ B2R z = rnd53 x.
Proof.
  intros N E H. assert (F : is_finite z = true).
  { apply (rnd_finite _ x N E). apply Rle_lt_trans with (2 := big53). apply Rabs_le. apply Rabs_le_inv in H. split.
    - rewrite <- (rnd_format (- IZR (2 ^ 53))) by (rewrite <- opp_IZR; apply int_format; lia). apply rnd_mono. lra.
    - rewrite <- (rnd_format (IZR (2 ^ 53))) by (apply int_format; lia). apply rnd_mono. lra. }
  split; [exact F|apply finite_rnd; assumption].
Qed.
Lemma small_product y d : 23 / 64 <= y <= 41 / 64 -> - / 1024 <= d <= / 1024 -> 0 <= y * (1 + d) <= 42 / 64.
Proof. intros. nra. Qed.
Lemma quot_le q s a b : 0 <= q -> 0 < a <= s -> q * s <= b -> q <= b / a.
Proof. intros. apply Rmult_le_reg_r with a; [lra|]. unfold Rdiv. rewrite Rmult_assoc, Rinv_l by lra. nra. Qed.
Lemma dscott_flat sigma h (data : list double) v : data <> [] -> (forall x, In x data -> is_finite x = true /\ B2R x = v) -> Rabs v <= bpow radix2 50 -> deq (sigma data) d0 = true ->
  exists b, dscott_compute sigma h data = Ok b /\ (1 <= b_count b <= 2)%nat /\ forall x, In x data -> exists k, b_index b x = Ok k /\ (0 <= k < Z.of_nat (b_count b))%Z.
Proof.
  intros NE A BV SG. destruct data as [|x0 r]; [congruence|]. unfold dscott_compute. rewrite SG.
  assert (EX : extremes (x0 :: r) (dmin_of x0 r) (dmax_of x0 r)) by (apply extremes_of; intros y I; apply dfinite_num, A, I).
  destruct EX as (IL & IH & _). destruct (A _ IL) as [FL EL]. destruct (A _ IH) as [FH EH].
  set (lo := dmin_of x0 r) in *. set (hi := dmax_of x0 r) in *.
  destruct half_val as [Fh Eh]. destruct one_val as [F1 E1]. pose proof uro_pos as U0. pose proof uro_small as U1.
  assert (V : Rabs v * uro <= / 8). { replace (/ 8) with (bpow radix2 50 * uro) by (unfold uro; rewrite <- bpow_plus; reflexivity). apply Rmult_le_compat_r; lra. }
  assert (BIG : bpow radix2 50 = 1125899906842624) by reflexivity. rewrite BIG in BV. apply Rabs_le_inv in BV as BV'.
  assert (K53 : IZR (2 ^ 53) = 9007199254740992) by reflexivity.
  destruct (dadd_ext hi dhalf FH Fh) as [N2 E2]. rewrite (dext_finite _ FH), (dext_finite _ Fh), EH, Eh in E2.
  destruct (small_finite _ _ N2 E2) as [F2 _]; [rewrite K53; apply Rabs_le; lra|].
  destruct (dsub_ext lo dhalf FL Fh) as [N3 E3]. rewrite (dext_finite _ FL), (dext_finite _ Fh), EL, Eh in E3.
  destruct (small_finite _ _ N3 E3) as [F3 _]; [rewrite K53; apply Rabs_le; lra|].
  destruct (add_rel hi dhalf FH Fh F2) as (d1' & D1 & R2). destruct (sub_rel lo dhalf FL Fh F3) as (d2' & D2 & R3).
  rewrite EH, Eh in R2. rewrite EL, Eh in R3. set (hi' := dadd hi dhalf) in *. set (lo' := dsub lo dhalf) in *.
  assert (ER1 : v + / 2 - 9 / 64 <= B2R hi' <= v + / 2 + 9 / 64).
  { rewrite R2. assert (Rabs ((v + / 2) * d1') <= 9 / 64); [|apply Rabs_le_inv in H; lra]. rewrite Rabs_mult. apply Rle_trans with ((Rabs v + / 2) * uro); [|nra].
    apply Rmult_le_compat; try apply Rabs_pos; [|exact D1]. apply Rle_trans with (1 := Rabs_triang _ _). rewrite (Rabs_pos_eq (/ 2)); lra. }
  assert (ER2 : v - / 2 - 9 / 64 <= B2R lo' <= v - / 2 + 9 / 64).
  { rewrite R3. assert (Rabs ((v - / 2) * d2') <= 9 / 64); [|apply Rabs_le_inv in H; lra]. rewrite Rabs_mult. apply Rle_trans with ((Rabs v + / 2) * uro); [|nra].
    apply Rmult_le_compat; try apply Rabs_pos; [|exact D2]. unfold Rminus. apply Rle_trans with (1 := Rabs_triang _ _). rewrite Rabs_Ropp, (Rabs_pos_eq (/ 2)); lra. }
  destruct (dsub_ext hi' lo' F2 F3) as [N4 E4]. rewrite (dext_finite _ F2), (dext_finite _ F3) in E4.
  destruct (small_finite _ _ N4 E4) as [F4 _]; [rewrite K53; apply Rabs_le; lra|].
  destruct (sub_rel hi' lo' F2 F3 F4) as (d3 & D3 & R4). apply Rabs_le_inv in D3. set (range := dsub hi' lo') in *.
  assert (RB : 45 / 64 <= B2R range <= 83 / 64) by (rewrite R4; nra).
  destruct (ddiv_ext range d1 F4 F1) as [N5 E5]; [rewrite ext_d1; lra|]. rewrite (dext_finite _ F4), ext_d1 in E5. replace (B2R range / 1) with (B2R range) in E5 by field.
  rewrite <- (dext_finite _ F4), crd_ext, (dext_finite _ F4) in E5. 
  assert (F5 : is_finite (ddiv range d1) = true) by (apply dfinite_iff; [exact N5|]; rewrite E5, <- (dext_finite _ F4); apply dext_lt, F4).
  rewrite (dext_finite _ F5) in E5. rewrite (dceil_val _ F5), E5.
  assert (C : Zceil (B2R range) = 1%Z /\ B2R range <= 1 \/ Zceil (B2R range) = 2%Z /\ 1 < B2R range).
  { destruct (Rle_dec (B2R range) 1) as [L|L]; [left|right]; (split; [apply Zceil_imp; cbn; lra|lra]). }
  set (n := Z.to_nat (Zceil (B2R range))).
  assert (NB : ((0 <=? Zceil (B2R range)) && (Zceil (B2R range) <? 2 ^ 64))%Z = true) by (destruct C as [[-> _]|[-> _]]; reflexivity).
  rewrite NB. cbn [bind]. eexists. split; [reflexivity|]. cbn [b_count b_index dstep_binning].
  assert (NN : n = 1%nat /\ B2R range <= 1 \/ n = 2%nat /\ 1 < B2R range) by (unfold n; destruct C as [[-> ?]|[-> ?]]; [left|right]; auto).
  split; [destruct NN as [[-> _]|[-> _]]; lia|]. intros x I. destruct (A x I) as [FX EX].
  unfold dstep_index. replace (deq x hi') with false.
  2:{ symmetry. destruct (deq x hi') eqn:Q; [|reflexivity]. apply deq_iff in Q; [|apply dfinite_num, FX|apply dfinite_num, F2]. rewrite (dext_finite _ FX), (dext_finite _ F2), EX in Q. lra. }
  destruct (dnat_exact n) as [FN EN]; [destruct NN as [[-> _]|[-> _]]; lia|].
  assert (NR : 1 <= INR n <= 2) by (destruct NN as [[-> _]|[-> _]]; cbn; lra).
  destruct (ddiv_ext range (dnat n) F4 FN) as [N6 E6]; [rewrite (dext_finite _ FN), EN; lra|]. rewrite (dext_finite _ F4), (dext_finite _ FN), EN in E6.
  assert (SB : / 2 <= B2R range / INR n /\ B2R range / INR n <= 2 /\ (n = 1%nat -> 45 / 64 <= B2R range / INR n)).
  { destruct NN as [[-> ?]|[-> ?]]; cbn [INR]; (split; [|split; [|intros Q; try discriminate Q]]); lra. }
  destruct SB as (SB1 & SB2 & SB3).
  destruct (small_finite _ _ N6 E6) as [F6 R6]; [rewrite K53; apply Rabs_le; lra|]. set (step := ddiv range (dnat n)) in *.
  assert (SL : / 2 <= B2R step).
  { rewrite R6. replace (/ 2) with (IZR 1 / 2) by field. rewrite <- (rnd_format (IZR 1 / 2)) by (apply half_format; lia). apply rnd_mono. lra. }
  assert (SL1 : n = 1%nat -> 45 / 64 <= B2R step).
  { intros ->. cbn [INR] in R6. replace (B2R range / 1) with (B2R range) in R6 by field. rewrite rnd_format in R6 by apply generic_format_B2R. lra. }
  destruct (dsub_ext x lo' FX F3) as [N7 E7]. rewrite (dext_finite _ FX), (dext_finite _ F3), EX in E7.
  destruct (small_finite _ _ N7 E7) as [F7 _]; [rewrite K53; apply Rabs_le; lra|].
  destruct (sub_rel x lo' FX F3 F7) as (d4 & D4 & R7). apply Rabs_le_inv in D4. rewrite EX in R7.
  assert (DB : 0 <= B2R (dsub x lo') <= 42 / 64) by (rewrite R7; apply small_product; lra).
  destruct (ddiv_ext (dsub x lo') step F7 F6) as [N8 E8]; [rewrite (dext_finite _ F6); lra|]. rewrite (dext_finite _ F7), (dext_finite _ F6) in E8.
  set (q := B2R (dsub x lo') / B2R step) in *.
  assert (Q0 : 0 <= q) by (apply Rmult_le_pos; [lra|apply Rlt_le, Rinv_0_lt_compat; lra]).
  assert (QS : q * B2R step = B2R (dsub x lo')) by (unfold q; field; lra).
  assert (Q1 : q <= 84 / 64) by (replace (84 / 64) with (42 / 64 / / 2) by field; apply (quot_le q (B2R step) (/ 2) (42 / 64)); lra). assert (Q2 : n = 1%nat -> q <= 42 / 45) by (intros Q; specialize (SL1 Q); replace (42 / 45) with (42 / 64 / (45 / 64)) by field; apply (quot_le q (B2R step) (45 / 64) (42 / 64)); lra).
  destruct (small_finite _ _ N8 E8) as [F8 R8]; [rewrite K53; apply Rabs_le; lra|].
  assert (M1022 : bpow radix2 (-1022) <= / 2) by (change (/ 2) with (bpow radix2 (-1)); apply bpow_le; lia).
  assert (R0 : 0 <= rnd53 q) by (rewrite <- (rnd_format 0) by apply generic_format_0; apply rnd_mono, Q0).
  exists (Ztrunc (rnd53 q)). assert (KF : Ztrunc (rnd53 q) = Zfloor (rnd53 q)) by (apply Ztrunc_floor, R0).
  assert (K0 : (0 <= Ztrunc (rnd53 q))%Z) by (rewrite KF; apply Zfloor_lub, R0).
  assert (KU : IZR (Ztrunc (rnd53 q)) <= rnd53 q) by (rewrite KF; apply Zfloor_lb).
  assert (KN : (Ztrunc (rnd53 q) < Z.of_nat n)%Z).
  { apply lt_IZR. apply Rle_lt_trans with (1 := KU). rewrite <- INR_IZR_INZ. destruct NN as [[NN _]|[NN _]].
    - specialize (Q2 NN). rewrite NN. cbn [INR]. apply Rle_lt_trans with (42 / 45 * (1 + uro)); [apply rnd_le; lra|lra].
    - rewrite NN. cbn [INR]. apply Rle_lt_trans with (84 / 64 * (1 + uro)); [apply rnd_le; lra|lra]. }
  split; [|lia]. unfold to_ssize. rewrite F8, btrunc, R8. assert (Z.of_nat n <= 2)%Z by (destruct NN as [[-> _]|[-> _]]; lia).
  rewrite (proj2 (Z.leb_le _ _)), (proj2 (Z.ltb_lt _ _)) by lia. reflexivity.
Qed.

(** ** Zeros of different signs *)
Lemma extremes_same data lo hi lo' hi' : (forall v, In v data -> is_finite v = true) -> extremes data lo hi -> extremes data lo' hi' -> B2R lo = B2R lo' /\ B2R hi = B2R hi'.
Proof.
  intros F (A & B & C) (A' & B' & C'). pose proof (C _ A') as [P _]. pose proof (C' _ A) as [P' _]. pose proof (C _ B') as [_ Q]. pose proof (C' _ B) as [_ Q'].
  pose proof (F _ A) as FA. pose proof (F _ A') as FA'. pose proof (F _ B) as FB. pose proof (F _ B') as FB'.
  apply dle_iff in P, P', Q, Q'; try (apply dfinite_num; assumption). rewrite !dext_finite in P, P', Q, Q' by assumption. split; lra.
Qed.
Lemma sub_same (lo hi lo' hi' : double) : is_finite lo = true -> is_finite hi = true -> is_finite lo' = true -> is_finite hi' = true -> B2R lo = B2R lo' -> B2R hi = B2R hi' ->
  is_finite (dsub hi lo) = true -> is_finite (dsub hi' lo') = true /\ B2R (dsub hi' lo') = B2R (dsub hi lo).
Proof.
  intros F1 F2 F3 F4 E1 E2 F. destruct (dsub_ext hi lo F2 F1) as [N E]. destruct (dsub_ext hi' lo' F4 F3) as [N' E'].
  assert (Q : ext (dsub hi' lo') = ext (dsub hi lo)) by (rewrite E, E', !dext_finite, E1, E2 by assumption; reflexivity).
  assert (F' : is_finite (dsub hi' lo') = true) by (apply dfinite_iff; [exact N'|]; rewrite Q; apply dext_lt, F).
  split; [exact F'|]. rewrite !dext_finite in Q by assumption. exact Q.
Qed.
Lemma spread_same n (lo hi lo' hi' : double) : is_finite lo = true -> is_finite hi = true -> is_finite lo' = true -> is_finite hi' = true -> B2R lo = B2R lo' -> B2R hi = B2R hi' ->
  spread n lo hi -> spread n lo' hi'.
Proof. intros F1 F2 F3 F4 E1 E2 [F R]. split; [apply (sub_same lo hi lo' hi' F1 F2 F3 F4 E1 E2 F)|]. rewrite <- E1, <- E2. exact R. Qed.
Lemma deq_same (v hi hi' : double) : is_finite v = true -> is_finite hi = true -> is_finite hi' = true -> B2R hi = B2R hi' -> deq v hi = deq v hi'.
Proof.
  intros F1 F2 F3 E. apply eq_true_iff_eq. rewrite !deq_iff by (apply dfinite_num; assumption). rewrite !dext_finite by assumption. rewrite E. reflexivity.
Qed.
Lemma spread_lt n (lo hi : double) : (1 <= n)%nat -> spread n lo hi -> B2R lo < B2R hi.
Proof. intros N [_ R]. assert (1 <= INR n) by (apply (le_INR 1), N). pose proof (bpow_gt_0 radix2 (-1021)). nra. Qed.
Lemma deq_num (x y : double) : deq x y = true -> num y.
Proof. destruct x as [s|[|]| |[|] m e H], y as [s'|[|]| |[|] m' e' H']; cbn; unfold num; cbn; intros; congruence. Qed.
