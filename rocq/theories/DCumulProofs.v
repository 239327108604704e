(** Proofs about the cumulatives in double precision. *)
From Coq Require Import ZArith Reals List Bool Arith Lia Lra.
From Flocq Require Import Core IEEE754.BinarySingleNaN Relative Plus_error.
From Verif Require Import Common CumulModel FloatModel FloatProofs DoubleProofs DCumulModel DCumulSpec.
From Verif Require Import CumulProofs.
Import ListNotations.
Local Open Scope R_scope.

(** ** Running sums *)
Lemma drunning_length l : forall t, length (drunning t l) = length l.
Proof. induction l as [|p l IH]; intros t; cbn; auto. Qed.
Lemma drunning_from l : (forall p, In p l -> dle d0 p = true) -> forall t, num t -> 0 <= ext t ->
  forall i y, nth_error (drunning t l) i = Some y -> num y /\ ext t <= ext y.
Proof.
  induction l as [|p l IH]; intros P t NT PT [|i] y H; try discriminate H; cbn [drunning nth_error] in H; destruct (le0 p (P p (or_introl eq_refl))) as [NP PP]; destruct (add_nonneg t p NT NP PT PP) as (N & G1 & G2).
  - injection H as <-. split; [exact N|exact G1].
  - destruct (IH (fun q I => P q (or_intror I)) (dadd t p) N ltac:(lra) i y H) as [N' G]. split; [exact N'|lra].
Qed.
Lemma drunning_rising l : (forall p, In p l -> dle d0 p = true) -> forall t, num t -> 0 <= ext t -> drising (drunning t l).
Proof.
  induction l as [|p l IH]; intros P t NT PT [|i] [|j] a b H A B; try lia; try discriminate A; cbn [drunning nth_error] in A, B; destruct (le0 p (P p (or_introl eq_refl))) as [NP PP]; destruct (add_nonneg t p NT NP PT PP) as (N & G1 & G2).
  - injection A as <-. destruct (drunning_from l (fun q I => P q (or_intror I)) (dadd t p) N ltac:(lra) j b B) as [N' G]. apply dle_iff; assumption.
  - apply (IH (fun q I => P q (or_intror I)) (dadd t p) N ltac:(lra) i j a b); auto. lia.
Qed.
Lemma exact_sum_nonneg l : (forall p, In p l -> dle d0 p = true) -> 0 <= exact_sum l.
Proof.
  induction l as [|q l IH]; intros A; cbn; [lra|]. pose proof (B2R_nonneg q (A q (or_introl eq_refl))). specialize (IH (fun p I => A p (or_intror I))). unfold exact_sum in IH. lra.
Qed.
Lemma running_error l : (forall p, In p l -> dle d0 p = true) -> forall t, is_finite t = true -> 0 <= B2R t ->
  forall i y, nth_error (drunning t l) i = Some y -> is_finite y = true ->
  Rabs (B2R y - (B2R t + exact_sum (firstn (S i) l))) <= ((1 + uro) ^ S i - 1) * (B2R t + exact_sum (firstn (S i) l)).
Proof.
  assert (U0 : 0 < uro) by apply bpow_gt_0.
  induction l as [|p l IH]; intros P t FT PT i y H FY; [destruct i; discriminate H|].
  destruct (le0 p (P p (or_introl eq_refl))) as [NP PP]. assert (NT : num t) by (apply finite_num; exact FT). assert (PT' : 0 <= ext t) by (rewrite ext_finite; auto).
  destruct (add_nonneg t p NT NP PT' PP) as (N & G1 & G2).
  assert (FA : is_finite (dadd t p) = true).
  { destruct i as [|i]; cbn [drunning nth_error] in H; [injection H as <-; exact FY|].
    destruct (drunning_from l (fun q I => P q (or_intror I)) (dadd t p) N ltac:(lra) i y H) as [N' G]. pose proof (dext_lt y FY). pose proof MX_big. apply dfinite_iff; auto; lra. }
  destruct (add_finite_l t p NT NP PT' PP FA) as [_ FP]. rewrite dext_finite in PP by exact FP.
  pose proof (add_error t p FT FP PT PP FA) as E.
  destruct i as [|i]; cbn [drunning nth_error] in H.
  - injection H as <-. cbn [firstn exact_sum fold_right]. replace (B2R t + (B2R p + 0)) with (B2R t + B2R p) by ring. replace ((1 + uro) ^ 1 - 1) with uro by ring. exact E.
  - assert (PA : 0 <= B2R (dadd t p)) by (rewrite <- dext_finite by exact FA; lra).
    specialize (IH (fun q I => P q (or_intror I)) (dadd t p) FA PA i y H FY).
    change (firstn (S (S i)) (p :: l)) with (p :: firstn (S i) l). change (exact_sum (p :: firstn (S i) l)) with (B2R p + exact_sum (firstn (S i) l)).
    change ((1 + uro) ^ S (S i)) with ((1 + uro) * (1 + uro) ^ S i). set (g := (1 + uro) ^ S i) in *. 
    assert (S0 : 0 <= exact_sum (firstn (S i) l)).
    { apply exact_sum_nonneg. intros q I. apply P. right. rewrite <- (firstn_skipn (S i) l). apply in_or_app. left. exact I. }
    set (s := exact_sum (firstn (S i) l)) in *.
    assert (G : 1 <= g) by (apply pow_R1_Rle; lra).
    set (w := B2R (dadd t p)) in *. set (q := B2R t + B2R p) in *. replace (B2R t + (B2R p + s)) with (q + s) by (unfold q; ring).
    apply Rabs_le_inv in E. apply Rabs_le_inv in IH. assert (0 <= q) by (unfold q; lra).
    assert (E1 : w <= q * (1 + uro)) by lra. assert (E2 : q * (1 - uro) <= w) by lra.
    assert (UP : B2R y <= g * (w + s)) by lra.
    assert (UP2 : g * (w + s) <= g * ((1 + uro) * (q + s))) by (apply Rmult_le_compat_l; [lra|]; nra).
    assert (LO : (2 - g) * (w + s) <= B2R y) by lra.
    apply Rabs_le. split; [|lra].
    assert (QS : 0 <= q + s) by lra. assert (WS : 0 <= w + s) by lra.
    destruct (Rle_dec g 2) as [G2'|G2'].
    + assert ((2 - g) * ((1 - uro) * (q + s)) <= (2 - g) * (w + s)) by (apply Rmult_le_compat_l; [lra|]; nra).
      assert (0 <= (g - 1) * uro * (q + s)) by (repeat apply Rmult_le_pos; lra). lra.
    + assert (0 <= B2R y). { destruct (drunning_from l (fun q I => P q (or_intror I)) (dadd t p) N ltac:(lra) i y H) as [N' G']. rewrite (dext_finite y FY) in G'. lra. }
      assert (1 * (q + s) <= ((1 + uro) * g - 1) * (q + s)) by (apply Rmult_le_compat_r; nra). lra.
Qed.

Lemma sub_error (x y : double) : is_finite x = true -> is_finite y = true -> 0 <= B2R y <= B2R x ->
  is_finite (dsub x y) = true /\ 0 <= B2R (dsub x y) <= B2R x /\ B2R (dsub x y) <= (1 + uro) * (B2R x - B2R y).
Proof.
  intros FX FY P. destruct (dsub_ext x y FX FY) as [N E]. rewrite (dext_finite x FX), (dext_finite y FY) in E.
  assert (LO : 0 <= ext (dsub x y)) by (rewrite E; apply crd_nonneg; lra).
  assert (HI : ext (dsub x y) <= B2R x) by (rewrite E, <- (dext_finite x FX), <- (crd_ext x); apply crd_mono; rewrite crd_ext, (dext_finite x FX); lra).
  pose proof (dext_lt x FX) as BX. rewrite (dext_finite x FX) in BX.
  assert (F : is_finite (dsub x y) = true) by (apply dfinite_iff; auto; pose proof MX_big; lra).
  split; [exact F|]. rewrite (dext_finite _ F) in LO, HI, E. split; [split; assumption|].
  pose proof (Bminus_correct 53 1024 prec53 emax53 mode_NE x y FX FY) as C.
  destruct (Rlt_bool _ _) eqn:O; [|destruct C as [C _]; unfold dsub in F; unfold binary_overflow in C; cbn [overflow_to_inf] in C; apply B2SF_inf in C; unfold double in *; rewrite C in F; discriminate F].
  destruct C as (C & _). unfold dsub. rewrite C. cbn [round_mode].
  destruct (FLT_plus_error_N_ex radix2 (SpecFloat.emin 53 1024) 53 (fun n => negb (Z.even n)) (B2R x) (- B2R y)) as (eps & B & R).
  { apply generic_format_B2R. } { apply generic_format_opp. apply generic_format_B2R. }
  change (SpecFloat.fexp 53 1024) with (FLT_exp (SpecFloat.emin 53 1024) 53). change ZnearestE with (Znearest (fun n => negb (Z.even n))). unfold Rminus at 1. rewrite R.
  assert (U : u_ro radix2 53 = uro) by (unfold u_ro, uro; change (/ 2) with (bpow radix2 (-1)); rewrite <- bpow_plus; reflexivity).
  assert (U0 : 0 < uro) by apply bpow_gt_0.
  assert (B' : Rabs eps <= uro). { apply Rle_trans with (1 := B). rewrite U. apply Rmult_le_reg_r with (1 + uro); [lra|]. unfold Rdiv. rewrite Rmult_assoc, Rinv_l by lra. nra. }
  apply Rabs_le_inv in B'. change (B2R x + - B2R y) with (B2R x - B2R y). rewrite (Rmult_comm (B2R x - B2R y)). apply Rmult_le_compat_r; lra.
Qed.

Lemma add_upper (x y : double) : is_finite x = true -> is_finite y = true -> 0 <= B2R x -> 0 <= B2R y ->
  ext (dadd x y) <= (1 + uro) * (B2R x + B2R y).
Proof.
  intros FX FY PX PY. destruct (dadd_ext x y FX FY) as [N E]. rewrite E, (dext_finite x FX), (dext_finite y FY). unfold crnd.
  destruct (FLT_plus_error_N_ex radix2 (SpecFloat.emin 53 1024) 53 (fun n => negb (Z.even n)) (B2R x) (B2R y)) as (eps & B & R).
  { apply generic_format_B2R. } { apply generic_format_B2R. }
  change (SpecFloat.fexp 53 1024) with (FLT_exp (SpecFloat.emin 53 1024) 53). change ZnearestE with (Znearest (fun n => negb (Z.even n))). rewrite R.
  assert (U : u_ro radix2 53 = uro) by (unfold u_ro, uro; change (/ 2) with (bpow radix2 (-1)); rewrite <- bpow_plus; reflexivity).
  assert (U0 : 0 < uro) by apply bpow_gt_0.
  assert (B' : Rabs eps <= uro). { apply Rle_trans with (1 := B). rewrite U. apply Rmult_le_reg_r with (1 + uro); [lra|]. unfold Rdiv. rewrite Rmult_assoc, Rinv_l by lra. nra. }
  apply Rabs_le_inv in B'. pose proof MX_big. apply Rmax_lub; [assert (0 <= (1 + uro) * (B2R x + B2R y)) by (apply Rmult_le_pos; lra); lra|].
  apply Rle_trans with (1 := Rmin_r _ _). rewrite Rmult_comm. apply Rmult_le_compat_r; lra.
Qed.

(** ** Rising lists *)
Lemma drising_le l i j a b : drising l -> (forall y, In y l -> dle d0 y = true) -> (i <= j)%nat -> nth_error l i = Some a -> nth_error l j = Some b -> ext a <= ext b.
Proof.
  intros R P H A B. destruct (Nat.eq_dec i j) as [->|N]; [rewrite A in B; injection B as <-; lra|].
  assert (D : dle a b = true) by (apply (R i j); auto; lia). destruct (dle_nums _ _ D). apply dle_iff in D; auto.
Qed.
Lemma cum_nums c total : is_dcumulative c total -> forall i y, nth_error (d_y c) i = Some y -> num y /\ 0 <= ext y <= ext total.
Proof.
  intros (L & R & P & T) i y H. destruct (le0 y (P y (nth_error_In _ _ H))) as [N Z]. split; [exact N|]. split; [exact Z|].
  apply (drising_le (d_y c) i (length (d_y c) - 1)); auto. apply nth_lt in H. lia.
Qed.

(** ** findValue *)
Lemma mul_total total ratio : is_finite total = true -> 0 <= ext total -> dle d0 ratio = true -> dle ratio d1 = true ->
  num (dmul total ratio) /\ 0 <= ext (dmul total ratio) <= ext total.
Proof.
  intros FT PT R0 R1. destruct (le0 ratio R0) as [NR Z]. apply (dle_iff ratio d1 NR num_d1) in R1. rewrite ext_d1 in R1.
  assert (FR : is_finite ratio = true) by (apply dfinite_iff; auto; pose proof MX_big; lra).
  destruct (dmul_ext total ratio FT FR) as [N E]. split; [exact N|]. rewrite E. split; [apply crd_nonneg; nra|].
  rewrite <- (crd_ext total) at 2. apply crd_mono. nra.
Qed.
Lemma dfind_value_spec c total ratio pos : is_dcumulative c total -> is_finite total = true -> dle d0 ratio = true -> dle ratio d1 = true ->
  exists k m xk xm, dfirst_reaching (d_y c) (dmul total ratio) k /\ dplateau_end (d_y c) k m /\
    nth_error (d_x c) k = Some xk /\ nth_error (d_x c) m = Some xm /\
    dfind_value c ratio pos = Ok (match pos with TrayBegin => xk | TrayMiddle => dmul dhalf (dadd xk xm) | TrayEnd => xm end).
Proof.
  intros IC FT R0 R1. pose proof IC as (L & RY & P & T). unfold dfind_value.
  destruct (dle_nums _ _ R1) as [NR _].
  destruct (dlt d1 ratio) eqn:E1; [apply (dlt_iff d1 ratio num_d1 NR) in E1; apply (dle_iff ratio d1 NR num_d1) in R1; lra|].
  destruct (dlt ratio d0) eqn:E2; [apply (dlt_iff ratio d0 NR num_d0) in E2; apply (dle_iff d0 ratio num_d0 NR) in R0; lra|].
  cbn [orb]. rewrite (back_last _ _ T). cbn [bind]. set (value := dmul total ratio).
  destruct (cum_nums c total IC _ _ T) as [NT [T0 _]].
  destruct (mul_total total ratio FT T0 R0 R1) as [NV [V0 VT]]. fold value in NV, V0, VT.
  destruct (count_while_spec (fun y => dlt y value) (d_y c)) as (K1 & K2 & K3). set (k := count_while _ (d_y c)) in *.
  pose proof (nth_lt _ _ _ T) as TL.
  assert (KL : (k < length (d_y c))%nat).
  { destruct (Nat.eq_dec k (length (d_y c))) as [E|E]; [|lia]. exfalso.
    pose proof (K2 (length (d_y c) - 1)%nat total ltac:(lia) T) as X. apply dlt_iff in X; auto. lra. }
  destruct (nth_ok (d_x c) k ltac:(lia)) as [xk Xk]. destruct (nth_ok (d_y c) k KL) as [y Yk].
  destruct (cum_nums c total IC _ _ Yk) as [NY _].
  unfold at_. rewrite Xk, Yk. cbn [of_option bind].
  destruct (count_while_spec (fun w => deq w y) (skipn k (d_y c))) as (M1 & M2 & M3). set (q := count_while _ (skipn k (d_y c))) in *.
  rewrite skipn_length in M1.
  assert (Q1 : (1 <= q)%nat). { destruct (Nat.eq_dec q 0) as [E|E]; [exfalso|lia]. rewrite E in M3. specialize (M3 y).
    rewrite nth_error_skipn, Nat.add_0_r in M3. specialize (M3 Yk). apply not_true_iff_false in M3. apply M3. apply deq_iff; auto. }
  destruct (k + q)%nat as [|m] eqn:KQ; [lia|].
  destruct (nth_ok (d_x c) m ltac:(lia)) as [xm Xm]. rewrite Xm. cbn [of_option bind].
  exists k, m, xk, xm. split; [|split; [|split; [exact Xk|split; [exact Xm|reflexivity]]]].
  - split.
    + exists y. split; [exact Yk|]. specialize (K3 y Yk). apply dlt_no in K3; auto. apply dle_iff; auto.
    + intros i z I H. apply (K2 i z I H).
  - destruct (nth_ok (d_y c) m ltac:(lia)) as [z Z]. destruct (cum_nums c total IC _ _ Z) as [NZ _].
    exists y, z. split; [exact Yk|]. split; [exact Z|]. split; [lia|]. split.
    + specialize (M2 (q - 1)%nat z ltac:(lia)). rewrite nth_error_skipn in M2. replace (k + (q - 1))%nat with m in M2 by lia.
      specialize (M2 Z). apply deq_iff in M2; auto. apply deq_iff; auto.
    + intros i w I H. pose proof (nth_lt _ _ _ H) as IL. destruct (nth_ok (d_y c) (k + q) ltac:(lia)) as [u U].
      specialize (M3 u). rewrite nth_error_skipn in M3. specialize (M3 U).
      destruct (cum_nums c total IC _ _ U) as [NU _]. destruct (cum_nums c total IC _ _ H) as [NW _].
      assert (YU : ext y <= ext u) by (apply (drising_le (d_y c) k (k + q)); auto; lia).
      assert (NE : ext u <> ext y) by (intro X; apply deq_iff in X; auto; congruence).
      assert (UW : ext u <= ext w) by (apply (drising_le (d_y c) (k + q) i); auto; lia).
      apply dlt_iff; auto. destruct YU as [YU|YU]; [lra|]. exfalso. apply NE. symmetry. exact YU.
Qed.
Lemma dfirst_unique ys v k k' : (forall y, In y ys -> num y) -> num v -> dfirst_reaching ys v k -> dfirst_reaching ys v k' -> k = k'.
Proof.
  intros NA NV [(y & A & B) C] [(y' & A' & B') C'].
  assert (ny : num y) by (apply NA; eapply nth_error_In; exact A). assert (ny' : num y') by (apply NA; eapply nth_error_In; exact A').
  apply dle_iff in B; auto. apply dle_iff in B'; auto.
  destruct (lt_eq_lt_dec k k') as [[H|H]|H]; [|exact H|]; exfalso.
  - specialize (C' k y H A). apply dlt_iff in C'; auto. lra.
  - specialize (C k' y' H A'). apply dlt_iff in C; auto. lra.
Qed.
Lemma dplateau_unique ys k m m' : (forall y, In y ys -> num y) -> dplateau_end ys k m -> dplateau_end ys k m' -> m = m'.
Proof.
  intros NA (y & z & A & B & C & D & E) (y' & z' & A' & B' & C' & D' & E').
  rewrite A in A'. injection A' as <-.
  assert (ny : num y) by (apply NA; eapply nth_error_In; exact A).
  assert (nz : num z) by (apply NA; eapply nth_error_In; exact B). assert (nz' : num z') by (apply NA; eapply nth_error_In; exact B').
  apply deq_iff in D; auto. apply deq_iff in D'; auto.
  destruct (lt_eq_lt_dec m m') as [[H|H]|H]; [|exact H|]; exfalso.
  - specialize (E m' z' H B'). apply dlt_iff in E; auto. lra.
  - specialize (E' m z H B). apply dlt_iff in E'; auto. lra.
Qed.

(** ** findMinInterval *)
Section MinInterval.
Variables (xs ys : list double) (rate y0 : double).
Let n := length xs.
Hypothesis L : length xs = length ys.
Hypothesis RX : drising xs.
Hypothesis FX : forall x, In x xs -> is_finite x = true.
Hypothesis RY : drising ys.
Hypothesis PY : forall y, In y ys -> dle d0 y = true.
Hypothesis FY : forall y, In y ys -> is_finite y = true.
Hypothesis Y0 : nth_error ys 0 = Some y0.
Hypothesis NR : num rate.
Hypothesis RP : 0 < ext rate.

Definition dcorr (i : nat) : double := if Nat.eqb i 0 then y0 else d0.
Definition denough (i j : nat) : Prop := exists yi yj, nth_error ys i = Some yi /\ nth_error ys j = Some yj /\ dle rate (dadd (dsub yj yi) (dcorr i)) = true.

Lemma xs_le i j a b : (i <= j)%nat -> nth_error xs i = Some a -> nth_error xs j = Some b -> ext a <= ext b.
Proof.
  intros H A B. destruct (Nat.eq_dec i j) as [->|N]; [rewrite A in B; injection B as <-; lra|].
  assert (D : dle a b = true) by (apply (RX i j); auto; lia). destruct (dle_nums _ _ D). apply dle_iff in D; auto.
Qed.
Lemma ys_pos i y : nth_error ys i = Some y -> is_finite y = true /\ 0 <= ext y.
Proof. intros H. pose proof (nth_error_In _ _ H) as I. split; [apply FY, I|]. apply le0, PY, I. Qed.
Lemma sub_fin (a b : double) : is_finite a = true -> is_finite b = true -> 0 <= ext a -> 0 <= ext b -> is_finite (dsub a b) = true /\ ext (dsub a b) = crd (ext a - ext b).
Proof.
  intros FA FB PA PB. destruct (dsub_ext a b FA FB) as [N E]. split; [|exact E]. apply dfinite_iff; [exact N|]. rewrite E.
  pose proof (dext_lt a FA). pose proof (dext_lt b FB).
  assert (crd (ext a - ext b) <= ext a) by (rewrite <- (crd_ext a) at 2; apply crd_mono; lra).
  assert (- ext b <= crd (ext a - ext b)). { rewrite <- (crd_ext b). rewrite <- crnd_opp. apply crd_mono. rewrite crd_ext. lra. }
  lra.
Qed.
Lemma dcorr_pos i : is_finite (dcorr i) = true /\ 0 <= ext (dcorr i).
Proof. unfold dcorr. destruct (Nat.eqb i 0); [apply (ys_pos 0 y0 Y0)|split; [reflexivity|]; rewrite ext_d0; lra]. Qed.
(** What the loop compares is a number. *)
Lemma held_num i yi yj j : nth_error ys i = Some yi -> nth_error ys j = Some yj -> num (dadd (dsub yj yi) (dcorr i)) /\
  ext (dadd (dsub yj yi) (dcorr i)) = crd (crd (ext yj - ext yi) + ext (dcorr i)).
Proof.
  intros A B. destruct (ys_pos _ _ A) as [FA PA]. destruct (ys_pos _ _ B) as [FB PB]. destruct (sub_fin yj yi FB FA PB PA) as [FS ES].
  destruct (dcorr_pos i) as [FC PC]. destruct (dadd_ext _ _ FS FC) as [N E]. split; [exact N|]. rewrite E, ES. reflexivity.
Qed.

Lemma denough_left i i' j : (i <= i')%nat -> denough i' j -> denough i j.
Proof.
  intros H (yi & yj & A & B & C). assert (I : (i < length ys)%nat) by (apply nth_lt in A; lia). destruct (nth_ok ys i I) as [u U].
  exists u, yj. split; [exact U|]. split; [exact B|].
  destruct (held_num i' yi yj j A B) as [N1 E1]. destruct (held_num i u yj j U B) as [N2 E2].
  apply dle_iff in C; auto. apply dle_iff; auto. apply Rle_trans with (1 := C). rewrite E1, E2.
  assert (U1 : ext u <= ext yi) by (apply (drising_le ys i i'); auto).
  apply crd_mono. apply Rplus_le_compat; [apply crd_mono; lra|].
  unfold dcorr. destruct (Nat.eqb_spec i 0) as [Z|Z]; destruct (Nat.eqb_spec i' 0) as [Z'|Z']; try lia; try lra.
  rewrite ext_d0. apply (ys_pos 0 y0 Y0).
Qed.
Lemma denough_gt i j : (1 <= i)%nat -> denough i j -> (i < j)%nat.
Proof.
  intros I (yi & yj & A & B & C). destruct (le_lt_dec j i) as [H|H]; [exfalso|exact H].
  destruct (held_num i yi yj j A B) as [N1 E1]. apply dle_iff in C; auto. rewrite E1 in C. unfold dcorr in C. destruct (Nat.eqb_spec i 0); [lia|].
  rewrite ext_d0, Rplus_0_r in C. assert (X : ext yj <= ext yi) by (apply (drising_le ys j i); auto).
  assert (Y : crd (crd (ext yj - ext yi)) <= 0). { rewrite <- crd_0. apply crd_mono. rewrite <- crd_0. apply crd_mono. lra. } lra.
Qed.

Lemma width_num a b i j : nth_error xs i = Some a -> nth_error xs j = Some b -> num (dsub b a) /\ ext (dsub b a) = crd (ext b - ext a).
Proof. intros A B. apply dsub_ext; apply FX; eapply nth_error_In; eassumption. Qed.

(** [w] bounds from below the widths of the pairs starting before [i]. *)
Definition dcovered (i : nat) (w : R) : Prop :=
  forall i' j' a b, (i' < i)%nat -> (i' < j')%nat -> denough i' j' -> nth_error xs i' = Some a -> nth_error xs j' = Some b -> w <= ext (dsub b a).
Definition dgood (bi bj : nat) : Prop := (bi < bj)%nat /\ (bj < n)%nat /\ (denough bi bj \/ (bi = 0 /\ bj = n - 1)%nat).
Definition dwidth (bi bj : nat) (w : R) : Prop := exists a b, nth_error xs bi = Some a /\ nth_error xs bj = Some b /\ w = ext (dsub b a).

Lemma dmin_loop_spec : forall todo i j bi bj w,
  todo = (n - i)%nat -> (i <= n)%nat -> (j <= n)%nat -> ((i < j)%nat \/ (i = j /\ 1 <= i)%nat) ->
  (forall j', (i < j' < j)%nat -> ~ denough i j') ->
  dgood bi bj -> dwidth bi bj w -> dcovered i w ->
  exists ri rj v, dmin_loop xs ys rate todo i j (dcorr i) bi bj = Ok (ri, rj) /\ dgood ri rj /\ dwidth ri rj v /\ dcovered n v.
Proof.
  induction todo as [|t IH]; intros i j bi bj w T I J IJ F G W C.
  - exists bi, bj, w. split; [reflexivity|]. split; [exact G|]. split; [exact W|]. replace n with i by lia. exact C.
  - cbn [dmin_loop]. destruct (nth_ok ys i) as [yi Yi]; [unfold n in *; lia|]. unfold at_. rewrite Yi. cbn [of_option bind].
    destruct (count_while_spec (fun y => dlt (dadd (dsub y yi) (dcorr i)) rate) (skipn j ys)) as (K1 & K2 & K3).
    set (q := count_while _ (skipn j ys)) in *. rewrite skipn_length in K1. set (j1 := (j + q)%nat) in *.
    assert (J1 : (j1 <= n)%nat) by (unfold j1, n in *; lia).
    assert (F1 : forall j', (i < j' < j1)%nat -> ~ denough i j').
    { intros j' H E. destruct (le_lt_dec j j') as [Hj|Hj]; [|apply (F j'); [lia|exact E]].
      destruct E as (a & b & A & B & D). rewrite Yi in A. injection A as <-.
      specialize (K2 (j' - j)%nat b ltac:(unfold j1 in H; lia)). rewrite nth_error_skipn in K2. replace (j + (j' - j))%nat with j' in K2 by lia.
      specialize (K2 B). destruct (held_num i yi b j' Yi B) as [N1 _]. apply dlt_iff in K2; auto. apply dle_iff in D; auto. lra. }
    destruct (Nat.eqb_spec j1 (length xs)) as [E|E].
    + exists bi, bj, w. split; [reflexivity|]. split; [exact G|]. split; [exact W|].
      intros i' j' a b H1 H2 H3 A B. destruct (le_lt_dec i i') as [Hi|Hi]; [exfalso|apply (C i' j' a b); auto].
      apply (F1 j'). { split; [lia|]. apply nth_lt in B. unfold n in *; lia. } apply (denough_left i i'); auto.
    + assert (J2 : (j1 < n)%nat) by (unfold n in *; lia).
      destruct (nth_ok ys j1) as [yj Yj]; [unfold n in *; lia|].
      assert (EN : denough i j1).
      { exists yi, yj. split; [exact Yi|]. split; [exact Yj|]. specialize (K3 yj). rewrite nth_error_skipn in K3.
        specialize (K3 Yj). destruct (held_num i yi yj j1 Yi Yj) as [N1 _]. apply dlt_no in K3; auto. apply dle_iff; auto. }
      assert (IJ1 : (i < j1)%nat). { destruct IJ as [IJ|[_ IJ]]; [unfold j1; lia|]. apply denough_gt; auto. }
      destruct (nth_ok xs i) as [xi Xi]; [unfold n in *; lia|]. destruct (nth_ok xs j1 J2) as [xj Xj].
      destruct W as (lo & hi & Lo & Hi & We). rewrite Xi, Xj, Lo, Hi. cbn [of_option bind].
      destruct (width_num _ _ _ _ Xi Xj) as [NW EW]. destruct (width_num _ _ _ _ Lo Hi) as [NH EH].
      assert (CI : forall v, v <= w -> v <= ext (dsub xj xi) -> dcovered (S i) v).
      { intros v V1 V2 i' j' a b H1 H2 H3 A B. destruct (Nat.eq_dec i' i) as [->|Ni].
        - rewrite Xi in A. injection A as <-. destruct (le_lt_dec j1 j') as [Hj|Hj].
          + assert (X : ext xj <= ext b) by (apply (xs_le j1 j'); auto). destruct (width_num _ _ _ _ Xi B) as [_ EB]. rewrite EB.
            apply Rle_trans with (1 := V2). rewrite EW. apply crd_mono. lra.
          + exfalso. apply (F1 j'); auto.
        - assert (w <= ext (dsub b a)) by (apply (C i' j' a b); auto; lia). lra. }
      assert (FN : forall j', (S i < j' < j1)%nat -> ~ denough (S i) j').
      { intros j' H X. apply (F1 j' ltac:(lia)). apply (denough_left i (S i)); auto. }
      destruct (dle (dsub xj xi) (dsub hi lo)) eqn:QE.
      * apply dle_iff in QE; auto. apply (IH (S i) j1 i j1 (ext (dsub xj xi))); auto; try lia.
        -- split; [exact IJ1|]. split; [exact J2|left; exact EN].
        -- exists xi, xj. split; [exact Xi|]. split; [exact Xj|reflexivity].
        -- apply CI; lra.
      * apply dle_no in QE; auto. apply (IH (S i) j1 bi bj w); auto; try lia.
        -- exists lo, hi. auto.
        -- apply CI; lra.
Qed.
End MinInterval.

Lemma cum_finite c total : is_dcumulative c total -> is_finite total = true -> forall y, In y (d_y c) -> is_finite y = true.
Proof.
  intros IC F y H. apply In_nth_error in H. destruct H as [i H]. destruct (cum_nums c total IC i y H) as [N P]. pose proof (dext_lt total F). pose proof MX_big.
  apply dfinite_iff; auto. lra.
Qed.
Lemma dfind_min_interval_spec c total rate : is_dcumulative c total -> is_finite total = true -> drising (d_x c) -> (forall x, In x (d_x c) -> is_finite x = true) ->
  (2 <= length (d_x c))%nat -> dlt d0 rate = true -> dle rate d1 = true -> dlt d0 (dmul rate total) = true ->
  exists i j lo hi, dfind_min_interval c rate = Ok (lo, hi) /\ (i < j)%nat /\
    nth_error (d_x c) i = Some lo /\ nth_error (d_x c) j = Some hi /\
    (dholds c i j (dmul rate total) \/ (i = 0 /\ j = length (d_x c) - 1)%nat) /\
    forall i' j' a b, (i' < j')%nat -> nth_error (d_x c) i' = Some a -> nth_error (d_x c) j' = Some b -> dholds c i' j' (dmul rate total) -> dle (dsub hi lo) (dsub b a) = true.
Proof.
  intros IC FT RX FX N R0 R1 RP. pose proof IC as (L & RY & P & T). unfold dfind_min_interval.
  destruct (dlt_nums _ _ R0) as [_ NRt]. destruct (dlt_nums _ _ RP) as [_ NV].
  pose proof R0 as R0'. apply dlt_iff in R0'; auto using num_d0. pose proof R1 as R1'. apply dle_iff in R1'; auto using num_d1. apply dlt_iff in RP; auto using num_d0. rewrite ext_d0 in *. rewrite ext_d1 in *.
  destruct (dlt d1 rate) eqn:E1; [apply dlt_iff in E1; auto using num_d1; rewrite ext_d1 in E1; lra|].
  destruct (dle rate d0) eqn:E2; [apply dle_iff in E2; auto using num_d0; rewrite ext_d0 in E2; lra|]. cbn [orb].
  rewrite (back_last _ _ T). cbn [bind]. destruct (nth_ok (d_y c) 0 ltac:(lia)) as [y0 Y0].
  assert (FR : front (d_y c) = Ok y0) by (destruct (d_y c); [discriminate|cbn in *; congruence]). rewrite FR. cbn [bind].
  destruct (nth_ok (d_x c) 0 ltac:(lia)) as [x0 X0]. destruct (nth_ok (d_x c) (length (d_x c) - 1) ltac:(lia)) as [xn Xn].
  assert (HE : forall i j, dholds c i j (dmul rate total) <-> denough (d_y c) (dmul rate total) y0 i j).
  { intros i j. unfold dholds, denough, dcorr. split.
    - intros (yi & yj & z & A & B & C & D). rewrite Y0 in C. injection C as <-. exists yi, yj. auto.
    - intros (yi & yj & A & B & D). exists yi, yj, y0. auto. }
  pose proof (cum_finite c total IC FT) as FY.
  destruct (dmin_loop_spec (d_x c) (d_y c) (dmul rate total) y0 L RX FX RY P FY Y0 NV RP (length (d_x c)) 0 1 0 (length (d_x c) - 1) (ext (dsub xn x0))) as (ri & rj & v & E & (G1 & G2 & G3) & W & C); auto; try lia.
  - split; [lia|]. split; [lia|]. right. split; reflexivity.
  - exists x0, xn. split; [exact X0|]. split; [exact Xn|reflexivity].
  - intros i' j' a b H. lia.
  - change (dcorr y0 0) with y0 in E. rewrite E. cbn [bind fst snd]. destruct W as (lo & hi & Lo & Hi & We).
    unfold at_. rewrite Lo, Hi. cbn [of_option bind]. exists ri, rj, lo, hi. split; [reflexivity|]. split; [exact G1|].
    split; [exact Lo|]. split; [exact Hi|]. split; [destruct G3 as [G3|G3]; [left; apply HE; exact G3|right; exact G3]|].
    intros i' j' a b H A B Hh. apply HE in Hh. pose proof (nth_lt _ _ _ A) as IL.
    specialize (C i' j' a b IL H Hh A B). destruct (width_num _ FX _ _ _ _ A B) as [NB _]. destruct (width_num _ FX _ _ _ _ Lo Hi) as [NW _]. apply dle_iff; auto. lra.
Qed.

(** ** Normalizing *)
Lemma one_unique (x : double) : num x -> ext x = 1 -> x = d1.
Proof.
  intros N E. pose proof MX_big. assert (F : is_finite x = true) by (apply dfinite_iff; auto; lra). rewrite dext_finite in E by exact F.
  apply (B2R_inj 53 1024); [destruct x as [s|s| |s m e H']; try discriminate F; [cbn in E; lra|reflexivity]|reflexivity|].
  rewrite E, <- ext_d1, dext_finite by reflexivity. reflexivity.
Qed.
Lemma div_total (total y : double) : is_finite total = true -> 0 < ext total -> num y -> 0 <= ext y <= ext total ->
  num (ddiv y total) /\ ext (ddiv y total) = crd (ext y / ext total) /\ 0 <= ext (ddiv y total) <= 1.
Proof.
  intros FT PT NY B. pose proof (dext_lt total FT) as BT. assert (FY : is_finite y = true) by (apply dfinite_iff; auto; pose proof MX_big; lra).
  destruct (ddiv_ext y total FY FT ltac:(lra)) as [N E]. split; [exact N|]. split; [exact E|]. rewrite E.
  assert (D : 0 <= ext y / ext total <= 1).
  { split; [apply Rmult_le_pos; [lra|left; apply Rinv_0_lt_compat; lra]|]. apply Rmult_le_reg_r with (ext total); [exact PT|]. unfold Rdiv. rewrite Rmult_assoc, Rinv_l by lra. lra. }
  split; [apply crd_nonneg; lra|]. rewrite <- crd_1. apply crd_mono. lra.
Qed.
Lemma dnormalize_spec c total : is_dcumulative c total -> is_finite total = true -> dlt d0 total = true ->
  exists c', dnormalize c = Ok c' /\ d_x c' = d_x c /\ d_y c' = map (fun y => ddiv y total) (d_y c) /\
    is_dcumulative c' d1.
Proof.
  intros IC FT TP. pose proof IC as (L & RY & P & T). apply dlt_iff in TP; [|apply num_d0|apply dfinite_num; exact FT]. rewrite ext_d0 in TP.
  unfold dnormalize. rewrite (back_last _ _ T). cbn [bind]. eexists. split; [reflexivity|]. cbn [d_x d_y]. split; [reflexivity|]. split; [reflexivity|].
  unfold is_dcumulative. cbn [d_x d_y]. rewrite map_length. split; [exact L|]. split.
  { intros i j a b H A B. rewrite nth_error_map in A, B. destruct (nth_error (d_y c) i) as [u|] eqn:U; [|discriminate]. destruct (nth_error (d_y c) j) as [v|] eqn:V; [|discriminate].
    cbn in A, B. injection A as <-. injection B as <-. destruct (cum_nums c total IC _ _ U) as [NU BU]. destruct (cum_nums c total IC _ _ V) as [NV BV].
    destruct (div_total total u FT TP NU BU) as (N1 & E1 & _). destruct (div_total total v FT TP NV BV) as (N2 & E2 & _).
    apply dle_iff; auto. rewrite E1, E2. apply crd_mono. apply Rmult_le_compat_r; [left; apply Rinv_0_lt_compat; exact TP|]. apply (drising_le (d_y c) i j); auto. lia. }
  split.
  { intros y Hy. apply in_map_iff in Hy. destruct Hy as (u & <- & Hu). apply In_nth_error in Hu. destruct Hu as [i U]. destruct (cum_nums c total IC _ _ U) as [NU BU].
    destruct (div_total total u FT TP NU BU) as (N1 & E1 & B1). apply dle_iff; auto using num_d0. rewrite ext_d0. lra. }
  rewrite nth_error_map, T. cbn [option_map]. f_equal. destruct (cum_nums c total IC _ _ T) as [NU BU]. destruct (div_total total total FT TP NU BU) as (N1 & E1 & B1).
  apply one_unique; [exact N1|]. rewrite E1. unfold Rdiv. rewrite Rinv_r by lra. apply crd_1.
Qed.

(** ** Discrete sampling *)
Lemma dsums_length pdf : length (dsums pdf) = length pdf.
Proof. destruct pdf; [reflexivity|]. cbn [dsums length]. rewrite drunning_length. reflexivity. Qed.
Lemma dsums_cum pdf total : (forall p, In p pdf -> dle d0 p = true) -> nth_error (dsums pdf) (length pdf - 1) = Some total -> is_dcumulative (mkD (dsums pdf) (dsums pdf)) total.
Proof.
  intros P T. split; [reflexivity|]. cbn [d_y]. destruct pdf as [|p r]; [discriminate|]. destruct (le0 p (P p (or_introl eq_refl))) as [NP PP].
  assert (P' : forall q, In q r -> dle d0 q = true) by (intros; apply P; right; auto).
  split; [|split].
  - intros [|i] [|j] a b H A B; try lia; cbn [dsums nth_error] in A, B.
    + injection A as <-. destruct (drunning_from r P' p NP PP j b B) as [N G]. apply dle_iff; auto.
    + apply (drunning_rising r P' p NP PP i j a b); auto. lia.
  - intros y H. apply In_nth_error in H. destruct H as [[|i] H]; cbn [dsums nth_error] in H.
    + injection H as <-. apply P. left. reflexivity.
    + destruct (drunning_from r P' p NP PP i y H) as [N G]. apply dle_iff; auto using num_d0. rewrite ext_d0. lra.
  - rewrite dsums_length. exact T.
Qed.
Lemma dinverse_spec pdf total : (forall p, In p pdf -> dle d0 p = true) -> nth_error (dsums pdf) (length pdf - 1) = Some total -> is_finite total = true -> dlt d0 total = true ->
  dinverse_cdf pdf = map (fun v => ddiv v total) (dsums pdf) /\ is_dcumulative (mkD (dsums pdf) (dinverse_cdf pdf)) d1.
Proof.
  intros P T FT TP. pose proof (dsums_cum pdf total P T) as IC. assert (E : dinverse_cdf pdf = map (fun v => ddiv v total) (dsums pdf)).
  { unfold dinverse_cdf. assert (B : back (dsums pdf) = Ok total) by (apply back_last; rewrite dsums_length; exact T). destruct (dsums pdf) as [|s r]; [reflexivity|].
    unfold back in B. assert (X : last (s :: r) s = total) by congruence. rewrite X. reflexivity. }
  split; [exact E|]. destruct (dnormalize_spec _ total IC FT TP) as (c' & E' & EX & EY & IC'). rewrite E. cbn [d_x d_y] in *. rewrite <- EY. destruct c' as [cx cy]. cbn [d_x d_y] in *. subst cx. exact IC'.
Qed.
Lemma dsums_step pdf i a b q : nth_error (dsums pdf) i = Some a -> nth_error (dsums pdf) (S i) = Some b -> nth_error pdf (S i) = Some q -> b = dadd a q.
Proof.
  destruct pdf as [|p r]; [destruct i; discriminate|]. cbn [dsums nth_error]. revert p i. induction r as [|x r IH]; intros p i A B C; [destruct i; discriminate|].
  destruct i as [|i]; cbn [drunning nth_error] in *; [congruence|]. apply (IH (dadd p x) i); auto.
Qed.
Lemma drunning_last l : forall t, nth_error (t :: drunning t l) (length l) = Some (fold_left dadd l t).
Proof. induction l as [|p l IH]; intros t; [reflexivity|]. apply (IH (dadd t p)). Qed.
Lemma dsums_total pdf : pdf <> [] -> nth_error (dsums pdf) (length pdf - 1) = Some (dtotal pdf).
Proof. destruct pdf as [|p r]; [congruence|]. intros _. cbn [length dtotal dsums]. replace (S (length r) - 1)%nat with (length r) by lia. apply drunning_last. Qed.
