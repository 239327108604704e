(** The rounding errors of the areas and means of modes in double precision. *)
From Coq Require Import ZArith Reals List Arith Bool Lia Lra Psatz.
From Flocq Require Import Core IEEE754.BinarySingleNaN.
From Verif Require Import Common FloatModel FloatProofs DoubleProofs DoubleProofs2 DInterpModel DInterpSpec DInterpProofs DInterpProofs2
  DSOMProofs DSOMProofs2 DSplineModel DSplineSpec DSplineProofs DSplineProofs2 DSplineProofs3 DSplineProofs4 DPieceSpec DPieceProofs DPieceProofs2 DModeModel DModeSpec DModeProofs.
Import ListNotations.
Local Open Scope R_scope.

Ltac nr := apply near_refl; first [apply Rle_refl | rewrite Rabs_R0; lra | rewrite Rabs_pos_eq; lra].
Lemma sub_exact_near (a b : double) : is_finite (dsub b a) = true -> near 1 (Rabs (B2R b - B2R a)) (B2R b - B2R a) (B2R (dsub b a)).
Proof.
  intros F. destruct (fin_sub _ _ F) as [FB FA]. destruct (sub_rel b a FB FA F) as (e & E & R). unfold near. rewrite R, gam_1.
  replace ((B2R b - B2R a) * (1 + e) - (B2R b - B2R a)) with (e * (B2R b - B2R a)) by ring. rewrite Rabs_mult. apply Rmult_le_compat_r; [apply Rabs_pos|exact E].
Qed.
Lemma pdf_lt xs ys i j : is_dpdf xs ys -> (i < j)%nat -> (j < length xs)%nat -> B2R (dval xs i) < B2R (dval xs j).
Proof.
  intros (LE & L3 & FX & SR & P) A B. specialize (SR i j A B). destruct (dlt_nums _ _ SR) as [NA NB]. apply dlt_iff in SR; auto.
  rewrite !dext_finite in SR by (apply FX, val_in; lia). exact SR.
Qed.
Lemma pdf_le xs ys i j : is_dpdf xs ys -> (i <= j)%nat -> (j < length xs)%nat -> B2R (dval xs i) <= B2R (dval xs j).
Proof. intros I A B. destruct (Nat.eq_dec i j) as [->|]; [lra|]. apply Rlt_le, (pdf_lt xs ys); auto; lia. Qed.
Lemma width_pos xs ys i : is_dpdf xs ys -> (i < length xs)%nat -> 0 < width xs i.
Proof.
  intros I H. pose proof I as (_ & L3 & _). unfold width. destruct (Nat.eqb i 0) eqn:E0; [|apply Nat.eqb_neq in E0; destruct (Nat.eqb i (length xs - 1)) eqn:E1].
  - pose proof (pdf_lt xs ys 0 1 I). specialize (H0 ltac:(lia) ltac:(lia)). lra.
  - pose proof (pdf_lt xs ys (i - 1) i I ltac:(lia) H). lra.
  - apply Nat.eqb_neq in E1. pose proof (pdf_lt xs ys (i - 1) (i + 1) I ltac:(lia) ltac:(lia)). lra.
Qed.
Lemma val_pos xs ys i : is_dpdf xs ys -> is_finite (dval ys i) = true -> (i < length ys)%nat -> 0 <= B2R (dval ys i).
Proof.
  intros (LE & L3 & FX & SR & P) F H. specialize (P _ (val_in ys i H)). destruct (dle_nums _ _ P) as [NA NB]. apply dle_iff in P; auto.
  rewrite ext_d0, (dext_finite _ F) in P. exact P.
Qed.
Lemma tiny_up r : not_tiny r -> r <> 0 -> bpow radix2 (-1000) <= Rabs r.
Proof. intros [H|H] N; [contradiction|exact H]. Qed.
Lemma low_1000 c : / 4 <= c -> bpow radix2 (-1022) <= c * bpow radix2 (-1000).
Proof.
  intros H. apply Rle_trans with (bpow radix2 (-2) * bpow radix2 (-1000)); [rewrite <- bpow_plus; apply bpow_le; lia|].
  apply Rmult_le_compat_r; [apply bpow_ge_0|]. change (bpow radix2 (-2)) with (/ 4). exact H.
Qed.
Lemma cell_near xs ys i : is_dpdf xs ys -> (i < length xs)%nat -> is_finite (dcell xs i) = true -> not_tiny (width xs i) ->
  near 2 (width xs i) (width xs i) (B2R (dcell xs i)).
Proof.
  intros I H F T. pose proof (width_pos xs ys i I H) as W. apply tiny_up in T; [|lra]. rewrite Rabs_pos_eq in T by lra.
  assert (EA : Rabs (width xs i) = width xs i) by (apply Rabs_pos_eq; lra).
  rewrite <- EA at 1. unfold width, dcell in *. destruct (Nat.eqb i 0); [|destruct (Nat.eqb i (length xs - 1))].
  - apply (near_more 1); [lia|apply Rabs_pos|]. apply sub_exact_near, F.
  - apply (near_more 1); [lia|apply Rabs_pos|]. apply sub_exact_near, F.
  - change (d2 1 1) with dtwo in *. pose proof (fin_div _ _ F) as F1. pose proof (sub_exact_near _ _ F1) as S1.
    set (r := B2R (dval xs (i + 1)) - B2R (dval xs (i - 1))) in *. set (s := dsub (dval xs (i + 1)) (dval xs (i - 1))) in *. clearbody r s.
    pose proof (div_near 1 0 (Rabs r) s dtwo r 2 F eq_refl ltac:(lra) ltac:(lia) (Rle_refl _) S1) as D.
    replace (Rabs (r / 2)) with (Rabs r * / Rabs 2). 2:{ unfold Rdiv. rewrite Rabs_mult, Rabs_inv. reflexivity. }
    apply D; [rewrite B2R_dtwo; nr|]. right. rewrite B2R_dtwo. unfold Rdiv in *. rewrite Rabs_mult, (Rabs_pos_eq (/ 2)) by lra.
    pose proof (near_below 1 r (B2R s) ltac:(lia) S1) as NB. assert (R0 : 0 < r) by lra. rewrite (Rabs_pos_eq r) in NB by lra.
    pose proof (low_1000 1 ltac:(lra)). pose proof (low_1000 (/ 2) ltac:(lra)). lra.
Qed.

(** Sums of terms known up to m roundings *)
Lemma fold_fin : forall l (s : double), is_finite (fold_left dadd l s) = true -> is_finite s = true /\ forall x, In x l -> is_finite x = true.
Proof.
  induction l as [|a l IH]; intros s F; cbn [fold_left] in F; [split; [exact F|intros x []]|].
  destruct (IH _ F) as [F1 F2]. destruct (fin_add _ _ F1) as [F3 F4]. split; [exact F3|]. intros x [<-|X]; auto.
Qed.
Lemma fold_near (g : nat -> double) (e t : nat -> R) m : forall l (s : double) S r k, is_finite (fold_left dadd (map g l) s) = true -> Rabs r <= S -> near (m + k) S r (B2R s) ->
  (forall i, In i l -> Rabs (e i) <= t i /\ near m (t i) (e i) (B2R (g i))) ->
  near (m + k + length l) (S + rtotal (map t l)) (r + rtotal (map e l)) (B2R (fold_left dadd (map g l) s)).
Proof.
  induction l as [|i l IH]; intros s S r k F A B T.
  - cbn. rewrite !Rplus_0_r, Nat.add_0_r. exact B.
  - cbn [map fold_left rtotal fold_right length] in *. destruct (T i (or_introl eq_refl)) as [T1 T2]. destruct (fold_fin _ _ F) as [F1 _].
    fold (rtotal (map t l)). fold (rtotal (map e l)). rewrite <- !Rplus_assoc. replace (m + k + Datatypes.S (length l))%nat with (m + Datatypes.S k + length l)%nat by lia.
    apply IH; [exact F| |replace (m + Datatypes.S k)%nat with (Datatypes.S (m + k)) by lia|intros j J; apply T; right; exact J].
    + pose proof (Rabs_triang r (e i)). lra.
    + apply add_near; [exact F1|exact A|exact T1|exact B|]. apply (near_more m); [lia| |exact T2]. pose proof (Rabs_pos (e i)). lra.
Qed.
Lemma total_near (g : nat -> double) (e t : nat -> R) m l : is_finite (dtotal (map g l)) = true ->
  (forall i, In i l -> Rabs (e i) <= t i /\ near m (t i) (e i) (B2R (g i))) ->
  near (m + length l) (rtotal (map t l)) (rtotal (map e l)) (B2R (dtotal (map g l))).
Proof.
  intros F T. pose proof (fold_near g e t m l (d2 0 0) 0 0 0 F) as N. rewrite Nat.add_0_r, !Rplus_0_l in N. apply N; [rewrite Rabs_R0; lra| |exact T].
  replace (B2R (d2 0 0)) with 0. 2:{ change (d2 0 0) with d0. rewrite <- (dext_finite d0 eq_refl), ext_d0. reflexivity. } nr.
Qed.
Lemma rtotal_ext (f g : nat -> R) l : (forall i, In i l -> f i = g i) -> rtotal (map f l) = rtotal (map g l).
Proof. induction l as [|a l IH]; intros H; [reflexivity|]. cbn. rewrite H by (left; reflexivity). f_equal. apply IH. intros; apply H; right; assumption. Qed.
Lemma rtotal_le (f g : nat -> R) l : (forall i, In i l -> f i <= g i) -> rtotal (map f l) <= rtotal (map g l).
Proof. induction l as [|a l IH]; intros H; [cbn; lra|]. cbn. pose proof (H a (or_introl eq_refl)). specialize (IH (fun i X => H i (or_intror X))). unfold rtotal in IH. lra. Qed.
Lemma rtotal_nonneg (f : nat -> R) l : (forall i, In i l -> 0 <= f i) -> 0 <= rtotal (map f l).
Proof. induction l as [|a l IH]; intros H; [cbn; lra|]. cbn. pose proof (H a (or_introl eq_refl)). specialize (IH (fun i X => H i (or_intror X))). unfold rtotal in IH. lra. Qed.
Lemma rtotal_scale (f : nat -> R) k l : rtotal (map (fun i => k * f i) l) = k * rtotal (map f l).
Proof. induction l as [|a l IH]; [cbn; ring|]. cbn. unfold rtotal in IH. rewrite IH. ring. Qed.
Lemma rtotal_member (f : nat -> R) l i : (forall i, In i l -> 0 <= f i) -> In i l -> f i <= rtotal (map f l).
Proof.
  induction l as [|a l IH]; intros H [].
  - subst a. cbn. pose proof (rtotal_nonneg f l (fun i X => H i (or_intror X))). unfold rtotal in H0. lra.
  - cbn. specialize (IH (fun i X => H i (or_intror X)) H0). pose proof (H a (or_introl eq_refl)). unfold rtotal in IH. lra.
Qed.
Lemma in_range lo hi i : In i (seq lo (hi + 1 - lo)) -> (lo <= i <= hi)%nat.
Proof. intros H. apply in_seq in H. lia. Qed.

Lemma product_low n r r' : (Z.of_nat n <= 2 ^ 51)%Z -> not_tiny r -> near n (Rabs r) r r' -> r' = 0 \/ bpow radix2 (-1022) <= Rabs r'.
Proof.
  intros H [->|T] N; [left; apply (near_zero n), N|right]. pose proof (near_below n r r' H N). pose proof (low_1000 (/ 2) ltac:(lra)). lra.
Qed.
Lemma area_term xs ys i : is_dpdf xs ys -> (i < length xs)%nat -> is_finite (dmul (dval ys i) (dcell xs i)) = true -> not_tiny (width xs i) -> not_tiny (B2R (dval ys i) * width xs i) ->
  Rabs (B2R (dval ys i) * width xs i) <= B2R (dval ys i) * width xs i /\
  near 3 (B2R (dval ys i) * width xs i) (B2R (dval ys i) * width xs i) (B2R (dmul (dval ys i) (dcell xs i))).
Proof.
  intros I H F T1 T2. destruct (fin_mul _ _ F) as [FY FC]. pose proof I as (LE & _). pose proof (val_pos xs ys i I FY ltac:(lia)) as Y. pose proof (width_pos xs ys i I H) as W.
  pose proof (cell_near xs ys i I H FC T1) as CN. assert (P : 0 <= B2R (dval ys i) * width xs i) by (apply Rmult_le_pos; lra).
  split; [rewrite Rabs_pos_eq; lra|]. apply (mul_near 0 2); [exact F|rewrite Rabs_pos_eq; lra|rewrite Rabs_pos_eq; lra|nr|exact CN|].
  apply (product_low 2 (B2R (dval ys i) * width xs i)); [lia|exact T2|]. rewrite Rabs_pos_eq by lra.
  apply (near_mul 0 2); [rewrite Rabs_pos_eq; lra|rewrite Rabs_pos_eq; lra|nr|exact CN].
Qed.
Lemma area_near xs ys lo hi : is_dpdf xs ys -> (lo <= hi)%nat -> (hi < length xs)%nat -> is_finite (darea_between xs ys lo hi) = true -> area_not_tiny xs ys lo hi ->
  near (hi - lo + 4) (true_area xs ys lo hi) (true_area xs ys lo hi) (B2R (darea_between xs ys lo hi)).
Proof.
  intros I L H F T. unfold darea_between in *. destruct (fold_fin _ _ F) as [_ FT].
  pose proof (total_near (fun i => dmul (dval ys i) (dcell xs i)) (fun i => B2R (dval ys i) * width xs i) (fun i => B2R (dval ys i) * width xs i) 3 _ F) as N.
  rewrite seq_length in N. replace (hi - lo + 4)%nat with (3 + (hi + 1 - lo))%nat by lia. apply N. intros i Hi. pose proof (in_range _ _ _ Hi) as R. destruct (T i R) as [T1 T2].
  apply area_term; auto; [lia|]. apply FT. apply (in_map (fun i => dmul (dval ys i) (dcell xs i))), Hi.
Qed.
Lemma area_real_nonneg xs ys lo hi : is_dpdf xs ys -> (hi < length xs)%nat -> is_finite (darea_between xs ys lo hi) = true -> 0 <= true_area xs ys lo hi.
Proof.
  intros I H F. apply rtotal_nonneg. intros i Hi. unfold darea_between in F. destruct (fold_fin _ _ F) as [_ FT]. pose proof (in_range _ _ _ Hi) as R.
  specialize (FT _ (in_map (fun i => dmul (dval ys i) (dcell xs i)) _ _ Hi)). destruct (fin_mul _ _ FT) as [FY _]. pose proof I as (LE & _).
  pose proof (val_pos xs ys i I FY ltac:(lia)). pose proof (width_pos xs ys i I ltac:(lia)). apply Rmult_le_pos; lra.
Qed.

Lemma moment_term xs ys i : is_dpdf xs ys -> (i < length xs)%nat -> is_finite (dmul (dmul (dval xs i) (dval ys i)) (dcell xs i)) = true ->
  not_tiny (width xs i) -> not_tiny (B2R (dval xs i) * B2R (dval ys i)) -> not_tiny (B2R (dval xs i) * B2R (dval ys i) * width xs i) ->
  Rabs (B2R (dval xs i) * B2R (dval ys i) * width xs i) <= Rabs (B2R (dval xs i)) * B2R (dval ys i) * width xs i /\
  near 4 (Rabs (B2R (dval xs i)) * B2R (dval ys i) * width xs i) (B2R (dval xs i) * B2R (dval ys i) * width xs i) (B2R (dmul (dmul (dval xs i) (dval ys i)) (dcell xs i))).
Proof.
  intros I H F T1 T2 T3. destruct (fin_mul _ _ F) as [FP FC]. destruct (fin_mul _ _ FP) as [FX FY]. pose proof I as (LE & _). pose proof (val_pos xs ys i I FY ltac:(lia)) as Y. pose proof (width_pos xs ys i I H) as W.
  pose proof (cell_near xs ys i I H FC T1) as CN.
  assert (P1 : Rabs (B2R (dval xs i) * B2R (dval ys i)) = Rabs (B2R (dval xs i)) * B2R (dval ys i)) by (rewrite Rabs_mult, (Rabs_pos_eq (B2R (dval ys i))) by lra; reflexivity).
  assert (P2 : Rabs (B2R (dval xs i) * B2R (dval ys i) * width xs i) = Rabs (B2R (dval xs i)) * B2R (dval ys i) * width xs i) by (rewrite Rabs_mult, P1, (Rabs_pos_eq (width xs i)) by lra; reflexivity).
  assert (N1 : near 1 (Rabs (B2R (dval xs i)) * B2R (dval ys i)) (B2R (dval xs i) * B2R (dval ys i)) (B2R (dmul (dval xs i) (dval ys i)))).
  { apply (mul_near 0 0); [exact FP|lra|rewrite Rabs_pos_eq; lra|nr|nr|]. apply (product_low 0 (B2R (dval xs i) * B2R (dval ys i))); [lia|exact T2|nr]. }
  split; [rewrite P2; lra|]. apply (mul_near 1 2); [exact F|rewrite P1; lra|rewrite Rabs_pos_eq; lra|exact N1|exact CN|].
  apply (product_low 3 (B2R (dval xs i) * B2R (dval ys i) * width xs i)); [lia|exact T3|]. rewrite P2.
  apply (near_mul 1 2); [rewrite P1; lra|rewrite Rabs_pos_eq; lra|exact N1|exact CN].
Qed.
Lemma moment_near xs ys lo hi : is_dpdf xs ys -> (lo <= hi)%nat -> (hi < length xs)%nat -> is_finite (dmoment_between xs ys lo hi) = true -> area_not_tiny xs ys lo hi -> moment_not_tiny xs ys lo hi ->
  near (hi - lo + 5) (moment_size xs ys lo hi) (true_moment xs ys lo hi) (B2R (dmoment_between xs ys lo hi)) /\ Rabs (true_moment xs ys lo hi) <= moment_size xs ys lo hi.
Proof.
  intros I L H F T M. unfold dmoment_between in *. destruct (fold_fin _ _ F) as [_ FT].
  assert (TT : forall i, In i (seq lo (hi + 1 - lo)) -> Rabs (B2R (dval xs i) * B2R (dval ys i) * width xs i) <= Rabs (B2R (dval xs i)) * B2R (dval ys i) * width xs i /\
    near 4 (Rabs (B2R (dval xs i)) * B2R (dval ys i) * width xs i) (B2R (dval xs i) * B2R (dval ys i) * width xs i) (B2R (dmul (dmul (dval xs i) (dval ys i)) (dcell xs i)))).
  { intros i Hi. pose proof (in_range _ _ _ Hi) as R. destruct (T i R) as [T1 _]. destruct (M i R) as [T2 T3].
    apply moment_term; auto; [lia|]. apply FT. apply (in_map (fun i => dmul (dmul (dval xs i) (dval ys i)) (dcell xs i))), Hi. }
  split.
  - pose proof (total_near (fun i => dmul (dmul (dval xs i) (dval ys i)) (dcell xs i)) (fun i => B2R (dval xs i) * B2R (dval ys i) * width xs i) (fun i => Rabs (B2R (dval xs i)) * B2R (dval ys i) * width xs i) 4 _ F TT) as N.
    rewrite seq_length in N. replace (hi - lo + 5)%nat with (4 + (hi + 1 - lo))%nat by lia. exact N.
  - unfold true_moment, moment_size. clear - TT. induction (seq lo (hi + 1 - lo)) as [|a l IH]; [cbn; rewrite Rabs_R0; lra|]. cbn.
    apply Rle_trans with (1 := Rabs_triang _ _). apply Rplus_le_compat; [apply TT; left; reflexivity|apply IH; intros; apply TT; right; assumption].
Qed.
Lemma div_pad_long n m S (a b : double) ra rb : is_finite (ddiv a b) = true -> is_finite b = true -> rb <> 0 -> (Z.of_nat m <= 2 ^ 51)%Z -> Rabs ra <= S ->
  near n S ra (B2R a) -> near m (Rabs rb) rb (B2R b) -> bpow radix2 (-1022) <= S * / Rabs rb ->
  near (Datatypes.S (n + 2 * m)) (S * / Rabs rb) (ra / rb) (B2R (ddiv a b)).
Proof.
  intros F FB NB Hm A NA N P. pose proof (fin_div a b F) as FA.
  assert (B0 : B2R b <> 0). { intro E. pose proof (near_below m rb (B2R b) Hm N) as B. rewrite E, Rabs_R0 in B. pose proof (Rabs_pos_lt rb NB). lra. }
  assert (EB : ext b <> 0) by (rewrite (dext_finite b FB); exact B0). destruct (ddiv_ext a b FA FB EB) as [_ E].
  apply (finite_rnd _ _ F) in E. rewrite (dext_finite a FA), (dext_finite b FB) in E. rewrite E. rewrite <- Rabs_inv in P |- *.
  apply round_pad; [|exact P|].
  - unfold Rdiv. rewrite Rabs_mult. apply Rmult_le_compat_r; [apply Rabs_pos|exact A].
  - unfold Rdiv. apply near_mul; auto; [apply Rle_refl|apply near_inv; auto].
Qed.
Lemma mean_near xs ys lo hi : is_dpdf xs ys -> (lo <= hi)%nat -> (hi < length xs)%nat -> (Z.of_nat (hi - lo) <= 2 ^ 50)%Z ->
  is_finite (darea_between xs ys lo hi) = true -> is_finite (ddiv (dmoment_between xs ys lo hi) (darea_between xs ys lo hi)) = true ->
  area_not_tiny xs ys lo hi -> moment_not_tiny xs ys lo hi -> true_area xs ys lo hi <> 0 -> not_tiny (moment_size xs ys lo hi / true_area xs ys lo hi) ->
  near (3 * (hi - lo) + 14) (moment_size xs ys lo hi / true_area xs ys lo hi) (true_moment xs ys lo hi / true_area xs ys lo hi)
    (B2R (ddiv (dmoment_between xs ys lo hi) (darea_between xs ys lo hi))).
Proof.
  intros I L H HN FA FM T M NZ Q. pose proof (area_near xs ys lo hi I L H FA T) as AN. pose proof (area_real_nonneg xs ys lo hi I H FA) as AP.
  pose proof (fin_div _ _ FM) as FN. destruct (moment_near xs ys lo hi I L H FN T M) as [MN MA].
  set (A := true_area xs ys lo hi) in *. set (MS := moment_size xs ys lo hi) in *. set (TM := true_moment xs ys lo hi) in *.
  assert (PA : 0 < A) by lra. assert (EA : Rabs A = A) by (apply Rabs_pos_eq; lra).
  assert (PS : 0 <= MS) by (pose proof (Rabs_pos TM); lra).
  destruct Q as [Q|Q].
  - assert (MS0 : MS = 0). { unfold Rdiv in Q. apply Rmult_integral in Q. destruct Q as [Q|Q]; [exact Q|]. apply Rinv_neq_0_compat in NZ. contradiction. }
    rewrite Q. assert (TM0 : TM = 0). { destruct (Req_dec TM 0) as [E|E]; [exact E|]. apply Rabs_pos_lt in E. lra. } rewrite TM0 in *.
    replace (0 / A) with 0 by (unfold Rdiv; ring). rewrite MS0 in MN.
    assert (M0 : B2R (dmoment_between xs ys lo hi) = 0) by (apply (near_zero (hi - lo + 5)); rewrite Rabs_R0; exact MN).
    assert (B0 : B2R (darea_between xs ys lo hi) <> 0). { intro E. assert (AN2 : near (hi - lo + 4) (Rabs A) A (B2R (darea_between xs ys lo hi))) by (rewrite EA; exact AN). clear AN. rename AN2 into AN. pose proof (near_below (hi - lo + 4) A _ ltac:(lia) AN) as B. rewrite E, Rabs_R0, EA in B. lra. }
    assert (EB : ext (darea_between xs ys lo hi) <> 0) by (rewrite (dext_finite _ FA); exact B0). destruct (ddiv_ext _ _ FN FA EB) as [_ E].
    apply (finite_rnd _ _ FM) in E. rewrite (dext_finite _ FN), M0 in E. unfold Rdiv in E. rewrite Rmult_0_l, rnd_0 in E. rewrite E. nr.
  - replace (3 * (hi - lo) + 14)%nat with (Datatypes.S ((hi - lo + 5) + 2 * (hi - lo + 4)))%nat by lia. rewrite <- EA at 1. unfold Rdiv at 1.
    apply div_pad_long; auto; [lia|rewrite EA; exact AN|]. rewrite EA. rewrite Rabs_pos_eq in Q by (apply Rmult_le_pos; [exact PS|left; apply Rinv_0_lt_compat, PA]).
    apply Rle_trans with (2 := Q). apply bpow_le. lia.
Qed.
(** The exact mean is between the ends *)
Lemma moment_inside xs ys lo hi : is_dpdf xs ys -> (lo <= hi)%nat -> (hi < length xs)%nat -> is_finite (darea_between xs ys lo hi) = true ->
  B2R (dval xs lo) * true_area xs ys lo hi <= true_moment xs ys lo hi <= B2R (dval xs hi) * true_area xs ys lo hi /\
  moment_size xs ys lo hi <= Rmax (Rabs (B2R (dval xs lo))) (Rabs (B2R (dval xs hi))) * true_area xs ys lo hi.
Proof.
  intros I L H F. unfold darea_between in F. destruct (fold_fin _ _ F) as [_ FT]. unfold true_area, true_moment, moment_size. rewrite <- !rtotal_scale.
  assert (Z : forall i, In i (seq lo (hi + 1 - lo)) -> 0 <= B2R (dval ys i) * width xs i /\ B2R (dval xs lo) <= B2R (dval xs i) <= B2R (dval xs hi)).
  { intros i Hi. pose proof (in_range _ _ _ Hi) as R. specialize (FT _ (in_map (fun i => dmul (dval ys i) (dcell xs i)) _ _ Hi)). destruct (fin_mul _ _ FT) as [FY _]. pose proof I as (LE & _).
    pose proof (val_pos xs ys i I FY ltac:(lia)). pose proof (width_pos xs ys i I ltac:(lia)). split; [apply Rmult_le_pos; lra|].
    split; apply (pdf_le xs ys); auto; lia. }
  split; [split|]; apply rtotal_le; intros i Hi; destruct (Z i Hi) as [Z1 Z2]; rewrite Rmult_assoc; try (apply Rmult_le_compat_r; lra).
  apply Rmult_le_compat_r; [exact Z1|]. unfold Rmax, Rabs. destruct (Rle_dec _ _); repeat destruct (Rcase_abs _); lra.
Qed.
