(** Errors of the interpolation on a grid in double precision. *)
From Coq Require Import ZArith Reals List Bool Arith Lia Lra Psatz.
From Flocq Require Import Core IEEE754.BinarySingleNaN.
From Verif Require Import Common CumulModel CumulProofs FloatModel FloatProofs DoubleProofs DoubleProofs2 DInterpModel DInterpSpec DInterpProofs DInterpProofs2 InterpSpec GridInterpModel GridInterpSpec DGridModel DGridSpec DGridProofs.
Import ListNotations.
Local Open Scope R_scope.

Lemma line_fins (x0 y0 x1 y1 x : double) : is_finite (computed_line x0 y0 x1 y1 x) = true -> is_finite y0 = true /\ is_finite y1 = true.
Proof.
  unfold computed_line. intro F. destruct (fin_add _ _ F) as [FA FP]. destruct (fin_sub _ _ FA) as [FY0 _]. destruct (fin_mul _ _ FP) as [FC _]. unfold slope in FC. pose proof (fin_div _ _ FC) as FDY. destruct (fin_sub _ _ FDY) as [FY1 _]. auto.
Qed.
Lemma same_line x0 y0 x1 y1 x : DInterpSpec.line x0 y0 x1 y1 x = InterpSpec.line x0 y0 x1 y1 x.
Proof. unfold DInterpSpec.line, InterpSpec.line, Rdiv. ring. Qed.
(** A line between two knots is between its ends. *)
Lemma weight x0 x1 x : x0 <= x <= x1 -> x0 < x1 -> 0 <= (x - x0) / (x1 - x0) <= 1.
Proof.
  intros H L. split; [apply Rmult_le_pos; [lra|apply Rlt_le, Rinv_0_lt_compat; lra]|]. apply (Rmult_le_reg_r (x1 - x0)); [lra|]. unfold Rdiv. rewrite Rmult_assoc, Rinv_l by lra. lra.
Qed.
Lemma line_bound x0 y0 x1 y1 x M : x0 <= x <= x1 -> x0 < x1 -> Rabs y0 <= M -> Rabs y1 <= M -> Rabs (InterpSpec.line x0 y0 x1 y1 x) <= M.
Proof.
  intros H L A B. unfold InterpSpec.line. pose proof (weight x0 x1 x H L) as W. set (w := (x - x0) / (x1 - x0)) in *. apply Rabs_le_inv in A. apply Rabs_le_inv in B. apply Rabs_le. split; nra.
Qed.
Lemma line_moves x0 y0 z0 x1 y1 z1 x E : x0 <= x <= x1 -> x0 < x1 -> Rabs (y0 - z0) <= E -> Rabs (y1 - z1) <= E -> Rabs (InterpSpec.line x0 y0 x1 y1 x - InterpSpec.line x0 z0 x1 z1 x) <= E.
Proof.
  intros H L A B. replace (InterpSpec.line x0 y0 x1 y1 x - InterpSpec.line x0 z0 x1 z1 x) with (InterpSpec.line x0 (y0 - z0) x1 (y1 - z1) x) by (unfold InterpSpec.line; ring). apply line_bound; assumption.
Qed.
Lemma el_map ks i x : nth_error ks i = Some x -> el (map (fun x : double => B2R x) ks) i = B2R x.
Proof. intro H. unfold el. apply nth_error_nth. rewrite (map_nth_error _ _ _ H). reflexivity. Qed.
Lemma dle_real (x y : double) : is_finite x = true -> is_finite y = true -> dle x y = true -> B2R x <= B2R y.
Proof. intros FX FY H. apply dle_iff in H; try (apply dfinite_num; assumption). rewrite !dext_finite in H by assumption. exact H. Qed.
Lemma dlt_real (x y : double) : is_finite x = true -> is_finite y = true -> dlt x y = true -> B2R x < B2R y.
Proof. intros FX FY H. apply dlt_iff in H; try (apply dfinite_num; assumption). rewrite !dext_finite in H by assumption. exact H. Qed.
Lemma index_sub a g i c : (i < daxis_size a)%nat -> is_index g c -> is_index (a :: g) (c ++ [i]).
Proof. intros H I. unfold is_index. rewrite rev_app_distr. cbn. constructor; assumption. Qed.
Lemma budget_pos grid : forall scales M, Forall2 scaled grid scales -> 0 <= M -> 0 <= budget grid scales M.
Proof.
  induction grid as [|a g IH]; intros scales M S P; inversion S as [|? s ? ss SA SR]; subst; [cbn; lra|]. destruct s as [kappa X]. destruct SA as (K & XP & _). cbn [fst snd] in *. pose proof (IH ss M SR P) as E.
  destruct a; cbn [budget]; [|exact E]. pose proof (bpow_gt_0 radix2 (-53)). pose proof (bpow_gt_0 radix2 (-1075)). cbv zeta.
  assert (0 <= 9 * bpow radix2 (-53) * (1 + 4 * kappa) * (M + budget g ss M)) by (apply Rmult_le_pos; [apply Rmult_le_pos; lra|lra]). assert (0 <= 3 * bpow radix2 (-1075) * (2 * X + 1)) by (apply Rmult_le_pos; lra). lra.
Qed.
(** Inside the knots the covering interval holds x. *)
Lemma covers_inside ex ks i (x0 x1 x : double) : ascending ks -> Forall (fun x : double => is_finite x = true) ks -> is_finite x = true -> nth_error ks i = Some x0 -> nth_error ks (S i) = Some x1 -> covers ex (length ks) i x0 x1 x -> in_range ks x ->
  B2R x0 <= B2R x <= B2R x1 /\ B2R x0 < B2R x1.
Proof.
  intros A F FX H0 H1 [CL CR] (a & b & HA & HB & LA & LB). pose proof (fin_at _ _ _ F H0) as F0. pose proof (fin_at _ _ _ F H1) as F1. split; [split|].
  - apply dle_real; auto. destruct CL as [CL|[-> _]]; [exact CL|congruence].
  - apply dle_real; auto. destruct CR as [CR|[E _]]; [exact CR|]. replace (length ks - 1)%nat with (S i) in HB by lia. congruence.
  - apply dlt_real; auto. exact (A i x0 x1 H0 H1).
Qed.
Lemma gap_finite (x0 x1 : double) : is_finite x0 = true -> is_finite x1 = true -> B2R x0 < B2R x1 -> B2R x1 - B2R x0 < bpow radix2 1023 -> is_finite (dsub x1 x0) = true.
Proof.
  intros F0 F1 LT B. destruct (dsub_ext x1 x0 F1 F0) as [ND ED]. apply (rnd_finite _ _ ND ED). rewrite !dext_finite by assumption.
  assert (G1 : rnd53 (bpow radix2 1023) = bpow radix2 1023) by (apply rnd_format, generic_format_bpow; cbn; lia).
  assert (rnd53 (B2R x1 - B2R x0) <= bpow radix2 1023) by (rewrite <- G1; apply rnd_mono; lra).
  assert (0 <= rnd53 (B2R x1 - B2R x0)) by (rewrite <- (rnd_format 0) by apply generic_format_0; apply rnd_mono; lra).
  rewrite Rabs_pos_eq by assumption. apply Rle_lt_trans with (bpow radix2 1023); [assumption|]. apply bpow_lt. lia.
Qed.
(** One line: the errors of its ends and its own. *)
Lemma cell_error (x0 x1 x y0 y1 : double) e0 e1 M E kappa X : is_finite x0 = true -> is_finite x1 = true -> dlt x0 x1 = true -> B2R x0 <= B2R x <= B2R x1 -> B2R x0 < B2R x1 -> B2R x1 - B2R x0 < bpow radix2 1023 ->
  is_finite (computed_line x0 y0 x1 y1 x) = true -> 0 <= E -> 0 <= kappa -> Rabs (B2R x0) <= X -> Rabs (B2R x1) <= X -> X <= kappa * (B2R x1 - B2R x0) ->
  Rabs e0 <= M -> Rabs e1 <= M -> Rabs (B2R y0 - e0) <= E -> Rabs (B2R y1 - e1) <= E ->
  Rabs (B2R (computed_line x0 y0 x1 y1 x) - InterpSpec.line (B2R x0) e0 (B2R x1) e1 (B2R x)) <= E + 9 * bpow radix2 (-53) * (1 + 4 * kappa) * (M + E) + 3 * bpow radix2 (-1075) * (2 * X + 1).
Proof.
  intros F0 F1 LT IN LT' GAP F EP KP X0 X1 XK M0 M1 E0 E1. pose proof (line_error x0 y0 x1 y1 x LT (gap_finite x0 x1 F0 F1 LT' GAP) F) as LE. cbv zeta in LE. rewrite same_line in LE.
  pose proof (line_moves (B2R x0) (B2R y0) e0 (B2R x1) (B2R y1) e1 (B2R x) E IN LT' E0 E1) as LM.
  assert (Y0 : Rabs (B2R y0) <= M + E) by (replace (B2R y0) with (e0 + (B2R y0 - e0)) by ring; eapply Rle_trans; [apply Rabs_triang|lra]).
  assert (Y1 : Rabs (B2R y1) <= M + E) by (replace (B2R y1) with (e1 + (B2R y1 - e1)) by ring; eapply Rle_trans; [apply Rabs_triang|lra]).
  assert (XX : Rabs (B2R x) <= X) by (apply Rabs_le_inv in X0; apply Rabs_le_inv in X1; apply Rabs_le; lra).
  assert (SB : forall z, Rabs z <= X -> Rabs ((B2R y1 - B2R y0) / (B2R x1 - B2R x0) * z) <= 2 * kappa * (M + E)).
  { intros z Z. rewrite Rabs_mult. unfold Rdiv. rewrite Rabs_mult, Rabs_inv, (Rabs_pos_eq (B2R x1 - B2R x0)) by lra.
    assert (D : Rabs (B2R y1 - B2R y0) <= 2 * (M + E)) by (apply Rabs_le_inv in Y0; apply Rabs_le_inv in Y1; apply Rabs_le; lra).
    assert (Q : / (B2R x1 - B2R x0) * Rabs z <= kappa). { apply (Rmult_le_reg_l (B2R x1 - B2R x0)); [lra|]. rewrite <- Rmult_assoc, Rinv_r by lra. lra. }
    assert (QP : 0 <= / (B2R x1 - B2R x0) * Rabs z) by (apply Rmult_le_pos; [apply Rlt_le, Rinv_0_lt_compat; lra|apply Rabs_pos]).
    rewrite Rmult_assoc. pose proof (Rabs_pos (B2R y1 - B2R y0)). apply Rle_trans with (2 * (M + E) * kappa); [apply Rmult_le_compat; assumption|lra]. }
  pose proof (SB _ X0) as S0. pose proof (SB _ XX) as SX. unfold uro, tiny in LE. set (u := bpow radix2 (-53)) in *. set (t := bpow radix2 (-1075)) in *.
  assert (UP : 0 < u) by apply bpow_gt_0. assert (TP : 0 < t) by apply bpow_gt_0.
  match type of LE with _ <= 9 * u * ?A + 3 * t * ?B => assert (HA : 9 * u * A <= 9 * u * ((1 + 4 * kappa) * (M + E))) by (apply Rmult_le_compat_l; lra); assert (HB : 3 * t * B <= 3 * t * (2 * X + 1)) by (apply Rmult_le_compat_l; lra) end.
  match goal with |- Rabs (?v - ?l) <= _ => match type of LE with Rabs (_ - ?m) <= _ => replace (v - l) with ((v - m) + (m - l)) by ring end end.
  eapply Rle_trans; [apply Rabs_triang|]. rewrite (Rmult_assoc (9 * u)). lra.
Qed.

Lemma computed_error ex grid values args v : computed ex grid values args v -> forall scales M, Forall good_axis grid -> Forall2 fits grid args -> Forall2 scaled grid scales -> Forall2 inside grid args ->
  (forall c, is_index grid c -> Rabs (B2R (values c)) <= M) -> is_finite v = true ->
  exists e, grid_value ex (map real_axis grid) (fun c => B2R (values c)) (map real_coord args) e /\ Rabs e <= M /\ Rabs (B2R v - e) <= budget grid scales M.
Proof.
  induction 1 as [values|ks i k grid values args y HK C IH|ks i x0 x1 x grid values args y0 y1 H0 H1 CV C0 IH0 C1 IH1|k x grid values args y HX C IH|ks x grid values args EX O]; intros scales M G FT SC I B F.
  - exists (B2R (values [])). split; [apply (GEnd ex (fun c => B2R (values c)))|]. split; [apply B; constructor|]. inversion SC; subst. cbn. rewrite Rminus_diag_eq, Rabs_R0 by reflexivity. lra.
  - inversion G; subst. inversion FT; subst. inversion SC as [|? s ? ss SA SR]; subst. inversion I; subst. assert (IL : (i < length ks)%nat) by (apply nth_error_Some; congruence).
    destruct (IH ss M) as (e & E1 & E2 & E3); auto; [intros c Hc; apply B; apply index_sub; [exact IL|exact Hc]|]. exists e. split; [cbn; eapply GKey; eassumption|]. auto.
  - inversion G as [|? ? GX GR]; subst. cbn [good_axis] in GX. destruct GX as (GN & GA & GF). inversion FT as [|? ? ? ? FX FTR]; subst. inversion SC as [|? s ? ss SA SR]; subst. inversion I as [|? ? ? ? IX IR]; subst. destruct s as [kappa X]. cbn [scaled fst snd fits inside] in *. destruct SA as (K & XP & SX & SG).
    assert (IL : (S i < length ks)%nat) by (apply nth_error_Some; congruence). destruct (line_fins _ _ _ _ _ F) as [FY0 FY1]. pose proof (fin_at _ _ _ GF H0) as F0. pose proof (fin_at _ _ _ GF H1) as F1.
    destruct (IH0 ss M) as (e0 & P1 & P2 & P3); auto; [intros c Hc; apply B; apply index_sub; [cbn; lia|exact Hc]|].
    destruct (IH1 ss M) as (e1 & Q1 & Q2 & Q3); auto; [intros c Hc; apply B; apply index_sub; [cbn; lia|exact Hc]|].
    destruct (covers_inside ex ks i x0 x1 x GA GF FX H0 H1 CV IX) as [IN LT].
    assert (MP : 0 <= M) by (eapply Rle_trans; [apply Rabs_pos|exact P2]). destruct (SG i x0 x1 H0 H1) as [XK GAP].
    exists (InterpSpec.line (B2R x0) e0 (B2R x1) e1 (B2R x)). split; [|split].
    + cbn [map real_axis real_coord]. rewrite <- (el_map ks i x0 H0), <- (el_map ks (S i) x1 H1). apply GCell; [rewrite map_length; exact IL| |exact P1|exact Q1]. left. rewrite (el_map ks i x0 H0), (el_map ks (S i) x1 H1). exact IN.
    + apply line_bound; assumption.
    + cbn [budget]. apply cell_error; auto; [exact (GA i x0 x1 H0 H1)|apply budget_pos; assumption|exact (SX i x0 H0)|exact (SX (S i) x1 H1)].
  - inversion G as [|? ? GX GR]; subst. cbn [good_axis] in GX. destruct GX as (GN & GA & GF). inversion FT as [|? ? ? ? FX FTR]; subst. inversion SC as [|? s ? ss SA SR]; subst. inversion I as [|? ? ? ? IX IR]; subst. destruct s as [kappa X]. destruct SA as (K & XP & _). cbn [fst snd fits inside] in *.
    destruct (IH ss M) as (e & E1 & E2 & E3); auto; [intros c Hc; apply B; apply index_sub; [cbn; lia|exact Hc]|].
    exists e. split; [|split; [exact E2|]].
    + cbn. apply GOnly; [|exact E1]. destruct HX as [HX|HX]; [left; exact HX|right]. pose proof (fin_at [k] 0 k GF eq_refl) as FK. apply deq_iff in HX; try (apply dfinite_num; assumption). rewrite !dext_finite in HX by assumption. auto.
    + assert (MP : 0 <= M) by (eapply Rle_trans; [apply Rabs_pos|exact E2]). pose proof (budget_pos grid ss M SR MP) as BP. cbn [budget]. cbv zeta. pose proof (bpow_gt_0 radix2 (-53)). pose proof (bpow_gt_0 radix2 (-1075)).
      assert (0 <= 9 * bpow radix2 (-53) * (1 + 4 * kappa) * (M + budget grid ss M)) by (apply Rmult_le_pos; [apply Rmult_le_pos; lra|lra]). assert (0 <= 3 * bpow radix2 (-1075) * (2 * X + 1)) by (apply Rmult_le_pos; lra). lra.
  - exfalso. inversion I as [|? ? ? ? IX IR]; subst. cbn [inside] in IX. destruct IX as (a & b & HA & HB & LA & LB). destruct O as (a' & b' & HA' & HB' & [O|O]).
    + rewrite HA in HA'. injection HA' as <-. rewrite (dle_not_lt _ _ LA) in O. discriminate.
    + rewrite HB in HB'. injection HB' as <-. rewrite (dle_not_lt _ _ LB) in O. discriminate.
Qed.

(** ** No overflow *)
Lemma small_round r k : (-1000 <= k <= 1000)%Z -> Rabs r <= bpow radix2 k -> Rabs (rnd53 r) <= bpow radix2 k.
Proof.
  intros K H. assert (G : generic_format radix2 (SpecFloat.fexp 53 1024) (bpow radix2 k)) by (apply generic_format_bpow; unfold SpecFloat.fexp, SpecFloat.emin; lia).
  apply Rabs_le_inv in H. apply Rabs_le. split; [rewrite <- (rnd_format (- bpow radix2 k)) by (apply generic_format_opp, G); apply rnd_mono; lra|rewrite <- (rnd_format (bpow radix2 k)) by exact G; apply rnd_mono; lra].
Qed.
Lemma small_fin (z : double) r k : (-1000 <= k <= 1000)%Z -> num z -> ext z = crd r -> Rabs r <= bpow radix2 k -> is_finite z = true /\ Rabs (B2R z) <= bpow radix2 k.
Proof.
  intros K N E H. pose proof (small_round r k K H) as S. assert (L : Rabs (rnd53 r) < MX) by (eapply Rle_lt_trans; [exact S|apply bpow_lt; lia]).
  pose proof (rnd_finite z r N E L) as F. split; [exact F|]. rewrite <- (dext_finite z F), E, crnd_small by exact L. exact S.
Qed.
Lemma bp (j k : Z) : (j <= k)%Z -> bpow radix2 j <= bpow radix2 k. Proof. apply bpow_le. Qed.
Lemma twice k : 2 * bpow radix2 k = bpow radix2 (k + 1). Proof. rewrite bpow_plus. change (bpow radix2 1) with 2. ring. Qed.
Lemma prod_le a b j k : Rabs a <= bpow radix2 j -> Rabs b <= bpow radix2 k -> Rabs (a * b) <= bpow radix2 (j + k).
Proof. intros A B. rewrite Rabs_mult, bpow_plus. apply Rmult_le_compat; try apply Rabs_pos; assumption. Qed.
Lemma sum_le a b k : Rabs a <= bpow radix2 k -> Rabs b <= bpow radix2 k -> Rabs (a + b) <= bpow radix2 (k + 1) /\ Rabs (a - b) <= bpow radix2 (k + 1).
Proof. intros A B. rewrite <- twice. apply Rabs_le_inv in A. apply Rabs_le_inv in B. split; apply Rabs_le; lra. Qed.
Lemma line_finite (x0 x1 x y0 y1 : double) : is_finite x0 = true -> is_finite x1 = true -> is_finite x = true -> is_finite y0 = true -> is_finite y1 = true ->
  Rabs (B2R x0) <= bpow radix2 100 -> Rabs (B2R x1) <= bpow radix2 100 -> Rabs (B2R x) <= bpow radix2 100 -> bpow radix2 (-400) <= B2R x1 - B2R x0 ->
  Rabs (B2R y0) <= bpow radix2 400 -> Rabs (B2R y1) <= bpow radix2 400 -> is_finite (computed_line x0 y0 x1 y1 x) = true.
Proof.
  intros F0 F1 FX G0 G1 X0 X1 XX GAP Y0 Y1.
  destruct (dsub_ext y1 y0 G1 G0) as [NY EY]. rewrite (dext_finite _ G1), (dext_finite _ G0) in EY. destruct (small_fin _ _ 401 ltac:(lia) NY EY (proj2 (sum_le _ _ 400 Y1 Y0))) as [FY BY].
  destruct (dsub_ext x1 x0 F1 F0) as [NX EX]. rewrite (dext_finite _ F1), (dext_finite _ F0) in EX. pose proof (proj2 (sum_le _ _ 100 X1 X0)) as SX. destruct (small_fin _ _ 101 ltac:(lia) NX EX SX) as [FD BD].
  assert (VD : B2R (dsub x1 x0) = rnd53 (B2R x1 - B2R x0)).
  { rewrite <- (dext_finite _ FD), EX. apply crnd_small. eapply Rle_lt_trans; [apply (small_round _ 101 ltac:(lia) SX)|apply bpow_lt; lia]. }
  assert (LD : bpow radix2 (-400) <= B2R (dsub x1 x0)).
  { rewrite VD. rewrite <- (rnd_format (bpow radix2 (-400))) by (apply generic_format_bpow; unfold SpecFloat.fexp, SpecFloat.emin; lia). apply rnd_mono. exact GAP. }
  pose proof (bpow_gt_0 radix2 (-400)) as P. destruct (ddiv_ext (dsub y1 y0) (dsub x1 x0) FY FD) as [NS ES]; [rewrite (dext_finite _ FD); lra|]. rewrite (dext_finite _ FY), (dext_finite _ FD) in ES.
  assert (BI : Rabs (/ B2R (dsub x1 x0)) <= bpow radix2 400).
  { rewrite Rabs_inv, Rabs_pos_eq by lra. change 400%Z with (- -400)%Z. rewrite bpow_opp. apply Rinv_le; [exact P|exact LD]. }
  destruct (small_fin _ _ 801 ltac:(lia) NS ES (prod_le _ _ 401 400 BY BI)) as [FS BS]. fold (slope x0 y0 x1 y1) in FS, BS. unfold computed_line. set (c := slope x0 y0 x1 y1) in *.
  destruct (dmul_ext c x0 FS F0) as [N1 E1]. rewrite (dext_finite _ FS), (dext_finite _ F0) in E1. destruct (small_fin _ _ 901 ltac:(lia) N1 E1 (prod_le _ _ 801 100 BS X0)) as [FP0 BP0].
  destruct (dmul_ext c x FS FX) as [N2 E2]. rewrite (dext_finite _ FS), (dext_finite _ FX) in E2. destruct (small_fin _ _ 901 ltac:(lia) N2 E2 (prod_le _ _ 801 100 BS XX)) as [FP BP].
  destruct (dsub_ext y0 (dmul c x0) G0 FP0) as [N3 E3]. rewrite (dext_finite _ G0), (dext_finite _ FP0) in E3.
  assert (Y0' : Rabs (B2R y0) <= bpow radix2 901) by (eapply Rle_trans; [exact Y0|apply bp; lia]). destruct (small_fin _ _ 902 ltac:(lia) N3 E3 (proj2 (sum_le _ _ 901 Y0' BP0))) as [FA BA].
  assert (BP' : Rabs (B2R (dmul c x)) <= bpow radix2 902) by (eapply Rle_trans; [exact BP|apply bp; lia]).
  destruct (dadd_ext _ _ FA FP) as [N4 E4]. rewrite (dext_finite _ FA), (dext_finite _ FP) in E4. exact (proj1 (small_fin _ _ 903 ltac:(lia) N4 E4 (proj1 (sum_le _ _ 902 BA BP')))).
Qed.
Lemma budget_step a g s ss M : Forall2 scaled (a :: g) (s :: ss) -> 0 <= M -> budget g ss M <= budget (a :: g) (s :: ss) M.
Proof.
  intros SC P. inversion SC as [|? ? ? ? SA SR]; subst. destruct s as [kappa X]. destruct SA as (K & XP & _). cbn [fst snd] in *. pose proof (budget_pos g ss M SR P) as E. destruct a; cbn [budget]; [|lra]. cbv zeta.
  pose proof (bpow_gt_0 radix2 (-53)). pose proof (bpow_gt_0 radix2 (-1075)).
  assert (0 <= 9 * bpow radix2 (-53) * (1 + 4 * kappa) * (M + budget g ss M)) by (apply Rmult_le_pos; [apply Rmult_le_pos; lra|lra]). assert (0 <= 3 * bpow radix2 (-1075) * (2 * X + 1)) by (apply Rmult_le_pos; lra). lra.
Qed.
Lemma computed_finite ex grid values args v : computed ex grid values args v -> forall scales M, Forall good_axis grid -> Forall2 fits grid args -> Forall2 scaled grid scales -> Forall2 inside grid args -> Forall usual grid ->
  (forall c, is_index grid c -> is_finite (values c) = true /\ Rabs (B2R (values c)) <= M) -> 0 <= M -> M + budget grid scales M <= bpow radix2 400 -> is_finite v = true.
Proof.
  induction 1 as [values|ks i k grid values args y HK C IH|ks i x0 x1 x grid values args y0 y1 H0 H1 CV C0 IH0 C1 IH1|k x grid values args y HX C IH|ks x grid values args EX O]; intros scales M G FT SC I U B MP BD.
  - apply B. constructor.
  - inversion G; subst. inversion FT; subst. pose proof SC as SC'. inversion SC' as [|? s ? ss SA SR]; subst. inversion I; subst. inversion U; subst. assert (IL : (i < length ks)%nat) by (apply nth_error_Some; congruence).
    apply (IH ss M); auto. intros c Hc. apply B. apply index_sub; [exact IL|exact Hc].
  - pose proof (budget_step (DCont ks) grid) as BS. inversion G as [|? ? GX GR]; subst. cbn [good_axis] in GX. destruct GX as (GN & GA & GF). inversion FT as [|? ? ? ? FX FTR]; subst. pose proof SC as SC'. inversion SC' as [|? s ? ss SA SR]; subst. inversion I as [|? ? ? ? IX IR]; subst. inversion U as [|? ? UX UR]; subst. cbn [usual fits inside] in *. destruct UX as [U1 U2].
    specialize (BS s ss M SC MP). assert (IL : (S i < length ks)%nat) by (apply nth_error_Some; congruence). pose proof (fin_at _ _ _ GF H0) as F0. pose proof (fin_at _ _ _ GF H1) as F1.
    assert (B0 : forall c, is_index grid c -> is_finite (values (c ++ [i])) = true /\ Rabs (B2R (values (c ++ [i]))) <= M) by (intros c Hc; apply B; apply index_sub; [cbn; lia|exact Hc]).
    assert (B1 : forall c, is_index grid c -> is_finite (values (c ++ [S i])) = true /\ Rabs (B2R (values (c ++ [S i]))) <= M) by (intros c Hc; apply B; apply index_sub; [cbn; lia|exact Hc]).
    assert (FY0 : is_finite y0 = true) by (apply (IH0 ss M); auto; lra). assert (FY1 : is_finite y1 = true) by (apply (IH1 ss M); auto; lra).
    destruct (computed_error _ _ _ _ _ C0 ss M GR FTR SR IR (fun c h => proj2 (B0 c h)) FY0) as (e0 & _ & M0 & D0). destruct (computed_error _ _ _ _ _ C1 ss M GR FTR SR IR (fun c h => proj2 (B1 c h)) FY1) as (e1 & _ & M1 & D1).
    destruct (covers_inside ex ks i x0 x1 x GA GF FX H0 H1 CV IX) as [IN LT]. pose proof (U1 i x0 H0) as X0. pose proof (U1 (S i) x1 H1) as X1.
    apply line_finite; auto.
    + apply Rabs_le_inv in X0. apply Rabs_le_inv in X1. apply Rabs_le. lra.
    + exact (U2 i x0 x1 H0 H1).
    + replace (B2R y0) with (e0 + (B2R y0 - e0)) by ring. eapply Rle_trans; [apply Rabs_triang|lra].
    + replace (B2R y1) with (e1 + (B2R y1 - e1)) by ring. eapply Rle_trans; [apply Rabs_triang|lra].
  - pose proof (budget_step (DCont [k]) grid) as BS. inversion G; subst. inversion FT; subst. pose proof SC as SC'. inversion SC' as [|? s ? ss SA SR]; subst. inversion I; subst. inversion U; subst. specialize (BS s ss M SC MP).
    apply (IH ss M); auto; [|lra]. intros c Hc. apply B. apply index_sub; [cbn; lia|exact Hc].
  - reflexivity.
Qed.

(** ** Equal values *)
Lemma flat_line2 (x0 x1 y0 y1 x : double) : dlt x0 x1 = true -> is_finite x0 = true -> is_finite x1 = true -> is_finite x = true -> is_finite y0 = true -> is_finite y1 = true -> B2R y0 = B2R y1 ->
  is_finite (computed_line x0 y0 x1 y1 x) = true /\ B2R (computed_line x0 y0 x1 y1 x) = B2R y0.
Proof.
  intros LT F0 F1 FX FC FC1 EQ. destruct (dsub_ext y1 y0 FC1 FC) as [NS ES]. rewrite (dext_finite _ FC1), (dext_finite _ FC) in ES. rewrite Rminus_diag_eq in ES by congruence. destruct (small_zero _ NS ES) as [FS VS]. destruct (zero_valued _ FS VS) as [sg EZ].
  assert (SL : is_finite (slope x0 y0 x1 y1) = true /\ B2R (slope x0 y0 x1 y1) = 0).
  { unfold slope. destruct (dsub_ext x1 x0 F1 F0) as [ND ED]. destruct (is_finite (dsub x1 x0)) eqn:FD.
    - destruct (dlt_nums _ _ LT) as [N0 N1]. apply dlt_iff in LT; auto. rewrite !dext_finite in LT by assumption.
      destruct (sub_rel x1 x0 F1 F0 FD) as (e2 & E2 & Q2). pose proof uro_small. apply Rabs_le_inv in E2.
      assert (NZ : B2R (dsub x1 x0) <> 0) by (rewrite Q2; apply Rmult_integral_contrapositive_currified; lra).
      destruct (ddiv_ext (dsub y1 y0) (dsub x1 x0) FS FD) as [NQ EQ']; [rewrite dext_finite by exact FD; exact NZ|]. rewrite (dext_finite _ FS), VS in EQ'. unfold Rdiv in EQ'. rewrite Rmult_0_l in EQ'. apply small_zero; assumption.
    - rewrite EZ. destruct (dsub x1 x0) as [s|s| |s m e H]; try discriminate FD; [split; reflexivity|discriminate ND]. }
  destruct SL as [FSL VSL]. unfold computed_line. set (k := slope x0 y0 x1 y1) in *.
  assert (M : forall z : double, is_finite z = true -> is_finite (dmul k z) = true /\ B2R (dmul k z) = 0).
  { intros z FZ. destruct (dmul_ext k z FSL FZ) as [N E]. rewrite (dext_finite _ FSL), VSL, Rmult_0_l in E. apply small_zero; assumption. }
  destruct (M x0 F0) as [FM0 VM0]. destruct (M x FX) as [FM VM].
  assert (CF : forall z : double, num z -> ext z = crd (ext y0) -> is_finite z = true /\ B2R z = B2R y0).
  { intros z N E. rewrite crd_ext in E. assert (F : is_finite z = true) by (apply dfinite_iff; auto; rewrite E; apply dext_lt, FC). split; [exact F|]. rewrite <- !dext_finite by assumption. exact E. }
  destruct (dsub_ext y0 (dmul k x0) FC FM0) as [NA EA]. rewrite (dext_finite _ FM0), VM0, Rminus_0_r in EA. destruct (CF _ NA EA) as [FA VA].
  destruct (dadd_ext _ (dmul k x) FA FM) as [NB EB]. rewrite (dext_finite _ FM), VM, Rplus_0_r in EB. rewrite (dext_finite _ FA), VA, <- (dext_finite _ FC) in EB. exact (CF _ NB EB).
Qed.
Lemma computed_flat ex grid values args v : computed ex grid values args v -> forall r, Forall good_axis grid -> Forall2 fits grid args -> ex = true \/ Forall2 inside grid args ->
  (forall c, is_index grid c -> is_finite (values c) = true /\ B2R (values c) = r) -> is_finite v = true /\ B2R v = r.
Proof.
  induction 1 as [values|ks i k grid values args y HK C IH|ks i x0 x1 x grid values args y0 y1 H0 H1 CV C0 IH0 C1 IH1|k x grid values args y HX C IH|ks x grid values args EX O]; intros r G FT I B.
  - apply B. constructor.
  - inversion G; subst. inversion FT; subst. assert (IL : (i < length ks)%nat) by (apply nth_error_Some; congruence).
    apply IH; auto; [destruct I as [I|I]; [left; exact I|right; inversion I; assumption]|]. intros c Hc. apply B. apply index_sub; [exact IL|exact Hc].
  - inversion G as [|? ? GX GR]; subst. cbn [good_axis] in GX. destruct GX as (GN & GA & GF). inversion FT as [|? ? ? ? FX FTR]; subst. cbn [fits] in FX.
    assert (IL : (S i < length ks)%nat) by (apply nth_error_Some; congruence). assert (I' : ex = true \/ Forall2 inside grid args) by (destruct I as [I|I]; [left; exact I|right; inversion I; assumption]).
    destruct (IH0 r) as [FY0 V0]; auto; [intros c Hc; apply B; apply index_sub; [cbn; lia|exact Hc]|]. destruct (IH1 r) as [FY1 V1]; auto; [intros c Hc; apply B; apply index_sub; [cbn; lia|exact Hc]|].
    destruct (flat_line2 x0 x1 y0 y1 x (GA i x0 x1 H0 H1) (fin_at _ _ _ GF H0) (fin_at _ _ _ GF H1) FX FY0 FY1 ltac:(congruence)) as [A V]. split; [exact A|congruence].
  - inversion G; subst. inversion FT; subst.
    apply IH; auto; [destruct I as [I|I]; [left; exact I|right; inversion I; assumption]|]. intros c Hc. apply B. apply index_sub; [cbn; lia|exact Hc].
  - exfalso. subst ex. destruct I as [I|I]; [discriminate|]. inversion I as [|? ? ? ? IX IR]; subst. cbn [inside] in IX. destruct IX as (a & b & HA & HB & LA & LB). destruct O as (a' & b' & HA' & HB' & [O|O]).
    + rewrite HA in HA'. injection HA' as <-. rewrite (dle_not_lt _ _ LA) in O. discriminate.
    + rewrite HB in HB'. injection HB' as <-. rewrite (dle_not_lt _ _ LB) in O. discriminate.
Qed.
(** ** Outside *)
Lemma covers_in_range ks i (x0 x1 x : double) : ascending ks -> nth_error ks i = Some x0 -> nth_error ks (S i) = Some x1 -> covers false (length ks) i x0 x1 x -> ~ out_of_range ks x.
Proof.
  intros A H0 H1 [CL CR] (a & b & HA & HB & [O|O]).
  - destruct CL as [CL|[_ CL]]; [|discriminate]. assert (I : dlt x x0 = true) by (destruct i as [|i]; [congruence|eapply lt_le_trans; [exact O|apply dlt_le, (asc_lt' ks 0 (S i)); auto; lia]]). rewrite (dle_not_lt _ _ CL) in I. discriminate.
  - destruct CR as [CR|[_ CR]]; [|discriminate]. assert (IL : (S i < length ks)%nat) by (apply nth_error_Some; congruence).
    assert (I : dlt x1 x = true) by (destruct (Nat.eq_dec (S i) (length ks - 1)) as [E|E]; [congruence|eapply le_lt_trans; [|exact O]; apply dlt_le, (asc_lt' ks (S i) (length ks - 1)); auto; lia]). rewrite (dle_not_lt _ _ CR) in I. discriminate.
Qed.
Lemma computed_outside grid values args v : computed false grid values args v -> Forall good_axis grid -> Forall2 fits grid args -> Exists (fun p => outside (fst p) (snd p)) (combine grid args) -> is_finite v = true /\ B2R v = 0.
Proof.
  intro C. remember false as ex eqn:EE. induction C as [values|ks i k grid values args y HK C IH|ks i x0 x1 x grid values args y0 y1 H0 H1 CV C0 IH0 C1 IH1|k x grid values args y HX C IH|ks x grid values args EX O]; intros G FT EX'.
  - inversion EX'.
  - inversion G; subst. inversion FT; subst. cbn [combine] in EX'. inversion EX' as [? ? D|? ? D]; subst; [destruct D|]. auto.
  - inversion G as [|? ? GX GR]; subst. cbn [good_axis] in GX. destruct GX as (GN & GA & GF). inversion FT as [|? ? ? ? FX FTR]; subst. cbn [fits] in FX. cbn [combine] in EX'. inversion EX' as [? ? D|? ? D]; subst.
    + exfalso. exact (covers_in_range ks i x0 x1 x GA H0 H1 CV D).
    + destruct (IH0 GR FTR D) as [A0 B0]. destruct (IH1 GR FTR D) as [A1 B1]. destruct (flat_line2 x0 x1 y0 y1 x (GA i x0 x1 H0 H1) (fin_at _ _ _ GF H0) (fin_at _ _ _ GF H1) FX A0 A1 ltac:(congruence)) as [A V]. split; [exact A|congruence].
  - inversion G as [|? ? GX GR]; subst. cbn [good_axis] in GX. destruct GX as (GN & GA & GF). inversion FT as [|? ? ? ? FX FTR]; subst. cbn [combine] in EX'. inversion EX' as [? ? D|? ? D]; subst; [|auto].
    exfalso. destruct HX as [HX|HX]; [discriminate|]. cbn in D. destruct D as (a & b & HA & HB & D). cbn in HA, HB. injection HA as <-. injection HB as <-. destruct D as [D|D]; apply dlt_not_eq in D; destruct D; congruence.
  - split; [reflexivity|]. unfold d0. vm_compute. reflexivity.
Qed.

(** ** Construction *)
Lemma asc_sorted ks : ascending ks -> is_sorted ks = true.
Proof. induction ks as [|a [|b r] IH]; intros A; try reflexivity. cbn [is_sorted]. rewrite (dlt_not_lt a b (A 0%nat a b eq_refl eq_refl)). cbn. apply IH, (asc_tail a), A. Qed.
Lemma build_all_ok {T} (b : nat -> outcome T) : (forall i, exists t, b i = Ok t) -> forall n i, exists l, build_all b i n = Ok l.
Proof. intros H. induction n as [|n IH]; intro i; cbn; [eexists; reflexivity|]. destruct (H i) as [t ->]. cbn. destruct (IH (S i)) as [l ->]. cbn. eexists. reflexivity. Qed.
Lemma build_ok : forall grid values ex, grid <> [] -> Forall good_axis grid -> exists t, dbuild grid (rev (map daxis_size grid)) values ex = Ok t.
Proof.
  induction grid as [|a grid IH]; intros values ex N G; [congruence|]. inversion G as [|? ? GA GR]; subst. destruct grid as [|b grid].
  - cbn [map rev app dbuild]. rewrite Nat.eqb_refl. cbn. eexists. reflexivity.
  - remember (b :: grid) as g eqn:Eg. assert (E : exists l, build_all (fun i => dbuild g (removelast (rev (map daxis_size (a :: g)))) (fun c => values (c ++ [i])) ex) 0 (daxis_size a) = Ok l).
    { apply build_all_ok. intro i. cbn [map rev]. rewrite removelast_last. apply IH; [rewrite Eg; discriminate|exact GR]. }
    destruct E as [l E]. cbn [dbuild]. rewrite Eg in E |- *. cbv beta iota. rewrite E.
    replace (length (rev (map daxis_size (a :: b :: grid)))) with (length (a :: b :: grid)) by (rewrite rev_length, map_length; reflexivity). rewrite Nat.eqb_refl. cbn [negb].
    replace (din_order a) with true by (symmetry; destruct a; [apply asc_sorted; apply GA|reflexivity]). cbn [negb].
    replace (last (rev (map daxis_size (a :: b :: grid))) 0%nat) with (daxis_size a) by (cbn [map rev]; rewrite last_last; reflexivity). rewrite Nat.eqb_refl. cbn. eexists. reflexivity.
Qed.
