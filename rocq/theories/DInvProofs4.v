(** The inverse cumulative in double precision: what the lookup returns. *)
From Coq Require Import ZArith Reals List Arith Bool Lia Lra Psatz.
From Flocq Require Import Core IEEE754.BinarySingleNaN.
From Verif Require Import Common CumulModel CumulProofs FloatModel FloatProofs DoubleProofs DoubleProofs2 DInterpModel DInterpSpec DInterpProofs DInterpProofs2
  DSOMProofs DSplineModel DSplineSpec DSplineProofs DSplineProofs2 DSplineProofs3 DSplineProofs4 DSplineProofs5 DPieceSpec DPieceProofs DModeModel DModeSpec DModeProofs DModeProofs2 DDiffProofs DDiffProofs2
  InterpSpec InvCumulSpec DInvModel DInvSpec DInvProofs DInvProofs2 DInvProofs3.
Import ListNotations.
Local Open Scope R_scope.

Lemma last_val r : forall (a d : double), last (a :: r) d = nth (length r) (a :: r) d0.
Proof. induction r as [|b r IH]; intros a d; [reflexivity|]. change (last (a :: b :: r) d) with (last (b :: r) d). change (nth (length (b :: r)) (a :: b :: r) d0) with (nth (length r) (b :: r) d0). apply IH. Qed.
Lemma back_val l : l <> [] -> back l = Ok (dval l (length l - 1)).
Proof. destruct l as [|a r]; [contradiction|intros _]. cbn [back length]. rewrite last_val. unfold dval. rewrite Nat.sub_1_r. reflexivity. Qed.
Lemma front_val l : l <> [] -> front l = Ok (dval l 0).
Proof. destruct l; [contradiction|reflexivity]. Qed.
Lemma at_val l i : (i < length l)%nat -> at_ l i = Ok (dval l i).
Proof. intro H. unfold at_, dval. rewrite (nth_error_nth' l d0 H). reflexivity. Qed.
Lemma rev_skip_rev {A} k (l : list A) : rev (skipn k (rev l)) = firstn (length l - k) l.
Proof. rewrite skipn_rev, rev_involutive. reflexivity. Qed.

Definition cumulated (knots pdf cdf : list double) : Prop :=
  length cdf = length knots /\ dval cdf 0 = dval pdf 0 /\
  forall i, (S i < length knots)%nat -> dval cdf (S i) = dadd (dterm (dval knots i) (dval knots (S i)) (dval pdf i) (dval pdf (S i))) (dval cdf i).
Definition kept (cdf : list double) (m : nat) : Prop :=
  (1 <= m <= length cdf)%nat /\ (forall j, (m <= j)%nat -> (j < length cdf)%nat -> deq (dval cdf j) (dval cdf (j - 1)) = true) /\
  (m = 1%nat \/ deq (dval cdf (m - 1)) (dval cdf (m - 2)) = false).
Definition inverse_of (knots pdf cdf : list double) (m : nat) : dinverse :=
  mkDInverse (firstn m knots) pdf (firstn m cdf) (dval cdf 0) (dsub (dval cdf (m - 1)) (dval cdf 0)).

Lemma new_inverse_ok knots pdf : sampled_density knots pdf -> exists cdf m, cumulated knots pdf cdf /\ kept cdf m /\ dnew_inverse knots pdf = Ok (inverse_of knots pdf cdf m).
Proof.
  intro HD. destruct (lens knots pdf HD) as (LP & L2 & _). pose proof (knot_step knots pdf HD) as ST. pose proof HD as (_ & _ & _ & OK & _).
  assert (SRT : dsorted knots = true). { apply dsorted_ok; [|exact ST]. rewrite Forall_forall in *. intros x Hx. apply (OK x Hx). }
  destruct knots as [|k0 knots]; [cbn in L2; lia|]. destruct pdf as [|p0 pdf]; [cbn in *; lia|]. cbn in LP.
  destruct (cdf_from_spec pdf knots k0 p0 p0 ltac:(lia)) as (r & E & LR & S1). set (cdf := p0 :: r). set (n := length cdf).
  assert (N1 : n = length (k0 :: knots)) by (unfold n, cdf; cbn; lia).
  destruct (trim_spec (rev cdf) (rev (k0 :: knots)) ltac:(rewrite !rev_length; exact N1) ltac:(intro Z; apply (f_equal (@length _)) in Z; rewrite rev_length in Z; discriminate)) as (k & ET & LK & EQ & LAST).
  rewrite rev_length in LK, LAST. fold n in LK, LAST. exists cdf, (n - k)%nat. split; [|split].
  - split; [exact N1|]. split; [reflexivity|]. intros i Hi. apply S1. cbn in Hi. lia.
  - split; [fold n; lia|]. fold n. split.
    + intros j A B. specialize (EQ (n - 1 - j)%nat ltac:(lia)). rewrite !val_rev in EQ by (fold n; lia). fold n in EQ. replace (n - 1 - (n - 1 - j))%nat with j in EQ by lia. replace (n - 1 - S (n - 1 - j))%nat with (j - 1)%nat in EQ by lia. exact EQ.
    + destruct LAST as [A|A]; [left; lia|]. destruct (Nat.eq_dec (S k) n) as [Z|Z]; [left; lia|right]. rewrite !val_rev in A by (fold n; lia). fold n in A.
      replace (n - k - 1)%nat with (n - 1 - k)%nat by lia. replace (n - k - 2)%nat with (n - 1 - S k)%nat by lia. exact A.
  - unfold dnew_inverse. rewrite SRT. cbn [negb]. rewrite E. cbn [bind]. fold cdf. rewrite ET. cbn [bind fst snd]. rewrite !rev_skip_rev. fold n. rewrite <- N1.
    assert (NE : firstn (n - k) cdf <> []). { intro Z. apply (f_equal (@length _)) in Z. rewrite firstn_length in Z. fold n in Z. cbn [length] in Z. lia. }
    rewrite (front_val _ NE), (back_val _ NE). cbn [bind]. rewrite firstn_length. fold n. replace (Nat.min (n - k) n) with (n - k)%nat by lia. rewrite !val_firstn by lia. reflexivity.
Qed.

(** The end of the lookup, on one segment. *)
Definition in_segment (checks : bool) (x0 x1 cdf0 cdf1 p0 p1 u : double) : outcome double :=
  if deq p0 p1 then Ok (dadd (dmul (dsub x1 x0) (ddiv (dsub u cdf0) (dsub cdf1 cdf0))) x0)
  else if deq x1 x0 || deq cdf0 cdf1 || dle u cdf0 then Ok x0
  else
    let a := ddiv (dsub p1 p0) (dsub x1 x0) in
    let b := dsub p0 (dmul a x0) in
    if checks && negb (don_line a b x0 p0 && don_line a b x1 p1) then UB
    else
      let c := dsub (dsub cdf0 (dmul (ddiv a dtwo) (dmul x0 x0))) (dmul b x0) in
      do s <- dsolve_square (ddiv a dtwo) b c u;
      if dwithin x0 x1 (fst s) then Ok (fst s) else if checks && negb (dwithin x0 x1 (snd s)) then UB else Ok (snd s).
Lemma gam_four k : 4 * gam k <= gam (4 * k).
Proof. replace (4 * k)%nat with ((k + k) + (k + k))%nat by lia. rewrite <- !gam_add. pose proof (gam_pos k). nra. Qed.

Lemma sum_zero_l (a b : double) : is_finite a = true -> is_finite b = true -> is_finite (dadd a b) = true -> B2R a = 0 -> B2R (dadd a b) = B2R b.
Proof.
  intros FA FB F Z. destruct (dadd_ext a b FA FB) as [N E]. rewrite (dext_finite _ FA), (dext_finite _ FB), Z, Rplus_0_l, (dext_finite _ F) in E. rewrite E.
  rewrite <- (dext_finite b FB), crd_ext. reflexivity.
Qed.

Lemma tol_val : is_finite dtolerance = true /\ 0 <= B2R dtolerance <= 2 / 10 ^ 8 - / 10 ^ 9.
Proof.
  split; [reflexivity|]. change (B2R dtolerance) with (F2R (Float radix2 6044629098073146 (-79))). unfold F2R, Fnum, Fexp. change (bpow radix2 (-79)) with (/ IZR (Z.pow_pos 2 79)). change (Z.pow_pos 2 79) with 604462909807314587353088%Z.
  split; [apply Rmult_le_pos; [lra|left; apply Rinv_0_lt_compat; lra]|]. lra.
Qed.
Definition slack (M : R) : R := 2 / 10 ^ 8 + bpow radix2 (-48) * M.
Lemma within_slack (x0 x1 s : double) M : is_finite x0 = true -> is_finite x1 = true -> is_finite s = true -> Rabs (B2R x0) <= M -> Rabs (B2R x1) <= M -> M <= bpow radix2 200 ->
  dwithin x0 x1 s = true -> B2R x0 - slack M <= B2R s <= B2R x1 + slack M.
Proof.
  intros F0 F1 FS M0 M1 MH H. destruct tol_val as [FT [T0 T1]]. apply andb_true_iff in H. destruct H as [A B].
  assert (UR : 0 < uro /\ 32 * uro = bpow radix2 (-48)). { split; [apply uro_pos|]. unfold uro. change 32 with (bpow radix2 5). rewrite <- bpow_plus. reflexivity. } destruct UR as [UP UR].
  assert (US : uro <= / 10 ^ 2). { unfold uro. change (bpow radix2 (-53)) with (/ IZR (Z.pow_pos 2 53)). change (Z.pow_pos 2 53) with 9007199254740992%Z. apply Rinv_le; lra. }
  apply Rabs_le_inv in M0. apply Rabs_le_inv in M1. assert (MP : 0 <= M) by lra. assert (BIG : bpow radix2 200 + 1 <= bpow radix2 201). { replace 201%Z with (200 + 1)%Z by reflexivity. rewrite bpow_plus. change (bpow radix2 1) with 2. assert (1 <= bpow radix2 200) by (apply (bpow_le radix2 0); lia). lra. }
  assert (FA : is_finite (dsub x0 dtolerance) = true).
  { destruct (dsub_ext _ _ F0 FT) as [N E]. apply (rnd_finite _ _ N E). rewrite (dext_finite _ F0), (dext_finite _ FT). apply Rle_lt_trans with (bpow radix2 201); [|apply bpow_lt; lia]. apply rnd_bound; [lia|]. apply Rabs_le. lra. }
  assert (FB : is_finite (dadd x1 dtolerance) = true).
  { destruct (dadd_ext _ _ F1 FT) as [N E]. apply (rnd_finite _ _ N E). rewrite (dext_finite _ F1), (dext_finite _ FT). apply Rle_lt_trans with (bpow radix2 201); [|apply bpow_lt; lia]. apply rnd_bound; [lia|]. apply Rabs_le. lra. }
  apply dle_iff in A; auto using dfinite_num. apply dle_iff in B; auto using dfinite_num. rewrite (dext_finite _ FA), (dext_finite _ FS) in A. rewrite (dext_finite _ FS), (dext_finite _ FB) in B.
  destruct (sub_rel _ _ F0 FT FA) as (e0 & E0 & V0). destruct (add_rel _ _ F1 FT FB) as (e1 & E1 & V1). rewrite V0 in A. rewrite V1 in B. unfold slack. rewrite <- UR.
  assert (Q0 : Rabs ((B2R x0 - B2R dtolerance) * e0) <= uro * (M + B2R dtolerance)). { rewrite Rabs_mult, Rmult_comm. apply Rmult_le_compat; auto using Rabs_pos. apply Rabs_le. lra. }
  assert (Q1 : Rabs ((B2R x1 + B2R dtolerance) * e1) <= uro * (M + B2R dtolerance)). { rewrite Rabs_mult, Rmult_comm. apply Rmult_le_compat; auto using Rabs_pos. apply Rabs_le. lra. }
  apply Rabs_le_inv in Q0. apply Rabs_le_inv in Q1. assert (0 <= uro * M) by (apply Rmult_le_pos; lra). assert (uro * B2R dtolerance <= / 10 ^ 2 * B2R dtolerance) by (apply Rmult_le_compat_r; lra). lra.
Qed.

Section Look.
  Variables knots pdf cdf : list double.
  Variable m : nat.
  Hypothesis HD : sampled_density knots pdf.
  Hypothesis HC : cumulated knots pdf cdf.
  Hypothesis HK : kept cdf m.
  Let n := length knots.
  Let c i := B2R (dval cdf i).
  Let tc := true_cum knots pdf.
  Let T := tc (n - 1).
  Lemma fin_c i : (i < n)%nat -> is_finite (dval cdf i) = true.
  Proof. destruct HC as (CL & C0 & CS). intro H. apply (cdf_near knots pdf HD cdf CL C0 CS i H). Qed.
  Lemma near_c i : (i < n)%nat -> near (i + 4) (tc i) (tc i) (c i).
  Proof. destruct HC as (CL & C0 & CS). intro H. apply (cdf_near knots pdf HD cdf CL C0 CS i H). Qed.
  Lemma mono_c i j : (i <= j)%nat -> (j < n)%nat -> 0 <= c i <= c j.
  Proof. destruct HC as (CL & C0 & CS). apply (cdf_mono knots pdf HD cdf CL C0 CS). Qed.
  Lemma mono_t i j : (i <= j)%nat -> (j < n)%nat -> 0 <= tc i <= tc j.
  Proof. apply cum_mono, HD. Qed.
  Lemma n_ok : (2 <= n)%nat /\ (Z.of_nat n <= 2 ^ 40)%Z /\ length pdf = n /\ length cdf = n.
  Proof. destruct (lens knots pdf HD) as (A & B & C). destruct HC as (CL & _). auto. Qed.
  Lemma m_ok : (1 <= m <= n)%nat. Proof. destruct HK as (A & _). destruct n_ok as (_ & _ & _ & L). lia. Qed.
  Lemma eq_c i j : (i < n)%nat -> (j < n)%nat -> (deq (dval cdf i) (dval cdf j) = true <-> c i = c j).
  Proof. intros A B. rewrite deq_iff by (apply dfinite_num, fin_c; assumption). rewrite (dext_finite _ (fin_c i A)), (dext_finite _ (fin_c j B)). reflexivity. Qed.
  Lemma top_c j : (m - 1 <= j)%nat -> (j < n)%nat -> c j = c (m - 1).
  Proof.
    intros A B. destruct m_ok as [M1 M2]. destruct HK as (_ & EQ & _). destruct n_ok as (_ & _ & _ & LC). induction A as [|j A IH]; [reflexivity|]. rewrite <- IH by lia.
    apply (eq_c (S j) j ltac:(lia) ltac:(lia)). specialize (EQ (S j) ltac:(lia) ltac:(lia)). replace (S j - 1)%nat with j in EQ by lia. exact EQ.
  Qed.
  Lemma T_high : T <= bpow radix2 241. Proof. apply true_top; [exact HD|]. destruct n_ok. fold n. lia. Qed.
  Lemma T_case : T = 0 \/ bpow radix2 (-255) <= T.
  Proof.
    assert (G : forall i, (i < n)%nat -> tc i = 0 \/ bpow radix2 (-255) <= tc i).
    { induction i as [|i IH]; intro H.
      - unfold tc, true_cum. cbn [area]. rewrite el_val, Rplus_0_r. destruct (pdf_ord knots pdf HD 0 H) as [_ [E|[E _]]]; [left; exact E|right]. rewrite Rabs_pos_eq in E by (apply (pdf_pos knots pdf HD 0 H)).
        apply Rle_trans with (2 := E). apply bpow_le. lia.
      - unfold tc. rewrite cum_succ. fold tc. pose proof (mono_t i i ltac:(lia) ltac:(lia)) as [T0 _].
        pose proof (term_near _ _ _ _ (knot_ord knots pdf HD i ltac:(fold n; lia)) (knot_ord knots pdf HD (S i) H) (pdf_ord knots pdf HD i ltac:(fold n; lia)) (pdf_ord knots pdf HD (S i) H) (knot_step knots pdf HD i H) (pdf_pos knots pdf HD i ltac:(fold n; lia)) (pdf_pos knots pdf HD (S i) H)) as (_ & _ & V & _ & VC).
        destruct (IH ltac:(lia)) as [E|E]; [|right; lra]. rewrite E. destruct VC as [W|W]; [left|right]; lra. }
    apply G. destruct n_ok. lia.
  Qed.
  Lemma c_le_T i : (i < n)%nat -> c i <= 3 / 2 * T.
  Proof.
    intro H. destruct n_ok as (N2 & NB & _). pose proof (mono_c i (n - 1) ltac:(lia) ltac:(lia)) as [_ A]. apply Rle_trans with (1 := A).
    pose proof (near_c (n - 1) ltac:(lia)) as N. pose proof (mono_t (n - 1) (n - 1) ltac:(lia) ltac:(lia)) as [T0 _]. pose proof (gam_half (n - 1 + 4) ltac:(lia)). unfold near in N. apply Rabs_le_inv in N. fold T in N, T0. nra.
  Qed.
  Variable p : double.
  Hypothesis FP : is_finite p = true.
  Hypothesis HP : 0 <= B2R p <= 1.
  Let rng := dsub (dval cdf (m - 1)) (dval cdf 0).
  Let u := dadd (dmul p rng) (dval cdf 0).
  Let goal := B2R p * (T - tc 0) + tc 0.
  Lemma c0_t0 : c 0 = tc 0.
  Proof. destruct HC as (_ & C0 & _). unfold c, tc, true_cum. rewrite C0, el_val. cbn [area]. ring. Qed.
  Lemma c_high i : (i < n)%nat -> Rabs (c i) <= bpow radix2 242.
  Proof.
    intro H. pose proof (mono_c i i ltac:(lia) H) as [P0 _]. rewrite Rabs_pos_eq by exact P0. pose proof (c_le_T i H). pose proof T_high. replace 242%Z with (241 + 1)%Z by reflexivity. rewrite bpow_plus. change (bpow radix2 1) with 2.
    pose proof (bpow_gt_0 radix2 241). lra.
  Qed.
  Lemma rng_ok : is_finite rng = true /\ 0 <= B2R rng <= bpow radix2 243.
  Proof.
    destruct m_ok as [M1 M2]. pose proof (fin_c (m - 1) ltac:(lia)) as F1. pose proof (fin_c 0 ltac:(lia)) as F0. destruct (dsub_ext _ _ F1 F0) as [N E]. rewrite (dext_finite _ F1), (dext_finite _ F0) in E. fold (c (m - 1)) (c 0) in E.
    pose proof (mono_c 0 (m - 1) ltac:(lia) ltac:(lia)) as [P0 P1]. pose proof (c_high (m - 1) ltac:(lia)) as H1. apply Rabs_le_inv in H1.
    assert (B : Rabs (rnd53 (c (m - 1) - c 0)) <= bpow radix2 243).
    { apply rnd_bound; [lia|]. rewrite Rabs_pos_eq by lra. assert (bpow radix2 242 <= bpow radix2 243) by (apply bpow_le; lia). lra. }
    assert (F : is_finite rng = true). { apply (rnd_finite _ _ N E). apply Rle_lt_trans with (1 := B). apply bpow_lt. lia. }
    split; [exact F|]. rewrite <- (dext_finite _ F). unfold rng in *. rewrite E. rewrite crnd_small by (apply Rle_lt_trans with (1 := B); apply bpow_lt; lia).
    apply Rabs_le_inv in B. split; [|lra]. apply round_ge_generic; [typeclasses eauto|typeclasses eauto|apply generic_format_0|lra].
  Qed.
  Lemma prod_ok : is_finite (dmul p rng) = true /\ 0 <= B2R (dmul p rng) <= bpow radix2 243.
  Proof.
    destruct rng_ok as [F [R0 R1]]. destruct (dmul_ext _ _ FP F) as [N E]. rewrite (dext_finite _ FP), (dext_finite _ F) in E.
    assert (B : Rabs (rnd53 (B2R p * B2R rng)) <= bpow radix2 243). { apply rnd_bound; [lia|]. rewrite Rabs_pos_eq by (apply Rmult_le_pos; lra). nra. }
    assert (F1 : is_finite (dmul p rng) = true). { apply (rnd_finite _ _ N E). apply Rle_lt_trans with (1 := B). apply bpow_lt. lia. }
    split; [exact F1|]. rewrite <- (dext_finite _ F1), E. rewrite crnd_small by (apply Rle_lt_trans with (1 := B); apply bpow_lt; lia).
    apply Rabs_le_inv in B. split; [|lra]. apply round_ge_generic; [typeclasses eauto|typeclasses eauto|apply generic_format_0|apply Rmult_le_pos; lra].
  Qed.
  Lemma u_fin : is_finite u = true.
  Proof.
    destruct prod_ok as [F [R0 R1]]. pose proof (fin_c 0 ltac:(destruct n_ok; lia)) as F0. destruct (dadd_ext _ _ F F0) as [N E]. rewrite (dext_finite _ F), (dext_finite _ F0) in E. apply (rnd_finite _ _ N E).
    apply Rle_lt_trans with (bpow radix2 245); [|apply bpow_lt; lia]. apply rnd_bound; [lia|]. pose proof (c_high 0 ltac:(destruct n_ok; lia)) as H0. unfold c in H0. apply Rle_trans with (1 := Rabs_triang _ _). rewrite (Rabs_pos_eq (B2R (dmul p rng))) by exact R0.
    assert (bpow radix2 242 <= bpow radix2 244) by (apply bpow_le; lia). assert (bpow radix2 243 <= bpow radix2 244) by (apply bpow_le; lia).
    replace 245%Z with (244 + 1)%Z by reflexivity. rewrite bpow_plus. change (bpow radix2 1) with 2. lra.
  Qed.
  Lemma u_low : c 0 <= B2R u.
  Proof.
    destruct prod_ok as [F [R0 R1]]. destruct n_ok as (N2 & _). pose proof (fin_c 0 ltac:(lia)) as F0. pose proof (mono_c 0 0 ltac:(lia) ltac:(lia)) as [P0 _].
    destruct (add_nonneg _ (dval cdf 0) (dfinite_num _ F) (dfinite_num _ F0)) as (_ & _ & L); rewrite ?(dext_finite _ F), ?(dext_finite _ F0); auto. rewrite (dext_finite _ F0) in L. fold u in L. rewrite (dext_finite _ u_fin) in L. exact L.
  Qed.
  Lemma u_zero : T = 0 -> B2R u = c 0.
  Proof.
    intro Z. destruct n_ok as (N2 & _). pose proof (c_le_T (m - 1) ltac:(pose proof m_ok; lia)) as A. pose proof (mono_c 0 (m - 1) ltac:(lia) ltac:(pose proof m_ok; lia)) as [P0 P1]. rewrite Z in A.
    assert (E0 : c 0 = 0) by lra. assert (E1 : c (m - 1) = 0) by lra. pose proof (fin_c 0 ltac:(lia)) as F0. pose proof (fin_c (m - 1) ltac:(pose proof m_ok; lia)) as F1.
    assert (R : B2R rng = 0). { destruct rng_ok as [F _]. destruct (sub_rel _ _ F1 F0 F) as (e & _ & V). unfold rng. rewrite V. unfold c in *. rewrite E0, E1. ring. }
    assert (P : B2R (dmul p rng) = 0).
    { destruct prod_ok as [F _]. destruct (dmul_ext _ _ FP (proj1 rng_ok)) as [N E]. rewrite (dext_finite _ FP), (dext_finite _ (proj1 rng_ok)), R, Rmult_0_r in E. rewrite <- (dext_finite _ F), E.
      rewrite crnd_small; rewrite round_0 by typeclasses eauto; [reflexivity|]. rewrite Rabs_R0. apply bpow_gt_0. }
    destruct (add_rel _ _ (proj1 prod_ok) F0 u_fin) as (e & _ & V). unfold u. rewrite V, P. unfold c in E0. rewrite E0. unfold c. rewrite E0. ring.
  Qed.
  Lemma u_near : near (n + 6) (3 * T) goal (B2R u).
  Proof.
    destruct n_ok as (N2 & NB & _). pose proof m_ok as [M1 M2]. pose proof (mono_t 0 (n - 1) ltac:(lia) ltac:(lia)) as [T0 T1]. fold T in T1. destruct T_case as [Z|Z].
    - pose proof (u_zero Z) as E. rewrite E, c0_t0. unfold goal. replace (T - tc 0) with 0 by lra. rewrite Rmult_0_r, Rplus_0_l. apply near_refl. rewrite Rabs_pos_eq; lra.
    - assert (NC : near (n + 3) T T (B2R (dval cdf (m - 1)))). { fold (c (m - 1)). rewrite <- (top_c (n - 1) ltac:(lia) ltac:(lia)). replace (n + 3)%nat with (n - 1 + 4)%nat by lia. apply near_c. lia. }
      assert (N0 : near (n + 3) T (tc 0) (B2R (dval cdf 0))). { fold (c 0). rewrite c0_t0. apply near_refl. rewrite Rabs_pos_eq; lra. }
      pose proof (sub_near (n + 3) T T _ _ T (tc 0) (proj1 rng_ok) ltac:(rewrite Rabs_pos_eq; lra) ltac:(rewrite Rabs_pos_eq; lra) NC N0) as NR. fold rng in NR.
      pose proof (mul_pad 0 (S (n + 3)) 1 (T + T) p rng (B2R p) (T - tc 0) (proj1 prod_ok) ltac:(rewrite Rabs_pos_eq; lra) ltac:(rewrite Rabs_pos_eq; lra) (near_refl 0 1 (B2R p) ltac:(rewrite Rabs_pos_eq; lra)) NR
        ltac:(apply Rle_trans with (bpow radix2 (-255)); [apply bpow_le; lia|lra])) as NP.
      pose proof (add_near (S (0 + S (n + 3))) (1 * (T + T)) T (dmul p rng) (dval cdf 0) (B2R p * (T - tc 0)) (tc 0) u_fin ltac:(rewrite Rabs_mult; apply Rmult_le_compat; auto using Rabs_pos; rewrite Rabs_pos_eq; lra) ltac:(rewrite Rabs_pos_eq; lra) NP
        ltac:(apply (near_more (n + 3)); [lia|lra|exact N0])) as NU. fold u in NU. replace (n + 6)%nat with (S (S (0 + S (n + 3)))) by lia. replace (3 * T) with (1 * (T + T) + T) by ring. exact NU.
  Qed.

  Lemma find_cases checks : let found := dfind_inverse checks (inverse_of knots pdf cdf m) p in
    (B2R u <= c 0 /\ found = Ok (dval knots 0)) \/
    (c 0 < B2R u /\ c (m - 1) <= B2R u /\ found = Ok (dval knots (m - 1))) \/
    exists i, (S i < m)%nat /\ c i <= B2R u < c (S i) /\ c 0 < B2R u < c (m - 1) /\ found = in_segment checks (dval knots i) (dval knots (S i)) (dval cdf i) (dval cdf (S i)) (dval pdf i) (dval pdf (S i)) u.
  Proof.
    cbn zeta. destruct n_ok as (N2 & NB & LP & LC). pose proof m_ok as [M1 M2]. pose proof u_fin as FU. pose proof (dfinite_num _ FU) as NU.
    assert (P0 : dlt p d0 = false). { apply dlt_no; [apply dfinite_num, FP|reflexivity|]. rewrite (dext_finite _ FP). change (ext d0) with 0. lra. }
    assert (P1 : dlt d1 p = false). { apply dlt_no; [reflexivity|apply dfinite_num, FP|]. rewrite (dext_finite _ FP). rewrite (dext_finite d1 eq_refl), B2R_d1. lra. }
    assert (LK : length (firstn m knots) = m) by (rewrite firstn_length; fold n; lia). assert (LF : length (firstn m cdf) = m) by (rewrite firstn_length; lia).
    assert (NK : firstn m knots <> []) by (intro Z; rewrite Z in LK; cbn in LK; lia). assert (NF : firstn m cdf <> []) by (intro Z; rewrite Z in LF; cbn in LF; lia).
    unfold dfind_inverse. rewrite P0, P1. cbn [orb inverse_of n_range n_min n_cdf n_knots n_pdf]. fold rng. fold u.
    rewrite (front_val _ NF), (front_val _ NK), (back_val _ NF), (back_val _ NK). cbn [bind]. rewrite LK, LF, !val_firstn by lia.
    pose proof (fin_c 0 ltac:(lia)) as F0. pose proof (fin_c (m - 1) ltac:(lia)) as F1.
    destruct (dle u (dval cdf 0)) eqn:E0.
    { left. split; [|reflexivity]. apply dle_iff in E0; auto using dfinite_num. rewrite (dext_finite _ FU), (dext_finite _ F0) in E0. exact E0. }
    assert (L0 : c 0 < B2R u). { apply Rnot_le_lt. intro L. assert (dle u (dval cdf 0) = true); [|congruence]. apply dle_iff; auto using dfinite_num. rewrite (dext_finite _ FU), (dext_finite _ F0). exact L. }
    destruct (dle (dval cdf (m - 1)) u) eqn:E1.
    { right. left. split; [exact L0|]. split; [|reflexivity]. apply dle_iff in E1; auto using dfinite_num. rewrite (dext_finite _ FU), (dext_finite _ F1) in E1. exact E1. }
    assert (L1 : B2R u < c (m - 1)). { apply Rnot_le_lt. intro L. assert (dle (dval cdf (m - 1)) u = true); [|congruence]. apply dle_iff; auto using dfinite_num. rewrite (dext_finite _ FU), (dext_finite _ F1). exact L. }
    right. right. destruct (count_while_spec (fun x => negb (dlt u x)) (firstn m cdf)) as (K1 & K2 & K3). set (k := count_while (fun x => negb (dlt u x)) (firstn m cdf)) in *. rewrite LF in K1.
    assert (NE : forall j, (j < m)%nat -> nth_error (firstn m cdf) j = Some (dval cdf j)). { intros j Hj. rewrite (nth_error_nth' _ d0) by lia. f_equal. apply (val_firstn m cdf j Hj). }
    assert (CU : forall j, (j < n)%nat -> (dlt u (dval cdf j) = true <-> B2R u < c j)). { intros j Hj. rewrite dlt_iff by auto using dfinite_num, fin_c. rewrite (dext_finite _ FU), (dext_finite _ (fin_c j Hj)). reflexivity. }
    assert (KM : (k < m)%nat).
    { destruct (Nat.eq_dec k m) as [Z|Z]; [|lia]. specialize (K2 (m - 1)%nat _ ltac:(lia) (NE (m - 1)%nat ltac:(lia))). apply (CU (m - 1)%nat ltac:(lia)) in L1. rewrite L1 in K2. discriminate. }
    specialize (K3 _ (NE k KM)). apply negb_false_iff, (CU k ltac:(lia)) in K3.
    assert (KP : (1 <= k)%nat). { destruct k as [|k']; [lra|lia]. }
    exists (k - 1)%nat. replace (S (k - 1)) with k by lia. split; [exact KM|]. split; [|split; [split; assumption|]].
    - split; [|exact K3]. specialize (K2 (k - 1)%nat _ ltac:(lia) (NE (k - 1)%nat ltac:(lia))). apply negb_true_iff in K2. apply Rnot_lt_le. intro L. apply (CU (k - 1)%nat ltac:(lia)) in L. congruence.
    - replace (k - 1 + 1)%nat with k by lia. rewrite !at_val by lia. cbn [bind]. rewrite !val_firstn by lia. reflexivity.
  Qed.
  Let x i := B2R (dval knots i).
  Let d i := B2R (dval pdf i).
  Let F i r := c i + (r - x i) * (d i + (d i + (d (S i) - d i) * ((r - x i) / (x (S i) - x i)))) / 2.
  Lemma area_F i r : area_to (map B2R knots) (map B2R pdf) i r - B2R p * area (map B2R knots) (map B2R pdf) (n - 1) = (F i r - B2R u) + (tc i - c i) + (B2R u - goal).
  Proof. unfold area_to, density, line, F, goal, T, tc, true_cum, x, d. rewrite !el_val. cbn [area]. ring. Qed.
  Lemma combine i r E : (S i < n)%nat -> Rabs (F i r - B2R u) <= E ->
    Rabs (area_to (map B2R knots) (map B2R pdf) i r - B2R p * area (map B2R knots) (map B2R pdf) (n - 1)) <= E + gam (4 * n + 24) * T.
  Proof.
    intros H B. rewrite area_F. pose proof (near_c i ltac:(lia)) as NC. pose proof u_near as NU. unfold near in NC, NU. rewrite Rabs_minus_sym in NC. pose proof (mono_t i (n - 1) ltac:(lia) ltac:(lia)) as [T0 T1]. fold T in T1.
    pose proof (gam_mono (i + 4) (n + 6) ltac:(lia)) as G. pose proof (gam_four (n + 6)) as G4. replace (4 * (n + 6))%nat with (4 * n + 24)%nat in G4 by lia. pose proof (gam_pos (i + 4)). pose proof (gam_pos (n + 6)).
    pose proof (Rabs_triang (F i r - B2R u + (tc i - c i)) (B2R u - goal)). pose proof (Rabs_triang (F i r - B2R u) (tc i - c i)).
    assert (gam (i + 4) * tc i <= gam (n + 6) * T) by (apply Rmult_le_compat; lra). assert (4 * gam (n + 6) * T <= gam (4 * n + 24) * T) by (apply Rmult_le_compat_r; lra). lra.
  Qed.
  Lemma finish E cond : 0 <= cond -> E <= 376 * uro * (T + cond) -> E + gam (4 * n + 24) * T <= gam (4 * n + 400) * (T + cond).
  Proof.
    intros C0 H. replace (4 * n + 400)%nat with (4 * n + 24 + 376)%nat by lia. rewrite <- (gam_add (4 * n + 24) 376). pose proof (gam_large 376 376 ltac:(rewrite INR_IZR_INZ; cbn; lra)) as G. pose proof (gam_pos (4 * n + 24)). pose proof (gam_pos 376). pose proof uro_pos.
    destruct n_ok as (N2 & _). pose proof (mono_t (n - 1) (n - 1) ltac:(lia) ltac:(lia)) as [T0 _]. fold T in T0.
    assert (376 * uro * (T + cond) <= gam 376 * (T + cond)) by (apply Rmult_le_compat_r; lra). assert (0 <= gam (4 * n + 24) * cond) by (apply Rmult_le_pos; lra).
    assert (0 <= gam (4 * n + 24) * gam 376 * (T + cond)) by (apply Rmult_le_pos; [apply Rmult_le_pos; assumption|lra]). lra.
  Qed.
  Lemma wide i : (S i < n)%nat -> c i < c (S i) -> x i < x (S i).
  Proof.
    intros H L. destruct HC as (CL & C0 & CS). pose proof (knot_step knots pdf HD i H) as K. fold (x i) (x (S i)) in K. destruct (Rle_lt_or_eq_dec _ _ K) as [G|E]; [exact G|]. exfalso.
    pose proof (term_near _ _ _ _ (knot_ord knots pdf HD i ltac:(fold n; lia)) (knot_ord knots pdf HD (S i) H) (pdf_ord knots pdf HD i ltac:(fold n; lia)) (pdf_ord knots pdf HD (S i) H) (knot_step knots pdf HD i H) (pdf_pos knots pdf HD i ltac:(fold n; lia)) (pdf_pos knots pdf HD (S i) H)) as (FT & NT & _).
    unfold x in E. rewrite E in NT. replace ((B2R (dval knots (S i)) - B2R (dval knots (S i))) * (B2R (dval pdf i) + B2R (dval pdf (S i))) / 2) with 0 in NT by (unfold Rdiv; ring). unfold near in NT. rewrite Rmult_0_r, Rminus_0_r in NT.
    assert (Z : B2R (dterm (dval knots i) (dval knots (S i)) (dval pdf i) (dval pdf (S i))) = 0). { destruct (Req_dec (B2R (dterm (dval knots i) (dval knots (S i)) (dval pdf i) (dval pdf (S i)))) 0) as [Z|Z]; [exact Z|]. apply Rabs_pos_lt in Z. lra. }
    pose proof (fin_c i ltac:(lia)) as FI. pose proof (fin_c (S i) ltac:(lia)) as FS. unfold c in L. rewrite (CS i H) in L, FS. pose proof (sum_zero_l _ _ FT FI FS Z) as Q. lra.
  Qed.
  Let K := map B2R knots.
  Let D := map B2R pdf.
  Let M i := distance K i.
  Lemma M_is i : M i = Rmax (Rabs (x i)) (Rabs (x (S i))). Proof. unfold M, distance, K. rewrite !el_val. reflexivity. Qed.
  Lemma P_is i : height D i = Rmax (d i) (d (S i)). Proof. unfold height, D. rewrite !el_val. reflexivity. Qed.
  Lemma S_is i : slope K D i = Rabs ((d (S i) - d i) / (x (S i) - x i)). Proof. unfold slope, K, D. rewrite !el_val. reflexivity. Qed.
  Lemma M_high i : (S i < n)%nat -> M i <= bpow radix2 100.
  Proof. intro H. rewrite M_is. apply Rmax_lub; apply ord_abs, (knot_ord knots pdf HD); fold n; lia. Qed.
  Lemma seg_flat i : (S i < n)%nat -> c i <= B2R u < c (S i) -> d i = d (S i) ->
    let r := dadd (dmul (dsub (dval knots (S i)) (dval knots i)) (ddiv (dsub u (dval cdf i)) (dsub (dval cdf (S i)) (dval cdf i)))) (dval knots i) in
    is_finite r = true /\ Rabs (F i (B2R r) - B2R u) <= 24 * uro * (3 / 2 * T + condition K D i) /\ x i - slack (M i) <= B2R r <= x (S i) + slack (M i).
  Proof.
    intros H [U0 U1] E r. pose proof (wide i H ltac:(lra)) as WX. pose proof (knot_ord knots pdf HD i ltac:(fold n; lia)) as O0. pose proof (knot_ord knots pdf HD (S i) H) as O1. pose proof (ord_gap _ _ O0 O1 WX) as GAP.
    pose proof (pdf_pos knots pdf HD i ltac:(fold n; lia)) as PP. fold (d i) in PP. pose proof (pdf_ord knots pdf HD i ltac:(fold n; lia)) as Q0. pose proof (pdf_ord knots pdf HD (S i) H) as Q1.
    pose proof (fin_c i ltac:(lia)) as FI. pose proof (fin_c (S i) H) as FS. pose proof (c_le_T (S i) H) as CT. pose proof T_high as TH. pose proof (mono_c i i ltac:(lia) ltac:(lia)) as [CI _].
    assert (CD : condition K D i = d i * M i). { unfold condition, M. destruct (Req_EM_T _ _) as [_|N]; [|exfalso; apply N; unfold D; rewrite !el_val; exact E]. rewrite P_is, <- E, Rmax_left by lra. reflexivity. }
    assert (DC : Rabs (c (S i) - c i - (x (S i) - x i) * d i) <= 12 * uro * (3 / 2 * T)).
    { destruct HC as (CL & C0 & CS). pose proof (term_near _ _ _ _ O0 O1 Q0 Q1 (knot_step knots pdf HD i H) PP (pdf_pos knots pdf HD (S i) H)) as (FT & NT & V & VP & _). set (t := dterm (dval knots i) (dval knots (S i)) (dval pdf i) (dval pdf (S i))) in *.
      fold (x i) (x (S i)) (d i) (d (S i)) in NT, V. rewrite <- E in NT, V. replace ((x (S i) - x i) * (d i + d i) / 2) with ((x (S i) - x i) * d i) in NT, V by field. set (v := (x (S i) - x i) * d i) in *.
      pose proof (gam_small 4 4 ltac:(lia) ltac:(cbn; lra)) as G. unfold near in NT. pose proof uro_pos as UP.
      assert (US : uro <= / 100). { unfold uro. change (bpow radix2 (-53)) with (/ IZR (Z.pow_pos 2 53)). change (Z.pow_pos 2 53) with 9007199254740992%Z. apply Rinv_le; lra. }
      assert (FA : is_finite (dadd t (dval cdf i)) = true) by (unfold t; rewrite <- (CS i H); exact FS). destruct (add_rel _ _ FT FI FA) as (e & EB & EV). unfold t in EV at 1. rewrite <- (CS i H) in EV. fold t in EV. fold (c (S i)) (c i) in EV.
      assert (NT1 : Rabs (B2R t - v) <= 5 * uro * v) by (apply Rle_trans with (1 := NT); apply Rmult_le_compat_r; lra). assert (TV : v <= 2 * B2R t). { apply Rabs_le_inv in NT1. assert (5 * uro * v <= 5 * / 100 * v) by (apply Rmult_le_compat_r; lra). lra. }
      set (U := 3 / 2 * T) in *. apply Rabs_le_inv in EB. assert (SUM : B2R t + c i <= 2 * c (S i)). { rewrite EV. assert (0 <= (B2R t + c i) * (/ 2 + e)) by (apply Rmult_le_pos; lra). lra. }
      replace (c (S i) - c i - v) with ((B2R t + c i) * e + (B2R t - v)) by (rewrite EV; ring). apply Rle_trans with (1 := Rabs_triang _ _).
      assert (A1 : Rabs ((B2R t + c i) * e) <= 102 / 100 * U * uro).
      { assert (S2 : B2R t + c i <= 102 / 100 * U * 1). { assert (Q9 : (B2R t + c i) * (1 - / 100) <= (B2R t + c i) * (1 + e)) by (apply Rmult_le_compat_l; lra). rewrite <- EV in Q9. assert (c (S i) <= U) by lra. lra. }
        rewrite Rabs_mult, (Rabs_pos_eq (B2R t + c i)) by lra. apply Rmult_le_compat; [lra|apply Rabs_pos|lra|apply Rabs_le; lra]. }
      assert (A2 : 5 * uro * v <= 5 * uro * (11 / 10 * U)).
      { apply Rmult_le_compat_l; [lra|]. apply Rabs_le_inv in NT1. assert (5 * uro * v <= 5 * / 100 * v) by (apply Rmult_le_compat_r; lra). assert (Q9 : (B2R t + c i) * (1 - / 100) <= (B2R t + c i) * (1 + e)) by (apply Rmult_le_compat_l; lra). rewrite <- EV in Q9. lra. }
      assert (0 <= U) by lra. assert (0 <= uro * U) by (apply Rmult_le_pos; lra). lra. }
    pose proof (M_high i H) as MH. assert (M0 : Rabs (x i) <= M i) by (rewrite M_is; apply Rmax_l). assert (M1 : Rabs (x (S i)) <= M i) by (rewrite M_is; apply Rmax_r).
    destruct (flat_accurate (dval knots i) (dval knots (S i)) (dval cdf i) (dval cdf (S i)) u (d i) (M i) (3 / 2 * T) (proj1 O0) (proj1 O1) FI FS u_fin (Rlt_le _ _ WX) M0 M1) as (FR & AR & BR); auto.
    - apply Rle_trans with (1 := MH). apply bpow_le. lia.
    - apply Rle_trans with (2 := GAP). apply bpow_le. lia.
    - apply Rle_trans with (bpow radix2 242); [|apply bpow_le; lia]. replace 242%Z with (241 + 1)%Z by reflexivity. rewrite bpow_plus. change (bpow radix2 1) with 2. pose proof (bpow_gt_0 radix2 241). lra.
    - fold r in FR, AR, BR. assert (A1 : Rabs (F i (B2R r) - B2R u) <= 24 * uro * (3 / 2 * T + condition K D i)).
      { rewrite CD. replace (F i (B2R r) - B2R u) with (B2R (dval cdf i) + (B2R r - B2R (dval knots i)) * d i - B2R u); [exact AR|]. unfold F. rewrite <- E. fold (c i) (x i). unfold Rdiv. replace (d i - d i) with 0 by ring. rewrite Rmult_0_l. field. }
      assert (A2 : x i - slack (M i) <= B2R r <= x (S i) + slack (M i)).
      { fold (x i) (x (S i)) in BR. unfold slack. replace (bpow radix2 (-48)) with (32 * uro) by (unfold uro; change 32 with (bpow radix2 5); rewrite <- bpow_plus; reflexivity).
        assert (0 <= uro * M i) by (apply Rmult_le_pos; [left; apply uro_pos|apply Rle_trans with (2 := M0), Rabs_pos]). lra. }
      exact (conj FR (conj A1 A2)).
  Qed.
  Lemma seg_curved i (s : double) sg : (S i < n)%nat -> c i <= B2R u < c (S i) -> d i <> d (S i) ->
    let a := ddiv (dsub (dval pdf (S i)) (dval pdf i)) (dsub (dval knots (S i)) (dval knots i)) in
    let b := dsub (dval pdf i) (dmul a (dval knots i)) in
    let k := dsub (dsub (dval cdf i) (dmul (ddiv a dtwo) (dmul (dval knots i) (dval knots i)))) (dmul b (dval knots i)) in
    let q := ddiv b (dmul dtwo (ddiv a dtwo)) in
    let rad := dadd (ddiv (dsub u k) (ddiv a dtwo)) (dmul q q) in
    is_finite (ddiv a dtwo) = true /\ B2R (ddiv a dtwo) <> 0 /\
    (s = dsub (if sg : bool then dsqrt rad else Bopp (dsqrt rad)) q -> is_finite s = true -> Rabs (F i (B2R s) - B2R u) <= 200 * uro * (3 / 2 * T + condition K D i)).
  Proof.
    intros H [U0 U1] E a b k q rad. pose proof (wide i H ltac:(lra)) as WX. pose proof (knot_ord knots pdf HD i ltac:(fold n; lia)) as O0. pose proof (knot_ord knots pdf HD (S i) H) as O1. pose proof (ord_gap _ _ O0 O1 WX) as GAP.
    pose proof (pdf_pos knots pdf HD i ltac:(fold n; lia)) as P0. pose proof (pdf_pos knots pdf HD (S i) H) as P1. pose proof (pdf_ord knots pdf HD i ltac:(fold n; lia)) as Q0. pose proof (pdf_ord knots pdf HD (S i) H) as Q1. fold (d i) in P0. fold (d (S i)) in P1.
    pose proof (fin_c i ltac:(lia)) as FI. pose proof (c_le_T (S i) H) as CT. pose proof (mono_c i i ltac:(lia) ltac:(lia)) as [CI _].
    assert (GD : bpow radix2 (-200) <= Rabs (d (S i) - d i)).
    { apply Rle_trans with (bpow radix2 (-154)); [apply bpow_le; lia|]. destruct (Rtotal_order (d i) (d (S i))) as [L|[L|L]]; [|contradiction|].
      - rewrite Rabs_pos_eq by lra. apply (ord_gap _ _ Q0 Q1 L).
      - rewrite Rabs_minus_sym, Rabs_pos_eq by lra. apply (ord_gap _ _ Q1 Q0 L). }
    pose proof (M_high i H) as MH. assert (M0 : Rabs (x i) <= M i) by (rewrite M_is; apply Rmax_l). assert (M1 : Rabs (x (S i)) <= M i) by (rewrite M_is; apply Rmax_r).
    assert (H0 : d i <= height D i) by (rewrite P_is; apply Rmax_l). assert (H1 : d (S i) <= height D i) by (rewrite P_is; apply Rmax_r).
    assert (HH : height D i <= bpow radix2 200).
    { apply Rle_trans with (bpow radix2 100); [|apply bpow_le; lia]. rewrite P_is. pose proof (ord_abs _ Q0) as A0. pose proof (ord_abs _ Q1) as A1. apply Rabs_le_inv in A0. apply Rabs_le_inv in A1. apply Rmax_lub; [apply A0|apply A1]. }
    assert (ML : bpow radix2 (-200) <= M i).
    { apply Rle_trans with (bpow radix2 (-155)); [apply bpow_le; lia|]. replace (-155)%Z with (-154 + -1)%Z by reflexivity. rewrite bpow_plus. change (bpow radix2 (-1)) with (/ 2). apply Rabs_le_inv in M0. apply Rabs_le_inv in M1. fold (x i) (x (S i)) in GAP. lra. }
    assert (MH2 : M i <= bpow radix2 200) by (apply Rle_trans with (1 := MH); apply bpow_le; lia).
    assert (GW : bpow radix2 (-200) <= x (S i) - x i) by (apply Rle_trans with (2 := GAP); apply bpow_le; lia).
    assert (B0 : 0 <= c i <= 3 / 2 * T) by lra. assert (B1 : 0 <= B2R u <= 3 / 2 * T) by lra.
    destruct (h_ok (dval knots i) (dval knots (S i)) (dval pdf i) (dval pdf (S i)) (proj1 O0) (proj1 O1) (proj1 Q0) (proj1 Q1) (M i) (height D i) WX E M0 M1 (conj P0 H0) (conj P1 H1) MH2 GW GD HH) as [FH NH].
    split; [exact FH|]. split; [exact NH|]. intros ES FS.
    pose proof (root_accurate (dval knots i) (dval knots (S i)) (dval pdf i) (dval pdf (S i)) (dval cdf i) u (proj1 O0) (proj1 O1) (proj1 Q0) (proj1 Q1) (M i) (height D i) (3 / 2 * T) WX E M0 M1 (conj P0 H0) (conj P1 H1) B0 B1 ML MH2 GW GD HH s sg ES FH FS) as R.
    unfold condition. destruct (Req_EM_T _ _) as [Z|_]; [exfalso; apply E; unfold D in Z; rewrite !el_val in Z; exact Z|]. rewrite S_is. fold (M i). unfold F, c, x, d, Rdiv in *.
    replace ((height D i + Rabs ((B2R (dval pdf (S i)) - B2R (dval pdf i)) * / (B2R (dval knots (S i)) - B2R (dval knots i))) * M i) ^ 2) with ((height D i + Rabs ((B2R (dval pdf (S i)) - B2R (dval pdf i)) * / (B2R (dval knots (S i)) - B2R (dval knots i))) * M i) * (height D i + Rabs ((B2R (dval pdf (S i)) - B2R (dval pdf i)) * / (B2R (dval knots (S i)) - B2R (dval knots i))) * M i)) by ring.
    exact R.
  Qed.
  Lemma cond_pos i : (S i < n)%nat -> 0 <= condition K D i.
  Proof.
    intro H. pose proof (pdf_pos knots pdf HD i ltac:(fold n; lia)) as P0. fold (d i) in P0. assert (HP0 : 0 <= height D i) by (rewrite P_is; apply Rle_trans with (1 := P0), Rmax_l).
    assert (MP : 0 <= M i) by (rewrite M_is; apply Rle_trans with (2 := Rmax_l _ _), Rabs_pos). assert (SP : 0 <= slope K D i) by apply Rabs_pos.
    unfold condition. destruct (Req_EM_T _ _); [apply Rmult_le_pos; assumption|]. unfold Rdiv. destruct (Req_dec (slope K D i) 0) as [->|NZ]; [rewrite Rinv_0; lra|].
    apply Rmult_le_pos; [apply pow2_ge_0|]. left. apply Rinv_0_lt_compat. lra.
  Qed.
  Lemma at_knot i r E : (S i < n)%nat -> Rabs (area K D i + (r - x i) * (d i + (d i + (d (S i) - d i) * ((r - x i) / (x (S i) - x i)))) / 2 - B2R p * area K D (n - 1)) <= E ->
    Rabs (area_to K D i r - B2R p * area K D (n - 1)) <= E.
  Proof. intros H B. unfold area_to, density, line. unfold K, D in *. rewrite !el_val. exact B. Qed.
  Lemma seg_end i : (S i < n)%nat -> x i < x (S i) -> area_to K D i (x (S i)) = area K D (S i).
  Proof. intros H L. unfold area_to, density, line. cbn [area]. unfold K, D. rewrite !el_val. fold (x i) (x (S i)) (d i) (d (S i)). field. lra. Qed.
  Definition good (checks : bool) (r : double) : Prop := exists i, (S i < n)%nat /\
    Rabs (area_to K D i (B2R r) - B2R p * area K D (n - 1)) <= gam (4 * n + 400) * (T + condition K D i) /\ (checks = true -> x i - slack (M i) <= B2R r <= x (S i) + slack (M i)).
  Lemma slack_pos i : 0 <= slack (M i).
  Proof. unfold slack. assert (MP : 0 <= M i) by (rewrite M_is; apply Rle_trans with (2 := Rmax_l _ _), Rabs_pos). pose proof (Rmult_le_pos _ _ (bpow_ge_0 radix2 (-48)) MP). lra. Qed.
  Lemma goal_T : tc 0 <= goal <= T.
  Proof. unfold goal. destruct n_ok as (N2 & _). pose proof (mono_t 0 (n - 1) ltac:(lia) ltac:(lia)) as [_ A]. fold T in A. assert (0 <= B2R p * (T - tc 0)) by (apply Rmult_le_pos; lra). assert (B2R p * (T - tc 0) <= 1 * (T - tc 0)) by (apply Rmult_le_compat_r; lra). lra. Qed.
  Lemma small_gap z : 0 <= z -> forall i, (S i < n)%nat -> z <= gam (4 * n + 24) * T -> z <= gam (4 * n + 400) * (T + condition K D i).
  Proof. intros Z i H B. pose proof (finish 0 _ (cond_pos i H)) as Q. destruct n_ok as (N2 & _). pose proof (mono_t (n - 1) (n - 1) ltac:(lia) ltac:(lia)) as [T0 _]. fold T in T0. pose proof (cond_pos i H). pose proof uro_pos.
    assert (0 <= 376 * uro * (T + condition K D i)) by (apply Rmult_le_pos; lra). specialize (Q ltac:(lra)). lra. Qed.
  Lemma good_first checks : B2R u <= c 0 -> good checks (dval knots 0).
  Proof.
    intro L. destruct n_ok as (N2 & _). exists 0%nat. split; [lia|]. split.
    - apply small_gap; [apply Rabs_pos|lia|]. pose proof (combine 0 (x 0) 0 ltac:(lia)) as Q. rewrite Rplus_0_l in Q. apply Q. unfold F. replace (x 0 - x 0) with 0 by ring. rewrite Rmult_0_l. unfold Rdiv. rewrite Rmult_0_l, Rplus_0_r.
      replace (c 0 - B2R u) with 0 by (pose proof u_low; lra). rewrite Rabs_R0. lra.
    - intros _. fold (x 0). pose proof (slack_pos 0). pose proof (knot_step knots pdf HD 0 ltac:(fold n; lia)) as ST. fold (x 0) (x 1) in ST. lra.
  Qed.
  Lemma good_last checks : c (m - 1) <= B2R u -> good checks (dval knots (m - 1)).
  Proof.
    intro L. destruct n_ok as (N2 & NB & LP & LC). pose proof m_ok as [M1 M2].
    assert (AR : Rabs (area K D (m - 1) - B2R p * area K D (n - 1)) <= gam (4 * n + 24) * T).
    { replace (area K D (m - 1) - B2R p * area K D (n - 1)) with (tc (m - 1) - goal) by (unfold goal, T, tc, true_cum; fold K D; cbn [area]; ring).
      pose proof (near_c (m - 1) ltac:(lia)) as N1. pose proof (near_c (n - 1) ltac:(lia)) as N3. rewrite (top_c (n - 1) ltac:(lia) ltac:(lia)) in N3. pose proof u_near as NU. unfold near in N1, N3, NU. fold T in N3.
      pose proof (mono_t (m - 1) (n - 1) ltac:(lia) ltac:(lia)) as [T0 T1]. fold T in T1. pose proof (gam_mono (m - 1 + 4) (n + 6) ltac:(lia)). pose proof (gam_mono (n - 1 + 4) (n + 6) ltac:(lia)). pose proof (gam_pos (m - 1 + 4)). pose proof (gam_pos (n - 1 + 4)).
      pose proof (gam_four (n + 6)) as G4. replace (4 * (n + 6))%nat with (4 * n + 24)%nat in G4 by lia. assert (B1 : gam (m - 1 + 4) * tc (m - 1) <= gam (n + 6) * T) by (apply Rmult_le_compat; lra). assert (B2 : gam (n - 1 + 4) * T <= gam (n + 6) * T) by (apply Rmult_le_compat_r; lra).
      assert (B3 : 4 * gam (n + 6) * T <= gam (4 * n + 24) * T) by (apply Rmult_le_compat_r; lra). pose proof goal_T. apply Rabs_le_inv in N1. apply Rabs_le_inv in N3. apply Rabs_le_inv in NU. apply Rabs_le. lra. }
    destruct (Nat.eq_dec m 1) as [E1|E1].
    - rewrite E1 in *. cbn [Nat.sub] in *. exists 0%nat. split; [lia|]. split.
      + apply small_gap; [apply Rabs_pos|lia|]. replace (area_to K D 0 (B2R (dval knots 0))) with (area K D 0); [exact AR|]. unfold area_to, K. rewrite el_val. unfold Rdiv. ring.
      + intros _. fold (x 0). pose proof (slack_pos 0). pose proof (knot_step knots pdf HD 0 ltac:(fold n; lia)) as ST. fold (x 0) (x 1) in ST. lra.
    - exists (m - 2)%nat. assert (SM : S (m - 2) = (m - 1)%nat) by lia. rewrite SM.
      assert (W : x (m - 2) < x (m - 1)).
      { rewrite <- SM. apply wide; [lia|]. rewrite SM. destruct HK as (_ & _ & [Z|Z]); [lia|]. pose proof (mono_c (m - 2) (m - 1) ltac:(lia) ltac:(lia)) as [_ LE]. destruct (Rle_lt_or_eq_dec _ _ LE) as [Q|Q]; [exact Q|].
        symmetry in Q. apply (eq_c (m - 1) (m - 2) ltac:(lia) ltac:(lia)) in Q. congruence. }
      split; [lia|]. split.
      + apply small_gap; [apply Rabs_pos|lia|]. fold (x (m - 1)). rewrite <- SM. rewrite (seg_end (m - 2) ltac:(lia) ltac:(rewrite SM; exact W)). rewrite SM. exact AR.
      + intros _. fold (x (m - 1)). pose proof (slack_pos (m - 2)). lra.
  Qed.
  Lemma in_seg checks i : (S i < n)%nat -> c i <= B2R u < c (S i) ->
    let found k := in_segment k (dval knots i) (dval knots (S i)) (dval cdf i) (dval cdf (S i)) (dval pdf i) (dval pdf (S i)) u in
    (exists r, found false = Ok r) /\ (forall r, found checks = Ok r -> is_finite r = true -> good checks r) /\ (forall r, found true = Ok r -> found false = Ok r).
  Proof.
    intros H HU. cbn zeta. pose proof (wide i H ltac:(lra)) as WX. pose proof (fin_c i ltac:(lia)) as FI. pose proof (fin_c (S i) H) as FS. pose proof u_fin as FU.
    pose proof (knot_ord knots pdf HD i ltac:(fold n; lia)) as O0. pose proof (knot_ord knots pdf HD (S i) H) as O1. pose proof (pdf_ord knots pdf HD i ltac:(fold n; lia)) as Q0. pose proof (pdf_ord knots pdf HD (S i) H) as Q1.
    assert (DE : deq (dval pdf i) (dval pdf (S i)) = true <-> d i = d (S i)). { rewrite deq_iff by apply dfinite_num, (proj1 Q0) || apply dfinite_num, (proj1 Q1). rewrite (dext_finite _ (proj1 Q0)), (dext_finite _ (proj1 Q1)). reflexivity. }
    destruct n_ok as (N2 & _). pose proof (mono_t (n - 1) (n - 1) ltac:(lia) ltac:(lia)) as [T0 _]. fold T in T0. pose proof (cond_pos i H) as CP. pose proof uro_pos as UP. unfold in_segment.
    assert (MK : forall E, E <= 200 * uro * (3 / 2 * T + condition K D i) -> E <= 376 * uro * (T + condition K D i)). { intros E HE. assert (0 <= uro * T) by (apply Rmult_le_pos; lra). assert (0 <= uro * condition K D i) by (apply Rmult_le_pos; lra). lra. }
    destruct (deq (dval pdf i) (dval pdf (S i))) eqn:ED.
    - split; [eexists; reflexivity|]. split; [|auto]. intros r R FR. apply ok_inj in R. subst r. destruct (seg_flat i H HU (proj1 DE eq_refl)) as (_ & AR & BR). exists i. split; [exact H|]. split; [|intros _; exact BR].
      apply Rle_trans with (1 := combine i _ _ H AR). apply finish; [exact CP|]. apply MK. apply Rmult_le_compat_r; lra.
    - assert (DN : d i <> d (S i)) by (intro Z; apply DE in Z; discriminate).
      assert (X1 : deq (dval knots (S i)) (dval knots i) = false). { apply not_true_iff_false. intro Z. apply deq_iff in Z; [|apply dfinite_num, (proj1 O1)|apply dfinite_num, (proj1 O0)]. rewrite (dext_finite _ (proj1 O0)), (dext_finite _ (proj1 O1)) in Z. unfold x in WX. lra. }
      assert (X2 : deq (dval cdf i) (dval cdf (S i)) = false). { apply not_true_iff_false. intro Z. apply (eq_c i (S i) ltac:(lia) H) in Z. lra. }
      rewrite X1, X2. cbn [orb]. destruct (dle u (dval cdf i)) eqn:E3.
      + split; [eexists; reflexivity|]. split; [|auto]. intros r R FR. apply ok_inj in R. subst r. apply dle_iff in E3; auto using dfinite_num. rewrite (dext_finite _ FU), (dext_finite _ FI) in E3. fold (c i) in E3.
        exists i. split; [exact H|]. split; [|intros _; fold (x i); pose proof (slack_pos i); lra]. apply small_gap; [apply Rabs_pos|exact H|]. pose proof (combine i (x i) 0 H) as Q. rewrite Rplus_0_l in Q. apply Q.
        unfold F. replace (x i - x i) with 0 by ring. rewrite Rmult_0_l. unfold Rdiv. rewrite Rmult_0_l, Rplus_0_r. replace (c i - B2R u) with 0 by lra. rewrite Rabs_R0. lra.
      + destruct (seg_curved i d0 true H HU DN) as (FH & NH & _). set (a := ddiv (dsub (dval pdf (S i)) (dval pdf i)) (dsub (dval knots (S i)) (dval knots i))) in *.
        assert (HZ : deq (ddiv a dtwo) d0 = false). { apply not_true_iff_false. intro Z. apply deq_iff in Z; [|apply dfinite_num, FH|reflexivity]. rewrite (dext_finite _ FH) in Z. apply NH. exact Z. }
        unfold dsolve_square. rewrite HZ. cbn [negb bind fst snd].
        set (b := dsub (dval pdf i) (dmul a (dval knots i))). set (k := dsub (dsub (dval cdf i) (dmul (ddiv a dtwo) (dmul (dval knots i) (dval knots i)))) (dmul b (dval knots i))).
        set (q := ddiv b (dmul dtwo (ddiv a dtwo))). set (rad := dadd (ddiv (dsub u k) (ddiv a dtwo)) (dmul q q)).
        assert (ACC : forall (s : double) sg, s = dsub (if sg : bool then dsqrt rad else Bopp (dsqrt rad)) q -> is_finite s = true -> Rabs (area_to K D i (B2R s) - B2R p * area K D (n - 1)) <= gam (4 * n + 400) * (T + condition K D i)).
        { intros s sg ES FSS. destruct (seg_curved i s sg H HU DN) as (_ & _ & AR). apply Rle_trans with (1 := combine i _ _ H (AR ES FSS)). apply finish; [exact CP|]. apply MK. apply Rle_refl. }
        assert (BRK : forall s : double, is_finite s = true -> dwithin (dval knots i) (dval knots (S i)) s = true -> x i - slack (M i) <= B2R s <= x (S i) + slack (M i)).
        { intros s FSS WI. apply within_slack; auto; try apply O0; try apply O1; [rewrite M_is; apply Rmax_l|rewrite M_is; apply Rmax_r|]. apply Rle_trans with (1 := M_high i H). apply bpow_le. lia. }
        destruct (don_line a b (dval knots i) (dval pdf i) && don_line a b (dval knots (S i)) (dval pdf (S i))) eqn:EL; cbn [negb andb];
          destruct (dwithin (dval knots i) (dval knots (S i)) (dsub (Bopp (dsqrt rad)) q)) eqn:W1; destruct (dwithin (dval knots i) (dval knots (S i)) (dsub (dsqrt rad) q)) eqn:W2; destruct checks; cbn [negb andb];
          (split; [eexists; reflexivity|]); (split; [|first [solve [auto]|solve [intros ? Z; discriminate Z]]]); intros r R FR; try discriminate R; apply ok_inj in R; subst r; (exists i; split; [exact H|]; split;
            [first [apply (ACC _ false eq_refl FR)|apply (ACC _ true eq_refl FR)]|intro CK; first [discriminate CK|apply BRK; assumption]]).
  Qed.
  Lemma look_good checks r : dfind_inverse checks (inverse_of knots pdf cdf m) p = Ok r -> is_finite r = true -> good checks r.
  Proof.
    intros R FR. destruct (find_cases checks) as [[L E]|[(L0 & L & E)|(i & Hi & HU & HM & E)]]; rewrite E in R.
    - apply ok_inj in R. subst r. apply good_first, L.
    - apply ok_inj in R. subst r. apply good_last, L.
    - pose proof m_ok. apply (in_seg checks i ltac:(lia) HU); assumption.
  Qed.
  Lemma look_defined : exists r, dfind_inverse false (inverse_of knots pdf cdf m) p = Ok r.
  Proof.
    destruct (find_cases false) as [[L E]|[(L0 & L & E)|(i & Hi & HU & HM & E)]]; rewrite E; try (eexists; reflexivity). pose proof m_ok. apply (in_seg false i ltac:(lia) HU).
  Qed.
  Lemma look_same r : dfind_inverse true (inverse_of knots pdf cdf m) p = Ok r -> dfind_inverse false (inverse_of knots pdf cdf m) p = Ok r.
  Proof.
    intro R. destruct (find_cases true) as [[L E]|[(L0 & L & E)|(i & Hi & HU & HM & E)]]; rewrite E in R; destruct (find_cases false) as [[L' E']|[(L0' & L' & E')|(j & Hj & HU' & HM' & E')]]; rewrite E'; try exact R; pose proof m_ok as [M1 M2].
    all: try (exfalso; lra).
    assert (EQ : i = j).
    { destruct (Nat.lt_trichotomy i j) as [O|[O|O]]; [|exact O|]; exfalso; [pose proof (mono_c (S i) j ltac:(lia) ltac:(lia)); lra|pose proof (mono_c (S j) i ltac:(lia) ltac:(lia)); lra]. }
    subst j. apply (in_seg true i ltac:(lia) HU), R.
  Qed.
End Look.
