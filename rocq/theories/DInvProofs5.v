(** The inverse cumulative in double precision: ends of the range, the build with assertions, literals. *)
From Coq Require Import ZArith Reals List Arith Bool Lia Lra Psatz.
From Flocq Require Import Core IEEE754.BinarySingleNaN.
From Verif Require Import Common CumulModel CumulProofs FloatModel FloatProofs DoubleProofs DoubleProofs2 DInterpModel DInterpSpec DInterpProofs DInterpProofs2
  DSOMProofs DSplineModel DSplineSpec DSplineProofs DSplineProofs2 DSplineProofs3 DSplineProofs4 DSplineProofs5 DPieceSpec DPieceProofs DModeModel DModeSpec DModeProofs DModeProofs2 DDiffProofs DDiffProofs2
  InterpSpec InvCumulSpec DInvModel DInvSpec DInvProofs DInvProofs2 DInvProofs3 DInvProofs4.
Import ListNotations.
Local Open Scope R_scope.

(** ** Literals *)
Lemma d2_pow e : (-1000 <= e <= 1000)%Z -> is_finite (d2 1 e) = true /\ B2R (d2 1 e) = bpow radix2 e.
Proof.
  intro H. rewrite <- F2R_bpow. apply d2_exact; rewrite F2R_bpow; [apply generic_format_bpow; rewrite fe_val; lia|]. rewrite Rabs_pos_eq by apply bpow_ge_0. apply bpow_lt. lia.
Qed.
Definition ordinary_test (v : double) : bool := is_finite v && (deq v d0 || dle (d2 1 (-100)) (Babs v) && dle (Babs v) (d2 1 100)).
Lemma ordinary_test_ok v : ordinary_test v = true -> ordinary v.
Proof.
  intro H. apply andb_true_iff in H. destruct H as [F H]. split; [exact F|]. apply orb_true_iff in H. destruct H as [H|H].
  - left. apply deq_iff in H; [|apply dfinite_num, F|reflexivity]. rewrite (dext_finite v F) in H. exact H.
  - right. apply andb_true_iff in H. destruct H as [A B]. assert (FA : is_finite (Babs v) = true) by (rewrite is_finite_Babs; exact F).
    assert (L : is_finite (d2 1 (-100)) = true /\ B2R (d2 1 (-100)) = bpow radix2 (-100)) by (apply d2_pow; lia).
    assert (U : is_finite (d2 1 100) = true /\ B2R (d2 1 100) = bpow radix2 100) by (apply d2_pow; lia).
    destruct L as [FL VL]. destruct U as [FU VU].
    apply dle_iff in A; auto using dfinite_num. apply dle_iff in B; auto using dfinite_num. rewrite (dext_finite _ FL), (dext_finite _ FA), VL, B2R_Babs in A. rewrite (dext_finite _ FU), (dext_finite _ FA), VU, B2R_Babs in B. split; assumption.
Qed.
Definition sampled_test (knots pdf : list double) : bool :=
  (length knots =? length pdf)%nat && (2 <=? length knots)%nat && (Z.of_nat (length knots) <=? 2 ^ 40)%Z && forallb ordinary_test knots && forallb ordinary_test pdf && forallb (fun p => dle d0 p) pdf &&
  forallb (fun i => dle (dval knots i) (dval knots (S i))) (seq 0 (length knots - 1)).
Lemma sampled_test_ok knots pdf : sampled_test knots pdf = true -> sampled_density knots pdf.
Proof.
  intro H. unfold sampled_test in H. rewrite !andb_true_iff in H. destruct H as ((((((A & B) & C) & D) & E) & F) & G).
  apply Nat.eqb_eq in A. apply Nat.leb_le in B. apply Z.leb_le in C. rewrite forallb_forall in D, E, F, G.
  assert (OK : Forall ordinary knots) by (apply Forall_forall; intros v Hv; apply ordinary_test_ok, D, Hv). assert (OP : Forall ordinary pdf) by (apply Forall_forall; intros v Hv; apply ordinary_test_ok, E, Hv).
  split; [exact A|]. split; [exact B|]. split; [exact C|]. split; [exact OK|]. split; [exact OP|]. rewrite Forall_forall in OK, OP. split.
  - intros p Hp. specialize (F p Hp). apply dle_iff in F; [|reflexivity|apply dfinite_num, (OP p Hp)]. rewrite (dext_finite p (proj1 (OP p Hp))) in F. exact F.
  - intros i Hi. rewrite !el_val. specialize (G i ltac:(apply in_seq; lia)). pose proof (OK _ (val_in knots i ltac:(lia))) as [F0 _]. pose proof (OK _ (val_in knots (S i) Hi)) as [F1 _].
    apply dle_iff in G; auto using dfinite_num. rewrite (dext_finite _ F0), (dext_finite _ F1) in G. exact G.
Qed.

(** ** The build with assertions *)
Lemma between_finite (a b s : double) : is_finite a = true -> is_finite b = true -> dle a s = true -> dle s b = true -> is_finite s = true.
Proof.
  intros FA FB A B. destruct (dle_nums _ _ A) as [_ NS]. apply dle_iff in A; auto using dfinite_num. apply dle_iff in B; auto using dfinite_num. apply dfinite_iff; [exact NS|].
  rewrite (dext_finite _ FA) in A. rewrite (dext_finite _ FB) in B. pose proof (abs_B2R_lt_emax 53 1024 a) as LA. pose proof (abs_B2R_lt_emax 53 1024 b) as LB. apply Rabs_lt_inv in LA. apply Rabs_lt_inv in LB. lra.
Qed.
Lemma ord_tol (x : double) : ordinary x -> is_finite (dsub x dtolerance) = true /\ is_finite (dadd x dtolerance) = true.
Proof.
  intros O. pose proof (ord_abs x O) as A. apply Rabs_le_inv in A. destruct O as [F _]. destruct tol_val as [FT [T0 T1]].
  assert (BIG : bpow radix2 100 + 1 <= bpow radix2 101). { replace 101%Z with (100 + 1)%Z by reflexivity. rewrite bpow_plus. change (bpow radix2 1) with 2. assert (1 <= bpow radix2 100) by (apply (bpow_le radix2 0); lia). lra. }
  split.
  - destruct (dsub_ext _ _ F FT) as [N E]. apply (rnd_finite _ _ N E). rewrite (dext_finite _ F), (dext_finite _ FT). apply Rle_lt_trans with (bpow radix2 101); [|apply bpow_lt; lia]. apply rnd_bound; [lia|]. apply Rabs_le. lra.
  - destruct (dadd_ext _ _ F FT) as [N E]. apply (rnd_finite _ _ N E). rewrite (dext_finite _ F), (dext_finite _ FT). apply Rle_lt_trans with (bpow radix2 101); [|apply bpow_lt; lia]. apply rnd_bound; [lia|]. apply Rabs_le. lra.
Qed.
Section Ends.
  Variables knots pdf cdf : list double.
  Variable m : nat.
  Hypothesis HD : sampled_density knots pdf.
  Hypothesis HC : cumulated knots pdf cdf.
  Hypothesis HK : kept cdf m.
  Variable p : double.
  Hypothesis FP : is_finite p = true.
  Hypothesis HP : 0 <= B2R p <= 1.
  Lemma checked_finite r : dfind_inverse true (inverse_of knots pdf cdf m) p = Ok r -> is_finite r = true.
  Proof.
    destruct (n_ok knots pdf cdf HD HC) as (N2 & NB & LP & LC). pose proof (m_ok knots pdf cdf m HD HC HK) as [M1 M2].
    destruct (find_cases knots pdf cdf m HD HC HK p FP HP true) as [[L E]|[(L0 & L & E)|(i & Hi & HU & HM & E)]]; rewrite E; intro R.
    - apply ok_inj in R. subst r. apply (knot_ord knots pdf HD 0). lia.
    - apply ok_inj in R. subst r. apply (knot_ord knots pdf HD (m - 1)). lia.
    - pose proof (knot_ord knots pdf HD i ltac:(lia)) as O0. pose proof (knot_ord knots pdf HD (S i) ltac:(lia)) as O1. pose proof (pdf_ord knots pdf HD i ltac:(lia)) as Q0. pose proof (pdf_ord knots pdf HD (S i) ltac:(lia)) as Q1.
      unfold in_segment in R. destruct (deq (dval pdf i) (dval pdf (S i))) eqn:ED.
      + apply deq_iff in ED; [|apply dfinite_num, (proj1 Q0)|apply dfinite_num, (proj1 Q1)]. rewrite (dext_finite _ (proj1 Q0)), (dext_finite _ (proj1 Q1)) in ED.
        apply ok_inj in R. subst r. apply (seg_flat knots pdf cdf m HD HC HK p FP HP i ltac:(lia) HU ED).
      + destruct (deq _ _ || _ || _); [apply ok_inj in R; subst r; apply O0|]. destruct (true && _); [discriminate R|].
        destruct (dsolve_square _ _ _ _) as [[s1 s2]| | |]; cbn [bind fst snd] in R; try discriminate R.
        assert (W : forall s, dwithin (dval knots i) (dval knots (S i)) s = true -> is_finite s = true).
        { intros s Hs. apply andb_true_iff in Hs. destruct Hs as [A B]. apply (between_finite _ _ s (proj1 (ord_tol _ O0)) (proj2 (ord_tol _ O1)) A B). }
        destruct (dwithin (dval knots i) (dval knots (S i)) s1) eqn:W1; [apply ok_inj in R; subst r; apply W, W1|].
        destruct (dwithin (dval knots i) (dval knots (S i)) s2) eqn:W2; cbn [negb andb] in R; [|discriminate R]. apply ok_inj in R. subst r. apply W, W2.
  Qed.
  Lemma find_zero checks : B2R p = 0 -> dfind_inverse checks (inverse_of knots pdf cdf m) p = Ok (dval knots 0).
  Proof.
    intro Z. destruct (n_ok knots pdf cdf HD HC) as (N2 & NB & LP & LC). pose proof (m_ok knots pdf cdf m HD HC HK) as [M1 M2].
    assert (U : B2R (dadd (dmul p (dsub (dval cdf (m - 1)) (dval cdf 0))) (dval cdf 0)) <= B2R (dval cdf 0)).
    { destruct (prod_ok knots pdf cdf m HD HC HK p FP HP) as [F _]. destruct (rng_ok knots pdf cdf m HD HC HK) as [FR _]. pose proof (u_fin knots pdf cdf m HD HC HK p FP HP) as FU. pose proof (fin_c knots pdf cdf HD HC 0 ltac:(lia)) as F0.
      rewrite (sum_zero_l _ _ F F0 FU); [lra|]. destruct (dmul_ext _ _ FP FR) as [N E]. rewrite (dext_finite _ FP), (dext_finite _ FR), Z, Rmult_0_l in E. rewrite <- (dext_finite _ F), E.
      rewrite crnd_small; rewrite round_0 by typeclasses eauto; [reflexivity|]. rewrite Rabs_R0. apply bpow_gt_0. }
    destruct (find_cases knots pdf cdf m HD HC HK p FP HP checks) as [[L E]|[(L0 & L & E)|(i & Hi & HU & HM & E)]]; [exact E|exfalso; lra|exfalso; lra].
  Qed.
  Lemma one_top : B2R p = 1 -> B2R (dval pdf 0) = 0 -> forall checks, dfind_inverse checks (inverse_of knots pdf cdf m) p = Ok (dval knots (m - 1)).
  Proof.
    intros Z Z0 checks. destruct (n_ok knots pdf cdf HD HC) as (N2 & NB & LP & LC). pose proof (m_ok knots pdf cdf m HD HC HK) as [M1 M2].
    pose proof (fin_c knots pdf cdf HD HC 0 ltac:(lia)) as F0. pose proof (fin_c knots pdf cdf HD HC (m - 1) ltac:(lia)) as FM. assert (C0 : B2R (dval cdf 0) = 0) by (rewrite (proj1 (proj2 HC)); exact Z0).
    destruct (prod_ok knots pdf cdf m HD HC HK p FP HP) as [F _]. destruct (rng_ok knots pdf cdf m HD HC HK) as [FR _]. pose proof (u_fin knots pdf cdf m HD HC HK p FP HP) as FU.
    assert (R : B2R (dsub (dval cdf (m - 1)) (dval cdf 0)) = B2R (dval cdf (m - 1))).
    { destruct (dsub_ext _ _ FM F0) as [N E]. rewrite (dext_finite _ FM), (dext_finite _ F0), C0, Rminus_0_r, (dext_finite _ FR) in E. rewrite E, <- (dext_finite _ FM), crd_ext. reflexivity. }
    assert (P : B2R (dmul p (dsub (dval cdf (m - 1)) (dval cdf 0))) = B2R (dval cdf (m - 1))).
    { destruct (dmul_ext _ _ FP FR) as [N E]. rewrite (dext_finite _ FP), (dext_finite _ FR), Z, Rmult_1_l, R, (dext_finite _ F) in E. rewrite E, <- (dext_finite _ FM), crd_ext. reflexivity. }
    assert (U : B2R (dadd (dmul p (dsub (dval cdf (m - 1)) (dval cdf 0))) (dval cdf 0)) = B2R (dval cdf (m - 1))).
    { destruct (dadd_ext _ _ F F0) as [N E]. rewrite (dext_finite _ F), (dext_finite _ F0), P, C0, Rplus_0_r, (dext_finite _ FU) in E. rewrite E, <- (dext_finite _ FM), crd_ext. reflexivity. }
    destruct (find_cases knots pdf cdf m HD HC HK p FP HP checks) as [[L E]|[(L0 & L & E)|(i & Hi & HU & HM & E)]]; [|exact E|exfalso; lra].
    rewrite E. rewrite U in L. destruct (Nat.eq_dec m 1) as [E1|E1]; [rewrite E1; reflexivity|]. exfalso. destruct HK as (_ & _ & [Q|Q]); [contradiction|].
    pose proof (mono_c knots pdf cdf HD HC 0 (m - 2) ltac:(lia) ltac:(lia)) as [_ A]. pose proof (mono_c knots pdf cdf HD HC (m - 2) (m - 1) ltac:(lia) ltac:(lia)) as [_ B]. apply not_true_iff_false in Q. apply Q. apply (eq_c knots pdf cdf HD HC); [lia|lia|]. cbv beta in *. lra.
  Qed.
  Lemma last_kept : bpow radix2 (-50) * true_cum knots pdf (length knots - 1) <= true_cum knots pdf (length knots - 1) - true_cum knots pdf (length knots - 2) -> 0 < true_cum knots pdf (length knots - 1) -> m = length knots.
  Proof.
    intros H TP. destruct (n_ok knots pdf cdf HD HC) as (N2 & NB & LP & LC). pose proof (m_ok knots pdf cdf m HD HC HK) as [M1 M2]. set (n := length knots) in *. destruct (Nat.eq_dec m n) as [E|NE]; [exact E|exfalso].
    pose proof (proj1 (proj2 HK) (n - 1)%nat ltac:(lia) ltac:(lia)) as Q. apply (eq_c knots pdf cdf HD HC) in Q; [|lia|lia]. cbv beta in Q. set (j := (n - 2)%nat) in *. replace (n - 1 - 1)%nat with j in Q by lia. replace (n - 1)%nat with (S j) in * by lia.
    destruct HC as (CL & C0 & CS). fold n in CS. pose proof (CS j ltac:(lia)) as EJ. pose proof (fin_c knots pdf cdf HD HC j ltac:(fold n; lia)) as FJ. pose proof (fin_c knots pdf cdf HD HC (S j) ltac:(fold n; lia)) as FS.
    pose proof (knot_ord knots pdf HD j ltac:(fold n; lia)) as O0. pose proof (knot_ord knots pdf HD (S j) ltac:(fold n; lia)) as O1. pose proof (pdf_ord knots pdf HD j ltac:(fold n; lia)) as Q0. pose proof (pdf_ord knots pdf HD (S j) ltac:(fold n; lia)) as Q1.
    pose proof (term_near _ _ _ _ O0 O1 Q0 Q1 (knot_step knots pdf HD j ltac:(fold n; lia)) (pdf_pos knots pdf HD j ltac:(fold n; lia)) (pdf_pos knots pdf HD (S j) ltac:(fold n; lia))) as (FT & NT & V & VP & _).
    rewrite cum_succ in H at 2. set (t := dterm (dval knots j) (dval knots (S j)) (dval pdf j) (dval pdf (S j))) in *. set (v := (B2R (dval knots (S j)) - B2R (dval knots j)) * (B2R (dval pdf j) + B2R (dval pdf (S j))) / 2) in *.
    set (T := true_cum knots pdf (S j)) in *. pose proof (c_le_T knots pdf cdf HD HC (S j) ltac:(fold n; lia)) as CT. fold n in CT. replace (n - 1)%nat with (S j) in CT by lia. fold T in CT. cbv beta in CT.
    rewrite EJ in FS, Q, CT. destruct (add_rel _ _ FT FJ FS) as (e & EB & EV). rewrite EV in Q, CT.
    pose proof (gam_small 4 4 ltac:(lia) ltac:(cbn; lra)) as G. pose proof uro_pos as UP. unfold near in NT.
    assert (US : uro <= / 100). { unfold uro. change (bpow radix2 (-53)) with (/ IZR (Z.pow_pos 2 53)). change (Z.pow_pos 2 53) with 9007199254740992%Z. apply Rinv_le; lra. }
    replace (bpow radix2 (-50)) with (8 * uro) in H by (unfold uro; change 8 with (bpow radix2 3); rewrite <- bpow_plus; reflexivity).
    assert (NT1 : Rabs (B2R t - v) <= / 10 * v) by (apply Rle_trans with (1 := NT); apply Rmult_le_compat_r; lra). apply Rabs_le_inv in NT1. pose proof (mono_c knots pdf cdf HD HC j j ltac:(lia) ltac:(fold n; lia)) as [CJ _]. cbv beta in CJ.
    apply Rabs_le_inv in EB. assert (S1 : B2R t + B2R (dval cdf j) <= 2 * T).
    { assert ((B2R t + B2R (dval cdf j)) * (1 - / 100) <= (B2R t + B2R (dval cdf j)) * (1 + e)) by (apply Rmult_le_compat_l; lra). lra. }
    assert (S2 : - (uro * (2 * T)) <= (B2R t + B2R (dval cdf j)) * e). { assert (0 <= (B2R t + B2R (dval cdf j)) * (uro + e)) by (apply Rmult_le_pos; lra). assert ((B2R t + B2R (dval cdf j)) * uro <= 2 * T * uro) by (apply Rmult_le_compat_r; lra). lra. }
    assert (0 < uro * T) by (apply Rmult_lt_0_compat; lra). lra.
  Qed.
End Ends.
