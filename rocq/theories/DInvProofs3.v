(** The inverse cumulative in double precision: construction and lookup. *)
From Coq Require Import ZArith Reals List Arith Bool Lia Lra Psatz.
From Flocq Require Import Core IEEE754.BinarySingleNaN.
From Verif Require Import Common CumulModel CumulProofs FloatModel FloatProofs DoubleProofs DoubleProofs2 DInterpModel DInterpSpec DInterpProofs DInterpProofs2
  DSOMProofs DSplineModel DSplineSpec DSplineProofs DSplineProofs2 DSplineProofs3 DSplineProofs4 DSplineProofs5 DPieceSpec DPieceProofs DModeModel DModeSpec DModeProofs DModeProofs2 DDiffProofs DDiffProofs2
  InterpSpec InvCumulSpec DInvModel DInvSpec DInvProofs DInvProofs2.
Import ListNotations.
Local Open Scope R_scope.

Lemma el_val l i : el (map B2R l) i = B2R (dval l i).
Proof. unfold el, dval. rewrite <- (map_nth (fun x : double => B2R x)). reflexivity. Qed.
Lemma cdf_from_spec : forall pdf knots k0 p0 c0, length knots = length pdf -> exists r, dcdf_from k0 p0 c0 knots pdf = Ok r /\ length r = length pdf /\
  forall i, (i < length pdf)%nat -> dval (c0 :: r) (S i) = dadd (dterm (dval (k0 :: knots) i) (dval (k0 :: knots) (S i)) (dval (p0 :: pdf) i) (dval (p0 :: pdf) (S i))) (dval (c0 :: r) i).
Proof.
  induction pdf as [|p1 pdf IH]; intros knots k0 p0 c0 L.
  - exists []. split; [reflexivity|]. split; [reflexivity|]. intros i Hi. cbn in Hi. lia.
  - destruct knots as [|k1 knots]; [discriminate|]. cbn in L. set (c1 := dadd (ddiv (dmul (dsub k1 k0) (dadd p1 p0)) dtwo) c0).
    destruct (IH knots k1 p1 c1 ltac:(lia)) as (r & E & LR & S1). exists (c1 :: r). cbn [dcdf_from]. fold c1. rewrite E. split; [reflexivity|]. split; [cbn; lia|].
    intros [|i] Hi; [reflexivity|]. apply (S1 i). cbn in Hi. lia.
Qed.
Lemma trim_spec : forall rc rk, length rc = length rk -> rc <> [] -> exists m, dtrim rc rk = Ok (skipn m rc, skipn m rk) /\ (m < length rc)%nat /\
  (forall j, (j < m)%nat -> deq (dval rc j) (dval rc (S j)) = true) /\ (S m = length rc \/ deq (dval rc m) (dval rc (S m)) = false).
Proof.
  induction rc as [|a r IH]; intros rk L N; [contradiction|]. destruct r as [|b r].
  - exists 0%nat. split; [reflexivity|]. split; [cbn; lia|]. split; [intros; lia|left; reflexivity].
  - cbn [dtrim]. destruct (deq a b) eqn:E.
    + destruct rk as [|k rk]; [discriminate|]. destruct (IH rk ltac:(cbn in *; lia) ltac:(discriminate)) as (m & EM & LM & EQ & LAST). exists (S m). split; [exact EM|].
      split; [cbn in *; lia|]. split; [intros [|j] Hj; [exact E|apply EQ; lia]|]. destruct LAST as [A|A]; [left; cbn in *; lia|right; exact A].
    + exists 0%nat. split; [reflexivity|]. split; [cbn; lia|]. split; [intros; lia|right; exact E].
Qed.
Lemma val_rev l j : (j < length l)%nat -> dval (rev l) j = dval l (length l - 1 - j).
Proof. intro H. unfold dval. rewrite rev_nth by exact H. f_equal. lia. Qed.
Lemma val_firstn m l i : (i < m)%nat -> dval (firstn m l) i = dval l i.
Proof. unfold dval. revert l i. induction m as [|m IH]; intros l i H; [lia|]. destruct l as [|a l]; [destruct i; reflexivity|]. destruct i as [|i]; [reflexivity|]. cbn. apply IH. lia. Qed.
Lemma dsorted_ok l : Forall (fun x : double => is_finite x = true) l -> (forall i, (S i < length l)%nat -> B2R (dval l i) <= B2R (dval l (S i))) -> dsorted l = true.
Proof.
  induction l as [|a [|b r] IH]; intros F H; try reflexivity. cbn [dsorted]. inversion F as [|x y FA FR]. subst. inversion FR as [|x y FB FR2]. subst.
  assert (E : dlt b a = false). { apply dlt_no; auto using dfinite_num. rewrite (dext_finite a FA), (dext_finite b FB). apply (H 0%nat). cbn. lia. }
  rewrite E. apply IH; [exact FR|]. intros i Hi. apply (H (S i)). cbn in *. lia.
Qed.

Section Density.
  Variables knots pdf : list double.
  Hypothesis HD : sampled_density knots pdf.
  Let n := length knots.
  Let rk := map B2R knots.
  Let rp := map B2R pdf.
  Lemma lens : length pdf = n /\ (2 <= n)%nat /\ (Z.of_nat n <= 2 ^ 40)%Z. Proof. destruct HD as (A & B & C & _). unfold n. auto. Qed.
  Lemma knot_ord i : (i < n)%nat -> ordinary (dval knots i).
  Proof. intro H. destruct HD as (_ & _ & _ & F & _). rewrite Forall_forall in F. apply F, val_in, H. Qed.
  Lemma pdf_ord i : (i < n)%nat -> ordinary (dval pdf i).
  Proof. intro H. destruct lens as [L _]. destruct HD as (_ & _ & _ & _ & F & _). rewrite Forall_forall in F. apply F, val_in. lia. Qed.
  Lemma pdf_pos i : (i < n)%nat -> 0 <= B2R (dval pdf i).
  Proof. intro H. destruct lens as [L _]. destruct HD as (_ & _ & _ & _ & _ & F & _). apply F, val_in. lia. Qed.
  Lemma knot_step i : (S i < n)%nat -> B2R (dval knots i) <= B2R (dval knots (S i)).
  Proof. intro H. destruct HD as (_ & _ & _ & _ & _ & _ & F). specialize (F i H). rewrite !el_val in F. exact F. Qed.
  Definition true_cum (i : nat) : R := el rp 0 + area rk rp i.
  Lemma cum_succ i : true_cum (S i) = true_cum i + (B2R (dval knots (S i)) - B2R (dval knots i)) * (B2R (dval pdf i) + B2R (dval pdf (S i))) / 2.
  Proof. unfold true_cum. cbn [area]. unfold rk, rp. rewrite !el_val. ring. Qed.
  Lemma cum_mono i j : (i <= j)%nat -> (j < n)%nat -> 0 <= true_cum i <= true_cum j.
  Proof.
    intros A B. assert (Z0 : 0 <= true_cum 0). { unfold true_cum. cbn [area]. unfold rp. rewrite el_val. pose proof (pdf_pos 0 ltac:(lia)). lra. }
    assert (ST : forall k, (S k < n)%nat -> true_cum k <= true_cum (S k)).
    { intros k Hk. rewrite cum_succ. pose proof (knot_step k Hk). pose proof (pdf_pos k ltac:(lia)). pose proof (pdf_pos (S k) Hk).
      assert (0 <= (B2R (dval knots (S k)) - B2R (dval knots k)) * (B2R (dval pdf k) + B2R (dval pdf (S k)))) by (apply Rmult_le_pos; lra). lra. }
    assert (G : forall k, (k < n)%nat -> 0 <= true_cum k). { induction k as [|k IH]; intro H; [exact Z0|]. pose proof (ST k H). pose proof (IH ltac:(lia)). lra. }
    split; [apply G; lia|]. induction A as [|j A IH]; [lra|]. pose proof (ST j B). specialize (IH ltac:(lia)). lra.
  Qed.
  Lemma cum_high i : (i < n)%nat -> true_cum i <= INR (S i) * bpow radix2 201.
  Proof.
    induction i as [|i IH]; intro H.
    - unfold true_cum. cbn [area]. unfold rp. rewrite el_val. pose proof (ord_abs _ (pdf_ord 0 H)) as A. apply Rabs_le_inv in A. cbn [INR]. assert (bpow radix2 100 <= bpow radix2 201) by (apply bpow_le; lia). lra.
    - rewrite cum_succ, S_INR. specialize (IH ltac:(lia)). pose proof (term_near _ _ _ _ (knot_ord i ltac:(lia)) (knot_ord (S i) H) (pdf_ord i ltac:(lia)) (pdf_ord (S i) H) (knot_step i H) (pdf_pos i ltac:(lia)) (pdf_pos (S i) H)) as (_ & _ & V & _). lra.
  Qed.
  Lemma true_top i : (i < n)%nat -> true_cum i <= bpow radix2 241.
  Proof.
    intro H. destruct lens as (_ & _ & NB). apply Rle_trans with (1 := cum_high i H). replace 241%Z with (40 + 201)%Z by reflexivity. rewrite bpow_plus. apply Rmult_le_compat_r; [apply bpow_ge_0|].
    rewrite INR_IZR_INZ. apply Rle_trans with (IZR (2 ^ 40)); [apply IZR_le; lia|]. apply Req_le. reflexivity.
  Qed.
  Variable cdf : list double.
  Hypothesis CL : length cdf = n.
  Hypothesis C0 : dval cdf 0 = dval pdf 0.
  Hypothesis CS : forall i, (S i < n)%nat -> dval cdf (S i) = dadd (dterm (dval knots i) (dval knots (S i)) (dval pdf i) (dval pdf (S i))) (dval cdf i).
  Let c i := B2R (dval cdf i).
  Lemma cdf_near i : (i < n)%nat -> is_finite (dval cdf i) = true /\ near (i + 4) (true_cum i) (true_cum i) (c i).
  Proof.
    destruct lens as (_ & _ & NB). induction i as [|i IH]; intro H.
    - unfold c. rewrite C0. split; [apply (pdf_ord 0 H)|]. unfold true_cum. cbn [area]. unfold rp. rewrite el_val, Rplus_0_r. apply near_refl. rewrite Rabs_pos_eq; [lra|apply pdf_pos, H].
    - destruct (IH ltac:(lia)) as [FI NI]. pose proof (term_near _ _ _ _ (knot_ord i ltac:(lia)) (knot_ord (S i) H) (pdf_ord i ltac:(lia)) (pdf_ord (S i) H) (knot_step i H) (pdf_pos i ltac:(lia)) (pdf_pos (S i) H)) as (FT & NT & V & VP & _).
      set (v := (B2R (dval knots (S i)) - B2R (dval knots i)) * (B2R (dval pdf i) + B2R (dval pdf (S i))) / 2) in *. pose proof (cum_mono i i ltac:(lia) ltac:(lia)) as [T0 _]. pose proof (true_top i ltac:(lia)) as TT.
      unfold c. rewrite (CS i H).
      assert (FA : is_finite (dadd (dterm (dval knots i) (dval knots (S i)) (dval pdf i) (dval pdf (S i))) (dval cdf i)) = true).
      { destruct (dadd_ext _ _ FT FI) as [N E]. apply (rnd_finite _ _ N E). rewrite (dext_finite _ FT), (dext_finite _ FI).
        apply Rle_lt_trans with (bpow radix2 300); [|apply bpow_lt; lia]. apply rnd_bound; [lia|].
        pose proof (near_abs 4 v v _ ltac:(rewrite Rabs_pos_eq; lra) NT) as A1. pose proof (near_abs (i + 4) (true_cum i) (true_cum i) _ ltac:(rewrite Rabs_pos_eq; lra) NI) as A2.
        pose proof (gam_half 4 ltac:(lia)). pose proof (gam_half (i + 4) ltac:(lia)). apply Rle_trans with (1 := Rabs_triang _ _). fold (c i).
        assert (bpow radix2 201 <= bpow radix2 298) by (apply bpow_le; lia). assert (bpow radix2 241 <= bpow radix2 298) by (apply bpow_le; lia).
        replace 300%Z with (298 + 2)%Z by reflexivity. rewrite bpow_plus. change (bpow radix2 2) with 4. nra. }
      split; [exact FA|]. rewrite cum_succ. fold v. replace (true_cum i + v) with (v + true_cum i) by ring. replace (S i + 4)%nat with (S (i + 4)) by lia. apply (add_near (i + 4)); auto.
      + rewrite Rabs_pos_eq; lra.
      + rewrite Rabs_pos_eq; lra.
      + apply (near_more 4); [lia|lra|exact NT].
  Qed.
  Lemma cdf_step i : (S i < n)%nat -> 0 <= c i <= c (S i).
  Proof.
    intro H. assert (P : forall k, (k < n)%nat -> 0 <= c k).
    { intros k Hk. destruct (cdf_near k Hk) as [_ N]. pose proof (cum_mono k k ltac:(lia) Hk) as [T _]. destruct lens as (_ & _ & NB). pose proof (gam_half (k + 4) ltac:(lia)). unfold near in N. apply Rabs_le_inv in N. nra. }
    split; [apply P; lia|]. destruct (cdf_near i ltac:(lia)) as [FI _]. destruct (cdf_near (S i) H) as [FS _].
    pose proof (term_near _ _ _ _ (knot_ord i ltac:(lia)) (knot_ord (S i) H) (pdf_ord i ltac:(lia)) (pdf_ord (S i) H) (knot_step i H) (pdf_pos i ltac:(lia)) (pdf_pos (S i) H)) as (FT & _ & _ & VP & _).
    unfold c. rewrite (CS i H) in *. destruct (add_nonneg _ (dval cdf i) (dfinite_num _ FT) (dfinite_num _ FI)) as (_ & _ & L); rewrite ?(dext_finite _ FT), ?(dext_finite _ FI); auto; [apply P; lia|].
    rewrite (dext_finite _ FI), (dext_finite _ FS) in L. exact L.
  Qed.
  Lemma cdf_mono i j : (i <= j)%nat -> (j < n)%nat -> 0 <= c i <= c j.
  Proof.
    intros A B. destruct (Nat.eq_dec i j) as [->|N].
    - destruct j as [|j]; [|pose proof (cdf_step j B); lra]. pose proof (cdf_step 0). destruct lens as (_ & L2 & _). specialize (H ltac:(lia)). lra.
    - assert (A1 : (S i <= j)%nat) by lia. clear N A. induction A1 as [|j A IH]; [pose proof (cdf_step i B); lra|]. specialize (IH ltac:(lia)). pose proof (cdf_step j B). lra.
  Qed.
End Density.
