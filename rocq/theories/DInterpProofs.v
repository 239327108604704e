(** Lemmas for linear interpolation in double precision. *)
From Coq Require Import ZArith Reals List Bool Arith Lia Lra Psatz.
From Flocq Require Import Core IEEE754.BinarySingleNaN Relative.
From Verif Require Import Common CumulModel CumulProofs FloatModel FloatProofs DoubleProofs DoubleProofs2 DInterpModel DInterpSpec.
Import ListNotations.
Local Open Scope R_scope.

(** ** Products with one and sums with zero *)
Lemma rnd_B2R (x : double) : rnd53 (B2R x) = B2R x.
Proof. apply rnd_format. apply generic_format_B2R. Qed.
Lemma B2R_d1 : B2R d1 = 1.
Proof. rewrite <- dext_finite by reflexivity. apply ext_d1. Qed.
Lemma dmul_1_r (x : double) : dmul x d1 = x.
Proof.
  destruct (is_finite x) eqn:F.
  - pose proof (Bmult_correct 53 1024 _ _ mode_NE x d1) as C. fold (dmul x d1) in C. cbn [round_mode] in C. rewrite B2R_d1, Rmult_1_r, rnd_B2R in C.
    rewrite Rlt_bool_true in C by (apply abs_B2R_lt_emax). destruct C as (C1 & C2 & C3). rewrite F in C2. change (is_finite d1) with true in C2. cbn in C2.
    apply B2R_Bsign_inj; [exact C2|exact F|exact C1|]. rewrite C3 by (apply finite_num in C2; exact C2). change (Bsign d1) with false. apply xorb_false_r.
  - destruct x as [s|s| |s m e H]; try discriminate F; [destruct s|]; reflexivity.
Qed.
Lemma dmul_1_l (x : double) : dmul d1 x = x.
Proof.
  destruct (is_finite x) eqn:F.
  - pose proof (Bmult_correct 53 1024 _ _ mode_NE d1 x) as C. fold (dmul d1 x) in C. cbn [round_mode] in C. rewrite B2R_d1, Rmult_1_l, rnd_B2R in C.
    rewrite Rlt_bool_true in C by (apply abs_B2R_lt_emax). destruct C as (C1 & C2 & C3). rewrite F in C2. change (is_finite d1) with true in C2. cbn in C2.
    apply B2R_Bsign_inj; [exact C2|exact F|exact C1|]. rewrite C3 by (apply finite_num in C2; exact C2). change (Bsign d1) with false. apply xorb_false_l.
  - destruct x as [s|s| |s m e H]; try discriminate F; [destruct s|]; reflexivity.
Qed.
Lemma dadd_zero_num (s : bool) (x : double) : B2R x <> 0 -> dadd (B754_zero s) x = x.
Proof. intros N. destruct x as [s'|s'| |s' m e H]; try reflexivity; cbn in N; lra. Qed.
Lemma deq_refl (x : double) : num x -> deq x x = true.
Proof. intros N. apply deq_iff; auto. Qed.
Lemma same_refl (x : double) : same_value x x.
Proof. destruct (is_nan x) eqn:E; [right; auto|left; apply deq_refl; exact E]. Qed.
Lemma poly_line (c0 c1 x : double) : same_value (dpoly [c0; c1] x) (dadd c0 (dmul c1 x)).
Proof.
  unfold dpoly. cbn [dpoly_loop]. rewrite dmul_1_r, dmul_1_l. set (p := dmul c1 x).
  destruct c0 as [s|s| |s m e H]; try apply same_refl.
  destruct p as [[|]|s'| |s' m' e' H'], s; try apply same_refl; left; reflexivity.
Qed.

(** ** The limits *)
Lemma highest_value : B2R dhighest = MX - bpow radix2 (1024 - 53) /\ is_finite dhighest = true.
Proof.
  assert (E : F2R (Float radix2 (2 ^ 53 - 1) 971) = MX - bpow radix2 (1024 - 53)).
  { unfold F2R, Fnum, Fexp. change (1024 - 53)%Z with 971%Z. replace MX with (bpow radix2 53 * bpow radix2 971) by (rewrite <- bpow_plus; reflexivity). rewrite minus_IZR. change (IZR (2 ^ 53)) with (bpow radix2 53). ring. }
  unfold dhighest. destruct (d2_exact (2 ^ 53 - 1) 971) as [F V].
  - apply generic_format_FLT. exists (Float radix2 (2 ^ 53 - 1) 971); [reflexivity|cbn; lia|cbn; lia].
  - rewrite E. pose proof (bpow_gt_0 radix2 (1024 - 53)). assert (bpow radix2 (1024 - 53) < MX) by (apply bpow_lt; lia). rewrite Rabs_pos_eq; lra.
  - rewrite V, E. auto.
Qed.
Lemma lowest_value : B2R dlowest = - (MX - bpow radix2 (1024 - 53)) /\ is_finite dlowest = true.
Proof.
  assert (E : F2R (Float radix2 (- (2 ^ 53 - 1)) 971) = - (MX - bpow radix2 (1024 - 53))).
  { unfold F2R, Fnum, Fexp. change (1024 - 53)%Z with 971%Z. replace MX with (bpow radix2 53 * bpow radix2 971) by (rewrite <- bpow_plus; reflexivity). rewrite opp_IZR, minus_IZR. change (IZR (2 ^ 53)) with (bpow radix2 53). ring. }
  unfold dlowest. destruct (d2_exact (- (2 ^ 53 - 1)) 971) as [F V].
  - apply generic_format_FLT. exists (Float radix2 (- (2 ^ 53 - 1)) 971); [reflexivity|cbn; lia|cbn; lia].
  - rewrite E. pose proof (bpow_gt_0 radix2 (1024 - 53)). assert (bpow radix2 (1024 - 53) < MX) by (apply bpow_lt; lia). rewrite Rabs_left; lra.
  - rewrite V, E. auto.
Qed.
Lemma within_limits (x : double) : is_finite x = true -> dle dlowest x = true /\ dle x dhighest = true.
Proof.
  intros F. destruct highest_value as [H1 H2]. destruct lowest_value as [L1 L2]. pose proof (abs_B2R_le_emax_minus_prec 53 1024 prec53 x) as B. apply Rabs_le_inv in B.
  split; apply dle_iff; try (apply dfinite_num; assumption); rewrite !dext_finite by assumption; lra.
Qed.

(** ** Order *)
Lemma le_lt_trans (a b c : double) : dle a b = true -> dlt b c = true -> dlt a c = true.
Proof. intros A B. destruct (dle_nums _ _ A), (dlt_nums _ _ B). apply dle_iff in A; auto. apply dlt_iff in B; auto. apply dlt_iff; auto. lra. Qed.
Lemma lt_le_trans (a b c : double) : dlt a b = true -> dle b c = true -> dlt a c = true.
Proof. intros A B. destruct (dlt_nums _ _ A), (dle_nums _ _ B). apply dlt_iff in A; auto. apply dle_iff in B; auto. apply dlt_iff; auto. lra. Qed.
Lemma dlt_le (a b : double) : dlt a b = true -> dle a b = true.
Proof. intros A. destruct (dlt_nums _ _ A). apply dlt_iff in A; auto. apply dle_iff; auto. lra. Qed.
Lemma dle_not_lt (a b : double) : dle a b = true -> dlt b a = false.
Proof. intros A. destruct (dle_nums _ _ A). apply dle_iff in A; auto. apply dlt_no; auto. Qed.
Lemma dlt_not_lt (a b : double) : dlt a b = true -> dlt b a = false.
Proof. intros A. apply dle_not_lt, dlt_le, A. Qed.
Lemma dlt_not_eq (a b : double) : dlt a b = true -> deq b a = false /\ deq a b = false.
Proof.
  intros A. destruct (dlt_nums _ _ A). apply dlt_iff in A; auto.
  split; [destruct (deq b a) eqn:E|destruct (deq a b) eqn:E]; auto; apply deq_iff in E; auto; lra.
Qed.
Lemma asc_lt xs : ascending xs -> forall d i a b, nth_error xs i = Some a -> nth_error xs (S d + i) = Some b -> dlt a b = true.
Proof.
  intros A. induction d as [|d IH]; intros i a b HA HB; [exact (A i a b HA HB)|].
  destruct (nth_error xs (S i)) as [c|] eqn:C.
  - apply le_lt_trans with c; [apply dlt_le, (A i a c HA C)|]. apply (IH (S i)); [exact C|]. rewrite <- HB. f_equal. lia.
  - apply nth_error_None in C. assert (nth_error xs (S (S d) + i) <> None) by congruence. apply nth_error_Some in H. lia.
Qed.
Lemma asc_lt' xs i j a b : ascending xs -> (i < j)%nat -> nth_error xs i = Some a -> nth_error xs j = Some b -> dlt a b = true.
Proof. intros A L HA HB. apply (asc_lt xs A (j - i - 1) i a b HA). rewrite <- HB. f_equal. lia. Qed.
Lemma asc_tail a xs : ascending (a :: xs) -> ascending xs.
Proof. intros A i u v HU HV. exact (A (S i) u v HU HV). Qed.
Lemma asc_growing xs : ascending xs -> dgrowing xs = true.
Proof.
  induction xs as [|a [|b r] IH]; intros A; try reflexivity. cbn [dgrowing]. rewrite (dlt_not_lt a b (A 0%nat a b eq_refl eq_refl)). cbn. apply IH, (asc_tail a), A.
Qed.

(** ** The position of a number among the knots *)
Lemma count_below xs i a b x : ascending xs -> nth_error xs i = Some a -> nth_error xs (S i) = Some b -> dlt a x = true -> dle x b = true ->
  count_while (fun k => dlt k x) xs = S i.
Proof.
  intros A HA HB LA LB. destruct (count_while_spec (fun k => dlt k x) xs) as (K1 & K2 & K3). set (c := count_while _ xs) in *.
  pose proof (proj1 (nth_error_Some xs (S i)) ltac:(congruence)) as LN.
  destruct (Nat.lt_trichotomy c (S i)) as [L|[E|G]]; [|exact E|].
  - exfalso. destruct (nth_error xs c) as [v|] eqn:V; [|apply nth_error_None in V; lia]. specialize (K3 v eq_refl).
    destruct (Nat.eq_dec c i) as [->|NE]; [congruence|]. assert (dlt v a = true) by (apply (asc_lt' xs c i); auto; lia).
    rewrite (le_lt_trans v a x (dlt_le _ _ H) LA) in K3. discriminate.
  - exfalso. specialize (K2 (S i) b ltac:(lia) HB). cbn in K2. rewrite (dle_not_lt x b LB) in K2. discriminate.
Qed.
Lemma count_not_above xs i a b x : ascending xs -> nth_error xs i = Some a -> nth_error xs (S i) = Some b -> dle a x = true -> dlt x b = true ->
  count_while (fun k => negb (dlt x k)) xs = S i.
Proof.
  intros A HA HB LA LB. destruct (count_while_spec (fun k => negb (dlt x k)) xs) as (K1 & K2 & K3). set (c := count_while _ xs) in *.
  pose proof (proj1 (nth_error_Some xs (S i)) ltac:(congruence)) as LN.
  destruct (Nat.lt_trichotomy c (S i)) as [L|[E|G]]; [|exact E|].
  - exfalso. destruct (nth_error xs c) as [v|] eqn:V; [|apply nth_error_None in V; lia]. specialize (K3 v eq_refl). cbn in K3. apply negb_false_iff in K3.
    destruct (Nat.eq_dec c i) as [->|NE]; [replace v with a in * by congruence; rewrite (dle_not_lt a x LA) in K3; discriminate|].
    assert (dlt v a = true) by (apply (asc_lt' xs c i); auto; lia). rewrite (dlt_not_lt v x) in K3 by (apply lt_le_trans with a; assumption). discriminate.
  - exfalso. specialize (K2 (S i) b ltac:(lia) HB). cbn in K2. rewrite LB in K2. discriminate.
Qed.

Lemma piece_found ks fs i a b f x : ascending ks -> nth_error ks i = Some a -> nth_error ks (S i) = Some b -> nth_error fs i = Some f -> length ks = S (length fs) ->
  dlt a x = true \/ (i = 0%nat /\ deq x a = true) -> dle x b = true -> dpiecewise ks fs x = Ok (dpoly f x).
Proof.
  intros A HA HB HF LEN LA LB. unfold dpiecewise. destruct ks as [|k0 ks']; [destruct i; discriminate HA|].
  destruct LA as [LA|[-> EQ]].
  - assert (K0 : dlt k0 x = true).
    { destruct i as [|i]; [cbn in HA; congruence|]. apply le_lt_trans with a; [|exact LA]. apply dlt_le. apply (asc_lt' (k0 :: ks') 0 (S i)); auto. lia. }
    rewrite (dlt_not_lt k0 x K0). rewrite (proj1 (dlt_not_eq k0 x K0)). rewrite (count_below (k0 :: ks') i a b x) by assumption.
    assert (i < length fs)%nat by (apply nth_error_Some; congruence). replace (S i =? length (k0 :: ks'))%nat with false by (symmetry; apply Nat.eqb_neq; rewrite LEN; lia). rewrite HF. reflexivity.
  - cbn in HA. replace a with k0 in EQ by congruence.
    assert (L0 : dlt x k0 = false). { destruct (dle_nums x b LB) as [NX _]. assert (NK : num k0). { unfold num. destruct k0; auto. destruct x; discriminate EQ. } apply deq_iff in EQ; auto. apply dlt_no; auto. lra. }
    rewrite L0, EQ, HF. reflexivity.
Qed.

(** ** The pieces *)
Lemma pieces_length xs : forall ys, length xs = length ys -> xs <> [] -> length xs = S (length (dlinear_pieces xs ys)).
Proof.
  induction xs as [|x0 [|x1 r] IH]; intros [|y0 [|y1 q]] L N; try discriminate L; try congruence; try reflexivity.
  cbn [dlinear_pieces length] in *. f_equal. apply (IH (y1 :: q)); [cbn; lia|discriminate].
Qed.
Lemma piece_at xs : forall ys i x0 y0 x1 y1, neighbours xs ys i x0 y0 x1 y1 ->
  nth_error (dlinear_pieces xs ys) i = Some [dsub y0 (dmul (slope x0 y0 x1 y1) x0); slope x0 y0 x1 y1].
Proof.
  induction xs as [|u0 [|u1 r] IH]; intros [|v0 [|v1 q]] i x0 y0 x1 y1 (H1 & H2 & H3 & H4); cbn in H3, H4; try (destruct i; discriminate).
  cbn [dlinear_pieces]. destruct i as [|i].
  - cbn in *. inversion H1; inversion H2; inversion H3; inversion H4; subst. reflexivity.
  - cbn [nth_error] in *. apply (IH (v1 :: q) i x0 y0 x1 y1). repeat split; assumption.
Qed.
Lemma clean_id : forall xs ys px py, length xs = length ys -> ascending (px :: xs) -> dclean_from px py xs ys = Ok (xs, ys).
Proof.
  induction xs as [|x r IH]; intros [|y q] px py L A; try discriminate L; [reflexivity|].
  cbn [dclean_from]. pose proof (A 0%nat px x eq_refl eq_refl) as LT. rewrite (proj1 (dlt_not_eq _ _ LT)), (dlt_not_lt _ _ LT). cbn [andb].
  rewrite (IH q x y); [reflexivity|cbn in L; lia|exact (asc_tail _ _ A)].
Qed.
Lemma nth_removelast_app {A} (l : list A) z j : l <> [] -> nth_error (removelast l ++ [z]) j = if Nat.eqb (S j) (length l) then Some z else nth_error l j.
Proof.
  revert j. induction l as [|a [|b r] IH]; intros j N; [congruence| |].
  - cbn. destruct j as [|[|]]; reflexivity.
  - cbn [removelast app length]. destruct j as [|j]; [reflexivity|]. cbn [nth_error]. rewrite IH by discriminate. reflexivity.
Qed.
Lemma nth_replaced xs j : (2 <= length xs)%nat -> nth_error (dreplace_ends xs) j =
  if Nat.eqb j 0 then Some dlowest else if Nat.eqb (S j) (length xs) then Some dhighest else nth_error xs j.
Proof.
  destruct xs as [|a [|b r]]; intros L; cbn in L; try lia. unfold dreplace_ends. destruct j as [|j]; [reflexivity|].
  cbn [nth_error Nat.eqb]. rewrite nth_removelast_app by discriminate. reflexivity.
Qed.
Lemma replaced_length xs : length (dreplace_ends xs) = length xs.
Proof.
  destruct xs as [|a [|b r]]; try reflexivity. unfold dreplace_ends. cbn [length]. rewrite app_length. f_equal. cbn [length].
  assert (forall (l : list double), l <> [] -> (length (removelast l) + 1 = length l)%nat).
  { induction l as [|u [|v l] IH]; intros N; [congruence|reflexivity|]. cbn [removelast length] in *. rewrite <- IH by discriminate. cbn. lia. }
  rewrite H by discriminate. reflexivity.
Qed.
Lemma fin_at xs i a : Forall (fun x : double => is_finite x = true) xs -> nth_error xs i = Some a -> is_finite a = true.
Proof. intros F E. rewrite Forall_forall in F. apply F. eapply nth_error_In, E. Qed.
Lemma low_high : dlt dlowest dhighest = true.
Proof. vm_compute. reflexivity. Qed.
Lemma replaced_ascending xs : (2 <= length xs)%nat -> ascending xs -> Forall (fun x : double => is_finite x = true) xs -> ascending (dreplace_ends xs).
Proof.
  intros L A F i a b HA HB. rewrite nth_replaced in HA, HB by exact L. change (S i =? 0)%nat with false in HB. cbv iota in HB.
  assert (I : (S i < length xs)%nat). { destruct (Nat.eqb_spec (S (S i)) (length xs)); [lia|]. apply nth_error_Some. congruence. }
  destruct (nth_error xs i) as [u|] eqn:U; [|apply nth_error_None in U; lia]. destruct (nth_error xs (S i)) as [v|] eqn:V; [|apply nth_error_None in V; lia].
  pose proof (A i u v U V) as LT. destruct (within_limits u (fin_at _ _ _ F U)) as [LU HU]. destruct (within_limits v (fin_at _ _ _ F V)) as [LV HV].
  destruct (Nat.eqb_spec (S i) (length xs)); [lia|].
  destruct (Nat.eqb_spec i 0), (Nat.eqb_spec (S (S i)) (length xs)); inversion HA; inversion HB; subst.
  - exact low_high.
  - apply le_lt_trans with u; assumption.
  - apply lt_le_trans with v; assumption.
  - exact LT.
Qed.
Lemma interpolate_ok xs ys ex : good_points xs ys ->
  dinterpolate xs ys ex = Ok (DPiece (if ex then dreplace_ends xs else xs) (dlinear_pieces xs ys)).
Proof.
  intros (L & N & A & F). unfold dinterpolate. rewrite (proj2 (Nat.eqb_eq _ _) L). cbn [negb]. replace (length xs =? 1)%nat with false by (symmetry; apply Nat.eqb_neq; lia). cbn [andb].
  destruct xs as [|x0 xs']; [cbn in N; lia|]. destruct ys as [|y0 ys']; [discriminate L|].
  rewrite clean_id by (try exact A; cbn in L; lia). cbn [bind fst snd]. unfold dlinear, dnew_piecewise.
  assert (E : length (if ex then dreplace_ends (x0 :: xs') else x0 :: xs') = S (length (dlinear_pieces (x0 :: xs') (y0 :: ys')))).
  { transitivity (length (x0 :: xs')); [destruct ex; [apply replaced_length|reflexivity]|apply pieces_length; [exact L|discriminate]]. }
  rewrite (proj2 (Nat.eqb_eq _ _) E). rewrite asc_growing; [reflexivity|]. destruct ex; [apply replaced_ascending|]; assumption.
Qed.

(** ** The value of the function *)
Lemma value_in xs ys ex i x0 y0 x1 y1 x : good_points xs ys -> neighbours xs ys i x0 y0 x1 y1 -> is_finite x = true -> falls_in ex (length xs) i x0 x1 x ->
  exists v, dpiecewise (if ex then dreplace_ends xs else xs) (dlinear_pieces xs ys) x = Ok v /\ same_value v (computed_line x0 y0 x1 y1 x).
Proof.
  intros (L & N & A & F) NB FX (FL & FR). pose proof NB as (H1 & H2 & H3 & H4). eexists. split; [|unfold computed_line; apply poly_line].
  destruct (within_limits x FX) as [XL XH].
  assert (LEN : length xs = S (length (dlinear_pieces xs ys))) by (apply pieces_length; [exact L|destruct xs; [cbn in N; lia|discriminate]]).
  assert (I : (S i < length xs)%nat) by (apply nth_error_Some; congruence).
  assert (NX : num x) by (apply dfinite_num, FX).
  destruct ex.
  - eapply (piece_found _ _ i); [apply replaced_ascending; assumption| | |apply piece_at; exact NB|rewrite replaced_length; exact LEN| |].
    + rewrite nth_replaced by exact N. replace (S i =? length xs)%nat with false by (symmetry; apply Nat.eqb_neq; lia). rewrite H1. instantiate (1 := if Nat.eqb i 0 then dlowest else x0). destruct (Nat.eqb i 0); reflexivity.
    + rewrite nth_replaced by exact N. change (S i =? 0)%nat with false. cbv iota. rewrite H3. instantiate (1 := if Nat.eqb (S (S i)) (length xs) then dhighest else x1). destruct (Nat.eqb (S (S i)) (length xs)); reflexivity.
    + destruct (Nat.eqb_spec i 0) as [E0|E0].
      * destruct (dlt dlowest x) eqn:LX; [left; reflexivity|]. right. split; [exact E0|]. destruct lowest_value as [_ LF]. assert (NL : num dlowest) by (apply dfinite_num, LF).
        apply deq_iff; auto. apply dlt_no in LX; auto. apply dle_iff in XL; auto. lra.
      * left. destruct FL as [FL|[E _]]; [exact FL|congruence].
    + destruct (Nat.eqb_spec (S (S i)) (length xs)) as [E0|E0]; [exact XH|]. destruct FR as [FR|[_ E]]; [exact FR|congruence].
  - eapply (piece_found _ _ i x0 x1); try eassumption.
    + apply piece_at; exact NB.
    + destruct FL as [FL|(E & [C|Q])]; [left; exact FL|discriminate|right; auto].
    + destruct FR as [FR|[C _]]; [exact FR|discriminate].
Qed.
Lemma all_below l x : (forall i a, nth_error l i = Some a -> dlt a x = true) -> count_while (fun k => dlt k x) l = length l.
Proof.
  intros H. destruct (count_while_spec (fun k => dlt k x) l) as (K1 & K2 & K3). destruct (nth_error l (count_while (fun k => dlt k x) l)) as [v|] eqn:V.
  - specialize (K3 v eq_refl). cbn in K3. rewrite (H _ _ V) in K3. discriminate.
  - apply nth_error_None in V. lia.
Qed.
Lemma value_out xs ys x first last_ : good_points xs ys -> nth_error xs 0 = Some first -> nth_error xs (length xs - 1) = Some last_ ->
  dlt x first = true \/ dlt last_ x = true -> dpiecewise xs (dlinear_pieces xs ys) x = Ok d0.
Proof.
  intros (L & N & A & F) H0 H1 [O|O]; destruct xs as [|k0 r]; try discriminate H0; cbn in H0; injection H0 as ->; unfold dpiecewise; [rewrite O; reflexivity|].
  assert (B : forall i a, nth_error (first :: r) i = Some a -> dlt a x = true).
  { intros i a E. assert (I : (i < length (first :: r))%nat) by (apply nth_error_Some; congruence).
    destruct (Nat.eq_dec i (length (first :: r) - 1)) as [->|NE]; [congruence|]. apply le_lt_trans with last_; [|exact O]. apply dlt_le. apply (asc_lt' (first :: r) i (length (first :: r) - 1)); auto. lia. }
  pose proof (B 0%nat first eq_refl) as B0. rewrite (dlt_not_lt _ _ B0), (proj1 (dlt_not_eq _ _ B0)), all_below by exact B. cbn [length]. rewrite Nat.eqb_refl. reflexivity.
Qed.

(** ** The other function *)
Lemma segment_line x x0 y0 x1 y1 : dlt x0 x1 = true -> dsegment x x0 y0 x1 y1 = computed_line x0 y0 x1 y1 x.
Proof. intros LT. unfold dsegment. rewrite (proj1 (dlt_not_eq _ _ LT)). reflexivity. Qed.
Lemma last_nth (l : list double) d : l <> [] -> nth_error l (length l - 1) = Some (last l d).
Proof.
  induction l as [|a [|b r] IH]; intros N; [congruence|reflexivity|]. change (last (a :: b :: r) d) with (last (b :: r) d). cbn [length]. rewrite <- IH by discriminate. cbn [length]. replace (S (S (length r)) - 1)%nat with (S (S (length r) - 1)) by lia. reflexivity.
Qed.
Lemma simple_value xs ys ex i x0 y0 x1 y1 x : good_points xs ys -> neighbours xs ys i x0 y0 x1 y1 -> num x -> falls_right ex (length xs) i x0 x1 x ->
  dsimple_interpolation x xs ys ex = Ok (computed_line x0 y0 x1 y1 x).
Proof.
  intros (L & N & A & F) (H1 & H2 & H3 & H4) NX (FL & FR).
  assert (I : (S i < length xs)%nat) by (apply nth_error_Some; congruence). pose proof (A i x0 x1 H1 H3) as LT. destruct (dlt_nums _ _ LT) as [N0 N1].
  unfold dsimple_interpolation. destruct xs as [|front r]; [cbn in N; lia|]. set (xs := front :: r) in *.
  rewrite (proj2 (Nat.eqb_eq _ _) L). cbn [negb]. replace (length xs =? 1)%nat with false by (symmetry; apply Nat.eqb_neq; lia).
  assert (SEG : dsegment_at x xs ys (S i) = Ok (computed_line x0 y0 x1 y1 x)).
  { unfold dsegment_at. rewrite H3, H4. replace (S i - 1)%nat with i by lia. rewrite H1, H2. cbn [of_option bind]. rewrite segment_line by exact LT. reflexivity. }
  pose proof (last_nth xs front ltac:(discriminate)) as LA.
  set (c := count_while (fun k => negb (dlt x k)) xs).
  destruct (dlt x x1) eqn:B1.
  - destruct (dle x0 x) eqn:B0.
    + assert (E : c = S i) by (apply (count_not_above xs i x0 x1 x); assumption). rewrite E. change (S i =? 0)%nat with false. cbn [andb]. cbv zeta iota. rewrite (proj2 (Nat.eqb_neq _ _) (Nat.lt_neq _ _ I)). cbn [andb]. exact SEG.
    + destruct FL as [C|[E0 EX]]; [congruence|]. subst i ex. assert (E : c = 0%nat).
      { unfold c, xs. cbn [count_while]. cbn in H1. injection H1 as ->. apply dle_no in B0; auto. rewrite (proj2 (dlt_iff x x0 NX N0) B0). reflexivity. }
      rewrite E. cbn [Nat.eqb andb negb]. destruct (length xs) as [|[|k]] eqn:LL; [lia|lia|]. cbn [Nat.eqb andb]. exact SEG.
  - destruct FR as [C|[EN FR]]; [congruence|].
    assert (X1 : dle x1 x = true) by (apply dle_iff; auto; apply dlt_no in B1; auto).
    assert (E : c = length xs).
    { unfold c. destruct (count_while_spec (fun k => negb (dlt x k)) xs) as (K1 & K2 & K3). destruct (nth_error xs (count_while (fun k => negb (dlt x k)) xs)) as [v|] eqn:V.
      - specialize (K3 v eq_refl). cbn in K3. apply negb_false_iff in K3. exfalso.
        assert (J : (count_while (fun k => negb (dlt x k)) xs < length xs)%nat) by (apply nth_error_Some; congruence).
        assert (dlt v x = true \/ v = x1) as [Q| ->].
        { destruct (Nat.eq_dec (count_while (fun k => negb (dlt x k)) xs) (S i)) as [Q|Q]; [right; congruence|left]. apply lt_le_trans with x1; [|exact X1]. eapply (asc_lt' xs); [exact A| |exact V|exact H3]. lia. }
        + rewrite (dlt_not_lt _ _ Q) in K3. discriminate.
        + rewrite B1 in K3. discriminate.
      - apply nth_error_None in V. lia. }
    rewrite E. replace (length xs =? 0)%nat with false by (symmetry; apply Nat.eqb_neq; lia). cbn [andb]. rewrite Nat.eqb_refl. cbn [andb].
    assert (LX : last xs front = x1). { replace (length xs - 1)%nat with (S i) in LA by lia. congruence. }
    assert (BR : negb ex && dlt (last xs front) x = false).
    { destruct FR as [-> |Q]; [reflexivity|]. rewrite LX. replace (dlt x1 x) with false; [apply andb_false_r|]. symmetry. apply dlt_no; auto. apply deq_iff in Q; auto. lra. }
    rewrite BR. replace (length xs - 1)%nat with (S i) by lia. exact SEG.
Qed.
