From Coq Require Import ZArith Reals List Arith Bool Lia Lra Psatz.
From Flocq Require Import Core IEEE754.BinarySingleNaN.
From Verif Require Import Common CumulModel CumulProofs FloatModel FloatProofs DoubleProofs DInterpModel DInterpProofs DSplineModel DSplineSpec DPieceModel DPieceSpec.
Import ListNotations.
Local Open Scope R_scope.

(** ** Order *)
Lemma falling_tail a l : not_falling (a :: l) -> not_falling l.
Proof. intros H i x y A B. exact (H (S i) x y A B). Qed.
Lemma falling_head a b l : not_falling (a :: b :: l) -> dle a b = true.
Proof. intros H. exact (H 0%nat a b eq_refl eq_refl). Qed.
Lemma dle_trans (a b c : double) : dle a b = true -> dle b c = true -> dle a c = true.
Proof. intros A B. destruct (dle_nums _ _ A) as [NA NB]. destruct (dle_nums _ _ B) as [_ NC]. apply dle_iff in A; auto. apply dle_iff in B; auto. apply dle_iff; auto. lra. Qed.
Lemma dle_lt_trans (a b c : double) : dle a b = true -> dlt b c = true -> dlt a c = true.
Proof. intros A B. destruct (dle_nums _ _ A) as [NA NB]. destruct (dlt_nums _ _ B) as [_ NC]. apply dle_iff in A; auto. apply dlt_iff in B; auto. apply dlt_iff; auto. lra. Qed.
Lemma dlt_le_trans (a b c : double) : dlt a b = true -> dle b c = true -> dlt a c = true.
Proof. intros A B. destruct (dlt_nums _ _ A) as [NA NB]. destruct (dle_nums _ _ B) as [_ NC]. apply dlt_iff in A; auto. apply dle_iff in B; auto. apply dlt_iff; auto. lra. Qed.
Lemma not_lt_le (a b : double) : num a -> num b -> dlt a b = false -> dle b a = true.
Proof. intros A B H. apply dlt_no in H; auto. apply dle_iff; auto. Qed.
Lemma not_le_lt (a b : double) : num a -> num b -> dle a b = false -> dlt b a = true.
Proof. intros A B H. apply dle_no in H; auto. apply dlt_iff; auto. Qed.
Lemma falling_nums knots : not_falling knots -> (2 <= length knots)%nat -> Forall num knots.
Proof.
  induction knots as [|a [|b r] IH]; intros H L; cbn [length] in L; try lia. pose proof (dle_nums _ _ (falling_head _ _ _ H)) as [NA NB].
  constructor; [exact NA|]. destruct r as [|c r]; [constructor; auto|]. apply IH; [apply (falling_tail _ _ H)|cbn [length]; lia].
Qed.

(** ** The loop sums over all pieces *)
Lemma none_after integral lo hi : forall knots functions s a, not_falling (a :: knots) -> num hi -> dle hi a = true ->
  sum_of_pieces integral lo hi (a :: knots) functions s = s.
Proof.
  induction knots as [|b r IH]; intros functions s a NF H D; destruct functions as [|f fs]; cbn [sum_of_pieces]; try reflexivity.
  unfold meets. rewrite (dle_not_lt _ _ D). cbn [andb]. apply IH; [apply (falling_tail _ _ NF)|exact H|]. apply (dle_trans _ a); [exact D|apply (falling_head _ _ _ NF)].
Qed.
Lemma loop_is_sum lo hi : num lo -> num hi -> forall knots functions s a, not_falling (a :: knots) -> num a -> length functions = length knots ->
  dpieces_loop lo hi a knots functions s = Ok (sum_of_pieces dpoly_integrate lo hi (a :: knots) functions s).
Proof.
  intros NL NH. induction knots as [|b r IH]; intros functions s a NF NA L; destruct functions as [|f fs]; try discriminate L; [reflexivity|].
  cbn [dpieces_loop]. destruct (dle hi a) eqn:A.
  - rewrite none_after; auto.
  - pose proof (falling_head _ _ _ NF) as AB. destruct (dle_nums _ _ AB) as [_ NB]. cbn [sum_of_pieces]. unfold meets.
    rewrite (not_le_lt _ _ NH NA A). cbn [andb nth_error of_option bind tl]. destruct (dlt lo b) eqn:B; cbn [bind]; (rewrite IH; [reflexivity|apply (falling_tail _ _ NF)|exact NB|cbn [length] in L; lia]).
Qed.
Lemma skip_sum integral lo hi : forall n knots functions s, (forall i k, (i <= n)%nat -> nth_error knots i = Some k -> dle k lo = true) -> (n < length knots)%nat ->
  sum_of_pieces integral lo hi knots functions s = sum_of_pieces integral lo hi (skipn n knots) (skipn n functions) s.
Proof.
  induction n as [|n IH]; intros knots functions s H L; [reflexivity|]. destruct knots as [|a r]; [reflexivity|]. cbn [length] in L. destruct r as [|b r]; [cbn [length] in L; lia|].
  destruct functions as [|f fs]; [cbn [skipn sum_of_pieces]; destruct (skipn n (b :: r)) as [|? [|? ?]]; reflexivity|].
  cbn [skipn]. rewrite <- IH; [|intros i k I E; apply (H (S i) k); [lia|exact E]|cbn [length] in *; lia].
  cbn [sum_of_pieces]. unfold meets. rewrite (dle_not_lt b lo); [|apply (H 1%nat b); [lia|reflexivity]]. rewrite andb_false_r. reflexivity.
Qed.

Lemma core_sum knots functions lo hi : piecewise knots functions -> num lo -> num hi ->
  let n := (count_while (fun k => negb (dlt lo k)) knots - 1)%nat in
  exists prev r, skipn n knots = prev :: r /\ dpieces_loop lo hi prev r (skipn n functions) d0 = Ok (sum_of_pieces dpoly_integrate lo hi knots functions d0).
Proof.
  intros (L & L1 & NF) N1 N2. pose proof (falling_nums knots NF ltac:(lia)) as FN. destruct (count_while_spec (fun k => negb (dlt lo k)) knots) as (C1 & C2 & _).
  set (n := count_while _ _) in *. clearbody n. cbv zeta.
  assert (S0 : sum_of_pieces dpoly_integrate lo hi knots functions d0 = sum_of_pieces dpoly_integrate lo hi (skipn (n - 1) knots) (skipn (n - 1) functions) d0).
  { destruct n as [|n]; [reflexivity|]. apply skip_sum; [|lia]. intros i k I E. specialize (C2 i k ltac:(lia) E). apply negb_true_iff in C2. apply not_lt_le; auto.
    rewrite Forall_forall in FN. apply FN. eapply nth_error_In. exact E. }
  rewrite S0. assert (LS : (length (skipn (n - 1) knots) = S (length (skipn (n - 1) functions)))%nat) by (rewrite !skipn_length; lia).
  assert (NS : not_falling (skipn (n - 1) knots)). { intros i a b A B. rewrite nth_error_skipn in A, B. apply (NF (n - 1 + i)%nat); [exact A|]. rewrite <- B. f_equal. lia. }
  assert (FS : Forall num (skipn (n - 1) knots)). { rewrite Forall_forall in *. intros k K. apply FN. rewrite <- (firstn_skipn (n - 1) knots). apply in_or_app. right. exact K. }
  destruct (skipn (n - 1) knots) as [|a r]; [discriminate LS|]. exists a, r. split; [reflexivity|]. inversion FS; subst. apply loop_is_sum; auto. cbn [length] in LS. lia.
Qed.
Lemma integrate_sum knots functions x1 x2 : piecewise knots functions -> dlt x1 x2 = true ->
  dpieces_integrate knots functions x1 x2 = Ok (dmul d1 (sum_of_pieces dpoly_integrate x1 x2 knots functions d0)).
Proof.
  intros P LT. destruct (dlt_nums _ _ LT) as [N1 N2]. destruct (core_sum knots functions x1 x2 P N1 N2) as (prev & r & E1 & E2).
  unfold dpieces_integrate. rewrite (proj2 (dlt_not_eq _ _ LT)), (dlt_not_lt _ _ LT). cbv zeta. rewrite E1, E2. reflexivity.
Qed.
Lemma integrate_turned knots functions x1 x2 : piecewise knots functions -> dlt x2 x1 = true ->
  dpieces_integrate knots functions x1 x2 = Ok (dmul (d2 (-1) 0) (sum_of_pieces dpoly_integrate x2 x1 knots functions d0)).
Proof.
  intros P LT. destruct (dlt_nums _ _ LT) as [N1 N2]. destruct (core_sum knots functions x2 x1 P N1 N2) as (prev & r & E1 & E2).
  unfold dpieces_integrate. rewrite (proj1 (dlt_not_eq _ _ LT)), LT. cbv zeta. rewrite E1, E2. reflexivity.
Qed.
Lemma dmul_m1 (x : double) : dmul (d2 (-1) 0) x = Bopp x.
Proof.
  destruct (is_finite x) eqn:F.
  - pose proof (Bmult_correct 53 1024 _ _ mode_NE (d2 (-1) 0) x) as C. fold (dmul (d2 (-1) 0) x) in C. cbn [round_mode] in C.
    assert (V : B2R (d2 (-1) 0) = -1). { replace (B2R (d2 (-1) 0)) with (SF2R radix2 (B2SF (d2 (-1) 0))) by apply SF2R_B2SF. vm_compute (B2SF (d2 (-1) 0)). cbn. unfold F2R. cbn. lra. }
    rewrite V in C. replace (-1 * B2R x) with (B2R (Bopp x)) in C by (rewrite B2R_Bopp; ring). rewrite rnd_B2R in C.
    rewrite Rlt_bool_true in C by (apply abs_B2R_lt_emax). destruct C as (C1 & C2 & C3). rewrite F in C2. change (is_finite (d2 (-1) 0)) with true in C2. cbn in C2.
    apply B2R_Bsign_inj; [exact C2|rewrite is_finite_Bopp; exact F|exact C1|]. rewrite C3 by (apply finite_num in C2; exact C2). change (Bsign (d2 (-1) 0)) with true.
    rewrite Bsign_Bopp by (destruct x; try discriminate F; reflexivity). apply xorb_true_l.
  - destruct x as [s|s| |s m e H]; try discriminate F; [destruct s|]; reflexivity.
Qed.

(** ** Bounds that are no numbers, and infinite ones *)
Lemma all_knots (x : double) knots : is_nan x = true -> count_while (fun k => negb (dlt x k)) knots = length knots.
Proof. intros N. induction knots as [|k r IH]; cbn [count_while length]; [reflexivity|]. destruct x; try discriminate N. cbn [dlt Bltb negb] in *. rewrite <- IH. reflexivity. Qed.
Lemma skip_last {A} (l : list A) : l <> [] -> exists a, skipn (length l - 1) l = [a].
Proof.
  intros N. induction l as [|a [|b r] IH]; [congruence|exists a; reflexivity|]. destruct IH as (c & E); [discriminate|]. exists c. cbn [length] in *.
  replace (S (S (length r)) - 1)%nat with (S (S (length r) - 1)) by lia. exact E.
Qed.
Lemma nan_start knots functions x1 x2 : knots <> [] -> is_nan x1 = true -> dpieces_integrate knots functions x1 x2 = Ok d0.
Proof.
  intros K N. unfold dpieces_integrate. assert (E1 : deq x1 x2 = false) by (destruct x1; try discriminate N; reflexivity). assert (E2 : dlt x2 x1 = false) by (destruct x1; try discriminate N; destruct x2 as [[]|[]| |[]]; reflexivity).
  rewrite E1, E2. cbv zeta. rewrite all_knots by exact N. destruct (skip_last knots K) as (a & ->). cbn [dpieces_loop bind]. rewrite dmul_1_l. reflexivity.
Qed.
Lemma loop_nan lo hi : is_nan hi = true -> forall knots functions s a, Forall (fun k : double => is_finite k = true) (a :: knots) ->
  dpieces_loop lo hi a knots functions s = dpieces_loop lo dinf a knots functions s.
Proof.
  intros N. induction knots as [|b r IH]; intros functions s a F; [reflexivity|]. inversion F as [|? ? FA F']; subst. inversion F' as [|? ? FB F'']; subst. cbn [dpieces_loop].
  replace (dle hi a) with false by (destruct hi; try discriminate N; reflexivity). replace (dle dinf a) with false by (destruct a as [[]|[]| |[]]; try discriminate FA; reflexivity).
  replace (dlt hi b) with false by (destruct hi; try discriminate N; reflexivity). replace (dlt dinf b) with false by (destruct b as [[]|[]| |[]]; try discriminate FB; reflexivity).
  destruct (dlt lo b); [|apply IH; exact F']. destruct (of_option (nth_error functions 0)); cbn [bind]; try reflexivity. apply IH. exact F'.
Qed.
Lemma nan_end knots functions x1 x2 : Forall (fun k : double => is_finite k = true) knots -> knots <> [] -> is_nan x2 = true -> dpieces_integrate knots functions x1 x2 = dpieces_integrate knots functions x1 dinf.
Proof.
  intros FK K N. destruct (is_nan x1) eqn:N1; [rewrite !nan_start; auto|]. unfold dpieces_integrate.
  replace (deq x1 x2) with false by (destruct x2; try discriminate N; destruct x1 as [[]|[]| |[]]; reflexivity). replace (dlt x2 x1) with false by (destruct x2; try discriminate N; reflexivity).
  replace (dlt dinf x1) with false by (destruct x1 as [[]|[]| |[]]; reflexivity). cbv zeta.
  destruct (deq x1 dinf) eqn:E.
  - assert (x1 = dinf) as -> by (destruct x1 as [[]|[]| |[]]; try discriminate E; reflexivity).
    replace (count_while (fun k => negb (dlt dinf k)) knots) with (length knots). 2: { clear. induction knots as [|k r IH]; [reflexivity|]. cbn [length count_while]. rewrite IH. destruct k as [[]|[]| |[]]; reflexivity. }
    destruct (skip_last knots K) as (a & ->). cbn [dpieces_loop bind]. rewrite dmul_1_l. reflexivity.
  - assert (FS : Forall (fun k : double => is_finite k = true) (skipn (count_while (fun k => negb (dlt x1 k)) knots - 1) knots)).
    { rewrite Forall_forall in *. intros k I. apply FK. rewrite <- (firstn_skipn (count_while (fun k => negb (dlt x1 k)) knots - 1) knots). apply in_or_app. right. exact I. }
    destruct (skipn _ knots) as [|a r]; [reflexivity|]. rewrite (loop_nan x1 x2 N); [reflexivity|exact FS].
Qed.

(** ** Bounds outside of the knots *)
Lemma sum_ext integral lo hi lo' hi' : forall knots functions s,
  (forall i a b, nth_error knots i = Some a -> nth_error knots (S i) = Some b -> meets lo hi a b = meets lo' hi' a b /\ (meets lo hi a b = true -> later a lo = later a lo' /\ earlier b hi = earlier b hi')) ->
  sum_of_pieces integral lo hi knots functions s = sum_of_pieces integral lo' hi' knots functions s.
Proof.
  induction knots as [|a [|b r] IH]; intros functions s H; destruct functions as [|f fs]; try reflexivity. cbn [sum_of_pieces].
  destruct (H 0%nat a b eq_refl eq_refl) as (E1 & E2). rewrite <- E1. destruct (meets lo hi a b).
  - destruct (E2 eq_refl) as (-> & ->). apply IH. intros i x y A B. exact (H (S i) x y A B).
  - apply IH. intros i x y A B. exact (H (S i) x y A B).
Qed.
Lemma sum_none integral lo hi : forall knots functions s,
  (forall i a b, nth_error knots i = Some a -> nth_error knots (S i) = Some b -> meets lo hi a b = false) -> sum_of_pieces integral lo hi knots functions s = s.
Proof.
  induction knots as [|a [|b r] IH]; intros functions s H; destruct functions as [|f fs]; try reflexivity. cbn [sum_of_pieces].
  rewrite (H 0%nat a b eq_refl eq_refl). apply IH. intros i x y A B. exact (H (S i) x y A B).
Qed.
Lemma falling_order knots : not_falling knots -> (2 <= length knots)%nat -> forall i j a b, (i <= j)%nat -> nth_error knots i = Some a -> nth_error knots j = Some b -> dle a b = true.
Proof.
  intros NF L i j a b IJ. pose proof (falling_nums _ NF L) as FN. rewrite Forall_forall in FN. revert b. induction IJ as [|j IJ IH]; intros b A B.
  - assert (a = b) as <- by congruence. assert (N : num a) by (apply FN; eapply nth_error_In; exact A). apply dle_iff; auto. lra.
  - destruct (nth_error knots j) as [c|] eqn:C. 2: { apply nth_error_None in C. assert (S j < length knots)%nat by (apply nth_error_Some; congruence). lia. }
    apply (dle_trans _ c); [apply IH; auto|]. apply (NF j); assumption.
Qed.
Lemma outside knots functions x1 x2 first last_ : piecewise knots functions -> nth_error knots 0 = Some first -> nth_error knots (length functions) = Some last_ ->
  dlt x1 x2 = true -> dle x2 first = true \/ dle last_ x1 = true -> sum_of_pieces dpoly_integrate x1 x2 knots functions d0 = d0.
Proof.
  intros (L & L1 & NF) H0 HL LT O. apply sum_none. intros i a b A B. unfold meets. assert (S i < length knots)%nat by (apply nth_error_Some; congruence). destruct O as [O|O].
  - rewrite (dle_not_lt x2 a); [reflexivity|]. apply (dle_trans _ first); [exact O|]. apply (falling_order knots NF ltac:(lia) 0 i); auto. lia.
  - rewrite (dle_not_lt b x1); [apply andb_false_r|]. apply (dle_trans _ last_); [|exact O]. apply (falling_order knots NF ltac:(lia) (S i) (length functions)); auto. lia.
Qed.
Lemma clipped knots functions x1 x2 first last_ : piecewise knots functions -> nth_error knots 0 = Some first -> nth_error knots (length functions) = Some last_ ->
  (forall i a b, nth_error knots i = Some a -> nth_error knots (S i) = Some b -> dlt a b = true) -> num x1 -> num x2 -> dlt first x2 = true -> dlt x1 last_ = true ->
  sum_of_pieces dpoly_integrate x1 x2 knots functions d0 = sum_of_pieces dpoly_integrate (later first x1) (earlier last_ x2) knots functions d0.
Proof.
  intros (L & L1 & NF) H0 HL AS N1 N2 O1 O2. apply sum_ext. intros i a b A B. assert (I : (S i < length knots)%nat) by (apply nth_error_Some; congruence). pose proof (AS i a b A B) as AB.
  pose proof (falling_order knots NF ltac:(lia) 0 i first a ltac:(lia) H0 A) as FA. pose proof (falling_order knots NF ltac:(lia) (S i) (length functions) b last_ ltac:(lia) B HL) as BL.
  destruct (dle_nums _ _ FA) as [NF' NA]. destruct (dle_nums _ _ BL) as [NB NL]. unfold meets, later, earlier.
  apply dle_iff in FA; auto. apply dle_iff in BL; auto. apply dlt_iff in AB; auto. apply dlt_iff in O1; auto. apply dlt_iff in O2; auto.
  destruct (dlt first x1) eqn:C1; destruct (dlt x2 last_) eqn:C2; try (split; [reflexivity|intros _; split; reflexivity]).
  - (* the end is after the last knot *)
    apply dlt_no in C2; auto. assert (E1 : dlt a x2 = true) by (apply dlt_iff; auto; lra). assert (E2 : dlt a last_ = true) by (apply dlt_iff; auto; lra). rewrite E1, E2. split; [reflexivity|]. intros _. split; [reflexivity|].
    assert (E3 : dlt x2 b = false) by (apply dlt_no; auto; lra). assert (E4 : dlt last_ b = false) by (apply dlt_no; auto; lra). rewrite E3, E4. reflexivity.
  - apply dlt_no in C1; auto. assert (E1 : dlt x1 b = true) by (apply dlt_iff; auto; lra). assert (E2 : dlt first b = true) by (apply dlt_iff; auto; lra). rewrite E1, E2. split; [reflexivity|]. intros _. split; [|reflexivity].
    assert (E3 : dlt a x1 = false) by (apply dlt_no; auto; lra). assert (E4 : dlt a first = false) by (apply dlt_no; auto; lra). rewrite E3, E4. reflexivity.
  - apply dlt_no in C1; auto. apply dlt_no in C2; auto.
    assert (E1 : dlt x1 b = true) by (apply dlt_iff; auto; lra). assert (E2 : dlt first b = true) by (apply dlt_iff; auto; lra).
    assert (E5 : dlt a x2 = true) by (apply dlt_iff; auto; lra). assert (E6 : dlt a last_ = true) by (apply dlt_iff; auto; lra). rewrite E1, E2, E5, E6. split; [reflexivity|]. intros _.
    assert (E3 : dlt a x1 = false) by (apply dlt_no; auto; lra). assert (E4 : dlt a first = false) by (apply dlt_no; auto; lra). rewrite E3, E4.
    assert (E7 : dlt x2 b = false) by (apply dlt_no; auto; lra). assert (E8 : dlt last_ b = false) by (apply dlt_no; auto; lra). rewrite E7, E8. split; reflexivity.
Qed.
