(** The function returned for a cubic spline in double precision, and its values at the points. *)
From Coq Require Import ZArith Reals List Arith Bool Lia Lra Psatz.
From Flocq Require Import Core IEEE754.BinarySingleNaN.
From Verif Require Import Common CumulModel CumulProofs FloatModel FloatProofs DoubleProofs DoubleProofs2 DInterpModel DInterpSpec DInterpProofs DInterpProofs2
  DSOMProofs DSOMProofs2 DSplineModel DSplineSpec DSplineProofs DSplineProofs2.
Import ListNotations.
Local Open Scope R_scope.

(** ** The function *)
Definition pieces (xs ys : list double) : list (list double) :=
  map (dspline_piece (fun i => nth i xs d0) (fun i => nth i ys d0) (length xs - 1)) (seq 0 (length xs - 1)).
Lemma pieces_len xs ys : (2 <= length xs)%nat -> length xs = S (length (pieces xs ys)).
Proof. intros H. unfold pieces. rewrite map_length, seq_length. lia. Qed.
Lemma nth_pieces xs ys i : (S i < length xs)%nat ->
  nth_error (pieces xs ys) i = Some (dspline_piece (fun i => nth i xs d0) (fun i => nth i ys d0) (length xs - 1) i).
Proof.
  intros H. unfold pieces. rewrite nth_error_map.
  replace (nth_error (seq 0 (length xs - 1)) i) with (Some i); [reflexivity|]. symmetry.
  rewrite (nth_error_nth' (seq 0 (length xs - 1)) 0%nat) by (rewrite seq_length; lia). rewrite seq_nth by lia. reflexivity.
Qed.
Lemma spline_ok xs ys ex : good_points xs ys ->
  dspline_interpolate xs ys ex = Ok (DPiece (if ex then dreplace_ends xs else xs) (pieces xs ys)).
Proof.
  intros (L & N & A & F). unfold dspline_interpolate. rewrite (proj2 (Nat.eqb_eq _ _) L). cbn [negb]. replace (length xs =? 1)%nat with false by (symmetry; apply Nat.eqb_neq; lia). cbn [andb].
  destruct xs as [|x0 xs']; [cbn in N; lia|]. destruct ys as [|y0 ys']; [discriminate L|].
  rewrite clean_id by (try exact A; cbn in L; lia). cbn [bind fst snd]. unfold dspline, dnew_piecewise. fold (pieces (x0 :: xs') (y0 :: ys')).
  assert (E : length (if ex then dreplace_ends (x0 :: xs') else x0 :: xs') = S (length (pieces (x0 :: xs') (y0 :: ys')))).
  { transitivity (length (x0 :: xs')); [destruct ex; [apply replaced_length|reflexivity]|apply pieces_len; exact N]. }
  rewrite (proj2 (Nat.eqb_eq _ _) E). rewrite asc_growing; [reflexivity|]. destruct ex; [apply replaced_ascending|]; assumption.
Qed.
Lemma piece_value xs fs ex i x0 x1 f x : (2 <= length xs)%nat -> ascending xs -> Forall (fun x : double => is_finite x = true) xs -> length xs = S (length fs) ->
  nth_error xs i = Some x0 -> nth_error xs (S i) = Some x1 -> nth_error fs i = Some f -> is_finite x = true -> falls_in ex (length xs) i x0 x1 x ->
  dpiecewise (if ex then dreplace_ends xs else xs) fs x = Ok (dpoly f x).
Proof.
  intros N A F LEN H1 H3 HF FX (FL & FR).
  destruct (within_limits x FX) as [XL XH].
  assert (I : (S i < length xs)%nat) by (apply nth_error_Some; congruence).
  assert (NX : num x) by (apply dfinite_num, FX).
  destruct ex.
  - eapply (piece_found _ _ i); [apply replaced_ascending; assumption| | |exact HF|rewrite replaced_length; exact LEN| |].
    + rewrite nth_replaced by exact N. replace (S i =? length xs)%nat with false by (symmetry; apply Nat.eqb_neq; lia). rewrite H1. instantiate (1 := if Nat.eqb i 0 then dlowest else x0). destruct (Nat.eqb i 0); reflexivity.
    + rewrite nth_replaced by exact N. change (S i =? 0)%nat with false. cbv iota. rewrite H3. instantiate (1 := if Nat.eqb (S (S i)) (length xs) then dhighest else x1). destruct (Nat.eqb (S (S i)) (length xs)); reflexivity.
    + destruct (Nat.eqb_spec i 0) as [E0|E0].
      * destruct (dlt dlowest x) eqn:LX; [left; reflexivity|]. right. split; [exact E0|]. destruct lowest_value as [_ LF]. assert (NL : num dlowest) by (apply dfinite_num, LF).
        apply deq_iff; auto. apply dlt_no in LX; auto. apply dle_iff in XL; auto. lra.
      * left. destruct FL as [FL|[E _]]; [exact FL|congruence].
    + destruct (Nat.eqb_spec (S (S i)) (length xs)) as [E0|E0]; [exact XH|]. destruct FR as [FR|[_ E]]; [exact FR|congruence].
  - eapply (piece_found _ _ i x0 x1); try eassumption.
    + destruct FL as [FL|(E & [C|Q])]; [left; exact FL|discriminate|right; auto].
    + destruct FR as [FR|[C _]]; [exact FR|discriminate].
Qed.
Lemma outside xs fs x first last_ : ascending xs -> nth_error xs 0 = Some first -> nth_error xs (length xs - 1) = Some last_ ->
  dlt x first = true \/ dlt last_ x = true -> dpiecewise xs fs x = Ok d0.
Proof.
  intros A H0 H1 [O|O]; destruct xs as [|k0 r]; try discriminate H0; cbn in H0; injection H0 as ->; unfold dpiecewise; [rewrite O; reflexivity|].
  assert (B : forall i a, nth_error (first :: r) i = Some a -> dlt a x = true).
  { intros i a E. assert (I : (i < length (first :: r))%nat) by (apply nth_error_Some; congruence).
    destruct (Nat.eq_dec i (length (first :: r) - 1)) as [->|NE]; [congruence|]. apply le_lt_trans with last_; [|exact O]. apply dlt_le. apply (asc_lt' (first :: r) i (length (first :: r) - 1)); auto. lia. }
  pose proof (B 0%nat first eq_refl) as B0. rewrite (dlt_not_lt _ _ B0), (proj1 (dlt_not_eq _ _ B0)), all_below by exact B. cbn [length]. rewrite Nat.eqb_refl. reflexivity.
Qed.

(** ** Differences and quotients *)
Lemma sub_as_add (a b : double) : is_finite (dsub a b) = true -> B2R (dsub a b) = B2R (dadd a (Bopp b)) /\ is_finite (dadd a (Bopp b)) = true.
Proof.
  intros F. destruct (fin_sub a b F) as (FA & FB). assert (FO : is_finite (Bopp b) = true) by (rewrite is_finite_Bopp; exact FB).
  destruct (dsub_ext a b FA FB) as [NS ES]. destruct (dadd_ext a (Bopp b) FA FO) as [NA EA].
  rewrite (dext_finite b FB) in ES. rewrite (dext_finite _ FO), B2R_opp in EA.
  assert (EE : ext (dadd a (Bopp b)) = ext (dsub a b)) by (rewrite EA, ES; f_equal; ring).
  assert (FF : is_finite (dadd a (Bopp b)) = true) by (apply dfinite_iff; [exact NA|]; rewrite EE; apply dext_lt, F).
  split; [|exact FF]. rewrite <- !dext_finite by assumption. symmetry. exact EE.
Qed.
Lemma sub_near n S T (a b : double) ra rb : is_finite (dsub a b) = true -> Rabs ra <= S -> Rabs rb <= T ->
  near n S ra (B2R a) -> near n T rb (B2R b) -> near (Datatypes.S n) (S + T) (ra - rb) (B2R (dsub a b)).
Proof.
  intros F A B NA NB. destruct (sub_as_add a b F) as (E & FF). rewrite E. unfold Rminus. apply add_near; auto; [rewrite Rabs_Ropp; exact B|].
  unfold near in *. rewrite B2R_opp. replace (- B2R b - - rb) with (- (B2R b - rb)) by ring. rewrite Rabs_Ropp. exact NB.
Qed.
Lemma low_neg e r : low e r -> low e (- r).
Proof. intros [->|H]; [left; ring|right; rewrite Rabs_Ropp; exact H]. Qed.
Lemma low_sub e (a b : double) : (-1000 <= e)%Z -> is_finite (dsub a b) = true -> low e (B2R a) -> low e (B2R b) -> low (e - 52) (B2R (dsub a b)).
Proof.
  intros He F LA LB. destruct (sub_as_add a b F) as (E & FF). rewrite E. apply low_add; auto. rewrite B2R_opp. apply low_neg, LB.
Qed.
Lemma near_inv n r r' : (Z.of_nat n <= 2 ^ 51)%Z -> r <> 0 -> near n (Rabs r) r r' -> near (2 * n) (Rabs (/ r)) (/ r) (/ r').
Proof.
  intros H N NR. pose proof (gam_half n H) as G. pose proof (near_below n r r' H NR) as B. pose proof (Rabs_pos_lt r N) as P.
  assert (N' : r' <> 0). { intro E. rewrite E, Rabs_R0 in B. lra. }
  unfold near in *. replace (/ r' - / r) with (- (r' - r) * / r * / r') by (field; auto). rewrite !Rabs_mult, Rabs_Ropp.
  pose proof (Rabs_pos_lt r' N') as P'. rewrite (Rabs_inv r), (Rabs_inv r').
  (* |r'| >= (1 - g) |r| and g / (1 - g) <= 2 g + g^2 for g <= 1/2 *)
  assert (LO : (1 - gam n) * Rabs r <= Rabs r').
  { pose proof (Rabs_triang r' (r - r')) as T. replace (r' + (r - r')) with r in T by ring. rewrite (Rabs_minus_sym r r') in T. lra. }
  replace (2 * n)%nat with (n + n)%nat by lia. rewrite <- gam_add. pose proof (gam_pos n) as GP. set (g := gam n) in *. clearbody g.
  assert (PI : 0 < / Rabs r') by (apply Rinv_0_lt_compat, P'). assert (PJ : 0 < / Rabs r) by (apply Rinv_0_lt_compat, P).
  apply Rle_trans with (g * Rabs r * / Rabs r * / Rabs r'); [apply Rmult_le_compat_r; [lra|]; apply Rmult_le_compat_r; [lra|exact NR]|].
  rewrite Rmult_assoc, (Rmult_assoc g). rewrite <- (Rmult_assoc (Rabs r)), Rinv_r, Rmult_1_l by lra.
  (* g / |r'| <= (2 g + g^2) / |r| *)
  apply Rmult_le_reg_r with (Rabs r'); [exact P'|]. rewrite Rmult_assoc, Rinv_l, Rmult_1_r by lra.
  apply Rle_trans with ((g + g + g * g) * / Rabs r * ((1 - g) * Rabs r)).
  - replace ((g + g + g * g) * / Rabs r * ((1 - g) * Rabs r)) with ((g + g + g * g) * (1 - g)) by (field; lra). nra.
  - apply Rmult_le_compat_l; [|exact LO]. apply Rmult_le_pos; [nra|lra].
Qed.
Lemma div_near n m S (a b : double) ra rb : is_finite (ddiv a b) = true -> is_finite b = true -> rb <> 0 -> (Z.of_nat m <= 1000)%Z -> Rabs ra <= S ->
  near n S ra (B2R a) -> near m (Rabs rb) rb (B2R b) -> (B2R a = 0 \/ bpow radix2 (-1022) <= Rabs (B2R a / B2R b)) ->
  near (Datatypes.S (n + 2 * m)) (S * / Rabs rb) (ra / rb) (B2R (ddiv a b)).
Proof.
  intros F FB NB Hm A NA N H. pose proof (fin_div a b F) as FA.
  assert (B0 : B2R b <> 0). { intro E. pose proof (near_below m rb (B2R b) ltac:(lia) N) as B. rewrite E, Rabs_R0 in B. pose proof (Rabs_pos_lt rb NB). lra. }
  assert (EB : ext b <> 0) by (rewrite (dext_finite b FB); exact B0). destruct (ddiv_ext a b FA FB EB) as [_ E].
  apply (finite_rnd _ _ F) in E. rewrite (dext_finite a FA), (dext_finite b FB) in E.
  rewrite <- Rabs_inv.
  assert (AB : Rabs (ra / rb) <= S * Rabs (/ rb)). { unfold Rdiv. rewrite Rabs_mult. apply Rmult_le_compat_r; [apply Rabs_pos|exact A]. }
  assert (Q : near (n + 2 * m) (S * Rabs (/ rb)) (ra / rb) (B2R a / B2R b)) by (unfold Rdiv; apply near_mul; auto; [apply Rle_refl|apply near_inv; auto; lia]).
  destruct H as [H|H].
  - assert (Z : B2R a / B2R b = 0) by (rewrite H; unfold Rdiv; ring). rewrite Z in E. rewrite rnd_0 in E. rewrite E. rewrite Z in Q. apply (near_more (n + 2 * m)); [lia| |exact Q].
    apply Rle_trans with (2 := AB). apply Rabs_pos.
  - destruct (rnd_rel _ H) as (e & B' & R). apply (near_round (n + 2 * m) _ _ (B2R a / B2R b) e); [exact AB|exact Q|exact B'|]. rewrite E. exact R.
Qed.
