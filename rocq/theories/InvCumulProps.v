(** Properties of the inverse cumulative of a continuous variable: C96. Values are
    real numbers; the axioms of the standard library's reals appear below. *)
From Coq Require Import Reals List Arith Bool Lia Lra.
From Coquelicot Require Import Coquelicot.
From Verif Require Import Common CumulModel CumulProofs FunModel FunSpec FunProofs FunProofs2 FunProps InterpModel InterpSpec InterpProofs GridInterpProofs InvCumulModel InvCumulSpec InvCumulProofs.
Import ListNotations.
Local Open Scope R_scope.

(** ** C96: sampling a continuous variable *)

(** For knots in order and a density without negative values, the result for a
    probability p is, up to 2e-8, a point with the fraction p of the area at its
    left; it exceeds no knot that this point does not exceed. *)
Theorem C96_quantile knots pdf p : length knots = length pdf -> (2 <= length knots)%nat -> sorted knots -> (forall i, 0 <= el pdf i) -> 0 <= p <= 1 ->
  exists t r q, new_inverse knots pdf = Ok t /\ find_inverse t p = Ok r /\ quantile knots pdf p q /\ Rabs (r - q) <= 2 * / 10 ^ 8 /\ (forall k, In k knots -> q <= k -> r <= k).
Proof.
  intros L L2 SK NN P. destruct (inverse_spec knots pdf L ltac:(destruct pdf; [cbn in L; lia|discriminate]) SK NN p P L2) as (t & r & q & E & F & Q & D & M & _). exists t, r, q. auto.
Qed.
Print Assumptions C96_quantile.

(** The result is between the first knot less 1e-8 and the last knot. *)
Theorem C96_range knots pdf p t r : length knots = length pdf -> (2 <= length knots)%nat -> sorted knots -> (forall i, 0 <= el pdf i) ->
  new_inverse knots pdf = Ok t -> find_inverse t p = Ok r -> el knots 0 - / 10 ^ 8 <= r <= el knots (length knots - 1).
Proof.
  intros L L2 SK NN E F. assert (P : 0 <= p <= 1). { unfold find_inverse in F. destruct (rlt p 0) eqn:Q1; [discriminate|]. destruct (rlt 1 p) eqn:Q2; [discriminate|]. rtest Q1. rtest Q2. lra. }
  destruct (inverse_spec knots pdf L ltac:(destruct pdf; [cbn in L; lia|discriminate]) SK NN p P L2) as (t' & r' & q & E' & F' & (i & Hi & QI & _) & _ & M & LO).
  rewrite E in E'. injection E' as <-. rewrite F in F'. injection F' as <-. split; [exact LO|]. apply M; [apply (nth_error_In knots (length knots - 1)), el_nth; lia|].
  pose proof (el_sorted knots (S i) (length knots - 1) SK ltac:(lia) ltac:(lia)). lra.
Qed.
Print Assumptions C96_range.

Lemma line_integral x0 p0 x1 p1 q : x0 < x1 -> is_RInt (line x0 p0 x1 p1) x0 q ((q - x0) * (p0 + line x0 p0 x1 p1 q) / 2).
Proof.
  intro X. set (G := fun x => p0 * (x - x0) + (p1 - p0) / (x1 - x0) * (x - x0) ^ 2 / 2).
  replace ((q - x0) * (p0 + line x0 p0 x1 p1 q) / 2) with (G q - G x0) by (unfold G, line; field; lra).
  apply (is_RInt_derive G (line x0 p0 x1 p1)).
  - intros x _. unfold G, line. auto_derive; [exact I|]. field. lra.
  - intros x _. apply (ex_derive_continuous (line x0 p0 x1 p1)). unfold line. auto_derive. exact I.
Qed.
Lemma area_integral knots pdf (f : R -> R) : strictly_sorted knots -> (forall i x, (S i < length knots)%nat -> el knots i < x < el knots (S i) -> f x = density knots pdf i x) ->
  forall i q, (S i < length knots)%nat -> el knots i <= q <= el knots (S i) -> is_RInt f (el knots 0) q (area_to knots pdf i q).
Proof.
  intros SK F. assert (SEG : forall i q, (S i < length knots)%nat -> el knots i <= q <= el knots (S i) -> is_RInt f (el knots i) q ((q - el knots i) * (el pdf i + density knots pdf i q) / 2)).
  { intros i q Hi Q. apply (is_RInt_ext (density knots pdf i)); [|apply line_integral; apply el_strict; auto]. intros x X. symmetry. apply F; [exact Hi|]. rewrite Rmin_left, Rmax_right in X by lra. lra. }
  assert (FULL : forall i, (i < length knots)%nat -> is_RInt f (el knots 0) (el knots i) (area knots pdf i)).
  { induction i as [|i IH]; intro Hi; [apply (is_RInt_point f (el knots 0))|]. pose proof (el_strict knots i (S i) SK ltac:(lia) Hi) as X. pose proof (SEG i (el knots (S i)) Hi ltac:(lra)) as IS.
    replace (area knots pdf (S i)) with (plus (area knots pdf i) ((el knots (S i) - el knots i) * (el pdf i + density knots pdf i (el knots (S i))) / 2)).
    - apply (is_RInt_Chasles (V := R_NormedModule) f (el knots 0) (el knots i) (el knots (S i))); [apply IH; lia|exact IS].
    - cbn [area]. unfold plus; cbn. unfold density. rewrite line_right by lra. reflexivity. }
  intros i q Hi Q. unfold area_to. apply (is_RInt_Chasles (V := R_NormedModule) f (el knots 0) (el knots i) q); [apply FULL; lia|apply SEG; auto].
Qed.
(** The area is the integral: for any function that is linear between the points,
    the integral up to the point is the fraction p of the whole integral. *)
Theorem C96_integral knots pdf p q (f : R -> R) : strictly_sorted knots -> (2 <= length knots)%nat -> quantile knots pdf p q ->
  (forall i x, (S i < length knots)%nat -> el knots i < x < el knots (S i) -> f x = line (el knots i) (el pdf i) (el knots (S i)) (el pdf (S i)) x) ->
  exists total, is_RInt f (el knots 0) (el knots (length knots - 1)) total /\ is_RInt f (el knots 0) q (p * total).
Proof.
  intros SK L2 (i & Hi & Q & E) F. exists (area knots pdf (length knots - 1)). split.
  - pose proof (area_integral knots pdf f SK F (length knots - 2) (el knots (length knots - 1))) as H. replace (S (length knots - 2)) with (length knots - 1)%nat in H by lia.
    pose proof (el_strict knots (length knots - 2) (length knots - 1) SK ltac:(lia) ltac:(lia)) as X. specialize (H ltac:(lia) ltac:(lra)).
    replace (area knots pdf (length knots - 1)) with (area_to knots pdf (length knots - 2) (el knots (length knots - 1))); [exact H|].
    unfold area_to, density. replace (S (length knots - 2)) with (length knots - 1)%nat by lia. rewrite line_right by lra. set (n := (length knots - 2)%nat). replace (length knots - 1)%nat with (S n) by lia. reflexivity.
  - rewrite <- E. apply area_integral; auto.
Qed.
Print Assumptions C96_integral.

(** A single knot is the result for every probability. *)
Theorem C96_single k d p : 0 <= p <= 1 -> exists t, new_inverse [k] [d] = Ok t /\ find_inverse t p = Ok k.
Proof.
  intro P. eexists. split; [reflexivity|]. unfold find_inverse. cbn. replace (rlt p 0) with false by (symmetry; destruct (rlt p 0) eqn:Q; rtest Q; [lra|reflexivity]). replace (rlt 1 p) with false by (symmetry; destruct (rlt 1 p) eqn:Q; rtest Q; [lra|reflexivity]). cbn [orb].
  replace (rle (p * (d - d) + d) d) with true by (symmetry; apply rle_iff; lra). reflexivity.
Qed.
Print Assumptions C96_single.

(** Knots out of order and probabilities outside [0, 1] are rejected. *)
Theorem C96_rejected : (forall knots pdf, ~ sorted knots -> new_inverse knots pdf = Throw) /\ (forall t p, p < 0 \/ 1 < p -> find_inverse t p = Throw).
Proof.
  split.
  - intros knots pdf N. unfold new_inverse. destruct (increasing knots) eqn:E; [apply increasing_sorted in E; contradiction|reflexivity].
  - intros t p P. unfold find_inverse. destruct P as [P|P]; apply rlt_iff in P; rewrite P; [reflexivity|rewrite orb_true_r; reflexivity].
Qed.
Print Assumptions C96_rejected.

(** The tolerance is real: the result can be below the first knot. *)
Theorem C96_below_first_refuted : exists t r, new_inverse [0; 1] [0; 1] = Ok t /\ find_inverse t (/ 10 ^ 9 * / 10 ^ 9) = Ok r /\ r < 0.
Proof.
  set (w := / 10 ^ 9). assert (W0 : 0 < w) by (apply Rinv_0_lt_compat, pow_lt; lra). assert (W1 : w * 10 < 1) by (unfold w; simpl; lra).
  assert (WT : w = / 10 ^ 8 / 10) by (unfold w; simpl; field). assert (WW : 0 < w * w < 1) by (split; nra).
  eexists. exists (- w). split; [|split; [|lra]].
  - unfold new_inverse. cbn [increasing]. dec. cbn [negb cdf_from bind rev app trim]. replace (req ((1 - 0) * (1 + 0) / 2 + 0) 0) with false by (symmetry; destruct (req ((1 - 0) * (1 + 0) / 2 + 0) 0) eqn:Q; rtest Q; [lra|reflexivity]). cbn [bind fst snd rev app nth_error of_option last]. reflexivity.
  - unfold find_inverse. cbn [i_range i_min i_cdf i_knots i_pdf]. set (u := w * w * ((1 - 0) * (1 + 0) / 2 + 0 - 0) + 0). assert (U : u = w * w / 2) by (unfold u; field).
    replace (rlt (w * w) 0 || rlt 1 (w * w)) with false by (symmetry; destruct (rlt (w * w) 0) eqn:Q; rtest Q; [lra|]; destruct (rlt 1 (w * w)) eqn:Q2; rtest Q2; [lra|reflexivity]). cbn [nth_error of_option bind last].
    replace (rle u 0) with false by (symmetry; destruct (rle u 0) eqn:Q; rtest Q; [lra|reflexivity]). replace (rle ((1 - 0) * (1 + 0) / 2 + 0) u) with false by (symmetry; destruct (rle ((1 - 0) * (1 + 0) / 2 + 0) u) eqn:Q; rtest Q; [lra|reflexivity]).
    unfold upper_bound. cbn [count_while]. replace (rle 0 u) with true by (symmetry; apply rle_iff; lra). replace (rle ((1 - 0) * (1 + 0) / 2 + 0) u) with false by (symmetry; destruct (rle ((1 - 0) * (1 + 0) / 2 + 0) u) eqn:Q; rtest Q; [lra|reflexivity]). cbn [Nat.sub nth_error of_option bind].
    replace (req 0 1) with false by (symmetry; destruct (req 0 1) eqn:Q; rtest Q; [lra|reflexivity]). replace (req 1 0) with false by (symmetry; destruct (req 1 0) eqn:Q; rtest Q; [lra|reflexivity]). replace (req 0 ((1 - 0) * (1 + 0) / 2 + 0)) with false by (symmetry; destruct (req 0 ((1 - 0) * (1 + 0) / 2 + 0)) eqn:Q; rtest Q; [lra|reflexivity]). replace (rle u 0) with false by (symmetry; destruct (rle u 0) eqn:Q; rtest Q; [lra|reflexivity]). cbn [orb].
    unfold solve_square. replace (req ((1 - 0) / (1 - 0) / 2) 0) with false by (symmetry; destruct (req ((1 - 0) / (1 - 0) / 2) 0) eqn:Q; rtest Q; [lra|reflexivity]). cbn [negb].
    match goal with |- context [rlt ?e 0] => replace e with (w * w) by (rewrite U; field) end. replace (rlt (w * w) 0) with false by (symmetry; destruct (rlt (w * w) 0) eqn:Q; rtest Q; [lra|reflexivity]). rewrite sqrt_square by lra. cbn [bind fst snd].
    match goal with |- context [rle (0 - _) ?e] => replace e with (- w) by field end.
    replace (rle (0 - / 10 ^ 8) (- w)) with true by (symmetry; apply rle_iff; lra). replace (rle (- w) (1 + / 10 ^ 8)) with true by (symmetry; apply rle_iff; assert (0 < / 10 ^ 8) by (apply Rinv_0_lt_compat, pow_lt; lra); lra). reflexivity.
Qed.
Print Assumptions C96_below_first_refuted.

(** The numbers of knots and of values of the density are not compared. *)
Theorem C96_sizes_refuted : new_inverse [0] [1; 1] = UB /\ exists t, new_inverse [0; 1; 2] [1; 1] = Ok t /\ find_inverse t 1 = Ok 2.
Proof.
  split.
  - unfold new_inverse. cbn [increasing negb cdf_from bind]. reflexivity.
  - eexists. split.
    + unfold new_inverse. cbn [increasing]. dec. cbn [negb cdf_from bind rev app trim]. replace (req ((1 - 0) * (1 + 1) / 2 + 1) 1) with false by (symmetry; destruct (req ((1 - 0) * (1 + 1) / 2 + 1) 1) eqn:Q; rtest Q; [lra|reflexivity]). cbn [bind fst snd rev app nth_error of_option last]. reflexivity.
    + unfold find_inverse. cbn [i_range i_min i_cdf i_knots i_pdf nth_error of_option bind last]. dec. reflexivity.
Qed.
Print Assumptions C96_sizes_refuted.

Example C96_example : quantile [0; 1; 3] [0; 2; 2] (1 / 5) 1 /\ sorted [0; 1; 3] /\ forall i, 0 <= el [0; 2; 2] i.
Proof.
  split; [exists 0%nat; split; [cbn; lia|]; unfold area_to, density, line, el; cbn [length area nth Nat.sub]; unfold el; cbn [nth]; split; lra|]. split; [apply strict_sorted, sorted3; lra|]. intros [|[|[|[|i]]]]; unfold el; cbn; lra.
Qed.
