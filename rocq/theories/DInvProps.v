(** Properties of the inverse cumulative in double precision. *)
From Coq Require Import ZArith Reals List Arith Bool Lia Lra.
From Flocq Require Import Core IEEE754.BinarySingleNaN.
From Verif Require Import Common FloatModel FloatProofs DoubleProofs DInterpProofs DSplineModel DSplineSpec DSplineProofs DModeModel DModeSpec DModeProofs InterpSpec InvCumulSpec DInvModel DInvSpec DInvProofs DInvProofs2 DInvProofs3 DInvProofs4 DInvProofs5.
Import ListNotations.
Local Open Scope R_scope.

(** ** C160 *)

Lemma taken knots pdf t : sampled_density knots pdf -> dnew_inverse knots pdf = Ok t -> exists cdf m, cumulated knots pdf cdf /\ kept cdf m /\ t = inverse_of knots pdf cdf m.
Proof. intros S N. destruct (new_inverse_ok knots pdf S) as (cdf & m & C & K & E). exists cdf, m. split; [exact C|]. split; [exact K|]. rewrite E in N. apply ok_inj in N. symmetry. exact N. Qed.

(** A sampled density and a probability: the object can be built, and the build without
    assertions returns a value. *)
Theorem C160_defined knots pdf p : sampled_density knots pdf -> is_finite p = true -> 0 <= B2R p <= 1 ->
  exists t, dnew_inverse knots pdf = Ok t /\ exists r, dfind_inverse false t p = Ok r.
Proof.
  intros S F H. destruct (new_inverse_ok knots pdf S) as (cdf & m & C & K & E). exists (inverse_of knots pdf cdf m). split; [exact E|]. apply (look_defined knots pdf cdf m S C K p F H).
Qed.
Print Assumptions C160_defined.

(** A finite value that is returned lies on the line of a segment such that the area below the density up
    to it is p times the whole area, up to 4 n + 400 roundings of the whole area, the first value
    of the density and the condition of the segment. With assertions it is in the segment, up to
    2e-8 and some roundings of the knots. *)
Theorem C160_accuracy knots pdf t p checks r : sampled_density knots pdf -> dnew_inverse knots pdf = Ok t -> is_finite p = true -> 0 <= B2R p <= 1 ->
  dfind_inverse checks t p = Ok r -> is_finite r = true ->
  let ks := map B2R knots in let ds := map B2R pdf in let n := length knots in
  exists i, (S i < n)%nat /\
    Rabs (area_to ks ds i (B2R r) - B2R p * area ks ds (n - 1)) <= rounding (4 * n + 400) * (el ds 0 + area ks ds (n - 1) + condition ks ds i) /\
    (checks = true -> el ks i - (2 / 10 ^ 8 + bpow radix2 (-48) * distance ks i) <= B2R r <= el ks (S i) + (2 / 10 ^ 8 + bpow radix2 (-48) * distance ks i)).
Proof.
  intros S N F H R FR ks ds n. destruct (taken _ _ _ S N) as (cdf & m & C & K & ->). destruct (look_good knots pdf cdf m S C K p F H checks r R FR) as (i & Hi & A & B).
  exists i. split; [exact Hi|]. split; [exact A|]. intro CK. specialize (B CK). unfold ks. rewrite !el_val. exact B.
Qed.
Print Assumptions C160_accuracy.

(** With assertions what is returned is finite, and the build without them returns the same. *)
Theorem C160_checked knots pdf t p r : sampled_density knots pdf -> dnew_inverse knots pdf = Ok t -> is_finite p = true -> 0 <= B2R p <= 1 ->
  dfind_inverse true t p = Ok r -> is_finite r = true /\ dfind_inverse false t p = Ok r.
Proof.
  intros S N F H R. destruct (taken _ _ _ S N) as (cdf & m & C & K & ->). split; [apply (checked_finite knots pdf cdf m S C K p F H r R)|apply (look_same knots pdf cdf m S C K p F H r R)].
Qed.
Print Assumptions C160_checked.

(** The probability 0 gives the first knot, in both builds. *)
Theorem C160_zero knots pdf t p checks : sampled_density knots pdf -> dnew_inverse knots pdf = Ok t -> is_finite p = true -> B2R p = 0 ->
  dfind_inverse checks t p = Ok (dval knots 0).
Proof. intros S N F H. destruct (taken _ _ _ S N) as (cdf & m & C & K & ->). apply (find_zero knots pdf cdf m S C K p F); [lra|exact H]. Qed.
Print Assumptions C160_zero.

(** When the density starts with 0 the probability 1 gives a knot, and it is the last one if the last segment has a noticeable area. *)
Theorem C160_one knots pdf t p checks : sampled_density knots pdf -> dnew_inverse knots pdf = Ok t -> is_finite p = true -> B2R p = 1 ->
  let ks := map B2R knots in let ds := map B2R pdf in let n := length knots in el ds 0 = 0 ->
  exists j, (j < n)%nat /\ dfind_inverse checks t p = Ok (dval knots j) /\
    (0 < area ks ds (n - 1) -> bpow radix2 (-50) * area ks ds (n - 1) <= area ks ds (n - 1) - area ks ds (n - 2) -> j = (n - 1)%nat).
Proof.
  intros S N F H ks ds n Z. destruct (taken _ _ _ S N) as (cdf & m & C & K & ->). pose proof (m_ok knots pdf cdf m S C K) as [M1 M2]. exists (m - 1)%nat. split; [unfold n; lia|]. split.
  - apply (one_top knots pdf cdf m S C K p F); [lra|exact H|]. unfold ds in Z. rewrite el_val in Z. exact Z.
  - intros A B. rewrite (last_kept knots pdf cdf m S C K); [reflexivity| |]; unfold true_cum; fold ks ds n; rewrite Z, !Rplus_0_l; [exact B|exact A].
Qed.
Print Assumptions C160_one.

(** Probabilities outside of [0, 1] and knots out of order are refused. *)
Theorem C160_refused : (forall checks t (p : double), is_finite p = true -> B2R p < 0 \/ 1 < B2R p -> dfind_inverse checks t p = Throw) /\
  (forall knots pdf, (exists i, (S i < length knots)%nat /\ dlt (dval knots (S i)) (dval knots i) = true) -> dnew_inverse knots pdf = Throw).
Proof.
  split.
  - intros checks t p F H. unfold dfind_inverse. assert (E : dlt p d0 || dlt d1 p = true); [|rewrite E; reflexivity]. apply orb_true_iff. destruct H as [H|H]; [left|right]; apply dlt_iff; try reflexivity; try apply dfinite_num, F.
    + rewrite (dext_finite p F). change (ext d0) with 0. exact H.
    + rewrite (dext_finite p F), (dext_finite d1 eq_refl), B2R_d1. exact H.
  - intros knots pdf (i & Hi & L). unfold dnew_inverse. replace (dsorted knots) with false; [reflexivity|]. symmetry. revert i Hi L. induction knots as [|a [|b r] IH]; intros i Hi L; [cbn in Hi; lia|cbn in Hi; lia|]. cbn [dsorted].
    destruct i as [|i]; [unfold dval in L; cbn [nth] in L; rewrite L; reflexivity|]. destruct (dlt b a); [reflexivity|]. apply (IH i); [cbn in *; lia|exact L].
Qed.
Print Assumptions C160_refused.

(** *** What fails *)

(** The object is built and asked once. *)
Definition found (checks : bool) (knots pdf : list double) (p : double) : outcome double := do t <- dnew_inverse knots pdf; dfind_inverse checks t p.
Lemma by_test (f : outcome double) (test : double -> bool) : match f with Ok r => test r | _ => false end = true -> exists r, f = Ok r /\ test r = true.
Proof. destruct f as [r| | |]; intro H; try discriminate H. exists r. split; [reflexivity|exact H]. Qed.
Ltac density_literal := apply sampled_test_ok; vm_compute; reflexivity.
Ltac result := apply by_test; vm_compute; reflexivity.

(** Knots far from 0 compared with their distance: for knots at 1e9 and 1e9 + 1 and a density that
    rises from 0 to 1, the quarter gives 1e9 in both builds; the exact quantile is 1e9 + 1/2. *)
Theorem C160_far_knots_refuted : let knots := [d2 1000000000 0; d2 1000000001 0] in let pdf := [d2 0 0; d2 1 0] in sampled_density knots pdf /\
  quantile [1000000000; 1000000001] [0; 1] (/ 4) (1000000000 + / 2) /\ forall checks, exists r, found checks knots pdf (d2 1 (-2)) = Ok r /\ deq r (d2 1000000000 0) = true.
Proof.
  intros knots pdf. split; [density_literal|]. split.
  - exists 0%nat. split; [cbn; lia|]. unfold area_to, density, line, el. cbn [nth area length Nat.sub]. unfold el. cbn [nth]. split; [lra|]. field.
  - intros [|]; result.
Qed.
Print Assumptions C160_far_knots_refuted.

(** A density that is almost flat: 1 at 0 and the next double at 1. The median is 0 in both builds. *)
Theorem C160_nearly_flat_refuted : let knots := [d2 0 0; d2 1 0] in let pdf := [d2 1 0; d2 4503599627370497 (-52)] in sampled_density knots pdf /\
  forall checks, exists r, found checks knots pdf (d2 1 (-1)) = Ok r /\ deq r d0 = true.
Proof. intros knots pdf. split; [density_literal|]. intros [|]; result. Qed.
Print Assumptions C160_nearly_flat_refuted.

(** The result can be a NaN: knots at 700 and 703, density from 0 to 7, probability 2^-40. With assertions the program ends. *)
Theorem C160_finite_refuted : let knots := [d2 700 0; d2 703 0] in let pdf := [d2 0 0; d2 7 0] in sampled_density knots pdf /\
  (exists r, found false knots pdf (d2 1 (-40)) = Ok r /\ is_nan r = true) /\ found true knots pdf (d2 1 (-40)) = UB.
Proof. intros knots pdf. split; [density_literal|]. split; [result|vm_compute; reflexivity]. Qed.
Print Assumptions C160_finite_refuted.

(** Without assertions the result can be outside of the knots: 1.4 above the last of 1e7 and 1e7 + 1. *)
Theorem C160_inside_refuted : let knots := [d2 10000000 0; d2 10000001 0] in let pdf := [d2 19 0; d2 8 0] in sampled_density knots pdf /\
  (exists r, found false knots pdf (d2 131071 (-17)) = Ok r /\ dlt (d2 10000002 0) r = true) /\ found true knots pdf (d2 131071 (-17)) = UB.
Proof. intros knots pdf. split; [density_literal|]. split; [result|vm_compute; reflexivity]. Qed.
Print Assumptions C160_inside_refuted.

(** Where the density does not start with 0 the probability 1 can give less than the last knot. *)
Theorem C160_one_refuted : let knots := [d2 3233041947929503 (-52); d2 1754804290820727 (-51); d2 8436682546328301 (-52)] in
  let pdf := [d2 934850829164725 (-51); d2 192776312104347 (-44); d2 91178405451215 (-46)] in sampled_density knots pdf /\
  forall checks, exists r, found checks knots pdf (d2 1 0) = Ok r /\ dlt r (d2 8436682546328301 (-52)) = true.
Proof. intros knots pdf. split; [density_literal|]. intros [|]; result. Qed.
Print Assumptions C160_one_refuted.

(** The first value of the density is added to the cumulative, so that knots closer than 2^-53 are lost: a
    flat density on [0, 2^-54] has 0 as the quantile of every probability. *)
Theorem C160_narrow_refuted : let knots := [d2 0 0; d2 1 (-54)] in let pdf := [d2 1 0; d2 1 0] in sampled_density knots pdf /\
  forall checks p, is_finite p = true -> 0 <= B2R p <= 1 -> found checks knots pdf p = Ok (d2 0 0).
Proof.
  intros knots pdf. assert (S : sampled_density knots pdf) by (unfold knots, pdf; density_literal). split; [exact S|]. intros checks p F H. unfold found.
  destruct (new_inverse_ok knots pdf S) as (cdf & m & C & K & E). rewrite E. cbn [bind]. pose proof (m_ok knots pdf cdf m S C K) as [M1 M2].
  assert (M : m = 1%nat).
  { destruct K as (_ & _ & [Z|Z]); [exact Z|]. destruct (Nat.eq_dec m 1) as [Q|Q]; [exact Q|]. assert (m = 2%nat) by (cbn in M2; lia). subst m. exfalso. cbn [Nat.sub] in Z. destruct C as (_ & C0 & C1). specialize (C1 0%nat ltac:(cbn; lia)). rewrite C1, C0 in Z. vm_compute in Z. discriminate. }
  subst m. destruct (find_cases knots pdf cdf 1 S C K p F H checks) as [[_ R]|[(_ & _ & R)|(i & Hi & _)]]; [exact R|exact R|lia].
Qed.
Print Assumptions C160_narrow_refuted.

(** A NaN for the probability reads beyond the end of the vectors. *)
Theorem C160_nan_probability_refuted : exists knots pdf, sampled_density knots pdf /\ forall checks, found checks knots pdf dnan = UB.
Proof. exists [d2 0 0; d2 1 0], [d2 1 0; d2 2 0]. split; [density_literal|]. intros [|]; vm_compute; reflexivity. Qed.
Print Assumptions C160_nan_probability_refuted.

(** So does the probability 0 when the area overflows, and values that underflow throw: [ordinary] is needed. *)
Theorem C160_ordinary_refuted :
  (exists knots pdf, Forall (fun v : double => is_finite v = true) (knots ++ pdf) /\ dsorted knots = true /\ (forall p, In p pdf -> 0 <= B2R p) /\ length knots = 2%nat /\ length pdf = 2%nat /\
     forall checks, found checks knots pdf d0 = UB) /\
  (exists knots pdf, Forall (fun v : double => is_finite v = true) (knots ++ pdf) /\ dsorted knots = true /\ (forall p, In p pdf -> 0 <= B2R p) /\ length knots = 2%nat /\ length pdf = 2%nat /\
     forall checks, found checks knots pdf (d2 1 (-1)) = Throw).
Proof.
  assert (P : forall p, dle d0 p = true -> is_finite p = true -> 0 <= B2R p). { intros p L F. apply dle_iff in L; [|reflexivity|apply dfinite_num, F]. rewrite (dext_finite p F) in L. exact L. }
  split.
  - exists [d2 0 0; d2 1 600], [d2 1 600; d2 1 600]. split; [repeat constructor|]. split; [reflexivity|]. split; [intros p [<-|[<-|[]]]; apply P; reflexivity|]. split; [reflexivity|]. split; [reflexivity|]. intros [|]; vm_compute; reflexivity.
  - exists [d2 0 0; d2 4 0], [d2 0 0; d2 1 (-1074)]. split; [repeat constructor|]. split; [reflexivity|]. split; [intros p [<-|[<-|[]]]; apply P; reflexivity|]. split; [reflexivity|]. split; [reflexivity|]. intros [|]; vm_compute; reflexivity.
Qed.
Print Assumptions C160_ordinary_refuted.

(** A triangle: some quantiles, in both builds. *)
Example C160_triangle : let knots := [d2 0 0; d2 1 0; d2 2 0] in let pdf := [d2 0 0; d2 1 0; d2 0 0] in sampled_density knots pdf /\
  forall checks, (exists r, found checks knots pdf (d2 1 (-3)) = Ok r /\ deq r (d2 1 (-1)) = true) /\ (exists r, found checks knots pdf (d2 1 (-1)) = Ok r /\ deq r (d2 1 0) = true) /\
    (exists r, found checks knots pdf (d2 31 (-5)) = Ok r /\ deq r (d2 7 (-2)) = true) /\ (exists r, found checks knots pdf (d2 1 0) = Ok r /\ deq r (d2 2 0) = true).
Proof. intros knots pdf. split; [density_literal|]. intros [|]; repeat split; result. Qed.
(** Its conditions are 4 and 9 where the area is 1. *)
Example C160_triangle_condition : condition [0; 1; 2] [0; 1; 0] 0 = 4 /\ condition [0; 1; 2] [0; 1; 0] 1 = 9 /\ area [0; 1; 2] [0; 1; 0] 2 = 1.
Proof.
  unfold condition, height, slope, distance, el. cbn [nth area]. unfold el. cbn [nth]. repeat split.
  - destruct (Req_EM_T 0 1); [lra|]. rewrite Rmax_right by lra. replace ((1 - 0) / (1 - 0)) with 1 by field. rewrite Rabs_R0, Rabs_R1, Rmax_right by lra. field.
  - destruct (Req_EM_T 1 0); [lra|]. rewrite Rmax_left by lra. replace ((0 - 1) / (2 - 1)) with (- (1)) by field. rewrite Rabs_Ropp, Rabs_R1, (Rabs_pos_eq 2), Rmax_right by lra. field.
  - field.
Qed.
