(** Properties of numerical integration and differentiation: C41, C93. Values and
    bounds are real numbers; the axioms of the standard library's reals appear
    below. *)
From Coq Require Import Reals List Arith Bool ZArith Lia Lra.
From Coquelicot Require Import Coquelicot.
From Verif Require Import Common CumulModel FunModel FunSpec FunProofs FunProofs2 FunProps SimpsonModel SimpsonProofs.
Import ListNotations.
Local Open Scope R_scope.

(** ** C41: Simpson's rule *)

(** The rule is defined for the orders 3 to 30, throws below and converts a number
    of points above INT_MAX beyond. *)
Theorem C41_defined f min max order :
  ((order < 3)%Z -> simpson f min max order = Throw) /\
  ((3 <= order <= 30)%Z -> exists v, simpson f min max order = Ok v) /\
  ((30 < order)%Z -> simpson f min max order = UB).
Proof.
  split; [|split]; intro H.
  - unfold simpson. replace (order <? 3)%Z with true by (symmetry; apply Z.ltb_lt; lia). reflexivity.
  - eexists. apply simpson_rule. exact H.
  - unfold simpson, points. replace (order <? 3)%Z with false by (symmetry; apply Z.ltb_ge; lia). replace (30 <? order)%Z with true by (symmetry; apply Z.ltb_lt; lia). reflexivity.
Qed.
Print Assumptions C41_defined.

(** Computed from the value of the order before, the value of an order is the one
    the rule computes directly. *)
Theorem C41_refinement f min max order previous : (4 <= order <= 30)%Z -> simpson f min max (order - 1) = Ok previous ->
  simpson_next f min max previous order = simpson f min max order.
Proof. intros H E. rewrite (simpson_rule f min max (order - 1)) in E by lia. injection E as <-. rewrite simpson_rule by lia. apply next_rule. exact H. Qed.
Print Assumptions C41_refinement.

Theorem C41_refinement_defined f min max previous order :
  ((order < 4)%Z -> simpson_next f min max previous order = Throw) /\ ((30 < order)%Z -> simpson_next f min max previous order = UB).
Proof.
  split; intro H; [|apply next_bad; lia]. unfold simpson_next. replace (order <? 4)%Z with true by (symmetry; apply Z.ltb_lt; lia). reflexivity.
Qed.
Print Assumptions C41_refinement_defined.

Lemma pad coef : (length coef <= 4)%nat -> exists a0 a1 a2 a3, forall x, poly_eval coef x = poly_eval [a0; a1; a2; a3] x.
Proof.
  intro L. exists (nth 0 coef 0), (nth 1 coef 0), (nth 2 coef 0), (nth 3 coef 0). intro x.
  destruct coef as [|a [|b [|c [|d [|e coef]]]]]; cbn in L; try lia; unfold poly_eval; cbn [poly_loop nth]; ring.
Qed.
Lemma rule_ext f g min max N : (forall x, f x = g x) -> rule f min max N = rule g min max N.
Proof. intro H. unfold rule, F. rewrite !H. rewrite (sum_ext _ (fun i => g (min + INR i * ((max - min) / INR N))) (N - 5) 3) by (intros; apply H). reflexivity. Qed.
Lemma rule_exact coef min max N : (length coef <= 4)%nat -> (8 <= N)%nat -> is_RInt (value (Poly coef)) min max (rule (value (Poly coef)) min max N).
Proof.
  intros L N8. destruct (pad coef L) as (a0 & a1 & a2 & a3 & E).
  assert (V : forall x, value (Poly coef) x = value (Poly [a0; a1; a2; a3]) x) by (intro x; unfold value; cbn [eval]; apply E).
  rewrite (rule_ext _ (poly_eval [a0; a1; a2; a3]) min max N) by exact E. rewrite rule_cubic by exact N8.
  apply (is_RInt_ext (value (Poly [a0; a1; a2; a3]))); [intros x _; symmetry; apply V|].
  destruct (C36_integral (Poly [a0; a1; a2; a3]) min max (PPoly _)) as (v & EV & IV). cbn [integrate] in EV. injection EV as <-. exact IV.
Qed.

(** The rule is exact for polynomials of degree three at most, at every order. *)
Theorem C41_cubic coef min max order : (length coef <= 4)%nat -> (3 <= order <= 30)%Z ->
  exists v, simpson (value (Poly coef)) min max order = Ok v /\ is_RInt (value (Poly coef)) min max v.
Proof. intros L H. eexists. split; [apply simpson_rule; exact H|]. apply rule_exact; [exact L|]. apply pow_ge8. lia. Qed.
Print Assumptions C41_cubic.

(** Not of degree four. *)
Theorem C41_quartic_refuted : exists coef v, length coef = 5%nat /\ simpson (value (Poly coef)) 0 8 3 = Ok v /\ ~ is_RInt (value (Poly coef)) 0 8 v.
Proof.
  exists [0; 0; 0; 0; 1]. eexists. split; [reflexivity|]. split; [apply simpson_rule; lia|]. intro H.
  destruct (C36_integral (Poly [0; 0; 0; 0; 1]) 0 8 (PPoly _)) as (v & EV & IV). cbn [integrate] in EV. injection EV as EV.
  pose proof (is_RInt_unique _ _ _ _ H) as U1. pose proof (is_RInt_unique _ _ _ _ IV) as U2. rewrite U1 in U2. rewrite <- EV in U2. clear - U2.
  revert U2. unfold rule, F, value, poly_eval, poly_integral. cbn [eval]. unfold poly_eval. change (2 ^ Z.to_nat 3)%nat with 8%nat. cbn [sum Nat.sub integ_from poly_loop INR Nat.add]. intro U2. lra.
Qed.
Print Assumptions C41_quartic_refuted.

Lemma sum_bounds g lo hi : (forall j, lo <= g j <= hi) -> forall n i, INR n * lo <= sum g i n <= INR n * hi.
Proof. intro H. induction n as [|n IH]; intro i; cbn [sum]; [cbn; lra|]. rewrite S_INR. specialize (H i). specialize (IH (S i)). lra. Qed.
Lemma rule_bounds f min max N lo hi : min <= max -> (8 <= N)%nat -> (forall x, min <= x <= max -> lo <= f x <= hi) -> lo * (max - min) <= rule f min max N <= hi * (max - min).
Proof.
  intros LE N8 B. assert (IN : 0 < INR N) by (apply lt_0_INR; lia). set (h := (max - min) / INR N). assert (H0 : 0 <= h) by (unfold h; apply Rmult_le_pos; [lra|left; apply Rinv_0_lt_compat; exact IN]).
  assert (EH : max - min = INR N * h) by (unfold h; field; lra).
  assert (FB : forall i, (i <= N)%nat -> lo <= F f min max N i <= hi).
  { intros i Hi. apply B. fold h. apply le_INR in Hi. assert (0 <= INR i) by apply pos_INR. assert (INR i * h <= INR N * h) by (apply Rmult_le_compat_r; lra). assert (0 <= INR i * h) by (apply Rmult_le_pos; lra). lra. }
  set (g := fun i => if Nat.leb i N then F f min max N i else lo). assert (LH : lo <= hi) by (specialize (FB 0%nat ltac:(lia)); lra).
  assert (GB : forall i, lo <= g i <= hi) by (intro i; unfold g; destruct (Nat.leb i N) eqn:E; [apply FB, Nat.leb_le, E|lra]).
  pose proof (sum_bounds g lo hi GB (N - 5) 3) as SB. unfold rule. fold h.
  rewrite (sum_ext _ g (N - 5) 3) by (intros j Hj; unfold g; replace (Nat.leb j N) with true by (symmetry; apply Nat.leb_le; lia); reflexivity).
  rewrite minus_INR in SB by lia. cbn [INR] in SB.
  pose proof (FB 0%nat ltac:(lia)). pose proof (FB N ltac:(lia)). pose proof (FB 1%nat ltac:(lia)). pose proof (FB (N - 1)%nat ltac:(lia)). pose proof (FB 2%nat ltac:(lia)). pose proof (FB (N - 2)%nat ltac:(lia)).
  rewrite EH, <- !Rmult_assoc. split; apply Rmult_le_compat_r; try exact H0; lra.
Qed.
(** The value lies between the bounds of the function times the width: the weights
    are positive and add up to the width. *)
Theorem C41_bounds f min max order v lo hi : min <= max -> (forall x, min <= x <= max -> lo <= f x <= hi) -> simpson f min max order = Ok v ->
  lo * (max - min) <= v <= hi * (max - min).
Proof.
  intros LE B E. destruct (Z_lt_le_dec order 3) as [L|L]; [rewrite (proj1 (C41_defined f min max order) L) in E; discriminate|].
  destruct (Z_lt_le_dec 30 order) as [G|G]; [rewrite (proj2 (proj2 (C41_defined f min max order)) G) in E; discriminate|].
  rewrite simpson_rule in E by lia. injection E as <-. apply rule_bounds; auto. apply pow_ge8. exact L.
Qed.
Print Assumptions C41_bounds.

Lemma sum_rev g : forall n i m, (m = i + i + n - 1)%nat -> (0 < n)%nat -> sum (fun j => g (m - j)%nat) i n = sum g i n.
Proof.
  intros n i m E P. subst m. assert (G : forall n i m, (i + n <= m + 1)%nat -> sum (fun j => g (m - j)%nat) i n = sum g (m + 1 - i - n)%nat n).
  { clear. induction n as [|n IH]; intros i m H; [reflexivity|]. rewrite sum_last. cbn [sum]. rewrite IH by lia. rewrite Rplus_comm. f_equal; [f_equal; lia|]. f_equal; lia. }
  rewrite G by lia. f_equal. lia.
Qed.
Lemma rule_turned f min max N : (8 <= N)%nat -> rule f max min N = - rule f min max N.
Proof.
  intro N8. assert (IN : INR N <> 0) by (apply not_0_INR; lia).
  assert (E : forall i, (i <= N)%nat -> F f max min N i = F f min max N (N - i)).
  { intros i Hi. unfold F. f_equal. rewrite minus_INR by exact Hi. field. exact IN. }
  unfold rule. rewrite (sum_ext (F f max min N) (fun j => F f min max N (N - j)) (N - 5) 3) by (intros j Hj; apply E; lia).
  rewrite (sum_rev (F f min max N)) by lia. rewrite !E by lia. replace (N - 0)%nat with N by lia. replace (N - N)%nat with 0%nat by lia. replace (N - (N - 1))%nat with 1%nat by lia. replace (N - (N - 2))%nat with 2%nat by lia. field. exact IN.
Qed.
(** Exchanging the bounds changes the sign. *)
Theorem C41_turned f min max order v : simpson f min max order = Ok v -> simpson f max min order = Ok (- v).
Proof.
  intro E. destruct (Z_lt_le_dec order 3) as [L|L]; [rewrite (proj1 (C41_defined f min max order) L) in E; discriminate|].
  destruct (Z_lt_le_dec 30 order) as [G|G]; [rewrite (proj2 (proj2 (C41_defined f min max order)) G) in E; discriminate|].
  rewrite simpson_rule in * by lia. injection E as <-. apply f_equal. apply rule_turned. apply pow_ge8. exact L.
Qed.
Print Assumptions C41_turned.

(** The adaptive integration returns the value of the first order whose value
    differs from the one before by no more than the relative precision; if no
    order up to 30 does, the number of points overflows. It always ends. *)
Theorem C41_adaptive f min max precision initial : (3 <= initial <= 30)%Z ->
  (exists m w v, (initial < m <= 30)%Z /\ simpson f min max (m - 1) = Ok w /\ simpson f min max m = Ok v /\ Rabs (v - w) <= precision * Rabs w /\
     adaptive f min max precision initial = Ok v) \/
  (adaptive f min max precision initial = UB /\
   forall m w v, (initial < m <= 30)%Z -> simpson f min max (m - 1) = Ok w -> simpson f min max m = Ok v -> precision * Rabs w < Rabs (v - w)).
Proof.
  intro H. unfold adaptive. rewrite simpson_rule by lia. cbn [bind]. fold (A f min max initial).
  destruct (refine_spec f min max precision (Z.to_nat (31 - initial)) 40 initial ltac:(lia) ltac:(lia) ltac:(lia)) as [(e & He & ER & EG & _)|[ER EJ]].
  - left. exists e, (A f min max (e - 1)), (A f min max e). split; [exact He|]. split; [apply simpson_rule; lia|]. split; [apply simpson_rule; lia|]. split; [|exact ER].
    apply goes_on_false in EG. destruct EG as [[E1 E2]|[_ E]]; [|exact E]. rewrite E1, E2. rewrite Rminus_0_r, Rabs_R0. lra.
  - right. split; [exact ER|]. intros m w v Hm Ew Ev. rewrite simpson_rule in Ew, Ev by lia. injection Ew as <-. injection Ev as <-. specialize (EJ m Hm). fold (A f min max (m - 1)). fold (A f min max m).
    destruct (Rlt_le_dec (precision * Rabs (A f min max (m - 1))) (Rabs (A f min max m - A f min max (m - 1)))) as [L|L]; [exact L|]. exfalso. assert (G : A f min max (m - 1) = 0 -> A f min max m <> 0) by (intros Z1 Z2; assert (goes_on precision (A f min max (m - 1)) (A f min max m) = false) by (apply goes_on_false; auto); congruence).
    destruct (Req_dec (A f min max (m - 1)) 0) as [Z|NZ].
    + rewrite Z in L. rewrite Rabs_R0, Rminus_0_r, Rmult_0_r in L. specialize (G Z). apply Rabs_pos_lt in G. lra.
    + assert (goes_on precision (A f min max (m - 1)) (A f min max m) = false) by (apply goes_on_false; auto). congruence.
Qed.
Print Assumptions C41_adaptive.

(** It is the first such order. *)
Theorem C41_adaptive_first f min max precision initial v : (3 <= initial <= 30)%Z -> 0 <= precision -> adaptive f min max precision initial = Ok v ->
  exists m, (initial < m <= 30)%Z /\ simpson f min max m = Ok v /\
    forall j w u, (initial < j < m)%Z -> simpson f min max (j - 1) = Ok w -> simpson f min max j = Ok u -> precision * Rabs w < Rabs (u - w).
Proof.
  intros H P E. unfold adaptive in E. rewrite simpson_rule in E by lia. cbn [bind] in E. fold (A f min max initial) in E.
  destruct (refine_spec f min max precision (Z.to_nat (31 - initial)) 40 initial ltac:(lia) ltac:(lia) ltac:(lia)) as [(e & He & ER & EG & EJ)|[ER EJ]]; [|congruence].
  exists e. split; [exact He|]. rewrite ER in E. injection E as <-. split; [apply simpson_rule; lia|]. intros j w u Hj Ew Eu. rewrite simpson_rule in Ew, Eu by lia. injection Ew as <-. injection Eu as <-.
  specialize (EJ j Hj). fold (A f min max (j - 1)). fold (A f min max j). destruct (Rlt_le_dec (precision * Rabs (A f min max (j - 1))) (Rabs (A f min max j - A f min max (j - 1)))) as [L|L]; [exact L|].
  exfalso. assert (goes_on precision (A f min max (j - 1)) (A f min max j) = false); [|congruence]. apply goes_on_false. destruct (Req_dec (A f min max (j - 1)) 0) as [Z|NZ]; [|auto]. left. split; [exact Z|].
  rewrite Z in L. rewrite Rabs_R0, Rminus_0_r, Rmult_0_r in L. pose proof (Rabs_pos (A f min max j)). destruct (Req_dec (A f min max j) 0) as [E|E]; [auto|]. apply Rabs_pos_lt in E. lra.
Qed.
Print Assumptions C41_adaptive_first.

(** Polynomials of degree three at most: the exact integral. *)
Theorem C41_adaptive_cubic coef min max precision initial : (length coef <= 4)%nat -> (3 <= initial <= 29)%Z -> 0 <= precision ->
  exists v, adaptive (value (Poly coef)) min max precision initial = Ok v /\ is_RInt (value (Poly coef)) min max v.
Proof.
  intros L H P. destruct (C41_adaptive (value (Poly coef)) min max precision initial ltac:(lia)) as [(m & w & v & Hm & _ & Ev & _ & E)|[E EJ]].
  - exists v. split; [exact E|]. rewrite simpson_rule in Ev by lia. injection Ev as <-. apply rule_exact; [exact L|apply pow_ge8; lia].
  - exfalso. unfold adaptive in E. rewrite simpson_rule in E by lia. cbn [bind refine] in E. rewrite <- (Z.add_simpl_r initial 1) in E at 1. rewrite next_rule in E by lia. cbn [bind] in E.
    assert (Q : forall m, (3 <= m)%Z -> rule (value (Poly coef)) min max (2 ^ Z.to_nat m) = RInt (value (Poly coef)) min max).
    { intros m Hm. symmetry. apply (is_RInt_unique (V := R_CompleteNormedModule)). apply rule_exact; [exact L|apply pow_ge8; lia]. }
    rewrite !Q in E by lia. replace (goes_on precision (RInt (value (Poly coef)) min max) (RInt (value (Poly coef)) min max)) with false in E; [discriminate|]. symmetry. apply goes_on_false.
    destruct (Req_dec (RInt (value (Poly coef)) min max) 0) as [Z|NZ]; [left; auto|right]. split; [exact NZ|]. replace (RInt (value (Poly coef)) min max - RInt (value (Poly coef)) min max) with 0 by ring. rewrite Rabs_R0. apply Rmult_le_pos; [exact P|apply Rabs_pos].
Qed.
Print Assumptions C41_adaptive_cubic.

(** The precision bounds the last change, not the error: an oscillation that
    vanishes at all the points of two orders is integrated to zero. *)
Theorem C41_adaptive_error_refuted : exists f v, (forall x, continuous f x) /\ adaptive f 0 1 (1 / 1000) 3 = Ok 0 /\ is_RInt f 0 1 v /\ 0 < v.
Proof.
  set (w := 16 * PI). exists (fun x => Rsqr (sin (w * x))), (1 / 2). split; [|split; [|split; [|lra]]].
  - intro x. apply (ex_derive_continuous (fun x => Rsqr (sin (w * x)))). auto_derive. exact I.
  - assert (Z : forall m i, (0 < m <= 16)%nat -> (exists k, k * m = 16)%nat -> F (fun x => Rsqr (sin (w * x))) 0 1 m i = 0).
    { intros m i Hm (k & Hk). unfold F. replace (w * (0 + INR i * ((1 - 0) / INR m))) with (IZR (Z.of_nat (k * i)) * PI).
      - rewrite (sin_eq_0_1 (IZR (Z.of_nat (k * i)) * PI)) by (eexists; reflexivity). unfold Rsqr. ring.
      - rewrite <- INR_IZR_INZ, mult_INR. assert (INR m <> 0) by (apply not_0_INR; lia). assert (INR k * INR m = 16) by (rewrite <- mult_INR, Hk; rewrite INR_IZR_INZ; reflexivity). unfold w. replace 16 with (INR k * INR m). field. assumption. }
    assert (RZ : forall m, (0 < m <= 16)%nat -> (exists k, k * m = 16)%nat -> rule (fun x => Rsqr (sin (w * x))) 0 1 m = 0).
    { intros m Hm Hk. unfold rule. rewrite !Z by auto. rewrite (sum_ext _ (fun _ => 0) (m - 5) 3) by (intros; apply Z; auto).
      assert (S0 : forall n i, sum (fun _ => 0) i n = 0) by (induction n as [|n IH]; intro i; cbn [sum]; [reflexivity|rewrite IH; ring]). rewrite S0. ring. }
    unfold adaptive. rewrite simpson_rule by lia. cbn [bind refine]. change (3 + 1)%Z with 4%Z. replace 3%Z with (4 - 1)%Z at 1 by reflexivity. rewrite next_rule by lia. cbn [bind].
    change (2 ^ Z.to_nat 4)%nat with 16%nat. change (2 ^ Z.to_nat (4 - 1))%nat with 8%nat. change (2 ^ Z.to_nat 3)%nat with 8%nat. rewrite (RZ 16%nat) by (try lia; exists 1%nat; reflexivity). rewrite (RZ 8%nat) by (try lia; exists 2%nat; reflexivity).
    replace (goes_on (1 / 1000) 0 0) with false; [reflexivity|]. symmetry. apply goes_on_false. left. split; reflexivity.
  - assert (W : w <> 0) by (unfold w; pose proof PI_RGT_0; lra).
    replace (1 / 2) with ((fun x => x / 2 - sin (2 * (w * x)) / (4 * w)) 1 - (fun x => x / 2 - sin (2 * (w * x)) / (4 * w)) 0).
    + apply (is_RInt_derive (fun x => x / 2 - sin (2 * (w * x)) / (4 * w)) (fun x => Rsqr (sin (w * x)))).
      * intros x _. auto_derive; [exact I|]. unfold Rsqr. replace (cos (2 * (w * x))) with (1 - 2 * sin (w * x) * sin (w * x)) by (symmetry; apply cos_2a_sin). field. exact W.
      * intros x _. apply (ex_derive_continuous (fun x => Rsqr (sin (w * x)))). auto_derive. exact I.
    + cbv beta. rewrite Rmult_0_r, Rmult_0_r, sin_0. replace (2 * (w * 1)) with (IZR 32 * PI) by (unfold w; lra). rewrite (sin_eq_0_1 (IZR 32 * PI)) by (eexists; reflexivity). field. exact W.
Qed.
Print Assumptions C41_adaptive_error_refuted.

(** A negative precision is never met. *)
Theorem C41_adaptive_ends_refuted : exists f, adaptive f 0 1 (-1) 30 = UB.
Proof. exists (fun _ => 1). unfold adaptive. rewrite simpson_rule by lia. cbn [bind refine]. rewrite next_bad by lia. reflexivity. Qed.
Print Assumptions C41_adaptive_ends_refuted.

(** The scheme given to integrate serves the functions that have no integral of
    their own... *)
Theorem C41_scheme scheme : (forall h min max, integrate_with scheme (Other h) min max = scheme h min max) /\
  (forall f g min max, integrate_with scheme (Times f g) min max = scheme (value (Times f g)) min max) /\
  (forall f min max, polynomial_pieces f -> exists v, integrate_with scheme f min max = Ok v /\ is_RInt (value f) min max v).
Proof.
  split; [reflexivity|]. split; [reflexivity|]. intros f min max H. destruct (C36_integral f min max H) as (v & E & I). exists v. split; [|exact I]. inversion H; subst; exact E.
Qed.
Print Assumptions C41_scheme.

(** ...but is not passed on to the pieces of a piecewise function. *)
Theorem C41_scheme_for_pieces_refuted : exists f, usable f /\ forall scheme, integrate_with scheme f 0 1 = Throw.
Proof.
  exists (Piece [0; 1] [Other (fun x => x)]). split.
  - apply UPiece; [reflexivity|discriminate|apply sorted2; lra|]. intros f [<-|[]]. constructor.
  - intro scheme. cbn [integrate_with integrate]. unfold upper_bound. cbn [count_while]. dec. cbn [Nat.sub bind]. dec. reflexivity.
Qed.
Print Assumptions C41_scheme_for_pieces_refuted.

Example C41_example : simpson (value (Poly [1; 0; 3])) 0 8 3 = Ok 520 /\ simpson_next (value (Poly [1; 0; 3])) 0 8 520 4 = Ok 520 /\ adaptive (value (Poly [1; 0; 3])) 0 8 0 3 = Ok 520.
Proof.
  assert (E : forall m, (3 <= m)%Z -> rule (value (Poly [1; 0; 3])) 0 8 (2 ^ Z.to_nat m) = 520).
  { intros m H. rewrite (rule_ext _ (poly_eval [1; 0; 3; 0])) by (intro x; unfold value, poly_eval; cbn [eval]; unfold poly_eval; cbn [poly_loop]; ring). rewrite rule_cubic by (apply pow_ge8; lia). unfold poly_eval, poly_integral. cbn [integ_from poly_loop INR Nat.add]. lra. }
  assert (N4 : simpson_next (value (Poly [1; 0; 3])) 0 8 520 4 = Ok 520) by (rewrite <- (E 3%Z) at 1 by lia; rewrite (next_rule _ 0 8 4) by lia; rewrite E by lia; reflexivity).
  split; [rewrite simpson_rule by lia; rewrite E by lia; reflexivity|]. split; [exact N4|].
  unfold adaptive. rewrite simpson_rule by lia. rewrite E by lia. cbn [bind refine]. change (3 + 1)%Z with 4%Z. rewrite N4. cbn [bind].
  replace (goes_on 0 520 520) with false; [reflexivity|]. symmetry. apply goes_on_false. right. split; [lra|]. replace (520 - 520) with 0 by lra. rewrite Rabs_R0. lra.
Qed.

(** ** C93: finite differences *)

(** The first difference is the derivative at some point between the two samples
    (for a function with a derivative), the second difference the second derivative
    at a point within one step. *)
Theorem C93_derivative f df h x : 0 < h -> (forall t, x <= t <= x + h -> is_derive f t (df t)) ->
  exists c, x < c < x + h /\ derivative h f x = df c.
Proof.
  intros H D. destruct (MVT_cor2 f df x (x + h) ltac:(lra)) as (c & E & C).
  - intros c Hc. apply is_derive_Reals. apply D. exact Hc.
  - exists c. split; [exact C|]. unfold derivative. rewrite E. field. lra.
Qed.
Print Assumptions C93_derivative.

(** Affine functions: exactly the slope; quadratic functions: off by the step times
    the leading coefficient. *)
Theorem C93_affine a b c h x : h <> 0 -> derivative h (fun t => a + b * t + c * t ^ 2) x = b + 2 * c * x + c * h.
Proof. intro H. unfold derivative. field. exact H. Qed.
Print Assumptions C93_affine.

(** The second difference is exact up to degree three. *)
Theorem C93_second_cubic a b c d h x : h <> 0 -> derivative2nd h (fun t => a + b * t + c * t ^ 2 + d * t ^ 3) x = 2 * c + 6 * d * x.
Proof. intro H. unfold derivative2nd. field. exact H. Qed.
Print Assumptions C93_second_cubic.

(** In general it is a second derivative within one step. *)
Theorem C93_second f df ddf h x : 0 < h -> (forall t, x - h <= t <= x + h -> is_derive f t (df t)) -> (forall t, x - h <= t <= x + h -> is_derive df t (ddf t)) ->
  exists c, x - h < c < x + h /\ derivative2nd h f x = ddf c.
Proof.
  intros H D DD.
  (* g u = f (x + u) - 2 f x + f (x - u) - k u^2, with k chosen so that g h = 0 *)
  set (k := derivative2nd h f x). set (g := fun u => f (x + u) - 2 * f x + f (x - u) - k * u ^ 2). set (dg := fun u => df (x + u) - df (x - u) - 2 * k * u).
  assert (DG : forall u, 0 <= u <= h -> derivable_pt_lim g u (dg u)).
  { intros u Hu. apply is_derive_Reals. unfold g, dg. pose proof (D (x + u) ltac:(lra)) as D1. pose proof (D (x - u) ltac:(lra)) as D2.
    evar_last; [apply @is_derive_minus; [apply @is_derive_plus; [apply @is_derive_minus; [apply (is_derive_comp f (fun u => x + u)); [exact D1|auto_derive; [exact I|reflexivity]]|apply (is_derive_const (2 * f x))]|apply (is_derive_comp f (fun u => x - u)); [exact D2|auto_derive; [exact I|reflexivity]]]|auto_derive; [exact I|reflexivity]]|].
    unfold minus, plus, opp, zero, scal; cbn. unfold mult; cbn. ring. }
  destruct (MVT_cor2 g dg 0 h H DG) as (c & E & C). assert (G0 : g 0 = 0) by (unfold g; rewrite Rplus_0_r, Rminus_0_r; ring).
  assert (Gh : g h = 0) by (unfold g, k, derivative2nd; field; lra). assert (DC : dg c = 0). { rewrite Gh, G0 in E. apply (Rmult_eq_reg_r (h - 0)); lra. }
  destruct (MVT_cor2 df ddf (x - c) (x + c) ltac:(lra)) as (e & E2 & C2).
  - intros t Ht. apply is_derive_Reals. apply DD. lra.
  - exists e. split; [lra|]. unfold dg in DC. assert (2 * c * (ddf e - k) = 0) by lra. assert (2 * c <> 0) by lra. assert (ddf e - k = 0) by (destruct (Rmult_integral _ _ H0); [contradiction|assumption]). lra.
Qed.
Print Assumptions C93_second.

Example C93_example : derivative 1 (fun t => 3 + 2 * t + 0 * t ^ 2) 5 = 2 /\ derivative2nd 1 (fun t => 0 + 0 * t + 0 * t ^ 2 + 1 * t ^ 3) 2 = 12.
Proof. rewrite C93_affine, C93_second_cubic by lra. split; lra. Qed.
