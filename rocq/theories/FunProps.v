(** Properties of functions of one variable: C35-C38. Values and bounds are real
    numbers; the axioms of the standard library's reals appear below. *)
From Coq Require Import Reals List Arith Bool Lia Lra.
From Coquelicot Require Import Coquelicot.
From Verif Require Import Common CumulModel CumulProofs FunModel FunSpec FunProofs FunProofs2.
Import ListNotations.
Local Open Scope R_scope.

Ltac dec := repeat match goal with
  | |- context [rlt ?a ?b] => let E := fresh "E" in destruct (rlt a b) eqn:E; rtest E; try lra
  | |- context [rle ?a ?b] => let E := fresh "E" in destruct (rle a b) eqn:E; rtest E; try lra
  | |- context [req ?a ?b] => let E := fresh "E" in destruct (req a b) eqn:E; rtest E; try lra
  end.

Lemma sorted3 a b c : a < b -> b < c -> strictly_sorted [a; b; c].
Proof. intros A B [|[|[|i]]] [|[|[|j]]] x y H Hx Hy; cbn in Hx, Hy; try lia; try discriminate; try (destruct i; discriminate); try (destruct j; discriminate); injection Hx as <-; injection Hy as <-; lra. Qed.
Lemma sorted2 a b : a <= b -> sorted [a; b].
Proof. intros A [|[|i]] [|[|j]] x y H Hx Hy; cbn in Hx, Hy; try lia; try discriminate; try (destruct i; discriminate); try (destruct j; discriminate); injection Hx as <-; injection Hy as <-; lra. Qed.
Lemma strict2 a b : a < b -> strictly_sorted [a; b].
Proof. intros A [|[|i]] [|[|j]] x y H Hx Hy; cbn in Hx, Hy; try lia; try discriminate; try (destruct i; discriminate); try (destruct j; discriminate); injection Hx as <-; injection Hy as <-; lra. Qed.

(** ** C35: piecewise functions *)

(** A piecewise function is accepted if and only if it has one knot more than
    functions and no knot is below the one before; otherwise the constructor
    throws. *)
Theorem C35_constructor ks fs :
  (length ks = S (length fs) /\ sorted ks -> new_piecewise ks fs = Ok (Piece ks fs)) /\
  (~ (length ks = S (length fs) /\ sorted ks) -> new_piecewise ks fs = Throw).
Proof.
  split; [intros [L SR]; apply new_piecewise_ok; auto|]. intro H. unfold new_piecewise. destruct (Nat.eqb (length ks) (S (length fs))) eqn:E; [|reflexivity].
  destruct (increasing ks) eqn:I; [|reflexivity]. exfalso. apply H. apply Nat.eqb_eq in E. apply increasing_sorted in I. auto.
Qed.
Print Assumptions C35_constructor.

(** Zero below the first knot and above the last one, the first function at the
    first knot, and function i on the interval (knot i, knot i+1]. *)
Theorem C35_values ks fs first last x : length ks = S (length fs) -> fs <> [] -> sorted ks ->
  nth_error ks 0 = Some first -> nth_error ks (length ks - 1) = Some last ->
  (x < first -> eval (Piece ks fs) x = Ok 0) /\
  (last < x -> eval (Piece ks fs) x = Ok 0) /\
  (forall g, nth_error fs 0 = Some g -> eval (Piece ks fs) first = eval g first) /\
  (forall i a b g, nth_error ks i = Some a -> nth_error ks (S i) = Some b -> nth_error fs i = Some g -> a < x <= b -> eval (Piece ks fs) x = eval g x).
Proof.
  intros L N SR HF HL. split; [apply eval_below; exact HF|]. split; [apply eval_above; auto; destruct fs; [congruence|cbn in L; lia]|].
  split; [intros g Hg; apply eval_first; auto|]. intros i a b g Ha Hb Hg X. apply (eval_inside ks fs x i a b g); auto.
Qed.
Print Assumptions C35_values.

(** These cases cover every abscissa. *)
Theorem C35_total (ks : list R) (fs : list func) first last x : length ks = S (length fs) -> fs <> [] -> sorted ks ->
  nth_error ks 0 = Some first -> nth_error ks (length ks - 1) = Some last ->
  x < first \/ last < x \/ x = first \/ exists i a b g, nth_error ks i = Some a /\ nth_error ks (S i) = Some b /\ nth_error fs i = Some g /\ a < x <= b.
Proof.
  intros L N SR HF HL. assert (L2 : (2 <= length ks)%nat) by (destruct fs; [congruence|cbn in L; lia]).
  destruct (piece_index_spec ks x first SR HF L2) as [[A _]|[[A _]|[(i & a & b & A1 & A2 & A3 & _)|(l' & A1 & A2 & _)]]]; auto.
  - right; right; right. destruct (nth_ok fs i) as (g & Hg); [apply nth_lt in A2; lia|]. exists i, a, b, g. auto.
  - right; left. rewrite HL in A1. injection A1 as <-. exact A2.
Qed.
Print Assumptions C35_total.

(** Evaluating a usable function always gives a value. *)
Theorem C35_defined f x : usable f -> exists v, eval f x = Ok v.
Proof. intro U. exists (value f x). apply usable_eval. exact U. Qed.
Print Assumptions C35_defined.

(** A piecewise function with one knot and no function is accepted; evaluating it
    at its knot reads a function that is not there. *)
Theorem C35_one_knot_refuted : exists ks fs f x, new_piecewise ks fs = Ok f /\ eval f x = UB.
Proof.
  exists [1], [], (Piece [1] []), 1. split; [reflexivity|]. cbn [eval piece_index]. dec. reflexivity.
Qed.
Print Assumptions C35_one_knot_refuted.

(** The documentation asks for strictly increasing knots; equal ones are accepted. *)
Theorem C35_equal_knots_refuted : exists ks fs, ~ strictly_sorted ks /\ new_piecewise ks fs = Ok (Piece ks fs).
Proof.
  exists [1; 1], [Poly [2]]. split; [intro H; specialize (H 0%nat 1%nat 1 1 ltac:(lia) eq_refl eq_refl); lra|]. apply new_piecewise_ok; [reflexivity|apply sorted2; lra].
Qed.
Print Assumptions C35_equal_knots_refuted.

Example C35_example : let f := Piece [0; 1; 3] [Poly [1; 2]; Poly [5]] in
  usable f /\ value f 0 = 1 /\ value f (1/2) = 2 /\ value f 1 = 3 /\ value f 2 = 5 /\ value f 4 = 0.
Proof.
  cbv zeta. assert (SR : sorted [0; 1; 3]) by (apply strict_sorted, sorted3; lra). split.
  - constructor; [reflexivity|discriminate|exact SR|]. intros f [<-|[<-|[]]]; constructor.
  - set (ks := [0; 1; 3]) in *. set (fs := [Poly [1; 2]; Poly [5]]). unfold value. rewrite (eval_first ks fs 0 (Poly [1; 2]) eq_refl eq_refl).
    rewrite (eval_inside ks fs (1/2) 0 0 1 (Poly [1; 2]) SR eq_refl eq_refl ltac:(lra) eq_refl), (eval_inside ks fs 1 0 0 1 (Poly [1; 2]) SR eq_refl eq_refl ltac:(lra) eq_refl), (eval_inside ks fs 2 1 1 3 (Poly [5]) SR eq_refl eq_refl ltac:(lra) eq_refl).
    rewrite (eval_above ks fs 4 3 SR ltac:(cbn; lia) eq_refl ltac:(lra)). cbn [eval]. unfold poly_eval. cbn [poly_loop]. repeat (split; [lra|]). lra.
Qed.

(** ** C36: integrals *)

(** The integral of a function made of polynomials, piecewise or not, from a to b
    is its Riemann integral, whatever the order of the bounds and their position
    relative to the knots. *)
Theorem C36_integral f a b : polynomial_pieces f -> exists v, integrate f a b = Ok v /\ is_RInt (value f) a b v.
Proof. intro P. apply pieces_exact. exact P. Qed.
Print Assumptions C36_integral.

(** Functions known by their values only are not integrated without a numerical scheme. *)
Theorem C36_not_integrable h f g a b : integrate (Other h) a b = Throw /\ integrate (Times f g) a b = Throw.
Proof. split; reflexivity. Qed.
Print Assumptions C36_not_integrable.

Example C36_example : let f := Piece [0; 1; 3] [Poly [1; 2]; Poly [5]] in polynomial_pieces f /\ integrate f 2 (-1) = Ok (-7).
Proof.
  cbv zeta. split.
  - constructor; [reflexivity|discriminate|apply strict_sorted, sorted3; lra|]. intros f [<-|[<-|[]]]; constructor.
  - cbn [integrate]. unfold upper_bound. cbn [count_while]. dec. cbn [Nat.sub bind]. dec. unfold poly_eval. cbn. f_equal. lra.
Qed.

(** ** C37: polynomials *)

(** The value at x is the sum of the coefficients times the powers of x. *)
Theorem C37_value coef x : eval (Poly coef) x = Ok (powers 0 coef x).
Proof. cbn [eval]. rewrite poly_eval_spec. reflexivity. Qed.
Print Assumptions C37_value.

(** derivative() is the derivative. *)
Theorem C37_derivative coef x : is_derive (value (Poly coef)) x (value (Poly (poly_derivative coef)) x).
Proof. exact (poly_derivative_spec coef x). Qed.
Print Assumptions C37_derivative.

(** indefiniteIntegral() is the antiderivative that vanishes at 0. *)
Theorem C37_integral coef x : is_derive (value (Poly (poly_integral coef))) x (value (Poly coef) x) /\ value (Poly (poly_integral coef)) 0 = 0.
Proof. split; [exact (poly_integral_spec coef x)|exact (poly_integral_zero coef)]. Qed.
Print Assumptions C37_integral.

Example C37_example : value (Poly [1; 2; 3]) 2 = 17 /\ poly_derivative [1; 2; 3] = [1 * 2; 2 * 3] /\ value (Poly (poly_integral [1; 2; 3])) 2 = 14.
Proof. split; [unfold value; cbn [eval]; unfold poly_eval; cbn; lra|]. split; [unfold poly_derivative; cbn; repeat f_equal; lra|]. unfold value. cbn [eval]. unfold poly_eval, poly_integral. cbn. lra. Qed.

(** ** C38: products *)

(** Products of functions that are not piecewise (and not the empty polynomial)
    have the product of the values everywhere. *)
Theorem C38_simple fuel f g : simple f -> simple g -> exists h, multiply (S fuel) f g = Ok h /\ usable h /\ forall x, value h x = value f x * value g x.
Proof. intros F G. destruct (simple_product fuel f g F G) as (h & E & [U _] & V). exists h. auto. Qed.
Print Assumptions C38_simple.

(** So do the products of a piecewise function with another one, in both orders. *)
Theorem C38_piecewise_by_other fuel ks fs g : simple_pieces ks fs -> simple g ->
  exists h h', multiply (S (S fuel)) (Piece ks fs) g = Ok h /\ multiply (S (S fuel)) g (Piece ks fs) = Ok h' /\ usable h /\ usable h' /\
    forall x, value h x = value (Piece ks fs) x * value g x /\ value h' x = value (Piece ks fs) x * value g x.
Proof.
  intros (L & N & SR & F) G. destruct (mult_each_spec fuel g G fs F) as (l & El & Ll & Vl). pose proof (strict_sorted _ SR) as SS.
  destruct (piece_times ks fs l g L N SS Ll Vl) as [U V].
  assert (E : bind (mult_each (multiply (S fuel)) fs g) (fun l => new_piecewise ks l) = Ok (Piece ks l)) by (rewrite El; cbn [bind]; apply new_piecewise_ok; [lia|exact SS]).
  exists (Piece ks l), (Piece ks l). destruct G as [_ G]. destruct g; try contradiction; (split; [exact E|]; split; [exact E|]; split; [exact U|]; split; [exact U|]; intro x; split; apply V).
Qed.
Print Assumptions C38_piecewise_by_other.

(** Two piecewise functions with overlapping ranges: the product has the product
    of the values at every abscissa, except possibly its own first knot, when
    this is an inner or last knot of one of the two functions. *)
Theorem C38_piecewises fuel a ks1 fs1 b ks2 fs2 : simple_pieces (a :: ks1) fs1 -> simple_pieces (b :: ks2) fs2 ->
  Rmax a b < Rmin (last (a :: ks1) 0) (last (b :: ks2) 0) ->
  exists h, multiply (S (S fuel)) (Piece (a :: ks1) fs1) (Piece (b :: ks2) fs2) = Ok h /\ usable h /\
    forall x, x <> Rmax a b \/ (~ In x ks1 /\ ~ In x ks2) -> value h x = value (Piece (a :: ks1) fs1) x * value (Piece (b :: ks2) fs2) x.
Proof. apply multiply_pieces_spec. Qed.
Print Assumptions C38_piecewises.

Lemma simple_const c : simple (Poly [c]).
Proof. split; [constructor|discriminate]. Qed.
Lemma two_pieces : simple_pieces [0; 1; 2] [Poly [1]; Poly [2]].
Proof. split; [reflexivity|]. split; [discriminate|]. split; [apply sorted3; lra|]. intros f [<-|[<-|[]]]; apply simple_const. Qed.
Lemma one_piece a b c : a < b -> simple_pieces [a; b] [Poly [c]].
Proof. intro H. split; [reflexivity|]. split; [discriminate|]. split; [apply strict2; exact H|]. intros f [<-|[]]. apply simple_const. Qed.

(** At that first knot the product can differ: the piece to the right is used
    where each function uses the piece to the left. *)
Theorem C38_first_knot_refuted : exists ks1 fs1 ks2 fs2 h x, simple_pieces ks1 fs1 /\ simple_pieces ks2 fs2 /\
  multiply 2 (Piece ks1 fs1) (Piece ks2 fs2) = Ok h /\ usable h /\ value h x <> value (Piece ks1 fs1) x * value (Piece ks2 fs2) x.
Proof.
  exists [0; 1; 2], [Poly [1]; Poly [2]], [1; 2], [Poly [1]], (Piece [1; 2] [Poly [0 + 2 * 1]]), 1.
  split; [apply two_pieces|]. split; [apply one_piece; lra|]. split.
  - change (multiply 2 ?a ?b) with (multiply_piecewises (multiply 1) [0; 1; 2] [Poly [1]; Poly [2]] [1; 2] [Poly [1]]).
    assert (M : multiply 1 (Poly [2]) (Poly [1]) = Ok (Poly [0 + 2 * 1])) by reflexivity. revert M. generalize (multiply 1). intros mult M.
    assert (K : overlapping_knots [0; 1; 2] [1; 2] = Ok [1; 2]).
    { unfold overlapping_knots. repeat (progress (cbn [length Nat.add overlap_start bind fst snd merge_knots set_insert]); dec). reflexivity. }
    unfold multiply_piecewises. rewrite K. cbn [bind last mult_pieces]. dec. cbn [advance]. dec. cbn [bind fst snd first_function]. rewrite M. cbn [bind]. apply new_piecewise_ok; [reflexivity|apply sorted2; lra].
  - assert (SR : sorted [0; 1; 2]) by (apply strict_sorted, sorted3; lra). split; [constructor; [reflexivity|discriminate|apply sorted2; lra|]; intros f [<-|[]]; constructor|].
    unfold value. rewrite (eval_first [1; 2] [Poly [0 + 2 * 1]] 1 (Poly [0 + 2 * 1]) eq_refl eq_refl), (eval_inside [0; 1; 2] [Poly [1]; Poly [2]] 1 0 0 1 (Poly [1]) SR eq_refl eq_refl ltac:(lra) eq_refl), (eval_first [1; 2] [Poly [1]] 1 (Poly [1]) eq_refl eq_refl).
    cbn [eval]. unfold poly_eval. cbn [poly_loop]. lra.
Qed.
Print Assumptions C38_first_knot_refuted.

(** Functions with disjoint ranges: the knots are read past the end. *)
Theorem C38_disjoint_refuted : exists ks1 fs1 ks2 fs2, simple_pieces ks1 fs1 /\ simple_pieces ks2 fs2 /\ multiply 2 (Piece ks1 fs1) (Piece ks2 fs2) = UB.
Proof.
  exists [0; 1], [Poly [1]], [2; 3], [Poly [1]]. split; [apply one_piece; lra|]. split; [apply one_piece; lra|].
  change (multiply 2 ?a ?b) with (multiply_piecewises (multiply 1) [0; 1] [Poly [1]] [2; 3] [Poly [1]]). generalize (multiply 1). intro mult.
  assert (K : overlapping_knots [0; 1] [2; 3] = UB).
  { unfold overlapping_knots. repeat (progress (cbn [length Nat.add overlap_start bind fst snd merge_knots set_insert]); dec). reflexivity. }
  unfold multiply_piecewises. rewrite K. reflexivity.
Qed.
Print Assumptions C38_disjoint_refuted.

(** Functions whose ranges have one point in common: the product cannot be evaluated there. *)
Theorem C38_touching_refuted : exists ks1 fs1 ks2 fs2 h x, simple_pieces ks1 fs1 /\ simple_pieces ks2 fs2 /\
  multiply 2 (Piece ks1 fs1) (Piece ks2 fs2) = Ok h /\ eval h x = UB.
Proof.
  exists [0; 1], [Poly [1]], [1; 2], [Poly [1]], (Piece [1] []), 1. split; [apply one_piece; lra|]. split; [apply one_piece; lra|]. split.
  - change (multiply 2 ?a ?b) with (multiply_piecewises (multiply 1) [0; 1] [Poly [1]] [1; 2] [Poly [1]]). generalize (multiply 1). intro mult.
    assert (K : overlapping_knots [0; 1] [1; 2] = Ok [1]).
    { unfold overlapping_knots. repeat (progress (cbn [length Nat.add overlap_start bind fst snd merge_knots set_insert]); dec). reflexivity. }
    unfold multiply_piecewises. rewrite K. cbn [bind last mult_pieces]. dec. reflexivity.
  - cbn [eval piece_index]. dec. reflexivity.
Qed.
Print Assumptions C38_touching_refuted.

(** Two polynomials without coefficients (zero functions) cannot be multiplied. *)
Theorem C38_empty_refuted fuel : usable (Poly []) /\ multiply (S fuel) (Poly []) (Poly []) = Throw.
Proof. split; [constructor|reflexivity]. Qed.
Print Assumptions C38_empty_refuted.

Example C38_example : simple_pieces [0; 1; 2] [Poly [1]; Poly [2]] /\ simple_pieces [1/2; 4] [Poly [3]] /\
  Rmax 0 (1/2) < Rmin (last [0; 1; 2] 0) (last [1/2; 4] 0) /\ simple (Poly [1; 2]) /\ simple (Other (fun x => x)).
Proof.
  split; [apply two_pieces|]. split; [apply one_piece; lra|]. split; [cbn; unfold Rmax, Rmin; destruct (Rle_dec 0 (1/2)), (Rle_dec 2 4); lra|].
  split; [split; [constructor|discriminate]|split; [constructor|exact I]].
Qed.
