(** Order properties of [dbl]. *)
From Coq Require Import QArith Bool Lqa.
From Verif Require Import DblModel.
Local Open Scope Q_scope.

Lemma Qlt_b_iff a b : Qlt_b a b = true <-> a < b.
Proof.
  unfold Qlt_b. rewrite negb_true_iff. split; intro H.
  - apply Qnot_le_lt. intro L. apply Qle_bool_iff in L. congruence.
  - destruct (Qle_bool b a) eqn:E; auto. apply Qle_bool_iff in E. exfalso. lra.
Qed.
Lemma Qlt_b_false a b : Qlt_b a b = false <-> b <= a.
Proof.
  unfold Qlt_b. rewrite negb_false_iff. apply Qle_bool_iff.
Qed.

Ltac dbl_cases :=
  unfold dle, dlt, deq in *;
  repeat match goal with
  | x : dbl |- _ => destruct x
  end; simpl in *; try discriminate; try reflexivity;
  rewrite ?orb_true_iff, ?orb_false_iff, ?Qlt_b_iff, ?Qlt_b_false, ?Qeq_bool_iff in *.

Lemma dlt_irrefl a : dlt a a = false.
Proof. dbl_cases. lra. Qed.
Lemma dlt_trans a b c : dlt a b = true -> dlt b c = true -> dlt a c = true.
Proof. intros; dbl_cases; try lra. Qed.
Lemma dlt_asym a b : dlt a b = true -> dlt b a = false.
Proof. intros; dbl_cases; try lra. Qed.
Lemma dlt_nan_l a : dlt NaN a = false.
Proof. destruct a; reflexivity. Qed.
Lemma dlt_nan_r a : dlt a NaN = false.
Proof. destruct a; reflexivity. Qed.
(** Negative transitivity away from NaN. *)
Lemma dlt_neg_trans a b c : is_nan b = false -> dlt a b = false -> dlt b c = false -> dlt a c = false.
Proof. intros; dbl_cases; try lra; auto. Qed.
Lemma dlt_connect a b c : is_nan b = false -> dlt a c = true -> dlt a b = true \/ dlt b c = true.
Proof.
  intros N H. destruct (dlt a b) eqn:E1; auto. destruct (dlt b c) eqn:E2; auto.
  rewrite (dlt_neg_trans a b c N E1 E2) in H. discriminate.
Qed.
Lemma dlt_not_nan a b : dlt a b = true -> is_nan a = false /\ is_nan b = false.
Proof. destruct a, b; simpl; intros; split; congruence. Qed.
