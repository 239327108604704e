(** C41: the error of Simpson's rule on smooth functions. *)
From Coq Require Import Reals List Arith Bool ZArith Lia Lra.
From Coquelicot Require Import Coquelicot.
From Verif Require Import Common SimpsonModel SimpsonProofs SimpsonSmoothProofs.
Local Open Scope R_scope.

(** On a function with four derivatives the error of the rule of order m is at most 5/4 of the fourth power of the step,
    times the length of the range, times the largest fourth derivative. *)
Theorem C41_smooth_error : forall (f : R -> R) a b m v K, a <= b -> (3 <= m <= 30)%Z ->
  (forall x, a <= x <= b -> forall k, (k <= 4)%nat -> ex_derive_n f k x) -> (forall x, a <= x <= b -> Rabs (Derive_n f 4 x) <= K) ->
  simpson f a b m = Ok v ->
  Rabs (v - RInt f a b) <= 5 / 4 * K * ((b - a) / 2 ^ Z.to_nat m) ^ 4 * (b - a).
Proof.
  intros f a b m v K L M D B H. rewrite simpson_rule in H by lia. injection H as <-. replace (2 ^ Z.to_nat m) with (INR (2 ^ Z.to_nat m)) by apply pow_INR. apply rule_smooth; auto. apply pow_ge8. lia.
Qed.
Print Assumptions C41_smooth_error.

(** The exponential from 0 to 1, with sixteen parts: an error below one part in 17000. *)
Example C41_smooth_error_ex : exists v, simpson exp 0 1 4 = Ok v /\ Rabs (v - (exp 1 - exp 0)) <= / 17000.
Proof.
  eexists. split; [apply simpson_rule; lia|].
  assert (E : forall n x, is_derive_n exp n x (exp x)).
  { induction n as [|n IH]; intros x; [reflexivity|]. cbn [is_derive_n]. apply (is_derive_ext exp); [|apply is_derive_exp]. intros t. symmetry. apply is_derive_n_unique, IH. }
  assert (X1 : exp 1 <= 3) by apply exp_le_3.
  pose proof (C41_smooth_error exp 0 1 4 _ 3 ltac:(lra) ltac:(lia) ltac:(intros x _ k _; destruct k; [exact I|eexists; apply (E (S k) x)])
    ltac:(intros x Hx; rewrite (is_derive_n_unique _ _ _ _ (E 4%nat x)), Rabs_pos_eq by (left; apply exp_pos); apply Rle_trans with (2 := X1); destruct (Rle_lt_or_eq_dec x 1 (proj2 Hx)) as [Q|Q]; [left; apply exp_increasing, Q|rewrite Q; apply Rle_refl]) (simpson_rule exp 0 1 4 ltac:(lia))) as T.
  assert (J : RInt exp 0 1 = exp 1 - exp 0).
  { apply is_RInt_unique. apply (is_RInt_derive (V := R_CompleteNormedModule) exp exp); intros x _; [apply is_derive_exp|]. apply (ex_derive_continuous (V := R_NormedModule) exp). eexists. apply is_derive_exp. }
  rewrite J in T. change (Z.to_nat 4) with 4%nat in *. eapply Rle_trans; [exact T|]. lra.
Qed.
