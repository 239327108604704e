(** The derivatives of a cubic. *)
From Coq Require Import ZArith Reals List Lra.
From Coquelicot Require Import Hierarchy Derive AutoDerive.
From Verif Require Import DSplineSpec.
Local Open Scope R_scope.

Lemma cubic_derive a b c d k x : is_derive (cubic a b c d k) x (cubic_slope b c d k x).
Proof. unfold cubic, cubic_slope. auto_derive; [exact I|]. cbn. ring. Qed.
Lemma cubic_slope_derive b c d k x : is_derive (cubic_slope b c d k) x (cubic_curvature c d k x).
Proof. unfold cubic_slope, cubic_curvature. auto_derive; [exact I|]. cbn. ring. Qed.
