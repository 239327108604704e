(** Vocabulary of the statements about cosmological distances. *)
From Coq Require Import Reals.
From Verif Require Import CosmoModel.
Local Open Scope R_scope.

(** Cosmologies whose Hubble parameter does not decrease with the redshift. All
    flat ones with a density of matter between 0 and 1 are among them, and all open
    ones without a negative density. *)
Definition expanding (p : cosmology) : Prop :=
  0 < hubble_constant p /\ 0 <= omega_m p /\ 2 * omega_lambda p <= omega_m p + 2.
Definition flat (p : cosmology) : Prop := omega_m p + omega_lambda p = 1.
(** The expansion rate of the Friedmann equation, in units of today's. *)
Definition rate (p : cosmology) (z : R) : R :=
  sqrt (omega_m p * (1 + z) ^ 3 + (1 - omega_m p - omega_lambda p) * (1 + z) ^ 2 + omega_lambda p).
