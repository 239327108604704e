(** Model of the cosmological distances (PhysicsUtils/src/lib/CosmologicalDistances.cpp
    and CosmologicalParameters.cpp in /repo).

    Doubles are real numbers. The speed of light [c] of Elements::Units is an
    argument, since its unit is not part of the code. Elements::isEqual(0., x) is
    taken as x = 0. *)
From Coq Require Import Reals ZArith List.
From Verif Require Import Common CumulModel FunModel SimpsonModel.
Import ListNotations.
Local Open Scope R_scope.

(** CosmologicalParameters.h: the members; Omega_k is computed by the constructor
    (CosmologicalParameters.cpp:30-31). *)
Record cosmology : Type := mkCosmo { omega_m : R; omega_lambda : R; hubble_constant : R }.
Definition omega_k (p : cosmology) : R := 1 - omega_m p - omega_lambda p.

Section Light.
Variable c : R.

(** CosmologicalDistances.cpp:39-41. *)
Definition hubble_distance (p : cosmology) : R := c * 1000 / hubble_constant p.
(** CosmologicalDistances.cpp:43-47. The root of a negative number is not a number
    in the code and 0 here: the statements ask for a positive radicand. *)
Definition hubble_parameter (z : R) (p : cosmology) : R :=
  let square := (1 + z) * (1 + z) in
  let cube := square * (1 + z) in
  sqrt (omega_m p * cube + omega_k p * square + omega_lambda p).
(** CosmologicalDistances.cpp:49-62. *)
Definition comoving_distance (z : R) (p : cosmology) (precision : R) : outcome R :=
  if req z 0 then Ok 0
  else
    do i <- integrate_with (fun f a b => adaptive f a b precision 3) (Other (fun x => 1 / hubble_parameter x p)) 0 z;
    Ok (hubble_distance p * i).
(** CosmologicalDistances.h:70: the default precision. *)
Definition default_precision : R := 1 / 10000000.
(** CosmologicalDistances.cpp:64-78. *)
Definition transverse_distance (z : R) (p : cosmology) : outcome R :=
  do comoving <- comoving_distance z p default_precision;
  if req (omega_k p) 0 then Ok comoving
  else
    let r := hubble_distance p / sqrt (Rabs (omega_k p)) in
    Ok (if rlt 0 (omega_k p) then r * sinh (comoving / r) else r * sin (comoving / r)).
(** CosmologicalDistances.cpp:80-86. *)
Definition luminous_distance (z : R) (p : cosmology) : outcome R :=
  if req z 0 then Ok 10
  else do d <- transverse_distance z p; Ok ((1 + z) * d).
(** std::log10: [None] stands for minus infinity and for not a number. *)
Definition log10 (x : R) : option R := if rlt 0 x then Some (ln x / ln 10) else None.
(** CosmologicalDistances.cpp:88-90. *)
Definition distance_modulus (z : R) (p : cosmology) : outcome (option R) :=
  do d <- luminous_distance z p;
  Ok (match log10 (d / 10) with Some l => Some (5 * l) | None => None end).
(** CosmologicalDistances.cpp:92-97. *)
Definition volume_element (z : R) (p : cosmology) : outcome R :=
  let dh := hubble_distance p in
  let e := hubble_parameter z p in
  do dm <- transverse_distance z p;
  Ok (dm * dm / (e * dh * dh)).
End Light.
