(** Model of the expansion rate and of the comoving distance in double precision
    (PhysicsUtils/src/lib/CosmologicalDistances.cpp and CosmologicalParameters.cpp in /repo).

    CosmoModel describes the same code with real numbers. Here every operation rounds as the processor does; the
    program is taken to be compiled without contraction of a product and a sum into one operation. std::sqrt rounds
    correctly, as IEEE 754 asks. The speed of light of Elements::Units and Elements::isEqual are arguments, since
    they are not part of the repository. sinh, sin and log10 of the C library are not specified to the last digit: the
    functions that use them are not modelled here. *)
From Coq Require Import ZArith.
From Verif Require Import Common FloatModel DQuadModel.

(** CosmologicalParameters.cpp:30-31: the arguments of the constructor. *)
Record dcosmology : Type := mkDCosmo { dc_m : double; dc_lambda : double; dc_h0 : double }.
(** CosmologicalParameters.cpp:31, the member m_omega_k. *)
Definition dc_k (p : dcosmology) : double := dsub (dsub d1 (dc_m p)) (dc_lambda p).

(** CosmologicalDistances.cpp:43-47. *)
Definition dhubble_parameter (z : double) (p : dcosmology) : double :=
  let square := dmul (dadd d1 z) (dadd d1 z) in
  let cube := dmul square (dadd d1 z) in
  dsqrt (dadd (dadd (dmul (dc_m p) cube) (dmul (dc_k p) square)) (dc_lambda p)).
(** CosmologicalDistances.cpp:58, the integrand. *)
Definition dintegrand (p : dcosmology) (x : double) : double := ddiv d1 (dhubble_parameter x p).

Section Light.
Variable c_light : double.
Variable is_equal : double -> double -> bool.
(** CosmologicalDistances.cpp:39-41. *)
Definition dhubble_distance (p : dcosmology) : double := ddiv (dmul c_light (d2 1000 0)) (dc_h0 p).
(** CosmologicalDistances.cpp:49-62; the Simpson rule starts with its minimal order 3. *)
Definition dcomoving (z : double) (p : dcosmology) (precision : double) : outcome double :=
  if is_equal d0 z then Ok d0
  else do i <- dadaptive (dintegrand p) d0 z precision 3; Ok (dmul (dhubble_distance p) i).
End Light.
