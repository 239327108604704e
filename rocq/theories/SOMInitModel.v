(** Model of the functions that initialize the weights of a self-organizing map
    (SOM/SOM/InitFunc.h, SOM/src/lib/InitFunc.cpp and the constructor of SOM/SOM/_impl/SOM.icpp in /repo).

    SOMModel takes the initialization function as a stream of values. Here it is what the code has: a std::function
    that holds a closure with a state of its own, which a copy of the std::function copies (InitFunc.cpp:38, 44:
    the lambdas are mutable and capture the engine by value). *)
From Coq Require Import ZArith List Bool.
From Verif Require Import Common SOMModel FloatModel.
Import ListNotations.

(** InitFunc.h:35, InitFunc::Signature: the state of the closure and its operator(). *)
Record init_func : Type := mkInit { st : Type; state : st; call : st -> double * st }.
(** A call f() of a variable f of this type. *)
Definition one_call (f : init_func) : double * init_func :=
  let '(v, s) := call f (state f) in (v, mkInit (st f) s (call f)).

(** SOM.icpp:35-37, the inner loop over the weights of a cell. *)
Fixpoint fill_cell (nd : nat) (f : init_func) : list double * init_func :=
  match nd with
  | O => ([], f)
  | S n => let '(v, f1) := one_call f in let '(r, f2) := fill_cell n f1 in (v :: r, f2)
  end.
(** SOM.icpp:34-38, the loop over the cells in the order of the grid. *)
Fixpoint fill_cells (nd count : nat) (f : init_func) : list (list double) * init_func :=
  match count with
  | O => ([], f)
  | S c => let '(w, f1) := fill_cell nd f in let '(r, f2) := fill_cells nd c f1 in (w :: r, f2)
  end.
(** SOM.icpp:29-40, SOM.h:56: init_func is passed by value, so that the calls change the copy of the constructor. *)
Definition som_of (nd x y : nat) (init_func : init_func) : som (list double) :=
  mkSom x y (fst (fill_cells nd (x * y) init_func)).

(** What a program can do with a variable f of type InitFunc::Signature. *)
Inductive act : Type :=
| Assign (f : init_func)          (** f = uniformRandom(...), f = normalDistribution(...), f = zero... *)
| Call                            (** f() *)
| Build (nd x y : nat).           (** SOM<nd>(x, y, f) *)
(** What the program sees of it. *)
Inductive seen : Type := Nothing | Value (v : double) | Map (m : som (list double)).
Definition perform (a : act) (f : init_func) : seen * init_func :=
  match a with
  | Assign g => (Nothing, g)
  | Call => let '(v, g) := one_call f in (Value v, g)
  | Build nd x y => (Map (som_of nd x y f), f)
  end.
Fixpoint perform_all (l : list act) (f : init_func) : list seen * init_func :=
  match l with
  | [] => ([], f)
  | a :: r => let '(o, g) := perform a f in let '(os, h) := perform_all r g in (o :: os, h)
  end.

(** InitFunc.cpp:26-30, InitFunc::zero; the default argument of the constructor (SOM.h:56). *)
Definition zero_func : init_func := mkInit unit tt (fun s => (d0, s)).

Section Normal.
Variable engine : Type.
(** std::mt19937 with a seed, and the next value of a normal distribution of mean 0 and deviation 1 drawn from it. *)
Variable seeded : Z -> engine.
Variable standard : engine -> double * engine.
(** InitFunc.cpp:32-38: [seed] is the value of std::random_device. std::normal_distribution(mean, stddev) multiplies
    a standard value by stddev and adds mean (libstdc++, bits/random.tcc). *)
Definition normal_distribution (seed : Z) (sigma mu : double) : init_func :=
  mkInit engine (seeded seed) (fun s => let '(z, s') := standard s in (dadd (dmul z sigma) mu, s')).
End Normal.

(** InitFunc.cpp:41-44. std::default_random_engine is the choice of the library: with libstdc++ it is
    std::minstd_rand0, the state of a new engine is 1 and each call replaces the state and returns it (bits/random.h). *)
Definition minstd_modulus : Z := 2147483647.
Definition minstd_next (x : Z) : Z := (16807 * x) mod minstd_modulus.
Definition minstd_new : Z := 1.
(** The number of values of the engine, max() - min() + 1, as a double. *)
Definition minstd_range : double := d2 2147483646 0.
(** libstdc++, bits/random.tcc, std::generate_canonical<double, 53>: two values of the engine, less its minimum 1; a
    result that rounds to 1 is replaced by the double before 1. The long double product with the range has less than
    64 bits and is rounded to double when it is stored. *)
Definition canonical (s : Z) : double * Z :=
  let x1 := minstd_next s in
  let x2 := minstd_next x1 in
  let sum1 := dadd d0 (dmul (d2 (x1 - 1) 0) d1) in
  let tmp1 := dmul d1 minstd_range in
  let sum2 := dadd sum1 (dmul (d2 (x2 - 1) 0) tmp1) in
  let tmp2 := dmul tmp1 minstd_range in
  let ret := ddiv sum2 tmp2 in
  (if dle d1 ret then d2 (2 ^ 53 - 1) (-53) else ret, x2).
(** InitFunc.cpp:41-45 and libstdc++, bits/random.h, std::uniform_real_distribution: canonical * (b - a) + a. *)
Definition uniform_random (min max : double) : init_func :=
  mkInit Z minstd_new (fun s => let '(c, s') := canonical s in (dadd (dmul c (dsub max min)) min, s')).
