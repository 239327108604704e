(** Model of the distances, the search and the training of self-organizing maps (SOM/SOM)
    in double precision.

    SOMModel describes the same code with rational weights and distances given by the
    caller, and the other functions of the library. A map is that of SOMModel; an
    array<double, ND> is a list of length ND. Products and sums are not contracted into
    one operation. *)
From Coq Require Import ZArith List Arith Bool.
From Verif Require Import Common SOMModel FloatModel.
Import ListNotations.

(** std::numeric_limits<double>::max() (SOM.icpp:93). *)
Definition dbl_max : double := d2 (2 ^ 53 - 1) 971.

(** Distance.h:57-60. *)
Fixpoint l2_loop (result : double) (left right : list double) : double :=
  match left, right with
  | a :: l, b :: r => l2_loop (dadd result (dmul (dsub a b) (dsub a b))) l r
  | _, _ => result
  end.
(** Distance.h:56-62. *)
Definition l2 (left right : list double) : double := dsqrt (l2_loop d0 left right).
(** Distance.h:66-71. *)
Fixpoint l2u_loop (result : double) (left right uncertainties : list double) : double :=
  match left, right, uncertainties with
  | a :: l, b :: r, u :: us =>
      let up := dmul (dsub a b) (dsub a b) in
      let down := dmul u u in
      l2u_loop (dadd result (ddiv up down)) l r us
  | _, _, _ => result
  end.
(** Distance.h:64-73. *)
Definition l2u (left right uncertainties : list double) : double := dsqrt (l2u_loop d0 left right uncertainties).

(** SOM.icpp:94-100: the loop over the cells; [best] is the position of result_iter. *)
Fixpoint dbmu_loop {W} (dist : W -> double) (l : list W) (pos best : nat) (closest : double) : nat * double :=
  match l with
  | [] => (best, closest)
  | w :: r =>
      if dlt (dist w) closest then dbmu_loop dist r (S pos) pos (dist w)
      else dbmu_loop dist r (S pos) best closest
  end.
(** SOM.icpp:89-102 findBMU_impl. A map without cells has no coordinates to report. *)
Definition dfind_bmu {W} (dist : W -> double) (s : som W) : outcome (nat * nat * double) :=
  match cells s with
  | [] => UB
  | _ => let '(p, d) := dbmu_loop dist (cells s) 0 0 dbl_max in Ok (x_of s p, y_of s p, d)
  end.

(** SOMTrainer.h:78. *)
Definition dupdate_weight (nf lf input w : double) : double := dadd w (dmul (dmul nf lf) (dsub input w)).
(** SOMTrainer.h:77-79. *)
Fixpoint dupdate_cell (nf lf : double) (input w : list double) : list double :=
  match w, input with
  | a :: r, b :: t => dupdate_weight nf lf b a :: dupdate_cell nf lf t r
  | _, _ => w
  end.
(** SOMTrainer.h:67-81: the loop over the cells from position [p]. *)
Fixpoint dupdate_cells (nf : nat * nat -> double) (lf : double) (input : list double) (s : som (list double)) (p : nat) (l : list (list double)) : list (list double) :=
  match l with
  | [] => []
  | w :: r =>
      let f := nf (x_of s p, y_of s p) in
      (if deq f d0 then w else dupdate_cell f lf input w) :: dupdate_cells nf lf input s (S p) r
  end.
Section Train.
  Context {I : Type}.
  (** dist_func.distance(cell, weights). *)
  Variable dist : list double -> list double -> double.
  Variable weights : I -> list double.
  (** neighborhood_func(bmu, cell, iteration, total) and learning_restraint_func(iteration, total). *)
  Variable nf : nat * nat -> nat * nat -> nat -> nat -> double.
  Variable lf : nat -> nat -> double.

  (** SOMTrainer.h:57-81: one training object. *)
  Definition dtrain_one (i n : nat) (s : som (list double)) (obj : I) : outcome (som (list double)) :=
    do b <- dfind_bmu (fun c => dist c (weights obj)) s;
    let '(bx, by_, _) := b in
    Ok (mkSom (sx s) (sy s) (dupdate_cells (fun c => nf (bx, by_) c i n) (lf i n) (weights obj) s 0 (cells s))).
  (** SOMTrainer.h:55-82. *)
  Fixpoint dtrain_pass (i n : nat) (s : som (list double)) (objs : list I) : outcome (som (list double)) :=
    match objs with
    | [] => Ok s
    | o :: r => do s1 <- dtrain_one i n s o; dtrain_pass i n s1 r
    end.
  (** SOMTrainer.h:41-84 from iteration [i] on; [sample i] are the objects the sampling
      policy visits in iteration i. *)
  Fixpoint dtrain_from (sample : nat -> list I) (todo i n : nat) (s : som (list double)) : outcome (som (list double)) :=
    match todo with
    | O => Ok s
    | S k =>
        do s1 <- (if deq (lf i n) d0 then Ok s else dtrain_pass i n s (sample i));
        dtrain_from sample k (S i) n s1
    end.
  Definition dtrain (sample : nat -> list I) (n : nat) (s : som (list double)) : outcome (som (list double)) := dtrain_from sample n 0 n s.
End Train.

(** A size_t as a double. *)
Definition size_double (n : nat) : double := d2 (Z.of_nat n) 0.
(** LearningRestraintFunc.cpp:26-30, for an iteration up to the total. *)
Definition dlinear_restraint (i n : nat) : double := ddiv (dmul d1 (size_double (n - i))) (size_double n).
(** The difference of two size_t values, as a double. *)
Definition size_diff (a b : nat) : double := d2 ((Z.of_nat a - Z.of_nat b) mod 2 ^ 64) 0.
(** NeihbourhoodFunc.cpp:26-41. *)
Definition dunit_disk (radius : double) (bmu cell : nat * nat) (i n : nat) : double :=
  let r_square := dmul radius radius in
  let f := dlinear_restraint i n in
  let iter_factor := dmul f f in
  let x := size_diff (fst bmu) (fst cell) in
  let y := size_diff (snd bmu) (snd cell) in
  let dist_square := dadd (dmul x x) (dmul y y) in
  if dlt dist_square (dmul r_square iter_factor) then d1 else d0.
