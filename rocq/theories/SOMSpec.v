(** Vocabulary of the statements about self-organizing maps. *)
From Coq Require Import List Arith ZArith QArith Bool.
From Coq Require Import String.
From Verif Require Import Common DblModel GridModel SOMModel.
Import ListNotations.
Local Open Scope nat_scope.

(** A map of at least one cell that holds all its cells. *)
Definition well_formed {W} (s : som W) : Prop :=
  0 < sx s /\ 0 < sy s /\ List.length (cells s) = sx s * sy s.
(** The cell of coordinates (x, y), if there is one. *)
Definition cell_at {W} (s : som W) (x y : nat) : option W :=
  if (x <? sx s) && (y <? sy s) then nth_error (cells s) (x + y * sx s) else None.
(** Iteration order: line by line. *)
Definition before (p q : nat * nat) : Prop := snd p < snd q \/ (snd p = snd q /\ fst p < fst q).

Definition unit_factor (q : Q) : Prop := (0 <= q /\ q <= 1)%Q.
(** All the arrays of the map have [nd] components. *)
Definition dimension {W} (nd : nat) (s : som (list W)) : Prop := Forall (fun w => List.length w = nd) (cells s).
(** The [k]-th component of an array. *)
Definition comp (k : nat) (w : list Q) : Q := nth k w 0%Q.
Definition within (lo hi q : Q) : Prop := (lo <= q /\ q <= hi)%Q.

(** Does the input fall on the cell (x, y)? *)
Definition lands {W I} (dmax : Q) (dist : W -> I -> dbl) (s : som W) (x y : nat) (i : I) : bool :=
  match find_bmu dmax (fun c => dist c i) s with
  | Ok (a, b, _) => (a =? x) && (b =? y)
  | _ => false
  end.

(** (x', y') is one of the eight cells around (x, y) and belongs to the map. *)
Definition adjacent {W} (s : som W) (x y x' y' : nat) : Prop :=
  x' < sx s /\ y' < sy s /\ x' <= S x /\ x <= S x' /\ y' <= S y /\ y <= S y' /\ (x', y') <> (x, y).
(** [v] is the least, the greatest, or the mean of the values of [l]. *)
Definition aggregates (t : utype) (v : Q) (l : list Q) : Prop :=
  match t with
  | UMin => (exists d, In d l /\ d == v)%Q /\ forall d, In d l -> (v <= d)%Q
  | UMax => (exists d, In d l /\ d == v)%Q /\ forall d, In d l -> (d <= v)%Q
  | UMean => (v * inject_Z (Z.of_nat (List.length l)) == fold_right Qplus 0 l)%Q
  end.

(** Values a draw may take. *)
Definition fair (draw : nat -> nat -> nat) : Prop := forall k m, draw k m <= m.
(** Assumption on std::exp used by the neighbourhood functions. *)
Definition exp_like (exp : Q -> Q) : Prop :=
  (forall x, x <= 0 -> 0 < exp x /\ exp x <= 1)%Q /\ (forall x y, x == y -> exp x == exp y)%Q
  /\ (forall x y, x <= y -> exp x <= exp y)%Q.
Definition dist2 (p q : nat * nat) : Z :=
  ((Z.of_nat (fst p) - Z.of_nat (fst q)) * (Z.of_nat (fst p) - Z.of_nat (fst q))
   + (Z.of_nat (snd p) - Z.of_nat (snd q)) * (Z.of_nat (snd p) - Z.of_nat (snd q)))%Z.

(** ImplTools.cpp:31-37: the axes of the grid of a map. *)
Definition index_axis (name : string) (n : nat) : axis nat := mkAxis name (seq 0 n).
