(** Vocabulary of the properties of the sampler. *)
From Coq Require Import Reals List Arith ZArith.
From Verif Require Import Common CumulModel FunModel FunSpec InterpModel InterpSpec GridInterpModel GridInterpSpec InvCumulSpec.
Import ListNotations.
Local Open Scope R_scope.

(** f 0 + ... + f (n - 1) *)
Fixpoint total (f : nat -> R) (n : nat) : R := match n with O => 0 | S m => total f m + f m end.
(** The probability of an axis whose knots have the densities f 0, f 1, ...: the
    area below the polygon through the points, the sum for discrete values, the
    only value for a single knot. *)
Definition mass (a : axis) (f : nat -> R) : R :=
  match a with
  | Cont [_] => f 0%nat
  | Cont ks => area ks (map f (seq 0 (length ks))) (length ks - 1)
  | Disc ks => total f (length ks)
  end.
(** The distribution of the other axes. *)
Definition without (a : axis) (density : list nat -> R) : list nat -> R := fun c => mass a (fun i => density (c ++ [i])).

(** x is the value of the axis that a probability p selects when the knots have the
    densities f 0, f 1, ...; a continuous one up to 2e-8. *)
Definition drawn (a : axis) (f : nat -> R) (p : R) (x : coord) : Prop :=
  match a with
  | Cont [k] => x = Num k
  | Cont ks => exists r q, x = Num r /\ quantile ks (map f (seq 0 (length ks))) p q /\ Rabs (r - q) <= 2 * / 10 ^ 8 /\
      (forall k, In k ks -> q <= k -> r <= k) /\ el ks 0 - / 10 ^ 8 <= r
  | Disc ks => exists i k, x = Key k /\ nth_error ks i = Some k /\
      (i = 0%nat \/ total f i < p * total f (length ks)) /\ p * total f (length ks) <= total f (S i)
  end.

(** A row is selected by one probability per axis: the last axis from the
    distribution without the other ones, each axis before it from the interpolated
    density at the values selected so far. *)
Inductive sampled : list axis -> (list nat -> R) -> list R -> list coord -> Prop :=
| SLast a density p x : drawn a (fun i => density [i]) p x -> sampled [a] density [p] [x]
| SMore a b rest density p ps x row f :
    sampled (b :: rest) (without a density) ps row ->
    (forall i c, at_knot a i c -> grid_value false (a :: b :: rest) density (c :: row) (f i)) ->
    drawn a f p x ->
    sampled (a :: b :: rest) density (p :: ps) (x :: row).

(** The axis has knots, in ascending order or without repetition. *)
Definition good (a : axis) : Prop := proper a /\ axis_size a <> 0%nat.
(** The coordinate is a value of the axis; on a continuous axis up to 1e-8 below
    the first knot. *)
Definition near (a : axis) (c : coord) : Prop :=
  match a, c with
  | Cont ks, Num x => el ks 0 - / 10 ^ 8 <= x <= el ks (length ks - 1)
  | Disc ks, Key k => In k ks
  | _, _ => False
  end.
(** The random numbers that row j uses, in the order of the axes: the last axis gets
    the first n numbers, the axis before it the next n. *)
Definition numbers (naxes n j : nat) (rng : list R) : list R := map (fun k => nth ((naxes - 1 - k) * n + j) rng 0) (seq 0 naxes).
