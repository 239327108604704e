(** Vocabulary of the interpolation on a grid in double precision. The exact value is GridInterpSpec.grid_value
    for the real numbers that the doubles are. *)
From Coq Require Import ZArith Reals List Arith.
From Flocq Require Import Core IEEE754.BinarySingleNaN.
From Verif Require Import Common FloatModel DInterpSpec GridInterpModel DGridModel.
Import ListNotations.
Local Open Scope R_scope.

(** An axis has knots; those of a continuous axis are finite and in ascending order. *)
Definition good_axis (a : daxis) : Prop :=
  match a with DCont ks => ks <> [] /\ ascending ks /\ Forall (fun x => is_finite x = true) ks | DDisc ks => ks <> [] end.
(** A finite number for a continuous axis, one of its values for a discrete one. *)
Definition fits (a : daxis) (c : dcoord) : Prop :=
  match a, c with DCont _, DNum x => is_finite x = true | DDisc ks, DKey k => In k ks | _, _ => False end.
(** Not outside of the knots of a continuous axis. *)
Definition inside (a : daxis) (c : dcoord) : Prop := match a, c with DCont ks, DNum x => in_range ks x | _, _ => True end.
Definition outside (a : daxis) (c : dcoord) : Prop := match a, c with DCont ks, DNum x => out_of_range ks x | _, _ => False end.
(** The coordinates of the array: the first axis of the grid runs along the last one. *)
Definition is_index (grid : list daxis) (c : list nat) : Prop := Forall2 (fun a i => (i < daxis_size a)%nat) grid (rev c).

(** The same axes and coordinates with real numbers. *)
Definition real_axis (a : daxis) : axis := match a with DCont ks => Cont (map (fun x : double => B2R x) ks) | DDisc ks => Disc ks end.
Definition real_coord (c : dcoord) : coord := match c with DNum x => Num (B2R x) | DKey k => Key k end.

(** The knots of a continuous axis are at most X in size, and neighbours are at least X / kappa apart. *)
Definition scaled (a : daxis) (s : R * R) : Prop :=
  0 <= fst s /\ 0 <= snd s /\
  match a with
  | DCont ks => (forall i x0, nth_error ks i = Some x0 -> Rabs (B2R x0) <= snd s) /\
      (forall i x0 x1, nth_error ks i = Some x0 -> nth_error ks (S i) = Some x1 -> snd s <= fst s * (B2R x1 - B2R x0) /\ B2R x1 - B2R x0 < bpow radix2 1023)
  | DDisc _ => True
  end.
(** What rounding may add up to, for values that are at most M in size: every continuous axis adds a few units in
    the last place of (1 + 4 kappa) M. *)
Fixpoint budget (grid : list daxis) (scales : list (R * R)) (M : R) : R :=
  match grid, scales with
  | DCont _ :: g, (kappa, X) :: s =>
      let E := budget g s M in
      E + 9 * bpow radix2 (-53) * (1 + 4 * kappa) * (M + E) + 3 * bpow radix2 (-1075) * (2 * X + 1)
  | DDisc _ :: g, _ :: s => budget g s M
  | _, _ => 0
  end.
(** Knots of a usual size, not too close to each other. *)
Definition usual (a : daxis) : Prop :=
  match a with
  | DCont ks => (forall i x0, nth_error ks i = Some x0 -> Rabs (B2R x0) <= bpow radix2 100) /\
      (forall i x0 x1, nth_error ks i = Some x0 -> nth_error ks (S i) = Some x1 -> bpow radix2 (-400) <= B2R x1 - B2R x0)
  | DDisc _ => True
  end.
