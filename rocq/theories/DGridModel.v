(** Model of the interpolation on a grid (MathUtils/MathUtils/interpolation/GridInterpolation.h,
    MathUtils/MathUtils/interpolation/_impl/GridInterpolation.icpp) in double precision.

    GridInterpModel describes the same code with real numbers. Here every operation rounds as the
    processor does; the program is taken to be compiled without contraction of a product and a
    sum into one operation. Continuous axes have doubles as knots; the values of a discrete axis are
    integers. The values array is given by its shape and by its elements as a function of their coordinates. *)
From Coq Require Import ZArith List Arith Bool.
From Verif Require Import Common CumulModel FloatModel DInterpModel GridInterpModel.
Import ListNotations.

(** GridInterpolation.icpp:17-18, 60-61. *)
Inductive daxis : Type := DCont (knots : list double) | DDisc (knots : list Z).
(** An argument of the call operator. *)
Inductive dcoord : Type := DNum (x : double) | DKey (k : Z).
(** InterpN for one axis (GridInterpolation.icpp:125-128) and for more (192-195). *)
Inductive dinterp : Type :=
| DLeaf (knots : daxis) (values : list double) (extrapolate : bool)
| DNode (knots : daxis) (interpolators : list dinterp) (extrapolate : bool).

(** m_knots.size() *)
Definition daxis_size (a : daxis) : nat := match a with DCont ks => length ks | DDisc ks => length ks end.
(** std::is_sorted, GridInterpolation.icpp:51. *)
Fixpoint is_sorted (l : list double) : bool :=
  match l with
  | a :: ((b :: _) as r) => negb (dlt b a) && is_sorted r
  | _ => true
  end.
(** checkOrder, GridInterpolation.icpp:50-54, 78-80. *)
Definition din_order (a : daxis) : bool := match a with DCont ks => is_sorted ks | DDisc _ => true end.

(** The constructors: GridInterpolation.icpp:97-106 (last axis) and 147-167, as in GridInterpModel.build. *)
Fixpoint dbuild (grid : list daxis) (shape : list nat) (values : list nat -> double) (extrapolate : bool) : outcome dinterp :=
  match grid with
  | [] => UB
  | a :: rest =>
      match rest with
      | [] =>
          match shape with
          | [n] => if negb (Nat.eqb (daxis_size a) n) then Throw else Ok (DLeaf a (map (fun j => values [j]) (seq 0 n)) extrapolate)
          | _ => Throw
          end
      | _ =>
          if negb (Nat.eqb (length shape) (length grid)) then Throw
          else if negb (din_order a) then Throw
          else if negb (Nat.eqb (daxis_size a) (last shape 0%nat)) then Throw
          else
            do subs <- build_all (fun i => dbuild rest (removelast shape) (fun c => values (c ++ [i])) extrapolate) 0 (daxis_size a);
            Ok (DNode a subs extrapolate)
      end
  end.

(** GridInterpolation.icpp:19-21 and 62-67. std::find of an absent value gives
    knots.size() and knots[knots.size()] is not an element. A coordinate of the
    other kind is excluded by the types. *)
Definition dleaf_value (c : dcoord) (a : daxis) (values : list double) (extrapolate : bool) : outcome double :=
  match c, a with
  | DNum x, DCont ks => dsimple_interpolation x ks values extrapolate
  | DKey k, DDisc ks => do i <- of_option (find_key ks k 0); of_option (nth_error values i)
  | _, _ => UB
  end.
(** GridInterpolation.icpp:36-42. std::lower_bound on sorted knots is the number of knots below x. *)
Definition dupper_index (ks : list double) (x : double) : nat :=
  let i := count_while (fun k => dlt k x) ks in
  if Nat.eqb i 0 then S i else if Nat.eqb i (length ks) then (i - 1)%nat else i.

(** The call operators: GridInterpolation.icpp:115-117 and 180-182 with 23-48 and 69-76. *)
Fixpoint dcall (t : dinterp) (args : list dcoord) {struct args} : outcome double :=
  match args with
  | [] => UB
  | c :: rest =>
      match t with
      | DLeaf a values extrapolate => match rest with [] => dleaf_value c a values extrapolate | _ => UB end
      | DNode a subs extrapolate =>
          match c, a with
          | DNum x, DCont ks =>
              match ks with
              | [] => UB
              | first :: _ =>
                  if (dlt x first || dlt (last ks first) x) && negb extrapolate then Ok d0
                  else if Nat.eqb (length ks) 1 then do s <- of_option (nth_error subs 0); dcall s rest
                  else
                    let x2i := dupper_index ks x in
                    let x1i := (x2i - 1)%nat in
                    do s1 <- of_option (nth_error subs x1i); do y1 <- dcall s1 rest;
                    do s2 <- of_option (nth_error subs x2i); do y2 <- dcall s2 rest;
                    do k1 <- of_option (nth_error ks x1i); do k2 <- of_option (nth_error ks x2i);
                    dsimple_interpolation x [k1; k2] [y1; y2] extrapolate
              end
          | DKey k, DDisc ks => do i <- of_option (find_key ks k 0); do s <- of_option (nth_error subs i); dcall s rest
          | _, _ => UB
          end
      end
  end.
