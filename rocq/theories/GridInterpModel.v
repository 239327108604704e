(** Model of the interpolation on a grid (MathUtils/interpolation/GridInterpolation.h,
    MathUtils/interpolation/_impl/GridInterpolation.icpp).

    Doubles are real numbers; the values of a discrete axis (integers, enumerators)
    are integers. The values array is given by its shape and by its elements as a
    function of their coordinates (NdModel.v models the array itself). *)
From Coq Require Import Reals List Arith Bool ZArith.
From Verif Require Import Common CumulModel FunModel InterpModel.
Import ListNotations.
Local Open Scope R_scope.

(** The knots of an axis; the type of its values selects InterpolationImpl
    (GridInterpolation.icpp:17-18, 60-61). *)
Inductive axis : Type := Cont (knots : list R) | Disc (knots : list Z).
(** An argument of the call operator. *)
Inductive coord : Type := Num (x : R) | Key (k : Z).

(** InterpN for one axis (GridInterpolation.icpp:125-128) and for more (192-195). *)
Inductive interp : Type :=
| Leaf (knots : axis) (values : list R) (extrapolate : bool)
| Node (knots : axis) (interpolators : list interp) (extrapolate : bool).

(** m_knots.size() *)
Definition axis_size (a : axis) : nat := match a with Cont ks => length ks | Disc ks => length ks end.
(** checkOrder, GridInterpolation.icpp:50-54, 78-80. *)
Definition in_order (a : axis) : bool := match a with Cont ks => increasing ks | Disc _ => true end.

(** for (i = 0; i < n; ++i) v[i] = build(i) *)
Fixpoint build_all {T} (build : nat -> outcome T) (i n : nat) : outcome (list T) :=
  match n with
  | O => Ok []
  | S n' => do t <- build i; do ts <- build_all build (S i) n'; Ok (t :: ts)
  end.

(** The constructors: GridInterpolation.icpp:97-106 (last axis) and 147-167.
    values.rslice(i) fixes the last coordinate of the array. An empty list of axes
    is no instance of the class. *)
Fixpoint build (grid : list axis) (shape : list nat) (values : list nat -> R) (extrapolate : bool) : outcome interp :=
  match grid with
  | [] => UB
  | a :: rest =>
      match rest with
      | [] =>
          match shape with
          | [n] => if negb (Nat.eqb (axis_size a) n) then Throw else Ok (Leaf a (map (fun j => values [j]) (seq 0 n)) extrapolate)
          | _ => Throw
          end
      | _ =>
          if negb (Nat.eqb (length shape) (length grid)) then Throw
          else if negb (in_order a) then Throw
          else if negb (Nat.eqb (axis_size a) (last shape 0%nat)) then Throw
          else
            do subs <- build_all (fun i => build rest (removelast shape) (fun c => values (c ++ [i])) extrapolate) 0 (axis_size a);
            Ok (Node a subs extrapolate)
      end
  end.

(** std::find *)
Fixpoint find_key (ks : list Z) (k : Z) (i : nat) : option nat :=
  match ks with
  | [] => None
  | a :: r => if Z.eqb a k then Some i else find_key r k (S i)
  end.

(** GridInterpolation.icpp:19-21 and 62-67. std::find of an absent value gives
    knots.size() and knots[knots.size()] is not an element. A coordinate of the
    other kind is excluded by the types. *)
Definition leaf_value (c : coord) (a : axis) (values : list R) (extrapolate : bool) : outcome R :=
  match c, a with
  | Num x, Cont ks => simple_interpolation x ks values extrapolate
  | Key k, Disc ks => do i <- of_option (find_key ks k 0); of_option (nth_error values i)
  | _, _ => UB
  end.

(** GridInterpolation.icpp:36-42. *)
Definition upper_index (ks : list R) (x : R) : nat :=
  let i := lower_bound ks x in
  if Nat.eqb i 0 then S i else if Nat.eqb i (length ks) then (i - 1)%nat else i.

(** The call operators: GridInterpolation.icpp:115-117 and 180-182 with 23-48 and 69-76. *)
Fixpoint call (t : interp) (args : list coord) {struct args} : outcome R :=
  match args with
  | [] => UB
  | c :: rest =>
      match t with
      | Leaf a values extrapolate => match rest with [] => leaf_value c a values extrapolate | _ => UB end
      | Node a subs extrapolate =>
          match c, a with
          | Num x, Cont ks =>
              match ks with
              | [] => UB
              | first :: _ =>
                  if (rlt x first || rlt (last ks first) x) && negb extrapolate then Ok 0
                  else if Nat.eqb (length ks) 1 then do s <- of_option (nth_error subs 0); call s rest
                  else
                    let x2i := upper_index ks x in
                    let x1i := (x2i - 1)%nat in
                    do s1 <- of_option (nth_error subs x1i); do y1 <- call s1 rest;
                    do s2 <- of_option (nth_error subs x2i); do y2 <- call s2 rest;
                    do k1 <- of_option (nth_error ks x1i); do k2 <- of_option (nth_error ks x2i);
                    simple_interpolation x [k1; k2] [y1; y2] extrapolate
              end
          | Key k, Disc ks => do i <- of_option (find_key ks k 0); do s <- of_option (nth_error subs i); call s rest
          | _, _ => UB
          end
      end
  end.
