(** Model of the multidimensional sampler (MathUtils/PDF/_impl/NdSampler.icpp and
    NdSamplerFromGrid.h).

    Doubles are real numbers. The array of the density is given by its shape and by
    its elements as a function of their coordinates (NdArrayModel.v models the array
    itself). The random numbers of the uniform distribution are a list of numbers
    in the order in which they are drawn; an engine never ends, so a list that is too
    short is no run of the program (UB here). *)
From Coq Require Import Reals List Arith Bool ZArith.
From Verif Require Import Common CumulModel FunModel InterpModel GridInterpModel InvCumulModel.
Import ListNotations.
Local Open Scope R_scope.

(** ** The marginal *)

(** NdArray/_impl/Operations.icpp:57-60 *)
Fixpoint sum_loop (f : nat -> R) (i todo : nat) (acc : R) : R :=
  match todo with
  | O => acc
  | S n => sum_loop f (S i) n (acc + f i)
  end.
(** NdArray/_impl/Operations.icpp:99-108: the knots from ki - 1 on. *)
Fixpoint trapz_sum (f : nat -> R) (ks : list R) (i : nat) (acc : R) : R :=
  match ks with
  | k0 :: ((k1 :: _) as ks') => trapz_sum f ks' (S i) (acc + (f i + f (S i)) * (k1 - k0) / 2)
  | _ => acc
  end.
(** NdSampler.icpp:18-41: TrapzHelper, for one element of the result. [f i] is the
    element at position i of the last axis. The size of the axis is that of the
    knots, which InterpN has checked (NdSampler.icpp:141). *)
Definition integral (a : axis) (f : nat -> R) : R :=
  match a with
  | Cont [_] => sum_loop f 0 1 0
  | Cont ks => trapz_sum f ks 0 0
  | Disc ks => sum_loop f 0 (length ks) 0
  end.
(** NdSampler.icpp:148: the values at the coordinates of the other axes. *)
Definition marginal (a : axis) (values : list nat -> R) : list nat -> R := fun c => integral a (fun i => values (c ++ [i])).

(** ** The inverse cumulative of either kind *)

Inductive inv_cumulative : Type :=
| Smooth (t : inverse)
| Steps (knots : list Z) (sums : list R).

(** InverseCumulative.icpp:137-139 *)
Fixpoint partial_sums (total : R) (l : list R) : list R :=
  match l with
  | [] => []
  | p :: r => (total + p) :: partial_sums (total + p) r
  end.
(** InverseCumulative.icpp:34-57 and 135-143. The division by the last sum (140-142)
    is done by [below]. *)
Definition new_inv (a : axis) (pdf : list R) : outcome inv_cumulative :=
  match a with
  | Cont ks => do t <- new_inverse ks pdf; Ok (Smooth t)
  | Disc ks => Ok (Steps ks (partial_sums 0 pdf))
  end.
(** v / total < p, where 0 / 0 is not a number, which is below nothing, and the
    quotient of another number by zero is an infinity of its sign. *)
Definition below (total p v : R) : bool := if req total 0 then rlt v 0 else rlt (v / total) p.
(** InverseCumulative.icpp:59-121 and 145-151. lower_bound counts the elements
    before the first that is not below p. *)
Definition find_inv (t : inv_cumulative) (p : R) : outcome coord :=
  match t with
  | Smooth t => do x <- find_inverse t p; Ok (Num x)
  | Steps ks sums =>
      if rlt p 0 || rlt 1 p then Throw
      else do k <- of_option (nth_error ks (count_while (below (last sums 0) p) sums)); Ok (Key k)
  end.

(** ** The sampler *)

Inductive sampler : Type :=
| Single (t : inv_cumulative)
| Nested (knots0 : axis) (interpolation : interp) (subsampler : sampler).

(** The coordinates of an array in the order of its iterator. *)
Fixpoint in_order_of (shape : list nat) : list (list nat) :=
  match shape with
  | [] => [[]]
  | n :: r => flat_map (fun i => map (cons i) (in_order_of r)) (seq 0 n)
  end.

(** The constructors: NdSampler.icpp:54-62 (one axis: the inverse cumulative is built
    before the number of axes is checked) and 133-153. *)
Fixpoint new_sampler (grid : list axis) (shape : list nat) (values : list nat -> R) : outcome sampler :=
  match grid with
  | [] => UB
  | a :: rest =>
      match rest with
      | [] =>
          do t <- new_inv a (map values (in_order_of shape));
          if negb (Nat.eqb (length shape) 1) then Throw else Ok (Single t)
      | _ =>
          if negb (Nat.eqb (length shape) (length grid)) then Throw
          else
            do t <- build grid shape values false;
            do s <- new_sampler rest (removelast shape) (marginal a values);
            Ok (Nested a t s)
      end
  end.

(** uniform(rng) *)
Definition next (rng : list R) : outcome (R * list R) := match rng with [] => UB | p :: r => Ok (p, r) end.

(** NdSampler.icpp:77-80, for [n] rows. *)
Fixpoint draw_single (t : inv_cumulative) (n : nat) (rng : list R) : outcome (list (list coord) * list R) :=
  match n with
  | O => Ok ([], rng)
  | S n' =>
      do u <- next rng;
      do x <- find_inv t (fst u);
      do r <- draw_single t n' (snd u);
      Ok ([x] :: fst r, snd r)
  end.

(** m_knots0[0], m_knots0[1], ... *)
Definition knot_coords (a : axis) : list coord := match a with Cont ks => map Num ks | Disc ks => map Key ks end.
(** NdSampler.icpp:196-198 *)
Fixpoint eval_pdf (t : interp) (knots : list coord) (row : list coord) : outcome (list R) :=
  match knots with
  | [] => Ok []
  | k :: r => do v <- call t (k :: row); do vs <- eval_pdf t r row; Ok (v :: vs)
  end.
(** NdSampler.icpp:192-203. The row of the output gets its first element. *)
Fixpoint draw_nested (a : axis) (t : interp) (rows : list (list coord)) (rng : list R) : outcome (list (list coord) * list R) :=
  match rows with
  | [] => Ok ([], rng)
  | row :: rows' =>
      do pdf <- eval_pdf t (knot_coords a) row;
      do u <- next rng;
      do c <- new_inv a pdf;
      do x <- find_inv c (fst u);
      do r <- draw_nested a t rows' (snd u);
      Ok ((x :: row) :: fst r, snd r)
  end.

(** NdSampler.icpp:64-88 and 163-204: the rows, and the random numbers that are left.
    The output has [n] rows, so the sizes checked in 69-72 and 180-183 are equal. *)
Fixpoint draw (s : sampler) (n : nat) (rng : list R) : outcome (list (list coord) * list R) :=
  match s with
  | Single t => draw_single t n rng
  | Nested a t sub => do r <- draw sub n rng; draw_nested a t (fst r) (snd r)
  end.
(** The overloads with an output of [size] rows: NdSampler.icpp:69-72 and 180-183. *)
Definition draw_into (s : sampler) (n : nat) (rng : list R) (size : nat) : outcome (list (list coord) * list R) :=
  if negb (Nat.eqb size n) then Throw else draw s n rng.

(** ** Samplers of a grid *)

(** The position of an element in an array of the shape (row major). *)
Definition offset (shape c : list nat) : nat := fold_left (fun o p => (o * fst p + snd p)%nat) (combine shape c) 0%nat.
(** NdSamplerFromGrid.h:56-61: the cells in the order of the iterator of the grid
    become the elements of an array whose shape lists the axes in reverse. *)
Definition sampler_from_grid (axes : list axis) (cells : list R) : outcome sampler :=
  let shape := rev (map axis_size axes) in
  if negb (Nat.eqb (fold_right Nat.mul 1%nat shape) (length cells)) then Throw
  else new_sampler axes shape (fun c => nth (offset shape c) cells 0).
(** NdSamplerFromGrid.h:83-104: the cell is one more axis. Line 96 asserts the size of
    the cells: UB. *)
Definition sampler_from_cells (cell_axis : axis) (axes : list axis) (cells : list (list R)) : outcome sampler :=
  if forallb (fun cell => Nat.eqb (length cell) (axis_size cell_axis)) cells then
    let shape := rev (map axis_size axes) ++ [axis_size cell_axis] in
    new_sampler (cell_axis :: axes) shape (fun c => nth (offset shape c) (concat cells) 0)
  else UB.
(** NdSamplerFromGrid.h:116-121: the positions within the cells are the knots. *)
Definition sampler_from_counts (axes : list axis) (cells : list (list R)) : outcome sampler :=
  match cells with
  | [] => UB
  | cell :: _ => sampler_from_cells (Disc (map Z.of_nat (seq 0 (length cell)))) axes cells
  end.
