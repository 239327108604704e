(** Model of the functions of one variable: polynomials, piecewise functions,
    adapters and products (MathUtils/src/lib/function, MathUtils/MathUtils/function).

    Doubles are real numbers: no rounding, no infinities, no NaN. Functions are
    values here; clone() and the smart pointers holding them are not modelled,
    nor the caching of derivatives and integrals. *)
From Coq Require Import Reals List Arith Bool.
From Verif Require Import Common CumulModel.
Import ListNotations.
Local Open Scope R_scope.

Definition rlt (a b : R) : bool := if Rlt_dec a b then true else false.
Definition rle (a b : R) : bool := if Rle_dec a b then true else false.
Definition req (a b : R) : bool := if Req_EM_T a b then true else false.

(** The classes of functions: Polynomial, Piecewise, FunctionAdapter (and any
    other class, known by its values only), and the product of
    function_tools.cpp:48-61. *)
Inductive func : Type :=
| Poly (coef : list R)
| Piece (knots : list R) (functions : list func)
| Other (f : R -> R)
| Times (f1 f2 : func).

(** Polynomial.cpp:39-47. *)
Fixpoint poly_loop (coef : list R) (x result xpow : R) : R :=
  match coef with
  | [] => result
  | c :: r => poly_loop r x (result + c * xpow) (xpow * x)
  end.
Definition poly_eval (coef : list R) (x : R) : R := poly_loop coef x 0 1.
(** Polynomial.cpp:56-58: the coefficients from position [i] on. *)
Fixpoint deriv_from (i : nat) (coef : list R) : list R :=
  match coef with
  | [] => []
  | c :: r => INR i * c :: deriv_from (S i) r
  end.
(** Polynomial.cpp:53-62. *)
Definition poly_derivative (coef : list R) : list R := match coef with [] => [] | _ :: r => deriv_from 1 r end.
(** Polynomial.cpp:68-70. *)
Fixpoint integ_from (i : nat) (coef : list R) : list R :=
  match coef with
  | [] => []
  | c :: r => c / INR (i + 1) :: integ_from (S i) r
  end.
(** Polynomial.cpp:64-74. *)
Definition poly_integral (coef : list R) : list R := 0 :: integ_from 0 coef.

(** Piecewise.cpp:42-47 and 55-60: no knot is below the one before. *)
Fixpoint increasing (knots : list R) : bool :=
  match knots with
  | a :: ((b :: _) as r) => if rlt b a then false else increasing r
  | _ => true
  end.
(** Piecewise.cpp:33-48 and 50-61. *)
Definition new_piecewise (knots : list R) (functions : list func) : outcome func :=
  if Nat.eqb (length knots) (S (length functions)) then
    if increasing knots then Ok (Piece knots functions) else Throw
  else Throw.

(** std::lower_bound and std::upper_bound on sorted knots: the position of the
    first knot not below, or above, x. *)
Definition lower_bound (knots : list R) (x : R) : nat := count_while (fun k => rlt k x) knots.
Definition upper_bound (knots : list R) (x : R) : nat := count_while (fun k => rle k x) knots.

(** Piecewise.cpp:71-84: the position of the function to evaluate, None for the value 0. *)
Definition piece_index (knots : list R) (x : R) : outcome (option nat) :=
  match knots with
  | [] => UB
  | k0 :: _ =>
      if rlt x k0 then Ok None
      else if req x k0 then Ok (Some 0%nat)
      else
        let i := lower_bound knots x in
        if Nat.eqb i (length knots) then Ok None else Ok (Some (i - 1)%nat)
  end.

(** Polynomial.cpp:39-47, Piecewise.cpp:71-85, FunctionAdapter.cpp:33-35,
    function_tools.cpp:51-53. *)
Fixpoint eval (f : func) (x : R) {struct f} : outcome R :=
  match f with
  | Poly coef => Ok (poly_eval coef x)
  | Piece knots functions =>
      do i <- piece_index knots x;
      match i with
      | None => Ok 0
      | Some i =>
          (fix pick (l : list func) (i : nat) {struct l} : outcome R :=
             match l, i with
             | [], _ => UB
             | g :: _, O => eval g x
             | _ :: r, S k => pick r k
             end) functions i
      end
  | Other h => Ok (h x)
  | Times f1 f2 => do a <- eval f1 x; do b <- eval f2 x; Ok (a * b)
  end.

(** Differentiable.cpp:30-33 for polynomials, Piecewise.cpp:96-127, and
    function_tools.cpp:33-46 without a numerical scheme (the default argument). *)
Fixpoint integrate (f : func) (x1 x2 : R) {struct f} : outcome R :=
  match f with
  | Poly coef => Ok (poly_eval (poly_integral coef) x2 - poly_eval (poly_integral coef) x1)
  | Piece knots functions =>
      if req x1 x2 then Ok 0
      else
        let turned := rlt x2 x1 in
        let min := if turned then x2 else x1 in
        let max := if turned then x1 else x2 in
        let start := (upper_bound knots min - 1)%nat in
        do result <-
          (* Piecewise.cpp:114-125; [skip]: the pieces before the start *)
          (fix go (fs : list func) (ks : list R) (skip : nat) (result : R) {struct fs} : outcome R :=
             match fs, ks, skip with
             | _ :: fs', _ :: ks', S skip' => go fs' ks' skip' result
             | g :: fs', prev :: ((next :: _) as ks'), O =>
                 if rle max prev then Ok result
                 else if rlt min next then
                   do v <- integrate g (if rlt prev min then min else prev) (if rlt max next then max else next);
                   go fs' ks' O (result + v)
                 else go fs' ks' O result
             | _, _, _ => Ok result
             end) functions knots start 0;
        Ok ((if turned then -1 else 1) * result)
  | Other _ => Throw
  | Times _ _ => Throw
  end.

(** multiplication.cpp:46: resultCoef[k] += v. *)
Fixpoint add_to (l : list R) (k : nat) (v : R) : outcome (list R) :=
  match l, k with
  | [], _ => UB
  | a :: r, O => Ok (a + v :: r)
  | a :: r, S k' => do t <- add_to r k' v; Ok (a :: t)
  end.
(** multiplication.cpp:45-46: the inner loop from position [j]. *)
Fixpoint mult_row (c : R) (c2 : list R) (i j : nat) (result : list R) : outcome (list R) :=
  match c2 with
  | [] => Ok result
  | d :: r => do t <- add_to result (i + j) (c * d); mult_row c r i (S j) t
  end.
(** multiplication.cpp:44-46: the outer loop from position [i]. *)
Fixpoint mult_rows (c1 c2 : list R) (i : nat) (result : list R) : outcome (list R) :=
  match c1 with
  | [] => Ok result
  | c :: r => do t <- mult_row c c2 i 0 result; mult_rows r c2 (S i) t
  end.
(** multiplication.cpp:38-48. For two empty polynomials the size is that of a
    wrapped 0 - 1, which no vector has: std::length_error. *)
Definition multiply_polynomials (c1 c2 : list R) : outcome func :=
  match c1, c2 with
  | [], [] => Throw
  | _, _ => do r <- mult_rows c1 c2 0 (repeat 0 (length c1 + length c2 - 1)); Ok (Poly r)
  end.

(** multiplication.cpp:63-79: until the ranges overlap. The lists are what the
    iterators have left; reading the element after the last one is undefined. *)
Fixpoint overlap_start (fuel : nat) (k1 k2 : list R) : outcome (list R * list R) :=
  match fuel with
  | O => Diverge
  | S fuel' =>
      match k1, k2 with
      | a :: r1, b :: r2 =>
          if rlt a b then
            match r1 with
            | [] => UB
            | a' :: _ => if rlt b a' then Ok (r1, k2) else overlap_start fuel' r1 k2
            end
          else
            match r2 with
            | [] => UB
            | b' :: _ => if rlt a b' then Ok (k1, r2) else overlap_start fuel' k1 r2
            end
      | _, _ => Ok (k1, k2)
      end
  end.
(** std::set<double>::insert, the set being kept as a sorted list. *)
Fixpoint set_insert (a : R) (l : list R) : list R :=
  match l with
  | [] => [a]
  | b :: r => if rlt a b then a :: l else if req a b then l else b :: set_insert a r
  end.
(** multiplication.cpp:80-86: the knots after the start. *)
Fixpoint merge_knots (fuel : nat) (k1 k2 : list R) (knots : list R) : outcome (list R) :=
  match fuel with
  | O => Diverge
  | S fuel' =>
      match k1, k2 with
      | a :: r1, b :: r2 =>
          if rlt a b then merge_knots fuel' r1 k2 (set_insert a knots) else merge_knots fuel' k1 r2 (set_insert b knots)
      | _, _ => Ok knots
      end
  end.
(** multiplication.cpp:62-89. *)
Definition overlapping_knots (k1 k2 : list R) : outcome (list R) :=
  let n := S (length k1 + length k2) in
  do s <- overlap_start n k1 k2; merge_knots n (fst s) (snd s) [].

(** multiplication.cpp:111-113 and 114-116: [ks] are the knots from the current
    piece on, [fs] its function and the following ones. *)
Fixpoint advance (knot : R) (ks : list R) (fs : list func) {struct ks} : outcome (list R * list func) :=
  match ks with
  | _ :: ((next :: _) as ks') =>
      if rle next knot then match fs with [] => UB | _ :: fs' => advance knot ks' fs' end
      else Ok (ks, fs)
  | _ => UB
  end.
(** *p1func[i1]. *)
Definition first_function (fs : list func) : outcome func := match fs with [] => UB | f :: _ => Ok f end.

Section Pieces.
  (** multiply on the functions of the pieces. *)
  Variable mult : func -> func -> outcome func.
  (** multiplication.cpp:54-57. *)
  Fixpoint mult_each (fs : list func) (g : func) : outcome (list func) :=
    match fs with
    | [] => Ok []
    | f :: r => do h <- mult f g; do t <- mult_each r g; Ok (h :: t)
    end.
  (** multiplication.cpp:107-118. The loop stops at the last knot (108-110). *)
  Fixpoint mult_pieces (knots : list R) (last : R) (ks1 : list R) (fs1 : list func) (ks2 : list R) (fs2 : list func) : outcome (list func) :=
    match knots with
    | [] => Ok []
    | knot :: rest =>
        if req knot last then Ok []
        else
          do s1 <- advance knot ks1 fs1;
          do s2 <- advance knot ks2 fs2;
          do g1 <- first_function (snd s1);
          do g2 <- first_function (snd s2);
          do h <- mult g1 g2;
          do t <- mult_pieces rest last (fst s1) (snd s1) (fst s2) (snd s2);
          Ok (h :: t)
    end.
  (** multiplication.cpp:92-121. *)
  Definition multiply_piecewises (ks1 : list R) (fs1 : list func) (ks2 : list R) (fs2 : list func) : outcome func :=
    do knots <- overlapping_knots ks1 ks2;
    match knots with
    | [] => Ok (Poly [0])
    | k :: _ => do fs <- mult_pieces knots (last knots k) ks1 fs1 ks2 fs2; new_piecewise knots fs
    end.
End Pieces.

(** function_tools.cpp:63-86 with the maps of multiplication.cpp:123-127. [fuel]
    bounds the recursion into the pieces (FunProofs.v: the depth of the
    functions is enough). *)
Fixpoint multiply (fuel : nat) (f1 f2 : func) : outcome func :=
  match fuel with
  | O => Diverge
  | S fuel' =>
      match f1, f2 with
      | Poly c1, Poly c2 => multiply_polynomials c1 c2
      | Piece ks1 fs1, Piece ks2 fs2 => multiply_piecewises (multiply fuel') ks1 fs1 ks2 fs2
      | Piece ks fs, _ => do l <- mult_each (multiply fuel') fs f2; new_piecewise ks l
      | _, Piece ks fs => do l <- mult_each (multiply fuel') fs f1; new_piecewise ks l
      | _, _ => Ok (Times f1 f2)
      end
  end.
