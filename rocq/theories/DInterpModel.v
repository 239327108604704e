(** Model of the linear interpolation of points (MathUtils/src/lib/interpolation and
    MathUtils/src/lib/function) in double precision.

    InterpModel and FunModel describe the same code with real numbers, with splines,
    integrals and products. Here every operation rounds as the processor does; the
    program is taken to be compiled without contraction of a product and a sum into one
    operation. Warnings are not modelled. *)
From Coq Require Import ZArith List Arith Bool.
From Verif Require Import Common CumulModel FloatModel.
Import ListNotations.

(** std::numeric_limits<double>::lowest() and max() (linear.cpp:44-45). *)
Definition dlowest : double := d2 (- (2 ^ 53 - 1)) 971.
Definition dhighest : double := d2 (2 ^ 53 - 1) 971.

(** Polynomial.cpp:42-45: the loop over the coefficients. *)
Fixpoint dpoly_loop (result xpow : double) (coefs : list double) (x : double) : double :=
  match coefs with
  | [] => result
  | coef :: r => dpoly_loop (dadd result (dmul coef xpow)) (dmul xpow x) r x
  end.
(** Polynomial.cpp:39-47. *)
Definition dpoly (coefs : list double) (x : double) : double := dpoly_loop d0 d1 coefs x.

(** The functions returned by the interpolation: interpolation.cpp:50, and Piecewise
    (Piecewise.h) with the coefficients of its polynomials. *)
Inductive dfunc : Type :=
  | DConst (c : double)
  | DPiece (knots : list double) (functions : list (list double)).

(** Piecewise.cpp:55-60. *)
Fixpoint dgrowing (knots : list double) : bool :=
  match knots with
  | a :: ((b :: _) as r) => negb (dlt b a) && dgrowing r
  | _ => true
  end.
(** Piecewise.cpp:50-61. *)
Definition dnew_piecewise (knots : list double) (functions : list (list double)) : outcome dfunc :=
  if Nat.eqb (length knots) (S (length functions)) then
    if dgrowing knots then Ok (DPiece knots functions) else Throw
  else Throw.

(** Piecewise.cpp:71-85. std::lower_bound on sorted knots is the number of knots
    below x; with a NaN for x no knot is below it. The position before the first
    function is outside of the array. *)
Definition dpiecewise (knots : list double) (functions : list (list double)) (x : double) : outcome double :=
  match knots with
  | [] => UB
  | k0 :: _ =>
      if dlt x k0 then Ok d0
      else if deq x k0 then do f <- of_option (nth_error functions 0); Ok (dpoly f x)
      else
        match count_while (fun k => dlt k x) knots with
        | O => UB
        | S i => if Nat.eqb (S i) (length knots) then Ok d0 else do f <- of_option (nth_error functions i); Ok (dpoly f x)
        end
  end.
(** Function::operator() (FunctionAdapter.cpp:33-35 with the lambda of
    interpolation.cpp:50, Piecewise.cpp:71-85). *)
Definition deval (f : dfunc) (x : double) : outcome double :=
  match f with
  | DConst c => Ok c
  | DPiece knots functions => dpiecewise knots functions x
  end.

(** linear.cpp:36-40. *)
Fixpoint dlinear_pieces (xs ys : list double) : list (list double) :=
  match xs, ys with
  | x0 :: ((x1 :: _) as xs'), y0 :: ((y1 :: _) as ys') =>
      let coef1 := ddiv (dsub y1 y0) (dsub x1 x0) in
      [dsub y0 (dmul coef1 x0); coef1] :: dlinear_pieces xs' ys'
  | _, _ => []
  end.
(** linear.cpp:43-45. *)
Definition dreplace_ends (xs : list double) : list double :=
  match xs with
  | [] => []
  | [_] => [dhighest]
  | _ :: r => dlowest :: removelast r ++ [dhighest]
  end.
(** linear.cpp:34-50. *)
Definition dlinear (xs ys : list double) (extrapolate : bool) : outcome dfunc :=
  dnew_piecewise (if extrapolate then dreplace_ends xs else xs) (dlinear_pieces xs ys).

(** interpolation.cpp:63-76: the points after (px, py) without those equal to the one
    before. *)
Fixpoint dclean_from (px py : double) (xs ys : list double) : outcome (list double * list double) :=
  match xs, ys with
  | x :: xs', y :: ys' =>
      if deq x px && deq y py then dclean_from x y xs' ys'
      else if dlt x px then Throw
      else do r <- dclean_from x y xs' ys'; Ok (x :: fst r, y :: snd r)
  | _, _ => Ok ([], [])
  end.
(** interpolation.cpp:40-85 with InterpolationType::LINEAR. *)
Definition dinterpolate (xs ys : list double) (extrapolate : bool) : outcome dfunc :=
  if negb (Nat.eqb (length xs) (length ys)) then Throw
  else if Nat.eqb (length xs) 1 && extrapolate then do c <- of_option (nth_error ys 0); Ok (DConst c)
  else
    match xs, ys with
    | x0 :: xs', y0 :: ys' => do r <- dclean_from x0 y0 xs' ys'; dlinear (x0 :: fst r) (y0 :: snd r) extrapolate
    | _, _ => UB
    end.

(** interpolation.cpp:121-130. *)
Definition dsegment (x x0 y0 x1 y1 : double) : double :=
  if deq x1 x0 then ddiv (dadd x1 y1) dtwo
  else
    let coef1 := ddiv (dsub y1 y0) (dsub x1 x0) in
    let coef0 := dsub y0 (dmul coef1 x0) in
    dadd coef0 (dmul coef1 x).
(** interpolation.cpp:121-130 at position i. *)
Definition dsegment_at (x : double) (xp yp : list double) (i : nat) : outcome double :=
  do x1 <- of_option (nth_error xp i); do x0 <- of_option (nth_error xp (i - 1));
  do y1 <- of_option (nth_error yp i); do y0 <- of_option (nth_error yp (i - 1));
  Ok (dsegment x x0 y0 x1 y1).
(** interpolation.cpp:99-131. std::upper_bound on sorted knots is the number of knots
    that x is not below. *)
Definition dsimple_interpolation (x : double) (xp yp : list double) (extrapolate : bool) : outcome double :=
  match xp with
  | [] => Throw
  | front :: _ =>
      if negb (Nat.eqb (length xp) (length yp)) then Throw
      else if Nat.eqb (length xp) 1 then
        (if extrapolate || deq front x then of_option (nth_error yp 0) else Ok d0)
      else
        let i := count_while (fun k => negb (dlt x k)) xp in
        if Nat.eqb i 0 && negb extrapolate && dlt x front then Ok d0
        else
          let i := if Nat.eqb i 0 then 1%nat else i in
          if Nat.eqb i (length xp) && negb extrapolate && dlt (last xp front) x then Ok d0
          else dsegment_at x xp yp (if Nat.eqb i (length xp) then (i - 1)%nat else i)
  end.
