(** Model of the interpolation of points (MathUtils/src/lib/interpolation) and of
    grids (MathUtils/MathUtils/interpolation/_impl/GridInterpolation.icpp).

    Doubles are real numbers. Warnings are not modelled. *)
From Coq Require Import Reals List Arith Bool.
From Verif Require Import Common CumulModel FunModel.
Import ListNotations.
Local Open Scope R_scope.

(** interpolation.cpp:63-76: the points after (px, py) without those equal to
    the one before. *)
Fixpoint clean_from (px py : R) (xs ys : list R) : outcome (list R * list R) :=
  match xs, ys with
  | x :: xs', y :: ys' =>
      if req x px && req y py then clean_from x y xs' ys'
      else if rlt x px then Throw
      else do r <- clean_from x y xs' ys'; Ok (x :: fst r, y :: snd r)
  | _, _ => Ok ([], [])
  end.

Section Interpolation.
  (** std::numeric_limits<double>::lowest() and max(). *)
  Variables lowest highest : R.
  (** The coefficients for two points with the same abscissa: in the program they
      are infinite or not a number. *)
  Variable junk : list R.

  (** linear.cpp:37-39. *)
  Definition linear_piece (x0 y0 x1 y1 : R) : func :=
    if req x1 x0 then Poly junk
    else let coef1 := (y1 - y0) / (x1 - x0) in Poly [y0 - coef1 * x0; coef1].
  (** linear.cpp:36-40. *)
  Fixpoint linear_pieces (xs ys : list R) : list func :=
    match xs, ys with
    | x0 :: ((x1 :: _) as xs'), y0 :: ((y1 :: _) as ys') => linear_piece x0 y0 x1 y1 :: linear_pieces xs' ys'
    | _, _ => []
    end.
  (** linear.cpp:43-45, spline.cpp:88-90. *)
  Definition replace_ends (xs : list R) : list R :=
    match xs with
    | [] => []
    | [_] => [highest]
    | _ :: r => lowest :: removelast r ++ [highest]
    end.
  (** linear.cpp:34-50. *)
  Definition linear_interpolation (xs ys : list R) (extrapolate : bool) : outcome func :=
    new_piecewise (if extrapolate then replace_ends xs else xs) (linear_pieces xs ys).

  Section Spline.
    (** x[i] and y[i]. The arrays of the function are functions of the index.
        Divisions by zero (points with the same abscissa) have no meaning here. *)
    Variables x y : nat -> R.
    (** spline.cpp:41-42. *)
    Definition sh (i : nat) : R := x (S i) - x i.
    (** spline.cpp:47. *)
    Definition sg (i : nat) (mu : R) : R := 2 * (x (S (S i)) - x i) - sh i * mu.
    (** spline.cpp:44-51: mu[i] and z[i]; [i] is the position before the current one. *)
    Fixpoint muz (i : nat) : R * R :=
      match i with
      | O => (0, 0)
      | S i =>
          let (mu, z) := muz i in
          let g := sg i mu in
          (sh (S i) / g,
           (3 * (y (S (S i)) * sh i - y (S i) * (x (S (S i)) - x i) + y i * sh (S i)) / (sh i * sh (S i)) - sh i * z) / g)
      end.
    (** spline.cpp:60, 62, 64: c[j] with [m] = n - j. *)
    Fixpoint c_down (n m : nat) : R :=
      match m with
      | O => 0
      | S m' => let j := (n - m)%nat in snd (muz j) - fst (muz j) * c_down n m'
      end.
    Definition sc (n j : nat) : R := c_down n (n - j).
    (** spline.cpp:65. *)
    Definition sb (n j : nat) : R := (y (S j) - y j) / sh j - sh j * (sc n (S j) + 2 * sc n j) / 3.
    (** spline.cpp:66. *)
    Definition sd (n j : nat) : R := (sc n (S j) - sc n j) / (3 * sh j).
    (** spline.cpp:63 and 71-79, 84. *)
    Definition spline_piece (n i : nat) : func :=
      let a := y i in let b := sb n i in let c := sc n i in let d := sd n i in
      let x_1 := - x i in let x_2 := x_1 * x_1 in let x_3 := x_1 * x_2 in
      Poly [a + b * x_1 + c * x_2 + d * x_3; b + 2 * c * x_1 + 3 * d * x_2; c + 3 * d * x_1; d].
  End Spline.
  (** spline.cpp:34-95. *)
  Definition spline_interpolation (xs ys : list R) (extrapolate : bool) : outcome func :=
    let n := (length xs - 1)%nat in
    new_piecewise (if extrapolate then replace_ends xs else xs)
                  (map (spline_piece (fun i => nth i xs 0) (fun i => nth i ys 0) n) (seq 0 n)).

  (** interpolation.h: InterpolationType. *)
  Inductive kind : Type := Linear | CubicSpline.
  (** interpolation.cpp:40-85; 87-97 calls it with the abscissae and ordinates of a dataset. *)
  Definition interpolate (xs ys : list R) (type : kind) (extrapolate : bool) : outcome func :=
    if negb (Nat.eqb (length xs) (length ys)) then Throw
    else if Nat.eqb (length xs) 1 && extrapolate then do c <- of_option (nth_error ys 0); Ok (Other (fun _ => c))
    else
      match xs, ys with
      | x0 :: xs', y0 :: ys' =>
          do r <- clean_from x0 y0 xs' ys';
          match type with
          | Linear => linear_interpolation (x0 :: fst r) (y0 :: snd r) extrapolate
          | CubicSpline => spline_interpolation (x0 :: fst r) (y0 :: snd r) extrapolate
          end
      | _, _ => UB
      end.
End Interpolation.

(** interpolation.cpp:121-130. *)
Definition segment (x x0 y0 x1 y1 : R) : R :=
  if req x1 x0 then (x1 + y1) / 2
  else let coef1 := (y1 - y0) / (x1 - x0) in y0 - coef1 * x0 + coef1 * x.
(** interpolation.cpp:121-130 at position i. *)
Definition segment_at (x : R) (xp yp : list R) (i : nat) : outcome R :=
  do x1 <- of_option (nth_error xp i); do x0 <- of_option (nth_error xp (i - 1));
  do y1 <- of_option (nth_error yp i); do y0 <- of_option (nth_error yp (i - 1));
  Ok (segment x x0 y0 x1 y1).
(** interpolation.cpp:99-131. *)
Definition simple_interpolation (x : R) (xp yp : list R) (extrapolate : bool) : outcome R :=
  match xp with
  | [] => Throw
  | first :: _ =>
      if negb (Nat.eqb (length xp) (length yp)) then Throw
      else if Nat.eqb (length xp) 1 then
        do y <- of_option (nth_error yp 0); Ok (if extrapolate || req first x then y else 0)
      else
        let i := upper_bound xp x in
        if Nat.eqb i 0 then
          if negb extrapolate && rlt x first then Ok 0 else segment_at x xp yp 1
        else if Nat.eqb i (length xp) then
          if negb extrapolate && rlt (last xp first) x then Ok 0 else segment_at x xp yp (i - 1)
        else segment_at x xp yp i
  end.
