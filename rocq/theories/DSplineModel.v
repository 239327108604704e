(** Model of polynomials (MathUtils/src/lib/function/Polynomial.cpp) and of cubic spline
    interpolation (MathUtils/src/lib/interpolation/spline.cpp) in double precision.

    The value of a polynomial ([dpoly]), piecewise functions and the cleaning of the points
    are in DInterpModel. InterpModel describes the same code with real numbers. The program
    is taken to be compiled without contraction of a product and a sum into one operation.
    Warnings are not modelled. *)
From Coq Require Import ZArith List Arith Bool.
From Flocq Require Import IEEE754.BinarySingleNaN.
From Verif Require Import Common CumulModel FloatModel DInterpModel.
Import ListNotations.

(** A size_t converted to double (Polynomial.cpp:57 and 69). *)
Definition dsize (n : nat) : double := d2 (Z.of_nat n) 0.

(** Polynomial.cpp:56-58: [i] is the position of the first coefficient left. *)
Fixpoint dderiv_from (i : nat) (coefs : list double) : list double :=
  match coefs with
  | [] => []
  | c :: r => dmul (dsize i) c :: dderiv_from (S i) r
  end.
(** Polynomial.cpp:53-62: the coefficients of the derivative. *)
Definition dderiv (coefs : list double) : list double :=
  match coefs with
  | [] => []
  | _ :: r => dderiv_from 1 r
  end.
(** Polynomial.cpp:68-70. *)
Fixpoint dinteg_from (i : nat) (coefs : list double) : list double :=
  match coefs with
  | [] => []
  | c :: r => ddiv c (dsize (i + 1)) :: dinteg_from (S i) r
  end.
(** Polynomial.cpp:64-74: the coefficients of the indefinite integral. *)
Definition dinteg (coefs : list double) : list double := d0 :: dinteg_from 0 coefs.
(** Differentiable.cpp:30-33, for a polynomial. *)
Definition dpoly_integrate (coefs : list double) (x1 x2 : double) : double :=
  dsub (dpoly (dinteg coefs) x2) (dpoly (dinteg coefs) x1).

(** The literal 3. *)
Definition dthree : double := d2 3 0.

Section Spline.
  (** x[i] and y[i]. The arrays of the function are functions of the index. *)
  Variables x y : nat -> double.
  (** spline.cpp:41-42. *)
  Definition dsh (i : nat) : double := dsub (x (S i)) (x i).
  (** spline.cpp:47. *)
  Definition dsg (i : nat) (mu : double) : double :=
    dsub (dmul dtwo (dsub (x (S (S i))) (x i))) (dmul (dsh i) mu).
  (** spline.cpp:44-51: mu[i] and z[i]; [i] is the position before the current one. *)
  Fixpoint dmuz (i : nat) : double * double :=
    match i with
    | O => (d0, d0)
    | S i =>
        let (mu, z) := dmuz i in
        let g := dsg i mu in
        (ddiv (dsh (S i)) g,
         ddiv (dsub (ddiv (dmul dthree
                 (dadd (dsub (dmul (y (S (S i))) (dsh i)) (dmul (y (S i)) (dsub (x (S (S i))) (x i))))
                       (dmul (y i) (dsh (S i)))))
                 (dmul (dsh i) (dsh (S i))))
               (dmul (dsh i) z)) g)
    end.
  (** spline.cpp:60, 62, 64: c[j] with [m] = n - j. *)
  Fixpoint dc_down (n m : nat) : double :=
    match m with
    | O => d0
    | S m' => let j := (n - m)%nat in let (mu, z) := dmuz j in dsub z (dmul mu (dc_down n m'))
    end.
  Definition dsc (n j : nat) : double := dc_down n (n - j).
  (** spline.cpp:65. *)
  Definition dsb (n j : nat) : double :=
    dsub (ddiv (dsub (y (S j)) (y j)) (dsh j))
         (ddiv (dmul (dsh j) (dadd (dsc n (S j)) (dmul dtwo (dsc n j)))) dthree).
  (** spline.cpp:66. *)
  Definition dsd (n j : nat) : double := ddiv (dsub (dsc n (S j)) (dsc n j)) (dmul dthree (dsh j)).
End Spline.
(** spline.cpp:72-79 and 84: the coefficients of the polynomial a + b (x - k) + c (x - k)^2
    + d (x - k)^3 in powers of x, for one turn of the loop. *)
Definition dshifted (a b c d k : double) : list double :=
  let x_1 := Bopp k in let x_2 := dmul x_1 x_1 in let x_3 := dmul x_1 x_2 in
  [dadd (dadd (dadd a (dmul b x_1)) (dmul c x_2)) (dmul d x_3);
   dadd (dadd b (dmul (dmul dtwo c) x_1)) (dmul (dmul dthree d) x_2);
   dadd c (dmul (dmul dthree d) x_1); d].
(** spline.cpp:63 and 71-84. *)
Definition dspline_piece (x y : nat -> double) (n i : nat) : list double :=
  dshifted (y i) (dsb x y n i) (dsc x y n i) (dsd x y n i) (x i).
(** spline.cpp:34-95. *)
Definition dspline (xs ys : list double) (extrapolate : bool) : outcome dfunc :=
  let n := (length xs - 1)%nat in
  dnew_piecewise (if extrapolate then dreplace_ends xs else xs)
                 (map (dspline_piece (fun i => nth i xs d0) (fun i => nth i ys d0) n) (seq 0 n)).
(** interpolation.cpp:40-85 with InterpolationType::CUBIC_SPLINE. *)
Definition dspline_interpolate (xs ys : list double) (extrapolate : bool) : outcome dfunc :=
  if negb (Nat.eqb (length xs) (length ys)) then Throw
  else if Nat.eqb (length xs) 1 && extrapolate then do c <- of_option (nth_error ys 0); Ok (DConst c)
  else
    match xs, ys with
    | x0 :: xs', y0 :: ys' => do r <- dclean_from x0 y0 xs' ys'; dspline (x0 :: fst r) (y0 :: snd r) extrapolate
    | _, _ => UB
    end.
