(** Model of the inverse cumulative of a continuous variable
    (MathUtils/helpers/_impl/InverseCumulative.icpp, MathUtils/src/lib/helpers/Solvers.cpp).
    Doubles are real numbers. CumulModel.v models the discrete variant. *)
From Coq Require Import Reals List Arith Bool.
From Verif Require Import Common CumulModel FunModel.
Import ListNotations.
Local Open Scope R_scope.

(** Solvers.cpp:25-35. The root of a negative number is not a number: UB here. *)
Definition solve_square (a b c y : R) : outcome (R * R) :=
  if negb (req a 0) then
    let exprb := b / (2 * a) * (b / (2 * a)) in
    let radicand := (y - c) / a + exprb in
    if rlt radicand 0 then UB else Ok (- sqrt radicand - b / (2 * a), sqrt radicand - b / (2 * a))
  else if negb (req b 0) then Ok ((y - c) / b, (y - c) / b)
  else Throw.

(** InverseCumulative.icpp:123-126. *)
Record inverse : Type := { i_knots : list R; i_pdf : list R; i_cdf : list R; i_min : R; i_range : R }.

(** InverseCumulative.icpp:44-47: the elements after the one of knot [k0], density
    [p0] and cumulative [c0]. m_knots is not checked to be as long as m_pdf (36
    compares it with itself). *)
Fixpoint cdf_from (k0 p0 c0 : R) (knots pdf : list R) {struct pdf} : outcome (list R) :=
  match pdf with
  | [] => Ok []
  | p1 :: pdf' =>
      match knots with
      | [] => UB
      | k1 :: knots' =>
          let c1 := (k1 - k0) * (p1 + p0) / 2 + c0 in
          do r <- cdf_from k1 p1 c1 knots' pdf'; Ok (c1 :: r)
      end
  end.

(** InverseCumulative.icpp:50-53, on the lists in reverse order. *)
Fixpoint trim (rcdf rknots : list R) : outcome (list R * list R) :=
  match rcdf with
  | a :: r =>
      match r with
      | b :: _ => if req a b then match rknots with [] => UB | _ :: rk => trim r rk end else Ok (rcdf, rknots)
      | [] => Ok (rcdf, rknots)
      end
  | [] => Ok (rcdf, rknots)
  end.

(** InverseCumulative.icpp:34-57. *)
Definition new_inverse (knots pdf : list R) : outcome inverse :=
  if negb (increasing knots) then Throw
  else
    match pdf with
    | [] => UB
    | p0 :: pdf' =>
        match knots with
        | k0 :: knots' =>
            do r <- cdf_from k0 p0 p0 knots' pdf';
            do t <- trim (rev (p0 :: r)) (rev knots);
            let cdf := rev (fst t) in
            do front <- of_option (nth_error cdf 0);
            Ok {| i_knots := rev (snd t); i_pdf := pdf; i_cdf := cdf; i_min := front; i_range := last cdf 0 - front |}
        | [] => match pdf' with [] => Ok {| i_knots := []; i_pdf := pdf; i_cdf := pdf; i_min := p0; i_range := p0 - p0 |} | _ => UB end
        end
    end.

(** InverseCumulative.icpp:59-121. A failing assertion (119) is UB; 98-99 hold for
    real numbers. *)
Definition find_inverse (t : inverse) (p : R) : outcome R :=
  if rlt p 0 || rlt 1 p then Throw
  else
    let u := p * i_range t + i_min t in
    do front <- of_option (nth_error (i_cdf t) 0);
    do kfront <- of_option (nth_error (i_knots t) 0);
    if rle u front then Ok kfront
    else if rle (last (i_cdf t) 0) u then Ok (last (i_knots t) 0)
    else
      let i := (upper_bound (i_cdf t) u - 1)%nat in
      do x0 <- of_option (nth_error (i_knots t) i); do x1 <- of_option (nth_error (i_knots t) (S i));
      do cdf0 <- of_option (nth_error (i_cdf t) i); do cdf1 <- of_option (nth_error (i_cdf t) (S i));
      do p0 <- of_option (nth_error (i_pdf t) i); do p1 <- of_option (nth_error (i_pdf t) (S i));
      if req p0 p1 then Ok ((x1 - x0) * ((u - cdf0) / (cdf1 - cdf0)) + x0)
      else if req x1 x0 || req cdf0 cdf1 || rle u cdf0 then Ok x0
      else
        let a := (p1 - p0) / (x1 - x0) in
        let b := p0 - a * x0 in
        let c := cdf0 - a / 2 * (x0 * x0) - b * x0 in
        do s <- solve_square (a / 2) b c u;
        let tolerance := / 10 ^ 8 in
        if rle (x0 - tolerance) (fst s) && rle (fst s) (x1 + tolerance) then Ok (fst s)
        else if rle (x0 - tolerance) (snd s) && rle (snd s) (x1 + tolerance) then Ok (snd s) else UB.
