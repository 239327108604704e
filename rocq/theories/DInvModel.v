(** Model of the inverse cumulative of a continuous variable
    (MathUtils/MathUtils/helpers/_impl/InverseCumulative.icpp, MathUtils/src/lib/helpers/Solvers.cpp) in double precision.

    InvCumulModel describes the same code with real numbers. Here every operation rounds as the
    processor does; the program is taken to be compiled without contraction of a product and a
    sum into one operation. The knots are doubles (TKnot may be another floating point type). *)
From Coq Require Import ZArith List Arith Bool.
From Flocq Require Import IEEE754.BinarySingleNaN.
From Verif Require Import Common CumulModel FloatModel.
Import ListNotations.

(** Solvers.cpp:25-35. The root of a negative number is NaN. *)
Definition dsolve_square (a b c y : double) : outcome (double * double) :=
  if negb (deq a d0) then
    let exprb := ddiv b (dmul dtwo a) in
    let exprb := dmul exprb exprb in
    let sr := dsqrt (dadd (ddiv (dsub y c) a) exprb) in
    Ok (dsub (Bopp sr) (ddiv b (dmul dtwo a)), dsub sr (ddiv b (dmul dtwo a)))
  else if negb (deq b d0) then Ok (ddiv (dsub y c) b, ddiv (dsub y c) b)
  else Throw.

(** InverseCumulative.icpp:123-126. *)
Record dinverse : Type := mkDInverse { n_knots : list double; n_pdf : list double; n_cdf : list double; n_min : double; n_range : double }.

(** InverseCumulative.icpp:39-41: std::is_sorted. *)
Fixpoint dsorted (l : list double) : bool :=
  match l with
  | a :: ((b :: _) as r) => if dlt b a then false else dsorted r
  | _ => true
  end.
(** InverseCumulative.icpp:44-47: the elements after the one of knot [k0], density
    [p0] and cumulative [c0]. m_knots is not checked to be as long as m_pdf (36
    compares it with itself). *)
Fixpoint dcdf_from (k0 p0 c0 : double) (knots pdf : list double) {struct pdf} : outcome (list double) :=
  match pdf with
  | [] => Ok []
  | p1 :: pdf' =>
      match knots with
      | [] => UB
      | k1 :: knots' =>
          let c1 := dadd (ddiv (dmul (dsub k1 k0) (dadd p1 p0)) dtwo) c0 in
          do r <- dcdf_from k1 p1 c1 knots' pdf'; Ok (c1 :: r)
      end
  end.
(** InverseCumulative.icpp:50-53, on the lists in reverse order. *)
Fixpoint dtrim (rcdf rknots : list double) : outcome (list double * list double) :=
  match rcdf with
  | a :: r =>
      match r with
      | b :: _ => if deq a b then match rknots with [] => UB | _ :: rk => dtrim r rk end else Ok (rcdf, rknots)
      | [] => Ok (rcdf, rknots)
      end
  | [] => Ok (rcdf, rknots)
  end.
(** InverseCumulative.icpp:34-57. m_cdf[0] of an empty vector is undefined. *)
Definition dnew_inverse (knots pdf : list double) : outcome dinverse :=
  if negb (dsorted knots) then Throw
  else
    match pdf with
    | [] => UB
    | p0 :: pdf' =>
        do r <- match knots with k0 :: knots' => dcdf_from k0 p0 p0 knots' pdf' | [] => match pdf' with [] => Ok [] | _ => UB end end;
        do t <- dtrim (rev (p0 :: r)) (rev knots);
        let cdf := rev (fst t) in
        do first <- front cdf; do total <- back cdf;
        Ok (mkDInverse (rev (snd t)) pdf cdf first (dsub total first))
    end.

(** The literal 1e-8 (InverseCumulative.icpp:116 and others). *)
Definition dtolerance : double := d2 6044629098073146 (-79).
(** InverseCumulative.icpp:116 and 119: s >= x0 - 1e-8 && s <= x1 + 1e-8. *)
Definition dwithin (x0 x1 s : double) : bool := dle (dsub x0 dtolerance) s && dle s (dadd x1 dtolerance).
(** InverseCumulative.icpp:98-99: std::abs(a * x + b - p) < 1e-8. *)
Definition don_line (a b x p : double) : bool := dlt (Babs (dsub (dadd (dmul a x) b) p)) dtolerance.

(** InverseCumulative.icpp:59-121. [checks] tells whether the assertions of 98, 99 and 119 are
    compiled in; one that fails ends the program, which is UB here. std::upper_bound on a sorted m_cdf is
    the number of elements that unnormed_p is not below; with a NaN for unnormed_p these are all the elements. *)
Definition dfind_inverse (checks : bool) (t : dinverse) (p : double) : outcome double :=
  if dlt p d0 || dlt d1 p then Throw
  else
    let u := dadd (dmul p (n_range t)) (n_min t) in
    do first <- front (n_cdf t); do kfirst <- front (n_knots t);
    if dle u first then Ok kfirst
    else
      do total <- back (n_cdf t); do klast <- back (n_knots t);
      if dle total u then Ok klast
      else
        let i := (count_while (fun c => negb (dlt u c)) (n_cdf t) - 1)%nat in
        do x0 <- at_ (n_knots t) i; do x1 <- at_ (n_knots t) (i + 1);
        do cdf0 <- at_ (n_cdf t) i; do cdf1 <- at_ (n_cdf t) (i + 1);
        do p0 <- at_ (n_pdf t) i; do p1 <- at_ (n_pdf t) (i + 1);
        if deq p0 p1 then
          let interval_p := ddiv (dsub u cdf0) (dsub cdf1 cdf0) in
          Ok (dadd (dmul (dsub x1 x0) interval_p) x0)
        else if deq x1 x0 || deq cdf0 cdf1 || dle u cdf0 then Ok x0
        else
          let a := ddiv (dsub p1 p0) (dsub x1 x0) in
          let b := dsub p0 (dmul a x0) in
          if checks && negb (don_line a b x0 p0 && don_line a b x1 p1) then UB
          else
            let c := dsub (dsub cdf0 (dmul (ddiv a dtwo) (dmul x0 x0))) (dmul b x0) in
            do s <- dsolve_square (ddiv a dtwo) b c u;
            if dwithin x0 x1 (fst s) then Ok (fst s)
            else if checks && negb (dwithin x0 x1 (snd s)) then UB
            else Ok (snd s).
