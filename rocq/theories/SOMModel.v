(** Model of the self-organizing maps (SOM/SOM/*.h, SOM/SOM/_impl/*.icpp, SOM/src/lib/*.cpp).

    A map holds its cells in the order of the two-axes grid m_cells (SOM.h:52,
    97): the cell of coordinates (x, y) is at position x + y * size_x.
    [GridBridge] in SOMProps.v relates this to the grid model. Weights are
    rationals with exact arithmetic, an array<double, ND> is a list of length
    ND. Distances are of type [dbl] and are given by a function of the caller. *)
From Coq Require Import List Arith ZArith QArith Bool String.
From Verif Require Import Common DblModel.
Import ListNotations.
Local Open Scope nat_scope.
Local Notation length := List.length.

(** SOM.h:97-98. *)
Record som (W : Type) : Type := mkSom { sx : nat; sy : nat; cells : list W }.
Arguments mkSom {W}. Arguments sx {W}. Arguments sy {W}. Arguments cells {W}.

(** SOM.icpp:47-55: operator(), which is not checked. *)
Definition som_get {W} (s : som W) (x y : nat) : outcome W := of_option (nth_error (cells s) (x + y * sx s)).
(** axisValue<0>() and axisValue<1>() of an iterator at position [p]: the axes
    hold 0, 1, 2... (ImplTools.cpp:31-37). *)
Definition x_of {W} (s : som W) (p : nat) : nat := p mod sx s.
Definition y_of {W} (s : som W) (p : nat) : nat := (p mod (sx s * sy s)) / sx s.

(** SOM.icpp:29-40: the cells are filled with the successive values of the
    initialization function, here the stream [init] from position [k]. *)
Fixpoint take_stream {A} (init : nat -> A) (k n : nat) : list A :=
  match n with O => [] | S n' => init k :: take_stream init (S k) n' end.
Fixpoint fill {A} (init : nat -> A) (nd k count : nat) : list (list A) :=
  match count with O => [] | S c => take_stream init k nd :: fill init nd (k + nd) c end.
Definition som_new {A} (nd x y : nat) (init : nat -> A) : som (list A) := mkSom x y (fill init nd 0 (x * y)).

(** SOM.icpp:92-100: the loop over the cells; [best] is the position of result_iter. *)
Fixpoint bmu_loop {W} (dist : W -> dbl) (l : list W) (pos best : nat) (closest : dbl) : nat * dbl :=
  match l with
  | [] => (best, closest)
  | w :: r =>
      if dlt (dist w) closest then bmu_loop dist r (S pos) pos (dist w)
      else bmu_loop dist r (S pos) best closest
  end.
(** SOM.icpp:89-102 findBMU_impl; [dmax] is numeric_limits<double>::max(). A
    map without cells has no coordinates to report (modulo zero). *)
Definition find_bmu {W} (dmax : Q) (dist : W -> dbl) (s : som W) : outcome (nat * nat * dbl) :=
  match cells s with
  | [] => UB
  | _ => let '(p, d) := bmu_loop dist (cells s) 0 0 (Fin dmax) in Ok (x_of s p, y_of s p, d)
  end.

(** ** Training (SOMTrainer.h) *)

(** SOMTrainer.h:77-79. *)
Definition update_weight (nf lf input w : Q) : Q := (w + nf * lf * (input - w))%Q.
Fixpoint update_cell (nf lf : Q) (input w : list Q) : list Q :=
  match w, input with
  | a :: r, b :: t => update_weight nf lf b a :: update_cell nf lf t r
  | _, _ => w
  end.
(** SOMTrainer.h:67-81: the loop over the cells from position [p]. *)
Fixpoint update_cells (nf : nat * nat -> Q) (lf : Q) (input : list Q) (s : som (list Q)) (p : nat) (l : list (list Q)) : list (list Q) :=
  match l with
  | [] => []
  | w :: r =>
      let f := nf (x_of s p, y_of s p) in
      (if Qeq_bool f 0 then w else update_cell f lf input w) :: update_cells nf lf input s (S p) r
  end.
Section Train.
  Context {I : Type}.
  Variable dmax : Q.
  (** dist_func.distance(cell, weights). *)
  Variable dist : list Q -> list Q -> dbl.
  Variable weights : I -> list Q.
  (** neighborhood_func(bmu, cell, iteration, total) and learning_restraint_func(iteration, total). *)
  Variable nf : nat * nat -> nat * nat -> nat -> nat -> Q.
  Variable lf : nat -> nat -> Q.

  (** SOMTrainer.h:57-81: one training object. *)
  Definition train_one (i n : nat) (s : som (list Q)) (obj : I) : outcome (som (list Q)) :=
    do b <- find_bmu dmax (fun c => dist c (weights obj)) s;
    let '(bx, by_, _) := b in
    Ok (mkSom (sx s) (sy s) (update_cells (fun c => nf (bx, by_) c i n) (lf i n) (weights obj) s 0 (cells s))).
  (** SOMTrainer.h:55-82. *)
  Fixpoint train_pass (i n : nat) (s : som (list Q)) (objs : list I) : outcome (som (list Q)) :=
    match objs with
    | [] => Ok s
    | o :: r => do s1 <- train_one i n s o; train_pass i n s1 r
    end.
  (** SOMTrainer.h:41-84 from iteration [i] on; [sample i] are the objects the
      sampling policy visits in iteration i. *)
  Fixpoint train_from (sample : nat -> list I) (todo i n : nat) (s : som (list Q)) : outcome (som (list Q)) :=
    match todo with
    | O => Ok s
    | S k =>
        do s1 <- (if Qeq_bool (lf i n) 0 then Ok s else train_pass i n s (sample i));
        train_from sample k (S i) n s1
    end.
  Definition train (sample : nat -> list I) (n : nat) (s : som (list Q)) : outcome (som (list Q)) := train_from sample n 0 n s.
End Train.

(** ** Factors *)

(** LearningRestraintFunc.cpp:26-30. *)
Definition linear_restraint (i n : nat) : Q := (inject_Z (Z.of_nat (n - i)) / inject_Z (Z.of_nat n))%Q.
(** LearningRestraintFunc.cpp:32-36; [exp] is std::exp. *)
Definition exponential_decay (exp : Q -> Q) (rate : Q) (i n : nat) : Q :=
  (rate * exp (-(1) * inject_Z (Z.of_nat i) / inject_Z (Z.of_nat n)))%Q.

(** Subtraction of two size_t values, converted to double (conversion taken as exact). *)
Definition size_sub (a b : nat) : Q := inject_Z ((Z.of_nat a - Z.of_nat b) mod 2 ^ 64)%Z.
(** NeihbourhoodFunc.cpp:26-41. *)
Definition linear_unit_disk (radius : Q) (bmu cell : nat * nat) (i n : nat) : Q :=
  let f := linear_restraint i n in
  let x := size_sub (fst bmu) (fst cell) in
  let y := size_sub (snd bmu) (snd cell) in
  if Qlt_b (x * x + y * y)%Q (radius * radius * (f * f))%Q then 1%Q else 0%Q.

(** NeihbourhoodFunc.cpp:43-72. The state of the closure is the buffer
    (iteration, total, sigma). [exp] and [log] are the library functions.
    Division by log(1) = 0 gives an infinite time constant and exp(-0); with
    rationals x / 0 = 0 leads to exp(0) as well. *)
Section Kohonen.
  Variable exp log : Q -> Q.
  Variable x_size y_size : nat.
  Variable cutoff : Q.
  Definition init_sigma : Q := (inject_Z (Z.of_nat (Nat.max x_size y_size)) / 2)%Q.
  (** NeihbourhoodFunc.cpp:57-58. *)
  Definition sigma (i n : nat) : Q :=
    let time_constant := (inject_Z (Z.of_nat n) / log init_sigma)%Q in
    (init_sigma * exp (-(1) * inject_Z (Z.of_nat i) / time_constant))%Q.
  (** NeihbourhoodFunc.cpp:60-70. *)
  Definition kohonen_value (sig : Q) (bmu cell : nat * nat) : Q :=
    let x := (inject_Z (Z.of_nat (fst bmu)) - inject_Z (Z.of_nat (fst cell)))%Q in
    let y := (inject_Z (Z.of_nat (snd bmu)) - inject_Z (Z.of_nat (snd cell)))%Q in
    let d2 := (x * x + y * y)%Q in
    if Qlt_b d2 (cutoff * cutoff * (sig * sig))%Q then exp (-(1) * d2 / (2 * (sig * sig)))%Q else 0%Q.
  Definition buffer : Type := (nat * nat * Q)%type.
  Definition kohonen_init : buffer := (0, 0, 0%Q).
  Definition kohonen_call (b : buffer) (bmu cell : nat * nat) (i n : nat) : Q * buffer :=
    let '(bi, bn, bs) := b in
    let b1 := if negb (bi =? i) || negb (bn =? n) then (i, n, sigma i n) else b in
    (kohonen_value (snd b1) bmu cell, b1).
  (** A history of calls of one neighbourhood function. *)
  Fixpoint kohonen_run (b : buffer) (calls : list ((nat * nat) * (nat * nat) * nat * nat)) : list Q * buffer :=
    match calls with
    | [] => ([], b)
    | (bmu, cell, i, n) :: r =>
        let '(v, b1) := kohonen_call b bmu cell i n in
        let '(vs, b2) := kohonen_run b1 r in (v :: vs, b2)
    end.
End Kohonen.

(** ** Sampling policies (SamplingPolicy.h)

    Iterators over a range of [n] elements are the positions 0 .. n, n being
    end(). The random draws are arguments: [draw k m] is the k-th value of a
    uniform distribution on 0 .. m (any function with values in that range). *)

(** SamplingPolicy.h:45-56. *)
Definition full_start (n : nat) : outcome (nat * unit) := Ok (0, tt).
Definition full_next (n : nat) (st : unit) (it : nat) : outcome (nat * unit) := Ok (S it, tt).
(** SamplingPolicy.h:58-83: the distribution on 0 .. n - 1 is undefined for an empty range. *)
Definition boot_start (draw : nat -> nat -> nat) (n : nat) : outcome (nat * unit) :=
  match n with O => UB | S m => Ok (draw 0 m, tt) end.
Definition boot_next (n : nat) (st : unit) (it : nat) : outcome (nat * unit) := Ok (n, tt).

Definition remove_at {A} (i : nat) (l : list A) : list A := firstn i l ++ skipn (S i) l.
(** SamplingPolicy.h:118-124: [size] iterations at most, [k] made so far. *)
Fixpoint jack_pick (draw : nat -> nat -> nat) (size k : nat) (all : list nat) : outcome (list nat) :=
  match size with
  | O => Ok []
  | S size' =>
      match all with
      | [] => Ok []
      | _ :: _ =>
          let d := draw k (length all - 1) in
          do it <- of_option (nth_error all d);
          do rest <- jack_pick draw size' (S k) (remove_at d all);
          Ok (it :: rest)
      end
  end.
(** SamplingPolicy.h:98-130: the state is (m_iter_list, m_current); the first
    element of an empty list is undefined. *)
Definition jack_start (draw : nat -> nat -> nat) (sample_size n : nat) : outcome (nat * (list nat * nat)) :=
  do l <- jack_pick draw sample_size 0 (seq 0 n);
  match l with [] => UB | it :: _ => Ok (it, (l, 0)) end.
(** SamplingPolicy.h:132-138. *)
Definition jack_next (n : nat) (st : list nat * nat) (it : nat) : outcome (nat * (list nat * nat)) :=
  let c := S (snd st) in
  if length (fst st) <=? c then Ok (n, (fst st, c))
  else do x <- of_option (nth_error (fst st) c); Ok (x, (fst st, c)).

(** SOMTrainer.h:55: for (it = start(begin, end); it != end; it = next(it)): the
    positions visited. *)
Fixpoint pass_loop {St} (next : St -> nat -> outcome (nat * St)) (n fuel : nat) (st : St) (it : nat) : outcome (list nat) :=
  if it =? n then Ok []
  else match fuel with
       | O => Diverge
       | S fuel' =>
           do p <- next st it;
           do rest <- pass_loop next n fuel' (snd p) (fst p);
           Ok (it :: rest)
       end.
Definition pass {St} (start : nat -> outcome (nat * St)) (next : nat -> St -> nat -> outcome (nat * St)) (n fuel : nat) : outcome (list nat) :=
  do p <- start n; pass_loop (next n) n fuel (snd p) (fst p).

(** ** Projection (SOMProjector.icpp) *)

Fixpoint list_set {A} (l : list A) (i : nat) (x : A) : option (list A) :=
  match l, i with
  | [], _ => None
  | _ :: r, O => Some (x :: r)
  | y :: r, S j => match list_set r j x with Some t => Some (y :: t) | None => None end
  end.
(** SOMProjector.icpp:46-57. *)
Fixpoint project_loop {T I} (bmu : I -> outcome (nat * nat * dbl)) (adder : T -> I -> T) (g : som T) (inputs : list I) : outcome (som T) :=
  match inputs with
  | [] => Ok g
  | i :: r =>
      do b <- bmu i;
      let '(x, y, _) := b in
      do c <- som_get g x y;
      do l <- of_option (list_set (cells g) (x + y * sx g) (adder c i));
      project_loop bmu adder (mkSom (sx g) (sy g) l) r
  end.
(** SOMProjector.icpp:32-60. *)
Definition project {W T I} (dmax : Q) (dist : W -> I -> dbl) (adder : T -> I -> T) (init : T) (s : som W) (inputs : list I) : outcome (som T) :=
  project_loop (fun i => find_bmu dmax (fun c => dist c i) s) adder (mkSom (sx s) (sy s) (repeat init (sx s * sy s))) inputs.

(** ** U-matrix (UMatrix.icpp) *)

Inductive utype : Type := UMin | UMax | UMean.
(** UMatrix.icpp:34-39. std::min_element of an empty list is end(), dereferenced;
    the mean of an empty list is 0/0. *)
Fixpoint min_from (m : Q) (l : list Q) : Q :=
  match l with [] => m | x :: r => if Qlt_b x m then min_from x r else min_from m r end.
Fixpoint max_from (m : Q) (l : list Q) : Q :=
  match l with [] => m | x :: r => if Qlt_b m x then max_from x r else max_from m r end.
Definition sum_list (l : list Q) : Q := fold_left Qplus l 0%Q.
Definition combine_distances (t : utype) (l : list Q) : outcome dbl :=
  match t, l with
  | UMin, x :: r => Ok (Fin (min_from x r))
  | UMax, x :: r => Ok (Fin (max_from x r))
  | UMean, [] => Ok NaN
  | UMean, _ => Ok (Fin (sum_list l / inject_Z (Z.of_nat (length l)))%Q)
  | _, [] => UB
  end.
(** UMatrix.icpp:60-74: the pairs (i, j) of the two loops that reach line 72, in order. *)
Definition neighbours (size_x size_y x y : nat) : list (Z * Z) :=
  flat_map (fun i =>
    flat_map (fun j =>
      if ((i =? Z.of_nat x) && (j =? Z.of_nat y))%Z then []
      else if ((i <? 0) || (i =? Z.of_nat size_x) || (j <? 0) || (j =? Z.of_nat size_y))%Z then []
      else [(i, j)]) [Z.of_nat y - 1; Z.of_nat y; Z.of_nat y + 1]%Z)
    [Z.of_nat x - 1; Z.of_nat x; Z.of_nat x + 1]%Z.
Fixpoint map_outcome {A B} (f : A -> outcome B) (l : list A) : outcome (list B) :=
  match l with [] => Ok [] | x :: r => do y <- f x; do ys <- map_outcome f r; Ok (y :: ys) end.
(** UMatrix.icpp:59-77: the value of the cell (x, y). *)
Definition umatrix_cell {W} (dist : W -> W -> Q) (t : utype) (s : som W) (x y : nat) : outcome dbl :=
  do c <- som_get s x y;
  do l <- map_outcome (fun p => do d <- som_get s (Z.to_nat (fst p)) (Z.to_nat (snd p)); Ok (dist c d)) (neighbours (sx s) (sy s) x y);
  combine_distances t l.
(** UMatrix.icpp:43-82. The cells are computed x by x; the result holds them in
    grid order. *)
Definition umatrix {W} (dist : W -> W -> Q) (t : utype) (s : som W) : outcome (som dbl) :=
  do l <- map_outcome (fun p => umatrix_cell dist t s (p mod sx s) (p / sx s)) (seq 0 (sx s * sy s));
  Ok (mkSom (sx s) (sy s) l).

(** ** Serialization *)

(** The values a boost archive holds. *)
Inductive token : Type := TName (s : string) | TSize (n : nat) | TCell (w : list Q).
(** serialization/SOM.h:56-63 and 37-42; [dname] is typeid(DistFunc).name(). *)
Definition save (dname : string) (s : som (list Q)) : list token :=
  TName dname :: TSize (sx s) :: TSize (sy s) :: map TCell (cells s).
(** serialization/SOM.h:44-49. Reading past the end throws; the rest of the
    archive is returned. *)
Fixpoint load_cells (n : nat) (ts : list token) : outcome (list (list Q) * list token) :=
  match n with
  | O => Ok ([], ts)
  | S k => match ts with
           | TCell w :: r => do p <- load_cells k r; Ok (w :: fst p, snd p)
           | _ => Throw
           end
  end.
(** serialization/SOM.h:65-78, 44-49 and serialize.h:51-61. *)
Definition load (dname : string) (ts : list token) : outcome (som (list Q) * list token) :=
  match ts with
  | TName m :: TSize x :: TSize y :: r =>
      if String.eqb m dname then do p <- load_cells (x * y) r; Ok (mkSom x y (fst p), snd p) else Throw
  | _ => Throw
  end.

(** A FITS image: the DISTFUNC key, the axes and the data. *)
Record fits : Type := mkFits { f_dist : string; f_axes : list nat; f_data : list Q }.
(** serialize.h:85-91: component by component, all the cells. *)
Definition fits_export (dname : string) (nd : nat) (s : som (list Q)) : fits :=
  mkFits dname [sx s; sy s; nd] (flat_map (fun wi => map (fun c => nth wi c 0%Q) (cells s)) (seq 0 nd)).
(** serialize.h:96-134: w_arr[w_i] of the cell at position c is
    data[w_i * (x * y) + c]; reading past the end of the data is undefined. *)
Definition fits_import (dname : string) (nd : nat) (f : fits) : outcome (som (list Q)) :=
  if negb (String.eqb (f_dist f) dname) then Throw
  else match f_axes f with
       | [x; y; d] =>
           if negb (d =? nd) then Throw
           else
             do l <- map_outcome (fun c => map_outcome (fun wi => of_option (nth_error (f_data f) (wi * (x * y) + c))) (seq 0 nd)) (seq 0 (x * y));
             Ok (mkSom x y l)
       | _ => Throw
       end.
