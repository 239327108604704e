(** Model of GridContainer (GridContainer/GridContainer in /repo).

    Simplifications, valid for the whole file:
    - the tuple of axes of different knot types is a list of axes over one
      knot type [V] (a sum type can play that role);
    - [std::map<size_t,size_t>] is an association list kept sorted by key;
    - [size_t] is [nat] (no overflow of the total number of cells);
    - iterators of the cell manager are positions counted from its [begin()];
      moving one past [end()] before clipping it back is not flagged as UB. *)
From Coq Require Import List Arith Bool String.
From Verif Require Import Common.
Import ListNotations.

(** GridAxis.icpp:30-31: a name and the knot values. *)
Record axis (V : Type) : Type := mkAxis { ax_name : string; ax_values : list V }.
Arguments mkAxis {V}.
Arguments ax_name {V}.
Arguments ax_values {V}.

(** GridAxis.icpp:33-36 [size]. *)
Definition ax_size {V} (a : axis V) : nat := List.length (ax_values a).

(** The std::map<size_t,size_t> used for fixed indices: [find] ... *)
Fixpoint map_find (m : list (nat * nat)) (k : nat) : option nat :=
  match m with
  | [] => None
  | (k', v) :: r => if Nat.eqb k' k then Some v else map_find r k
  end.

(** ... and [m[k] = v], keeping the keys in increasing order. *)
Fixpoint map_set (m : list (nat * nat)) (k v : nat) : list (nat * nat) :=
  match m with
  | [] => [(k, v)]
  | (k', v') :: r =>
      if Nat.eqb k' k then (k, v) :: r
      else if Nat.ltb k k' then (k, v) :: (k', v') :: r
      else (k', v') :: map_set r k v
  end.

(** GridConstructionHelper.h:67-77 createAxesSizesVector. *)
Definition axes_sizes {V} (axes : list (axis V)) : list nat := map ax_size axes.

(** GridConstructionHelper.h:117-125 getAxisIndexFactor; the template counter
    [I] is [i - 1] here, the terminating counter -1 is 0. *)
Fixpoint axis_index_factor (sizes : list nat) (i : nat) : nat :=
  match i with
  | O => 1
  | S i' => nth i' sizes 0 * axis_index_factor sizes i'
  end.

(** GridConstructionHelper.h:143-153 createAxisIndexFactorVector. *)
Fixpoint factor_vector (sizes : list nat) (i : nat) : list nat :=
  match i with
  | O => [1]
  | S i' => factor_vector sizes i' ++ [axis_index_factor sizes (S i')]
  end.

(** GridIndexHelper.icpp:30-37 constructor (names are only used in messages). *)
Record index_helper : Type := mkHelper { h_sizes : list nat; h_factors : list nat }.
Definition make_helper {V} (axes : list (axis V)) : index_helper :=
  let sizes := axes_sizes axes in
  mkHelper sizes (factor_vector sizes (List.length sizes)).

(** GridIndexHelper.icpp:39-44 axisIndex; a zero divisor is UB. *)
Definition axis_index (h : index_helper) (ax pos : nat) : outcome nat :=
  do f1 <- of_option (nth_error (h_factors h) (ax + 1));
  do f0 <- of_option (nth_error (h_factors h) ax);
  if Nat.eqb f1 0 then UB
  else if Nat.eqb f0 0 then UB
  else Ok ((pos mod f1) / f0).

(** GridIndexHelper.icpp:46-54 calculateTotalIndex. *)
Fixpoint calculate_total_index (factors coords : list nat) : nat :=
  match coords with
  | [] => 0
  | c :: rest =>
      c * nth (List.length factors - List.length rest - 2) factors 0
      + calculate_total_index factors rest
  end.

(** GridIndexHelper.icpp:61-78 checkBounds ([false] = throws). *)
Fixpoint check_bounds (sizes coords : list nat) : bool :=
  match coords with
  | [] => true
  | c :: rest =>
      if Nat.leb (nth (List.length sizes - List.length rest - 1) sizes 0) c then false
      else check_bounds sizes rest
  end.

(** GridIndexHelper.icpp:86-109 checkAllFixedAreZero ([false] = throws). *)
Fixpoint check_fixed_zero (sizes : list nat) (fixed : list (nat * nat)) (coords : list nat) : bool :=
  match coords with
  | [] => true
  | c :: rest =>
      let ax := List.length sizes - List.length rest - 1 in
      if negb (Nat.eqb c 0) && (match map_find fixed ax with Some _ => true | None => false end)
      then false
      else check_fixed_zero sizes fixed rest
  end.

(** GridContainer.h:346-357: the members of a container. The cell manager is
    shared between a grid and its slices, so it is not part of the view: the
    operations receive the cells as a separate list. *)
Record view (V : Type) : Type := mkView {
  v_axes : list (axis V);                 (* m_axes *)
  v_axes_fixed : list (axis V);           (* m_axes_fixed *)
  v_fixed : list (nat * nat)              (* m_fixed_indices *)
}.
Arguments mkView {V}.
Arguments v_axes {V}.
Arguments v_axes_fixed {V}.
Arguments v_fixed {V}.

(** GridContainer.h:348 and 352. *)
Definition v_helper {V} (v : view V) : index_helper := make_helper (v_axes v).
Definition v_helper_fixed {V} (v : view V) : index_helper := make_helper (v_axes_fixed v).

(** GridContainer.icpp:31-36 constructors, GridContainer.h:350 and 354. *)
Definition new_view {V} (axes : list (axis V)) : view V := mkView axes axes [].

(** GridContainer.h:356-357: number of cells allocated by a new grid. *)
Definition alloc_size {V} (v : view V) : nat :=
  axis_index_factor (axes_sizes (v_axes v)) (List.length (v_axes v)).

(** GridConstructionHelper.h:155-168 findAndFixAxis with GridContainer.icpp:38-43
    fixAxis: [None] when [old_axis[index]] would be out of range (UB). *)
Fixpoint fix_axis {V} (axes : list (axis V)) (ax index : nat) : option (list (axis V)) :=
  match axes with
  | [] => Some []
  | a :: r =>
      match ax with
      | O => match nth_error (ax_values a) index with
             | Some x => Some (mkAxis (ax_name a) [x] :: r)
             | None => None
             end
      | S ax' => match fix_axis r ax' index with
                 | Some r' => Some (a :: r')
                 | None => None
                 end
      end
  end.

(** GridContainer.icpp:45-57: the slice constructor. *)
Definition slice_ctor {V} (v : view V) (ax index : nat) : outcome (view V) :=
  match fix_axis (v_axes v) ax index with
  | None => UB
  | Some axes' =>
      match map_find (v_fixed v) ax with
      | Some _ => Throw
      | None => Ok (mkView (v_axes v) axes' (map_set (v_fixed v) ax index))
      end
  end.

(** GridContainer.icpp:211-226 fixAxisByIndex<I>; [I] is checked at compile
    time, so an out-of-range axis is not a run: modelled as UB. *)
Definition fix_axis_by_index {V} (v : view V) (ax index : nat) : outcome (view V) :=
  match nth_error (v_axes v) ax with
  | None => UB
  | Some a =>
      if Nat.leb (ax_size a) index then Throw
      else slice_ctor v ax index
  end.

(** std::find over the knots: position of the first equal element. *)
Fixpoint find_index {V} (eqb : V -> V -> bool) (l : list V) (x : V) : option nat :=
  match l with
  | [] => None
  | y :: r => if eqb y x then Some 0
              else match find_index eqb r x with Some i => Some (S i) | None => None end
  end.

(** GridContainer.icpp:228-245 fixAxisByValue<I>. *)
Definition fix_axis_by_value {V} (eqb : V -> V -> bool) (v : view V) (ax : nat) (x : V)
  : outcome (view V) :=
  match nth_error (v_axes v) ax with
  | None => UB
  | Some a =>
      match find_index eqb (ax_values a) x with
      | None => Throw
      | Some i => slice_ctor v ax i
      end
  end.

(** GridContainer.icpp:117-120 size(): last factor of the *fixed* axes. *)
Definition view_size {V} (v : view V) : nat := last (h_factors (v_helper_fixed v)) 0.

(** GridContainer.icpp:70-74 getAxis. *)
Definition get_axis {V} (v : view V) (i : nat) : option (axis V) := nth_error (v_axes_fixed v) i.

(** GridContainer.icpp:127-129 and 146-148: the loop adding the fixed indices. *)
Definition add_fixed (factors : list nat) (fixed : list (nat * nat)) (t : nat) : nat :=
  fold_left (fun acc p => acc + snd p * nth (fst p) factors 0) fixed t.

(** GridContainer.icpp:122-137 operator(): position read, unchecked. *)
Definition paren_pos {V} (v : view V) (coords : list nat) : nat :=
  let h := v_helper v in
  add_fixed (h_factors h) (v_fixed v) (calculate_total_index (h_factors h) coords).

Definition paren {V C} (v : view V) (cells : list C) (coords : list nat) : outcome C :=
  of_option (nth_error cells (paren_pos v coords)).

(** GridContainer.icpp:139-156 at(): both checks, then the same position. *)
Definition at_pos {V} (v : view V) (coords : list nat) : outcome nat :=
  let h := v_helper v in
  if negb (check_fixed_zero (h_sizes h) (v_fixed v) coords) then Throw
  else if negb (check_bounds (h_sizes h) coords) then Throw
  else Ok (add_fixed (h_factors h) (v_fixed v) (calculate_total_index (h_factors h) coords)).

Definition at_read {V C} (v : view V) (cells : list C) (coords : list nat) : outcome C :=
  do p <- at_pos v coords; of_option (nth_error cells p).

(** [grid.at(coords) = x]: assignment through the reference returned by at(). *)
Fixpoint list_set {C} (l : list C) (i : nat) (x : C) : option (list C) :=
  match l, i with
  | [], _ => None
  | _ :: r, O => Some (x :: r)
  | y :: r, S i' => match list_set r i' x with Some r' => Some (y :: r') | None => None end
  end.

Definition at_write {V C} (v : view V) (cells : list C) (coords : list nat) (x : C)
  : outcome (list C) :=
  do p <- at_pos v coords; of_option (list_set cells p x).

(** * Iterators *)

(** GridContainer.h:499-500: position and fixed indices of an iterator. *)
Record iter : Type := mkIter { it_pos : nat; it_fixed : list (nat * nat) }.

(** GridIterator.icpp:148-159 forwardToIndex. *)
Definition forward_to_index (h : index_helper) (pos ax fixed_index : nat) : outcome nat :=
  do current <- axis_index h ax pos;
  if Nat.eqb fixed_index current then Ok pos
  else
    do f <- of_option (nth_error (h_factors h) ax);
    do n <- of_option (nth_error (h_sizes h) ax);
    let distance := if Nat.ltb current fixed_index then fixed_index - current
                    else n + fixed_index - current in
    Ok (pos + distance * f).

(** GridIterator.icpp:51-55: the loop over the fixed indices, in key order. *)
Fixpoint forward_all (h : index_helper) (fixed : list (nat * nat)) (pos : nat) : outcome nat :=
  match fixed with
  | [] => Ok pos
  | (ax, k) :: r => do pos' <- forward_to_index h pos ax k; forward_all h r pos'
  end.

(** GridIterator.icpp:46-64 operator++; [n_cells] is the number of cells of
    the cell manager, i.e. the position of end(). *)
Definition iter_incr (h : index_helper) (n_cells : nat) (it : iter) : outcome iter :=
  let p := S (it_pos it) in
  match it_fixed it with
  | [] => Ok (mkIter p [])
  | fixed =>
      do q <- forward_all h fixed p;
      Ok (mkIter (if Nat.ltb n_cells q then n_cells else q) fixed)
  end.

(** GridIterator.icpp:118-133 fixAxisByIndex of an iterator. *)
Definition iter_fix_by_index (h : index_helper) (it : iter) (ax index : nat) : outcome iter :=
  let already := match map_find (it_fixed it) ax with
                 | Some k => negb (Nat.eqb k index)
                 | None => false
                 end in
  if already then Throw
  else
    match nth_error (h_sizes h) ax with
    | None => UB
    | Some n =>
        if Nat.leb n index then Throw
        else
          do q <- forward_to_index h (it_pos it) ax index;
          Ok (mkIter q (map_set (it_fixed it) ax index))
    end.

(** GridIterator.icpp:135-146 fixAxisByValue of an iterator of a container
    with the given (original) axes. *)
Definition iter_fix_by_value {V} (eqb : V -> V -> bool) (v : view V) (it : iter) (ax : nat) (x : V)
  : outcome iter :=
  match nth_error (v_axes v) ax with
  | None => UB
  | Some a =>
      match find_index eqb (ax_values a) x with
      | None => Throw
      | Some i => iter_fix_by_index (v_helper v) it ax i
      end
  end.

(** GridConstructionHelper.h:170-182 fixIteratorAxes: axes 0 .. N-1, where
    [todo] is the number of axes left and [i] the counter [I]. *)
Fixpoint fix_iterator_axes (h : index_helper) (fixed : list (nat * nat)) (todo i : nat) (it : iter)
  : outcome iter :=
  match todo with
  | O => Ok it
  | S todo' =>
      do it' <- (match map_find fixed i with
                 | Some k => iter_fix_by_index h it i k
                 | None => Ok it
                 end);
      fix_iterator_axes h fixed todo' (S i) it'
  end.

(** GridContainer.icpp:81-100 begin(). *)
Definition view_begin {V} (v : view V) : outcome iter :=
  fix_iterator_axes (v_helper v) (v_fixed v) (List.length (v_axes v)) 0 (mkIter 0 []).

(** GridIterator.icpp:102-116 axisIndex<I>() and axisValue<I>(). *)
Definition iter_axis_index {V} (v : view V) (it : iter) (ax : nat) : outcome nat :=
  axis_index (v_helper v) ax (it_pos it).

Definition iter_axis_value {V} (v : view V) (it : iter) (ax : nat) : outcome V :=
  do i <- iter_axis_index v it ax;
  do a <- of_option (nth_error (v_axes v) ax);
  of_option (nth_error (ax_values a) i).

(** GridIterator.icpp:161-176 fixAllAxes: axes N-1 .. 0, by value; [i] is the
    number of axes still to do, so the template counter is [i - 1]. *)
Fixpoint fix_same_axes {V} (eqb : V -> V -> bool) (from_v to_v : view V) (from : iter)
    (i : nat) (to : iter) : outcome iter :=
  match i with
  | O => Ok to
  | S i' =>
      do x <- iter_axis_value from_v from i';
      do to' <- iter_fix_by_value eqb to_v to i' x;
      fix_same_axes eqb from_v to_v from i' to'
  end.

(** The range-for loop [for (auto& c : grid) out.push_back(c)]:
    GridContainer.icpp:81-115, GridIterator.icpp:46-70 and 96-100. The loop
    compares positions with [!=], so it is modelled with fuel; dereferencing
    past the last cell is UB. *)
Fixpoint visit_from {C} (h : index_helper) (cells : list C) (fuel : nat) (it : iter)
  : outcome (list (nat * C)) :=
  match fuel with
  | O => Diverge
  | S fuel' =>
      if Nat.eqb (it_pos it) (List.length cells) then Ok []
      else
        do c <- of_option (nth_error cells (it_pos it));
        do it' <- iter_incr h (List.length cells) it;
        do rest <- visit_from h cells fuel' it';
        Ok ((it_pos it, c) :: rest)
  end.

Definition visit {V C} (v : view V) (cells : list C) (fuel : nat) : outcome (list (nat * C)) :=
  do it <- view_begin v;
  visit_from (v_helper v) cells fuel it.

(** * infimum *)

(** std::upper_bound: position of the first element greater than [x] in a
    range sorted by [ltb]. The binary search of the standard library is
    modelled by its specification on sorted input: the first position whose
    element compares greater. *)
Fixpoint upper_bound {V} (ltb : V -> V -> bool) (l : list V) (x : V) : nat :=
  match l with
  | [] => 0
  | y :: r => if ltb x y then 0 else S (upper_bound ltb r x)
  end.

(** GridAxis.icpp:74-81 infimum, as a position from begin(). *)
Definition axis_infimum {V} (ltb eqb : V -> V -> bool) (a : axis V) (x : V) : nat :=
  let ub := upper_bound ltb (ax_values a) x in
  if Nat.eqb ub 0
     || (negb (Nat.eqb ub (ax_size a))
         && match nth_error (ax_values a) ub with Some y => eqb y x | None => false end)
  then ub
  else ub - 1.

(** GridContainer.icpp:158-209 InfimumHelper / infimum: every axis of the
    original axes, independently. *)
Fixpoint grid_infimum {V} (ltb eqb : V -> V -> bool) (axes : list (axis V)) (coords : list V)
  : list nat :=
  match axes, coords with
  | a :: ar, x :: xr => axis_infimum ltb eqb a x :: grid_infimum ltb eqb ar xr
  | _, _ => []
  end.

(** A chain of calls v.fixAxisByIndex<a1>(k1).fixAxisByIndex<a2>(k2)...
    (GridContainer.icpp:211-226 applied repeatedly). *)
Fixpoint fix_chain {V} (v : view V) (fixes : list (nat * nat)) : outcome (view V) :=
  match fixes with
  | [] => Ok v
  | (ax, k) :: r => do v' <- fix_axis_by_index v ax k; fix_chain v' r
  end.
