(** Property theorems about GridContainer. Each is closed by a lemma of the
    proof files. The vocabulary is in GridSpec.v (what a grid is) and
    GridModel.v (the API). *)
From Coq Require Import List Arith Lia Bool Sorted String.
From Verif Require Import Common GridModel GridIOModel GridSpec GridProofs GridProofs2 GridProofs3 GridProofs4.
Import ListNotations.
Local Notation length := List.length.

(** A 2 x 3 x 2 grid used by the examples. *)
Definition ex_axes : list (axis nat) :=
  [mkAxis "a" [10; 20]; mkAxis "b c" [1; 2; 3]; mkAxis "d" [7; 9]].
Definition ex_cells : list nat := seq 100 12.
Example ex_positive : positive (axes_sizes ex_axes).
Proof. repeat constructor. Qed.
Example ex_cells_length : length ex_cells = cell_count (axes_sizes ex_axes).
Proof. reflexivity. Qed.
(** The enumeration of the specification, on a small grid. *)
Example all_coords_23 : all_coords [2; 3] = [[0;0]; [1;0]; [0;1]; [1;1]; [0;2]; [1;2]].
Proof. reflexivity. Qed.

(** ** C01 *)
Theorem C01_coordinates_index_bijection :
  forall (V : Type) (axes : list (axis V)), positive (axes_sizes axes) ->
    (* the p-th cell in storage order is the cell addressed with [coords] ... *)
    (forall p coords, nth_error (all_coords (axes_sizes axes)) p = Some coords <->
       (in_range (axes_sizes axes) coords /\
        calculate_total_index (h_factors (make_helper axes)) coords = p)) /\
    (* ... there are size() of them, all different ... *)
    length (all_coords (axes_sizes axes)) = view_size (new_view axes) /\
    NoDup (all_coords (axes_sizes axes)) /\
    (* ... they are all the tuples in range ... *)
    (forall coords, In coords (all_coords (axes_sizes axes)) <-> in_range (axes_sizes axes) coords) /\
    (* ... and the axis indices reported for the cell are its coordinates. *)
    (forall p coords ax, nth_error (all_coords (axes_sizes axes)) p = Some coords ->
       ax < length axes ->
       axis_index (make_helper axes) ax p = of_option (nth_error coords ax)).
Proof.
  exact (fun V axes Hp => conj (index_coords_inverse (axes_sizes axes) Hp)
    (conj (eq_trans (all_coords_length _) (eq_sym (view_size_spec (new_view axes))))
    (conj (all_coords_nodup _) (conj (in_all_coords _)
    (fun p coords ax H Hax => axis_index_coords (axes_sizes axes) p coords ax Hp H
       (eq_ind_r (fun n => ax < n) Hax (map_length ax_size axes))))))).
Qed.
Print Assumptions C01_coordinates_index_bijection.

Example C01_case :
  positive (axes_sizes ex_axes) /\
  nth_error (all_coords (axes_sizes ex_axes)) 9 = Some [1; 1; 1] /\
  calculate_total_index (h_factors (make_helper ex_axes)) [1; 1; 1] = 9 /\
  axis_index (make_helper ex_axes) 1 9 = Ok 1.
Proof. repeat split; repeat constructor. Qed.

(** ** C02 *)
Theorem C02_checked_access :
  forall (V C : Type) (axes : list (axis V)) (fixes : list (nat * nat)) (v : view V)
         (cells : list C) (coords : list nat),
    fix_chain (new_view axes) fixes = Ok v ->
    length cells = cell_count (axes_sizes axes) ->
    length coords = length axes ->
    (accepted (axes_sizes axes) fixes coords ->
       exists full c, addresses fixes coords full /\
         In (full, c) (content (axes_sizes axes) cells) /\
         at_read v cells coords = Ok c /\ paren v cells coords = Ok c) /\
    (~ accepted (axes_sizes axes) fixes coords -> at_read v cells coords = Throw).
Proof. exact @at_read_spec. Qed.
Print Assumptions C02_checked_access.

Example C02_case : exists v, fix_chain (new_view ex_axes) [(2, 1); (0, 1)] = Ok v /\
  accepted (axes_sizes ex_axes) [(2, 1); (0, 1)] [0; 2; 0] /\
  at_read v ex_cells [0; 2; 0] = Ok 111 /\
  at_read v ex_cells [1; 2; 0] = Throw /\ at_read v ex_cells [0; 3; 0] = Throw.
Proof.
  eexists. split; [reflexivity|]. split; [|repeat split].
  split; [repeat constructor|]. intros ax k [H|[H|[]]]; injection H as <- <-; reflexivity.
Qed.

(** ** C03 *)
Theorem C03_iteration_visits_exactly_the_matching_cells :
  forall (V C : Type) (axes : list (axis V)) (fixes : list (nat * nat)) (v : view V)
         (cells : list C) (fuel : nat),
    fix_chain (new_view axes) fixes = Ok v ->
    positive (axes_sizes axes) ->
    length cells = cell_count (axes_sizes axes) ->
    length cells < fuel ->
    exists out, visit v cells fuel = Ok out /\
      Forall2 (fun (visited : nat * C) (cell : list nat * C) =>
                 snd visited = snd cell /\
                 forall ax, ax < length axes ->
                   iter_axis_index v (mkIter (fst visited) (v_fixed v)) ax
                   = of_option (nth_error (fst cell) ax))
        out
        (filter (fun p => matchesb fixes (fst p)) (content (axes_sizes axes) cells)).
Proof. exact @visit_spec. Qed.
Print Assumptions C03_iteration_visits_exactly_the_matching_cells.

Example C03_case : exists v out, fix_chain (new_view ex_axes) [(2, 1); (0, 1)] = Ok v /\
  visit v ex_cells 20 = Ok out /\ map snd out = [107; 109; 111] /\
  map snd (filter (fun p => matchesb [(2, 1); (0, 1)] (fst p)) (content (axes_sizes ex_axes) ex_cells))
  = [107; 109; 111].
Proof. do 2 eexists. split; [reflexivity|]. split; [reflexivity|]. split; reflexivity. Qed.

(** The hypothesis on the axes is needed: a slice of a grid with an empty axis
    starts after its end, and dereferences a cell that does not exist. *)
Theorem C03_empty_axis_refuted :
  exists (axes : list (axis nat)) (fixes : list (nat * nat)) (v : view nat) (cells : list nat),
    fix_chain (new_view axes) fixes = Ok v /\ length cells = cell_count (axes_sizes axes) /\
    visit v cells 10 = UB.
Proof.
  exists [mkAxis "a" [1; 2]; mkAxis "b" []], [(0, 1)]. eexists. exists [].
  split; [reflexivity|]. split; reflexivity.
Qed.
Print Assumptions C03_empty_axis_refuted.

(** ** C04 *)
Theorem C04_increment_moves_to_the_next_matching_cell :
  forall (V : Type) (axes : list (axis V)) (fixes : list (nat * nat)) (v : view V) (p : nat) (coords : list nat),
    fix_chain (new_view axes) fixes = Ok v ->
    positive (axes_sizes axes) ->
    nth_error (all_coords (axes_sizes axes)) p = Some coords ->
    matches fixes coords ->
    exists q, iter_incr (v_helper v) (cell_count (axes_sizes axes)) (mkIter p (v_fixed v))
                = Ok (mkIter q (v_fixed v)) /\
      p < q /\
      (* no matching cell is skipped *)
      (forall r c, p < r -> r < q -> nth_error (all_coords (axes_sizes axes)) r = Some c ->
                   ~ matches fixes c) /\
      (* and the iterator is at the end or on a matching cell *)
      (q = cell_count (axes_sizes axes) \/
       exists c, nth_error (all_coords (axes_sizes axes)) q = Some c /\ matches fixes c).
Proof. exact @incr_next. Qed.
Print Assumptions C04_increment_moves_to_the_next_matching_cell.

Example C04_case : exists v, fix_chain (new_view ex_axes) [(1, 1)] = Ok v /\
  nth_error (all_coords (axes_sizes ex_axes)) 3 = Some [1; 1; 0] /\ matches [(1, 1)] [1; 1; 0] /\
  iter_incr (v_helper v) 12 (mkIter 3 (v_fixed v)) = Ok (mkIter 8 [(1, 1)]).
Proof.
  eexists. split; [reflexivity|]. split; [reflexivity|]. split; [|reflexivity].
  intros ax k [H|[]]. injection H as <- <-. reflexivity.
Qed.

(** ** C05 *)
Theorem C05_write_through_slice :
  forall (V C : Type) (axes : list (axis V)) (fixes : list (nat * nat)) (v : view V)
         (cells : list C) (coords : list nat) (x : C),
    fix_chain (new_view axes) fixes = Ok v ->
    length cells = cell_count (axes_sizes axes) ->
    length coords = length axes ->
    (accepted (axes_sizes axes) fixes coords ->
       exists full cells', addresses fixes coords full /\
         at_write v cells coords x = Ok cells' /\ length cells' = length cells /\
         forall other c, In (other, c) (content (axes_sizes axes) cells') <->
           (other = full /\ c = x) \/
           (other <> full /\ In (other, c) (content (axes_sizes axes) cells))) /\
    (~ accepted (axes_sizes axes) fixes coords -> at_write v cells coords x = Throw).
Proof. exact @at_write_spec. Qed.
Print Assumptions C05_write_through_slice.

(** What one slice writes, every other view of the same grid reads: *)
Theorem C05_write_seen_through_other_slices :
  forall (V C : Type) (axes : list (axis V)) (fixes1 fixes2 : list (nat * nat)) (v1 v2 : view V)
         (cells cells' : list C) (coords1 coords2 full1 full2 : list nat) (x : C),
    fix_chain (new_view axes) fixes1 = Ok v1 ->
    fix_chain (new_view axes) fixes2 = Ok v2 ->
    length cells = cell_count (axes_sizes axes) ->
    length coords1 = length axes -> length coords2 = length axes ->
    accepted (axes_sizes axes) fixes1 coords1 -> accepted (axes_sizes axes) fixes2 coords2 ->
    addresses fixes1 coords1 full1 -> addresses fixes2 coords2 full2 ->
    at_write v1 cells coords1 x = Ok cells' ->
    (full1 = full2 -> at_read v2 cells' coords2 = Ok x) /\
    (full1 <> full2 -> at_read v2 cells' coords2 = at_read v2 cells coords2).
Proof. exact @write_then_read. Qed.
Print Assumptions C05_write_seen_through_other_slices.

Example C05_case : exists v1 v2 cells', fix_chain (new_view ex_axes) [(2, 1)] = Ok v1 /\
  fix_chain (new_view ex_axes) [(0, 1); (1, 2)] = Ok v2 /\
  accepted (axes_sizes ex_axes) [(2, 1)] [1; 2; 0] /\
  at_write v1 ex_cells [1; 2; 0] 5 = Ok cells' /\ at_read v2 cells' [0; 0; 1] = Ok 5 /\
  at_read v2 cells' [0; 0; 0] = at_read v2 ex_cells [0; 0; 0].
Proof.
  do 3 eexists. split; [reflexivity|]. split; [reflexivity|]. split; [|repeat split].
  split; [repeat constructor|]. intros ax k [H|[]]; injection H as <- <-; reflexivity.
Qed.

(** ** C06 *)
Theorem C06_fix_by_index_validates :
  forall (V : Type) (axes : list (axis V)) (fixes : list (nat * nat)) (v : view V) (ax k : nat) (a : axis V),
    fix_chain (new_view axes) fixes = Ok v ->
    nth_error axes ax = Some a ->
    (fix_axis_by_index v ax k = Throw <-> (ax_size a <= k \/ In ax (map fst fixes))) /\
    (~ (ax_size a <= k \/ In ax (map fst fixes)) -> exists v', fix_axis_by_index v ax k = Ok v').
Proof. exact @fix_by_index_iff. Qed.
Print Assumptions C06_fix_by_index_validates.

Theorem C06_fix_by_value :
  forall (V : Type) (eqb : V -> V -> bool) (axes : list (axis V)) (fixes : list (nat * nat))
         (v : view V) (ax : nat) (x : V) (a : axis V),
    fix_chain (new_view axes) fixes = Ok v ->
    nth_error axes ax = Some a ->
    match fix_axis_by_value eqb v ax x with
    | Ok v' => exists k y, nth_error (ax_values a) k = Some y /\ eqb y x = true /\
                 (forall j z, j < k -> nth_error (ax_values a) j = Some z -> eqb z x = false) /\
                 fix_axis_by_index v ax k = Ok v'
    | Throw => (forall y, In y (ax_values a) -> eqb y x = false) \/ In ax (map fst fixes)
    | _ => False
    end.
Proof. exact @fix_by_value_chain. Qed.
Print Assumptions C06_fix_by_value.

Theorem C06_single_slice_metadata :
  forall (V : Type) (axes : list (axis V)) (ax k : nat) (v : view V),
    fix_axis_by_index (new_view axes) ax k = Ok v ->
    (exists a x, nth_error axes ax = Some a /\ nth_error (ax_values a) k = Some x /\
       get_axis v ax = Some (mkAxis (ax_name a) [x])) /\
    (forall j, j <> ax -> get_axis v j = nth_error axes j) /\
    view_size v = length (filter (matchesb [(ax, k)]) (all_coords (axes_sizes axes))).
Proof. exact @single_slice_size. Qed.
Print Assumptions C06_single_slice_metadata.

(** A slice of a slice forgets the first fixed axis: it reports all its knots
    and a size() larger than the number of cells it iterates over. *)
Theorem C06_slice_of_slice_metadata_refuted :
  exists (axes : list (axis nat)) (fixes : list (nat * nat)) (v : view nat) (cells : list nat) out,
    fix_chain (new_view axes) fixes = Ok v /\ length cells = cell_count (axes_sizes axes) /\
    visit v cells 20 = Ok out /\ length out = 3 /\ view_size v = 6 /\
    get_axis v 2 = nth_error axes 2 /\ In 2 (map fst fixes).
Proof.
  exists ex_axes, [(2, 1); (0, 1)]. do 2 eexists. exists (map (fun i => (i, 100 + i)) [7; 9; 11]).
  split; [reflexivity|]. instantiate (1 := ex_cells).
  split; [reflexivity|]. split; [reflexivity|]. repeat split. left. reflexivity.
Qed.
Print Assumptions C06_slice_of_slice_metadata_refuted.

Example C06_case : exists v, fix_axis_by_index (new_view ex_axes) 1 2 = Ok v /\ view_size v = 4 /\
  get_axis v 1 = Some (mkAxis "b c" [3]) /\ fix_axis_by_index v 1 0 = Throw /\
  fix_axis_by_index (new_view ex_axes) 1 3 = Throw /\
  fix_axis_by_value Nat.eqb (new_view ex_axes) 1 3 = Ok v.
Proof. eexists. split; [reflexivity|]. repeat split. Qed.

(** ** C07 *)
Theorem C07_axis_infimum :
  forall (V : Type) (ltb eqb : V -> V -> bool) (a : axis V) (x : V),
    (forall p q, eqb p q = true -> ltb q p = false) ->
    (forall p q r, ltb p q = true -> ltb r q = false -> ltb p r = true) ->
    StronglySorted (fun p q => ltb q p = false) (ax_values a) ->
    ax_values a <> [] ->
    let i := axis_infimum ltb eqb a x in
    (exists y, nth_error (ax_values a) i = Some y /\ ltb x y = false /\
       forall j z, i < j -> nth_error (ax_values a) j = Some z -> ltb x z = true)
    \/ (i = 0 /\ forall z, In z (ax_values a) -> ltb x z = true).
Proof. exact @infimum_spec. Qed.
Print Assumptions C07_axis_infimum.

Theorem C07_grid_infimum_axiswise :
  forall (V : Type) (ltb eqb : V -> V -> bool) (axes : list (axis V)) (coords : list V) (i : nat) (a : axis V) (x : V),
    nth_error axes i = Some a -> nth_error coords i = Some x ->
    nth_error (grid_infimum ltb eqb axes coords) i = Some (axis_infimum ltb eqb a x).
Proof. exact @grid_infimum_nth. Qed.
Print Assumptions C07_grid_infimum_axiswise.

Example C07_case :
  StronglySorted (fun p q => Nat.ltb q p = false) [1; 3; 3; 5] /\
  map (axis_infimum Nat.ltb Nat.eqb (mkAxis "x" [1; 3; 3; 5])) [0; 1; 2; 3; 4; 5; 6] = [0; 0; 0; 2; 2; 3; 3].
Proof. split; [repeat constructor|reflexivity]. Qed.

(** ** C08 *)
Theorem C08_grid_to_table :
  forall (V C : Type) (axes : list (axis V)) (fixes : list (nat * nat)) (v : view V) (cells : list C),
    fix_chain (new_view axes) fixes = Ok v -> length fixes <= 1 ->
    positive (axes_sizes axes) -> length cells = cell_count (axes_sizes axes) ->
    grid_to_table v cells =
    Ok (rev (map (fun a => underscore (ax_name a)) axes),
        map (fun p => (rev (knot_values (map ax_values axes) (fst p)), snd p))
            (filter (fun p => matchesb fixes (fst p)) (content (axes_sizes axes) cells))).
Proof. exact @table_spec. Qed.
Print Assumptions C08_grid_to_table.

(** For a slice of a slice the conversion throws. *)
Theorem C08_slice_of_slice_refuted :
  exists (axes : list (axis nat)) (fixes : list (nat * nat)) (v : view nat) (cells : list nat),
    fix_chain (new_view axes) fixes = Ok v /\ length cells = cell_count (axes_sizes axes) /\
    grid_to_table v cells = Throw.
Proof.
  exists ex_axes, [(2, 1); (0, 1)]. do 2 eexists. instantiate (1 := ex_cells).
  split; [reflexivity|]. split; reflexivity.
Qed.
Print Assumptions C08_slice_of_slice_refuted.

Example C08_case : exists v, fix_chain (new_view ex_axes) [(1, 1)] = Ok v /\
  grid_to_table v ex_cells = Ok (["d"; "b_c"; "a"]%string,
    [([7; 2; 10], 102); ([7; 2; 20], 103); ([9; 2; 10], 108); ([9; 2; 20], 109)]).
Proof. eexists. split; [reflexivity|]. reflexivity. Qed.

(** ** C09 *)
Theorem C09_serialization_round_trip :
  forall (V C : Type) (axes : list (axis V)) (cells : list C) (fuel : nat) (rest : list (token V C)),
    length cells = cell_count (axes_sizes axes) -> length cells < fuel ->
    exists ts, save_grid (new_view axes) cells fuel = Ok ts /\
      load_grid (length axes) (ts ++ rest) = Ok (new_view axes, cells, rest).
Proof. exact @roundtrip_unsliced. Qed.
Print Assumptions C09_serialization_round_trip.

Theorem C09_serialization_of_a_slice :
  forall (V C : Type) (axes : list (axis V)) (ax k : nat) (v : view V) (cells : list C) (fuel : nat)
         (rest : list (token V C)),
    fix_axis_by_index (new_view axes) ax k = Ok v -> positive (axes_sizes axes) ->
    length cells = cell_count (axes_sizes axes) -> length cells < fuel ->
    exists ts, save_grid v cells fuel = Ok ts /\
      load_grid (length axes) (ts ++ rest)
      = Ok (new_view (v_axes_fixed v),
            map snd (filter (fun p => matchesb [(ax, k)] (fst p)) (content (axes_sizes axes) cells)), rest).
Proof. exact @roundtrip_slice. Qed.
Print Assumptions C09_serialization_of_a_slice.

(** Loading gives a grid or an exception whatever the archive holds, and an archive
    that ends before the last item of a saved grid gives the exception. *)
Theorem C09_truncated_archive :
  (forall (V C : Type) (n : nat) (ts : list (token V C)),
     (exists v cells rest, load_grid n ts = Ok (v, cells, rest)) \/ load_grid n ts = Throw) /\
  (forall (V C : Type) (axes : list (axis V)) (cells : list C) (fuel : nat) (kept lost : list (token V C)),
     length cells = cell_count (axes_sizes axes) -> length cells < fuel ->
     save_grid (new_view axes) cells fuel = Ok (kept ++ lost) -> lost <> [] ->
     load_grid (length axes) kept = Throw).
Proof.
  split; [intros V C n ts; exact (proj2 (load_grid_more n ts []))|].
  intros V C axes cells fuel kept lost Hl Hf Hs. exact (truncated_archive axes cells fuel _ kept lost Hl Hf Hs eq_refl).
Qed.
Print Assumptions C09_truncated_archive.

(** A saved slice of a slice cannot be loaded. *)
Theorem C09_slice_of_slice_refuted :
  exists (axes : list (axis nat)) (fixes : list (nat * nat)) (v : view nat) (cells : list nat) ts,
    fix_chain (new_view axes) fixes = Ok v /\ length cells = cell_count (axes_sizes axes) /\
    save_grid v cells 20 = Ok ts /\ load_grid (length axes) ts = Throw.
Proof.
  exists ex_axes, [(2, 1); (0, 1)]. eexists. exists ex_cells. eexists.
  split; [reflexivity|]. split; [reflexivity|]. split; reflexivity.
Qed.
Print Assumptions C09_slice_of_slice_refuted.

Example C09_case : exists ts, save_grid (new_view ex_axes) ex_cells 20 = Ok ts /\
  length ts = 25 /\ load_grid 3 (ts ++ [TSize 4]) = Ok (new_view ex_axes, ex_cells, [TSize 4]).
Proof. eexists. split; [reflexivity|]. split; reflexivity. Qed.

(** ** C10 *)
Theorem C10_fix_axis_of_a_moving_iterator :
  forall (V : Type) (axes : list (axis V)) (p ax k : nat) (coords : list nat) (fixed : list (nat * nat)),
    positive (axes_sizes axes) ->
    nth_error (all_coords (axes_sizes axes)) p = Some coords ->
    (exists n, nth_error (axes_sizes axes) ax = Some n /\ k < n) ->
    map_find fixed ax = None ->
    exists q, iter_fix_by_index (make_helper axes) (mkIter p fixed) ax k
                = Ok (mkIter q (map_set fixed ax k)) /\
      p <= q /\
      (* nothing is skipped when the cell already matches or all faster coordinates are zero *)
      ((nth_error coords ax = Some k \/
        (forall b c, b < ax -> nth_error coords b = Some c -> c = 0)) ->
         forall r, p <= r -> r < q ->
         forall c, nth_error (all_coords (axes_sizes axes)) r = Some c -> nth_error c ax <> Some k) /\
      (* otherwise a matching cell is skipped *)
      (nth_error coords ax <> Some k ->
       (exists b c, b < ax /\ nth_error coords b = Some c /\ c <> 0) ->
       q < cell_count (axes_sizes axes) ->
         exists r c, p < r /\ r < q /\ nth_error (all_coords (axes_sizes axes)) r = Some c /\
                     nth_error c ax = Some k) /\
      (q < cell_count (axes_sizes axes) ->
         exists c, nth_error (all_coords (axes_sizes axes)) q = Some c /\ nth_error c ax = Some k).
Proof. exact (fun V axes => iter_fix_spec (axes_sizes axes)). Qed.
Print Assumptions C10_fix_axis_of_a_moving_iterator.

(** The new position is not clipped to end(): a loop up to end() then runs
    outside of the cells. *)
Theorem C10_moving_iterator_past_end_refuted :
  exists (axes : list (axis nat)) (cells : list nat) (it : iter),
    length cells = cell_count (axes_sizes axes) /\
    iter_fix_by_index (make_helper axes) (mkIter 2 []) 0 1 = Ok it /\
    length cells < it_pos it /\
    visit_from (make_helper axes) cells 10 it = UB.
Proof.
  exists [mkAxis "a" [1; 2; 3]], [4; 5; 6]. eexists.
  split; [reflexivity|]. split; [reflexivity|]. split; [simpl; lia|reflexivity].
Qed.
Print Assumptions C10_moving_iterator_past_end_refuted.

Example C10_case :
  nth_error (all_coords (axes_sizes ex_axes)) 1 = Some [1; 0; 0] /\
  iter_fix_by_index (make_helper ex_axes) (mkIter 1 []) 1 2 = Ok (mkIter 5 [(1, 2)]) /\
  nth_error (all_coords (axes_sizes ex_axes)) 4 = Some [0; 2; 0].
Proof. repeat split. Qed.

(** ** C68 *)
Theorem C68_fix_all_axes :
  forall (V : Type) (eqb : V -> V -> bool) (from_v : view V) (axes : list (axis V)) (from : iter) (idx : list nat),
    positive (axes_sizes axes) ->
    length idx = length axes ->
    (forall ax, ax < length axes -> exists a x k, nth_error axes ax = Some a /\
        iter_axis_value from_v from ax = Ok x /\ find_index eqb (ax_values a) x = Some k /\
        nth_error idx ax = Some k) ->
    exists p fixed,
      fix_same_axes eqb from_v (new_view axes) from (length axes) (mkIter 0 []) = Ok (mkIter p fixed) /\
      nth_error (all_coords (axes_sizes axes)) p = Some idx.
Proof. exact @fix_all_axes_spec. Qed.
Print Assumptions C68_fix_all_axes.

(** A value of the other iterator that is on no knot of the axis is refused. *)
Theorem C68_value_on_no_knot :
  forall (V : Type) (eqb : V -> V -> bool) (from_v : view V) (axes : list (axis V)) (from : iter)
         (ax : nat) (a : axis V) (x : V),
    positive (axes_sizes axes) ->
    (forall ax, ax < length axes -> exists x, iter_axis_value from_v from ax = Ok x) ->
    nth_error axes ax = Some a -> iter_axis_value from_v from ax = Ok x ->
    (forall y, In y (ax_values a) -> eqb y x = false) ->
    fix_same_axes eqb from_v (new_view axes) from (length axes) (mkIter 0 []) = Throw.
Proof. intros V eqb from_v axes from ax a x Hp Hv. exact (fix_same_axes_missing eqb from_v axes from Hp Hv ax a x). Qed.
Print Assumptions C68_value_on_no_knot.

Example C68_case :
  let other := [mkAxis "a" [20; 5; 10]; mkAxis "b" [3; 1]; mkAxis "d" [9; 7]] in
  fix_same_axes Nat.eqb (new_view other) (new_view ex_axes) (mkIter 3 []) 3 (mkIter 0 [])
    = Ok (mkIter 7 [(0, 1); (1, 0); (2, 1)]) /\
  nth_error (all_coords (axes_sizes ex_axes)) 7 = Some [1; 0; 1] /\
  iter_axis_value (new_view other) (mkIter 4 []) 0 = Ok 5 /\
  fix_same_axes Nat.eqb (new_view other) (new_view ex_axes) (mkIter 4 []) 3 (mkIter 0 []) = Throw.
Proof. repeat split. Qed.
