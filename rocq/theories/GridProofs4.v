(** Archives that do not hold a whole grid, and values that are on no knot. *)
From Coq Require Import List Arith Lia Bool.
From Verif Require Import Common GridModel GridIOModel GridSpec GridProofs GridProofs2 GridProofs3.
Import ListNotations.

(** ** Reading a longer archive *)
Lemma load_knots_more {V C} n : forall (p q : list (token V C)),
  (forall l r, load_knots n p = Ok (l, r) -> load_knots n (p ++ q) = Ok (l, r ++ q)) /\
  ((exists l r, load_knots n p = Ok (l, r)) \/ load_knots n p = Throw).
Proof.
  induction n as [|n IH]; intros p q.
  - cbn [load_knots load_cells]. split; [|left; eauto]. intros l r E. injection E as <- <-. reflexivity.
  - cbn [load_knots]. destruct p as [|[s|m|x|c] p]; cbn [app]; try (split; [discriminate|right; reflexivity]).
    destruct (IH p q) as (H & [(l & r & E)|E]).
    + rewrite E, (H l r E). cbn [bind fst snd]. split; [|left; eauto]. intros l' r' E'. injection E' as <- <-. reflexivity.
    + rewrite E. cbn [bind]. split; [discriminate|right; reflexivity].
Qed.

Lemma load_cells_more {V C} n : forall (p q : list (token V C)),
  (forall l r, load_cells n p = Ok (l, r) -> load_cells n (p ++ q) = Ok (l, r ++ q)) /\
  ((exists l r, load_cells n p = Ok (l, r)) \/ load_cells n p = Throw).
Proof.
  induction n as [|n IH]; intros p q.
  - cbn [load_knots load_cells]. split; [|left; eauto]. intros l r E. injection E as <- <-. reflexivity.
  - cbn [load_cells]. destruct p as [|[s|m|x|c] p]; cbn [app]; try (split; [discriminate|right; reflexivity]).
    destruct (IH p q) as (H & [(l & r & E)|E]).
    + rewrite E, (H l r E). cbn [bind fst snd]. split; [|left; eauto]. intros l' r' E'. injection E' as <- <-. reflexivity.
    + rewrite E. cbn [bind]. split; [discriminate|right; reflexivity].
Qed.

Lemma load_axis_more {V C} (p q : list (token V C)) :
  (forall a r, load_axis p = Ok (a, r) -> load_axis (p ++ q) = Ok (a, r ++ q)) /\
  ((exists a r, load_axis p = Ok (a, r)) \/ load_axis p = Throw).
Proof.
  unfold load_axis. destruct p as [|[s|m|x|c] p]; cbn [app]; try (split; [discriminate|right; reflexivity]).
  destruct p as [|[s'|m|x|c] p]; cbn [app]; try (split; [discriminate|right; reflexivity]).
  destruct (load_knots_more m p q) as (H & [(l & r & E)|E]).
  - rewrite E, (H l r E). cbn [bind fst snd]. split; [|left; eauto]. intros a' r' E'. injection E' as <- <-. reflexivity.
  - rewrite E. cbn [bind]. split; [discriminate|right; reflexivity].
Qed.

Lemma load_axes_more {V C} i : forall (p q : list (token V C)) tl,
  (forall a r, load_axes i p tl = Ok (a, r) -> load_axes i (p ++ q) tl = Ok (a, r ++ q)) /\
  ((exists a r, load_axes i p tl = Ok (a, r)) \/ load_axes i p tl = Throw).
Proof.
  induction i as [|i IH]; intros p q tl.
  - split; [|left; cbn; eauto]. intros a r E. cbn in *. injection E as <- <-. reflexivity.
  - cbn [load_axes]. destruct (load_axis_more p q) as (H & [(a & r & E)|E]).
    + rewrite E, (H a r E). cbn [bind fst snd]. apply IH.
    + rewrite E. cbn [bind]. split; [discriminate|right; reflexivity].
Qed.

Lemma load_grid_more {V C} i (p q : list (token V C)) :
  (forall v cells r, load_grid i p = Ok (v, cells, r) -> load_grid i (p ++ q) = Ok (v, cells, r ++ q)) /\
  ((exists v cells r, load_grid i p = Ok (v, cells, r)) \/ load_grid i p = Throw).
Proof.
  unfold load_grid. destruct (load_axes_more i p q []) as (H & [(a & r & E)|E]).
  - rewrite E, (H a r E). cbn [bind fst snd].
    destruct (load_cells_more (alloc_size (new_view a)) r q) as (H' & [(l & r' & E')|E']).
    + rewrite E', (H' l r' E'). cbn [bind fst snd]. split; [|left; eauto]. intros v c s X. injection X as <- <- <-. reflexivity.
    + rewrite E'. cbn [bind]. split; [discriminate|right; reflexivity].
  - rewrite E. cbn [bind]. split; [discriminate|right; reflexivity].
Qed.

Lemma truncated_archive {V C} (axes : list (axis V)) (cells : list C) fuel ts p q :
  length cells = cell_count (axes_sizes axes) -> length cells < fuel ->
  save_grid (new_view axes) cells fuel = Ok ts -> ts = p ++ q -> q <> [] ->
  load_grid (length axes) p = Throw.
Proof.
  intros Hl Hf Hs E N. destruct (roundtrip_unsliced axes cells fuel [] Hl Hf) as (ts' & Hs' & Hr).
  replace ts' with ts in Hr by congruence. rewrite app_nil_r, E in Hr.
  destruct (load_grid_more (length axes) p q) as (H & [(v & c & r & E')|E']); [|exact E'].
  rewrite (H v c r E') in Hr. injection Hr as _ _ Hr. destruct r; [|discriminate]. cbn in Hr. contradiction.
Qed.

(** ** A value that is on no knot *)
Lemma find_index_none {V} (eqb : V -> V -> bool) l x :
  (forall y, In y l -> eqb y x = false) <-> find_index eqb l x = None.
Proof.
  induction l as [|y l IH]; [split; [reflexivity|intros _ y []]|]. cbn [find_index]. split.
  - intros H. rewrite (H y (or_introl eq_refl)), (proj1 IH); [reflexivity|]. intros z Hz. apply H. right. exact Hz.
  - destruct (eqb y x) eqn:E; [discriminate|]. destruct (find_index eqb l x); [discriminate|].
    intros _ z [<-|Hz]; [exact E|]. apply (proj2 IH eq_refl). exact Hz.
Qed.

Lemma fix_same_axes_missing {V} (eqb : V -> V -> bool) (from_v : view V) (axes : list (axis V)) from :
  positive (axes_sizes axes) ->
  (forall ax, ax < length axes -> exists x, iter_axis_value from_v from ax = Ok x) ->
  forall ax a x, nth_error axes ax = Some a -> iter_axis_value from_v from ax = Ok x ->
  (forall y, In y (ax_values a) -> eqb y x = false) ->
  fix_same_axes eqb from_v (new_view axes) from (length axes) (mkIter 0 []) = Throw.
Proof.
  intros Hp Hv ax a x Ha Hx Hno. apply find_index_none in Hno.
  assert (Hls : length (axes_sizes axes) = length axes) by (unfold axes_sizes; apply map_length).
  assert (Hgen : forall i it, ax < i -> i <= length axes ->
     fix_same_axes eqb from_v (new_view axes) from i it = Throw).
  { induction i as [|i IH]; intros it Hi Hl; [lia|]. cbn [fix_same_axes].
    destruct (Nat.eq_dec i ax) as [->|Hne].
    - rewrite Hx. cbn [bind]. unfold iter_fix_by_value. cbn [new_view v_axes]. rewrite Ha, Hno. reflexivity.
    - destruct (Hv i ltac:(lia)) as (y & ->). cbn [bind]. unfold iter_fix_by_value. cbn [new_view v_axes].
      destruct (nth_error axes i) as [b|] eqn:Hb; [|apply nth_error_None in Hb; lia].
      destruct (find_index eqb (ax_values b) y) as [k|]; [|reflexivity].
      unfold iter_fix_by_index. destruct (match map_find (it_fixed it) i with Some k0 => negb (k0 =? k) | None => false end); [reflexivity|].
      unfold v_helper. cbn [v_axes]. rewrite helper_make. cbn [helper h_sizes].
      assert (Hsz : nth_error (axes_sizes axes) i = Some (ax_size b)) by (apply map_nth_error; assumption).
      change (v_axes (new_view axes)) with axes. rewrite Hsz.
      destruct (Nat.leb_spec (ax_size b) k); [reflexivity|].
      fold (helper (axes_sizes axes)). rewrite forward_fwd; [|assumption|lia]. cbn [bind]. apply IH; lia. }
  apply Hgen; [|lia]. apply nth_error_Some. congruence.
Qed.
