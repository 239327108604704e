(** Properties of the sampler: C108 and C109. Values are real numbers; the axioms of
    the standard library's reals appear below. *)
From Coq Require Import Reals List Arith Bool ZArith Lia Lra.
From Verif Require Import Common GridSpec GridArith GridProofs CumulModel CumulProofs FunModel FunSpec FunProofs FunProofs2 FunProps InterpModel InterpSpec InterpProofs GridInterpModel GridInterpSpec GridInterpProofs GridInterpProps InvCumulModel InvCumulSpec InvCumulProofs InvCumulProps SamplerModel SamplerSpec SamplerProofs.
Import ListNotations.
Local Open Scope R_scope.

(** ** C108: sampling several variables *)

(** For axes in order and a density without negative values, every draw ends with n
    rows. Row j is the one that its random numbers select: the last variable from the
    distribution without the other ones, each variable before it from the density
    at the values selected so far. One number per value is used. *)
Theorem C108_draw grid density : grid <> [] -> Forall good grid -> (forall c, 0 <= density c) ->
  exists s, new_sampler grid (rev (map axis_size grid)) density = Ok s /\
    forall n rng, (length grid * n <= length rng)%nat -> Forall (fun p => 0 <= p <= 1) rng ->
    exists rows, draw s n rng = Ok (rows, skipn (length grid * n) rng) /\ length rows = n /\
      forall j, (j < n)%nat -> exists row, nth_error rows j = Some row /\ sampled grid density (numbers (length grid) n j rng) row.
Proof. intros N G V. exact (draw_ok grid density N G V). Qed.
Print Assumptions C108_draw.

(** A row has a value for every axis: one of the discrete values, or a number from
    the first knot less 1e-8 to the last. *)
Theorem C108_near grid density ps row : Forall good grid -> sampled grid density ps row -> Forall2 near grid row.
Proof. intros G S. exact (sampled_near grid density ps row G S). Qed.
Print Assumptions C108_near.

(** The conditional density of the first axis at the values selected for the other
    ones has as its area the interpolated distribution of the other ones: what is
    sampled is the interpolated density of all variables. *)
Theorem C108_joint a grid density row f : grid <> [] -> Forall good (a :: grid) -> Forall2 suits grid row ->
  (forall i c, at_knot a i c -> grid_value false (a :: grid) density (c :: row) (f i)) ->
  grid_value false grid (without a density) row (mass a f).
Proof.
  intros N G ST H. assert (P : Forall proper (a :: grid)) by (eapply Forall_impl; [|exact G]; intros b [K _]; exact K). pose proof (Forall_inv G) as [PA NA]. inversion P as [|a' g' _ PG]; subst.
  unfold without. apply (value_mass false a grid row PG ST NA (fun i c => density (c ++ [i]))). intros i Hi. destruct (knot_coords_nth a i Hi) as (c & _ & K).
  destruct (value_exists false grid row PG ST (fun c => density (c ++ [i]))) as (y & Hy).
  pose proof (value_at_knot false a grid density c row i y P K Hy) as Hy'. rewrite (value_unique false (a :: grid) density (c :: row) y (f i) P Hy' (H i c K)). exact Hy.
Qed.
Print Assumptions C108_joint.

(** An output area of another size is rejected. *)
Theorem C108_output_size s n rng size : (size <> n -> draw_into s n rng size = Throw) /\ (size = n -> draw_into s n rng size = draw s n rng).
Proof. unfold draw_into. split; intro H; [apply Nat.eqb_neq in H|apply Nat.eqb_eq in H]; rewrite H; reflexivity. Qed.
Print Assumptions C108_output_size.

(** With two or more axes, an array of another shape and knots out of order (except
    those of the last axis) are rejected. *)
Theorem C108_rejected a b rest shape density : (forall x, In x (a :: b :: rest) -> axis_size x <> 0%nat) ->
  ~ (shape = rev (map axis_size (a :: b :: rest)) /\ forall x, In x (removelast (a :: b :: rest)) -> match x with Cont ks => sorted ks | Disc _ => True end) ->
  new_sampler (a :: b :: rest) shape density = Throw.
Proof.
  intros Z F. rewrite new_sampler_cons. destruct (negb (Nat.eqb (length shape) (length (a :: b :: rest)))); [reflexivity|].
  destruct (C95_accepted (a :: b :: rest) shape density false ltac:(discriminate) Z) as [_ B]. rewrite (B F). reflexivity.
Qed.
Print Assumptions C108_rejected.
Example C108_rejected_ex : new_sampler [Cont [1; 0]; Disc [5]%Z] [1; 2]%nat (fun _ => 0) = Throw.
Proof.
  apply C108_rejected; [intros x [<-|[<-|[]]]; discriminate|]. intros [_ H]. specialize (H (Cont [1; 0]) (or_introl eq_refl)). specialize (H 0%nat 1%nat 1 0 ltac:(lia) eq_refl eq_refl). lra.
Qed.

(** Refuted: an array of two axes given to a sampler of one is not rejected but read
    past the end of the knots, and so is an array with more values than knots. *)
Theorem C108_one_axis_refuted : new_sampler [Cont [0; 1]] [2; 2]%nat (fun _ => 1) = UB /\ new_sampler [Cont [0]] [2]%nat (fun _ => 1) = UB.
Proof.
  split; unfold new_sampler, new_inv; cbn [in_order_of seq flat_map map app]; unfold new_inverse; cbn [increasing].
  - replace (rlt 1 0) with false by (symmetry; apply rlt_not; lra). reflexivity.
  - reflexivity.
Qed.
Print Assumptions C108_one_axis_refuted.

(** Refuted: values are not always selected with the density at the values selected
    before. When one of those is below its first knot by the tolerance of the inverse
    cumulative, the interpolated density is zero and the first knot is selected,
    although the density rises from zero along one axis and does not depend on the
    other. *)
Theorem C108_conditional_refuted : exists s r, let density c := match c with [j; _] => INR j | _ => 0 end in
  new_sampler [Cont [0; 1]; Cont [0; 1]] [2; 2]%nat density = Ok s /\
  draw s 1 [/ 10 ^ 9 * / 10 ^ 9; 1 / 2] = Ok ([[Num 0; Num r]], []) /\ r < 0.
Proof.
  cbv zeta. set (density := fun c : list nat => match c with [j; _] => INR j | _ => 0 end). set (p := / 10 ^ 9 * / 10 ^ 9).
  destruct C96_below_first_refuted as (t & r & T & F & R). fold p in F.
  assert (P2 : proper (Cont [0; 1])) by (cbn; apply strict2; lra).
  assert (P : Forall proper [Cont [0; 1]; Cont [0; 1]]) by (repeat (apply Forall_cons; [exact P2|]); apply Forall_nil).
  destruct (C94_value [Cont [0; 1]; Cont [0; 1]] density false ltac:(discriminate) P) as (ti & B & C).
  assert (M : new_sampler [Cont [0; 1]] [2%nat] (marginal (Cont [0; 1]) density) = Ok (Single (Smooth t))).
  { unfold new_sampler, new_inv. cbn [in_order_of seq flat_map map app]. rewrite marginal_without. unfold without, mass. cbn [length seq map Nat.sub area app].
    match goal with |- context [new_inverse [0; 1] ?l] => replace l with [0; 1] end; [rewrite T; reflexivity|]. unfold density, el. cbn. f_equal; [lra|]. f_equal. lra. }
  exists (Nested (Cont [0; 1]) ti (Single (Smooth t))), r. split; [|split; [|exact R]].
  - rewrite new_sampler_cons. cbn [length Nat.eqb negb]. cbn [map rev app axis_size length] in B. rewrite B. cbn [bind removelast]. rewrite M. reflexivity.
  - cbn [draw draw_single next bind fst snd find_inv]. rewrite F. cbn [bind fst snd draw_nested].
    assert (Z : forall k, k = 0 \/ k = 1 -> call ti [Num k; Num r] = Ok 0).
    { intros k K. apply C. assert (G : grid_value false [Cont [0; 1]; Cont [0; 1]] density [Num k; Num r] (line (el [0; 1] 0) 0 (el [0; 1] 1) 0 k)); [|replace (line (el [0; 1] 0) 0 (el [0; 1] 1) 0 k) with 0 in G by (unfold line, el; cbn; field); exact G].
      apply (GCell false [0; 1] 0); [cbn; lia|left; unfold el; cbn; lra| |]; apply GOutside; try reflexivity; try (cbn; lia); try (left; unfold el; cbn; lra); constructor. }
    assert (PDF : eval_pdf ti (knot_coords (Cont [0; 1])) [Num r] = Ok [0; 0]) by (cbn [knot_coords map eval_pdf]; rewrite !Z by auto; reflexivity).
    rewrite PDF. cbn [bind next fst snd new_inv].
    assert (I : exists t0, new_inverse [0; 1] [0; 0] = Ok t0 /\ find_inverse t0 (1 / 2) = Ok 0).
    { eexists. split.
      - unfold new_inverse. cbn [increasing]. replace (rlt 1 0) with false by (symmetry; apply rlt_not; lra). cbn [negb cdf_from bind rev app trim].
        replace (req ((1 - 0) * (0 + 0) / 2 + 0) 0) with true by (symmetry; apply req_iff; lra). cbn [bind fst snd rev app nth_error of_option last]. reflexivity.
      - unfold find_inverse. cbn [i_range i_min i_cdf i_knots i_pdf nth_error of_option bind last].
        replace (rlt (1 / 2) 0 || rlt 1 (1 / 2)) with false by (symmetry; apply orb_false_iff; split; apply rlt_not; lra).
        replace (rle (1 / 2 * (0 - 0) + 0) 0) with true by (symmetry; apply rle_iff; lra). reflexivity. }
    destruct I as (t0 & I1 & I2). rewrite I1. cbn [bind find_inv]. rewrite I2. reflexivity.
Qed.
Print Assumptions C108_conditional_refuted.

Example C108_example : let grid := [Disc [7; 5]%Z; Cont [0; 1]] in
  grid <> [] /\ Forall good grid /\ sampled grid (fun _ => 1) [3 / 4; 1 / 2] [Key 5%Z; Num (1 / 2)].
Proof.
  cbv zeta. assert (P2 : proper (Cont [0; 1])) by (cbn; apply strict2; lra).
  assert (T8 : 0 < / 10 ^ 8) by (apply Rinv_0_lt_compat, pow_lt; lra).
  split; [discriminate|]. split.
  - apply Forall_cons; [split; [cbn; repeat constructor; cbn; intuition discriminate|discriminate]|]. apply Forall_cons; [split; [exact P2|discriminate]|]. apply Forall_nil.
  - apply (SMore (Disc [7; 5]%Z) (Cont [0; 1]) [] (fun _ => 1) (3 / 4) [1 / 2] (Key 5%Z) [Num (1 / 2)] (fun _ => 1)).
    + constructor. unfold without. cbn [drawn length seq map mass total]. exists (1 / 2), (1 / 2). split; [reflexivity|]. split; [|split; [|split; [|unfold el; cbn; lra]]].
      * exists 0%nat. unfold area_to, density, line, el. cbn. split; [lia|]. split; [lra|]. field.
      * replace (1 / 2 - 1 / 2) with 0 by ring. rewrite Rabs_R0. lra.
      * auto.
    + intros i c K. destruct c as [x|k]; cbn in K; [contradiction|]. eapply GKey; [exact K|]. assert (G : grid_value false [Cont [0; 1]] (fun _ => 1) [Num (1 / 2)] (line (el [0; 1] 0) 1 (el [0; 1] 1) 1 (1 / 2))); [|replace (line (el [0; 1] 0) 1 (el [0; 1] 1) 1 (1 / 2)) with 1 in G by (unfold line, el; cbn; field); exact G].
      apply (GCell false [0; 1] 0); [cbn; lia|left; unfold el; cbn; lra|apply (GEnd false (fun _ => 1))|apply (GEnd false (fun _ => 1))].
    + cbn [drawn]. exists 1%nat, 5%Z. cbn. split; [reflexivity|]. split; [reflexivity|]. split; [right; lra|lra].
Qed.

(** ** C109: samplers of a grid *)
Lemma offset_snoc s c n i : length s = length c -> offset (s ++ [n]) (c ++ [i]) = (offset s c * n + i)%nat.
Proof.
  intro L. unfold offset. assert (E : combine (s ++ [n]) (c ++ [i]) = combine s c ++ [(n, i)]).
  { revert c L. induction s as [|x s IH]; intros [|y c] L; cbn in L; try lia; [reflexivity|]. cbn. rewrite IH by lia. reflexivity. }
  rewrite E, fold_left_app. reflexivity.
Qed.
Lemma offset_horner sizes coords : length sizes = length coords -> offset (rev sizes) (rev coords) = horner sizes coords.
Proof.
  revert coords. induction sizes as [|n r IH]; intros [|c cr] L; cbn in L; try lia; [reflexivity|]. cbn [rev horner].
  rewrite offset_snoc by (rewrite !rev_length; lia). rewrite IH by lia. lia.
Qed.
Lemma content_nth {C} sizes (cells : list C) coords x : In (coords, x) (content sizes cells) ->
  length coords = length sizes /\ nth_error cells (horner sizes coords) = Some x.
Proof.
  intro H. unfold content in H. pose proof (in_combine_l _ _ _ _ H) as HC. apply in_all_coords in HC.
  assert (LC : length coords = length sizes) by (unfold in_range in HC; clear - HC; induction HC; cbn; congruence). split; [exact LC|].
  destruct (In_nth_error _ _ H) as (p & Hp).
  assert (N : forall (A B : Type) (l : list A) (m : list B) p a b, nth_error (combine l m) p = Some (a, b) -> nth_error l p = Some a /\ nth_error m p = Some b).
  { clear. intros A B. induction l as [|u l IH]; intros [|w m] p a b H; try (destruct p; discriminate). destruct p; [injection H as <- <-; split; reflexivity|]. apply IH in H. exact H. }
  apply N in Hp. destruct Hp as [P1 P2]. pose proof (nth_error_horner sizes coords HC) as P3.
  assert (p = horner sizes coords). { apply (proj1 (NoDup_nth_error (all_coords sizes)) (all_coords_nodup sizes)); [apply nth_error_Some; congruence|congruence]. }
  subst p. exact P2.
Qed.
Lemma sizes_count axes : fold_right Nat.mul 1%nat (rev (map axis_size axes)) = cell_count (map axis_size axes).
Proof.
  unfold cell_count. induction (map axis_size axes) as [|n l IH]; [reflexivity|]. cbn [rev fold_right]. rewrite <- IH. clear IH.
  induction (rev l) as [|m r IHr]; cbn [app fold_right]; [lia|]. rewrite IHr. lia.
Qed.

(** The sampler of a grid samples a density that is, at the knots with the
    coordinates of a cell, the content of the cell. *)
Theorem C109_grid axes cells : axes <> [] -> Forall good axes -> length cells = cell_count (map axis_size axes) -> Forall (fun v => 0 <= v) cells ->
  exists s density, sampler_from_grid axes cells = Ok s /\
    (forall coords v, In (coords, v) (content (map axis_size axes) cells) -> density (rev coords) = v) /\
    forall n rng, (length axes * n <= length rng)%nat -> Forall (fun p => 0 <= p <= 1) rng ->
    exists rows, draw s n rng = Ok (rows, skipn (length axes * n) rng) /\ length rows = n /\
      forall j, (j < n)%nat -> exists row, nth_error rows j = Some row /\ sampled axes density (numbers (length axes) n j rng) row.
Proof.
  intros N G L V. unfold sampler_from_grid. rewrite sizes_count, <- L, Nat.eqb_refl. cbn [negb].
  set (density := fun c => nth (offset (rev (map axis_size axes)) c) cells 0).
  assert (D : forall c, 0 <= density c) by (intro c; unfold density; destruct (nth_in_or_default (offset (rev (map axis_size axes)) c) cells 0) as [H|Z0]; [rewrite Forall_forall in V; apply V; exact H|rewrite Z0; lra]).
  destruct (C108_draw axes density N G D) as (s & E & H). exists s, density. split; [exact E|]. split; [|exact H].
  intros coords v HC. apply content_nth in HC. destruct HC as [LC HC]. unfold density. rewrite offset_horner by lia. apply nth_error_nth. exact HC.
Qed.
Print Assumptions C109_grid.
Example C109_grid_ex : let axes := [Cont [0; 1]; Disc [7; 5]%Z] in let cells := [1; 2; 3; 4] in
  length cells = cell_count (map axis_size axes) /\ In ([0; 1]%nat, 3) (content (map axis_size axes) cells).
Proof. cbn. split; [reflexivity|]. right. right. left. reflexivity. Qed.

Lemma nth_concat_uniform {A} (d : A) w : forall (cells : list (list A)) h k cell, Forall (fun c => length c = w) cells -> nth_error cells h = Some cell -> (k < w)%nat -> nth (h * w + k) (concat cells) d = nth k cell d.
Proof.
  induction cells as [|c cells IH]; intros h k cell U H K; [destruct h; discriminate|]. inversion U; subst. destruct h as [|h].
  - injection H as ->. cbn [concat Nat.mul Nat.add]. apply app_nth1. lia.
  - cbn [concat]. rewrite app_nth2 by lia. replace (S h * length c + k - length c)%nat with (h * length c + k)%nat by lia. apply IH; assumption.
Qed.
(** The values within the cells are one more axis, the first. *)
Theorem C109_cells cell_axis axes cells : Forall good (cell_axis :: axes) ->
  Forall (fun cell => length cell = axis_size cell_axis /\ Forall (fun v => 0 <= v) cell) cells ->
  exists s density, sampler_from_cells cell_axis axes cells = Ok s /\
    (forall coords cell k v, In (coords, cell) (content (map axis_size axes) cells) -> nth_error cell k = Some v -> density (rev coords ++ [k]) = v) /\
    forall n rng, (S (length axes) * n <= length rng)%nat -> Forall (fun p => 0 <= p <= 1) rng ->
    exists rows, draw s n rng = Ok (rows, skipn (S (length axes) * n) rng) /\ length rows = n /\
      forall j, (j < n)%nat -> exists row, nth_error rows j = Some row /\ sampled (cell_axis :: axes) density (numbers (S (length axes)) n j rng) row.
Proof.
  intros G V. unfold sampler_from_cells. replace (forallb _ cells) with true by (symmetry; apply forallb_forall; intros c Hc; rewrite Forall_forall in V; apply Nat.eqb_eq; apply V; exact Hc).
  set (shape := rev (map axis_size axes) ++ [axis_size cell_axis]). set (density := fun c => nth (offset shape c) (concat cells) 0).
  assert (D : forall c, 0 <= density c).
  { intro c. unfold density. destruct (nth_in_or_default (offset shape c) (concat cells) 0) as [H|Z0]; [|rewrite Z0; lra]. apply in_concat in H. destruct H as (l & Hl & H). rewrite Forall_forall in V. destruct (V l Hl) as [_ W]. rewrite Forall_forall in W. apply W. exact H. }
  destruct (C108_draw (cell_axis :: axes) density ltac:(discriminate) G D) as (s & E & H). exists s, density. split; [exact E|]. split; [|exact H].
  intros coords cell k v HC HK. apply content_nth in HC. destruct HC as [LC HC]. unfold density, shape. rewrite offset_snoc by (rewrite !rev_length; lia). rewrite offset_horner by lia.
  assert (U : Forall (fun c => length c = axis_size cell_axis) cells) by (eapply Forall_impl; [|exact V]; intros c [K _]; exact K).
  assert (LK : length cell = axis_size cell_axis) by (rewrite Forall_forall in U; apply U; apply (nth_error_In _ _ HC)).
  rewrite (nth_concat_uniform 0 (axis_size cell_axis) cells _ k cell U HC) by (rewrite <- LK; apply nth_error_Some; congruence). apply nth_error_nth. exact HK.
Qed.
Print Assumptions C109_cells.
(** Without knots for the values within the cells, their positions are the knots; a
    grid without cells cannot be asked for their size. *)
Theorem C109_counts axes : sampler_from_counts axes [] = UB /\
  forall cell cells, sampler_from_counts axes (cell :: cells) = sampler_from_cells (Disc (map Z.of_nat (seq 0 (length cell)))) axes (cell :: cells) /\
    (cell <> [] -> good (Disc (map Z.of_nat (seq 0 (length cell))))).
Proof.
  split; [reflexivity|]. intros cell cells. split; [reflexivity|]. intro N. split.
  - cbn. apply FinFun.Injective_map_NoDup; [intros x y H; lia|apply seq_NoDup].
  - cbn. rewrite map_length, seq_length. destruct cell; [congruence|discriminate].
Qed.
Print Assumptions C109_counts.
