(** Properties C62 - C67, C75 - C78. *)
From Coq Require Import List Arith ZArith QArith Bool String Lia.
From Verif Require Import Common DblModel GridModel SOMModel SOMSpec SOMProofs SOMProofs2.
Import ListNotations.
Local Open Scope nat_scope.

(** ** C62: best matching unit *)

(** The answer is a cell of the map; when some cell is at a distance below the
    largest double, it is a cell no other is closer than, the first such one. *)
Theorem C62_best_matching_unit : forall W dmax (dist : W -> dbl) (s : som W), well_formed s ->
  exists x y d, find_bmu dmax dist s = Ok (x, y, d) /\ x < sx s /\ y < sy s /\
    ((exists x' y' w', cell_at s x' y' = Some w' /\ dlt (dist w') (Fin dmax) = true) ->
     exists w, cell_at s x y = Some w /\ d = dist w /\
       (forall x' y' w', cell_at s x' y' = Some w' -> dlt (dist w') d = false) /\
       (forall x' y' w', cell_at s x' y' = Some w' -> before (x', y') (x, y) -> dle (dist w') d = false)).
Proof. intros. apply bmu_minimal; auto. Qed.
(** Otherwise (all distances NaN or infinite) it is the cell (0, 0), with a
    distance that is not the one of that cell. *)
Theorem C62_no_finite_distance : forall W dmax (dist : W -> dbl) (s : som W), well_formed s ->
  (forall x y w, cell_at s x y = Some w -> dlt (dist w) (Fin dmax) = false) ->
  find_bmu dmax dist s = Ok (0, 0, Fin dmax).
Proof. intros. apply bmu_none; auto. Qed.
Print Assumptions C62_no_finite_distance.
Theorem C62_reported_distance_refuted : exists (dist : Q -> dbl) (s : som Q), well_formed s /\
  exists x y d w, find_bmu 1000 dist s = Ok (x, y, d) /\ cell_at s x y = Some w /\ d <> dist w.
Proof.
  exists (fun _ => NaN), (mkSom 1 1 [0%Q]). split; [repeat split; auto|].
  exists 0, 0, (Fin 1000), 0%Q. repeat split; discriminate.
Qed.
Print Assumptions C62_reported_distance_refuted.
(** Positions and coordinates are those of the underlying grid. *)
Theorem C62_layout : forall a b x y p, 0 < a -> 0 < b -> p < a * b ->
  let v := new_view [index_axis "X" a; index_axis "Y" b] in
  paren_pos v [x; y] = x + y * a /\
  iter_axis_value v (mkIter p []) 0 = Ok (p mod a) /\ iter_axis_value v (mkIter p []) 1 = Ok ((p mod (a * b)) / a).
Proof. intros a b x y p A B P v. split; [apply bridge_pos|apply bridge_axis; auto]. Qed.
Print Assumptions C62_layout.

Definition example_som : som Q := mkSom 3 2 [5; 2; 7; 2; 9; 1]%Q.
Definition example_dist (input w : Q) : dbl := Fin (Qabs.Qabs (w - input)).
Example C62_example : well_formed example_som /\ find_bmu 1000 (example_dist 2) example_som = Ok (1, 0, Fin 0)
  /\ find_bmu 1000 (example_dist 0) example_som = Ok (2, 1, Fin 1)
  /\ find_bmu 1000 (fun w => if Qeq_bool w 5 then NaN else Fin w) example_som = Ok (2, 1, Fin 1).
Proof. repeat split; vm_compute; auto. Qed.

(** ** C63: training stays within the data *)

Theorem C63_training_keeps_range : forall (I : Type) dmax dist (weights : I -> list Q) nf lf nd sample n s k lo hi,
  well_formed s -> dimension nd s -> (forall o, List.length (weights o) = nd) -> k < nd ->
  (forall b c i m, unit_factor (nf b c i m)) -> (forall i m, unit_factor (lf i m)) ->
  (forall x y w, cell_at s x y = Some w -> within lo hi (comp k w)) ->
  (forall i o, In o (sample i) -> within lo hi (comp k (weights o))) ->
  exists s', train dmax dist weights nf lf sample n s = Ok s' /\ sx s' = sx s /\ sy s' = sy s /\ well_formed s' /\ dimension nd s' /\
    forall x y w, cell_at s' x y = Some w -> within lo hi (comp k w).
Proof.
  intros. destruct (train_from_ok dmax dist weights nf lf nd H1 sample n n 0 s) as (s' & E & X & Y & wf' & D'); auto.
  exists s'. split; auto. split; auto. split; auto. split; auto. split; auto.
  eapply (train_from_range dmax dist weights nf lf nd H1 H3 H4 k lo hi sample n H2 H6 n 0 s s'); auto.
Qed.
(** The factors the library provides satisfy the hypothesis. *)
Theorem C63_library_factors : forall exp log xs ys cutoff rate radius bmu cell i n, exp_like exp -> unit_factor rate ->
  unit_factor (linear_restraint i n) /\ unit_factor (exponential_decay exp rate i n) /\
  unit_factor (linear_unit_disk radius bmu cell i n) /\ unit_factor (kohonen_value exp cutoff (sigma exp log xs ys i n) bmu cell).
Proof.
  intros. split; [apply linear_unit|]. split; [apply exponential_unit; auto|]. split; [apply disk_unit|apply kohonen_unit; auto].
Qed.
Print Assumptions C63_library_factors.
(** Without the hypothesis on the factors the claim is false. *)
Theorem C63_large_factors_refuted : exists lf : nat -> nat -> Q, exists s', 
  train 1000 (fun c i => Fin (Qabs.Qabs (nth 0 c 0 - nth 0 i 0)%Q)) (fun o : Q => [o]) (fun _ _ _ _ => 1%Q) lf (fun _ => [1%Q]) 1 (mkSom 1 1 [[0%Q]]) = Ok s'
  /\ forall w, cell_at s' 0 0 = Some w -> ~ within 0 1 (comp 0 w).
Proof.
  exists (fun _ _ => 3%Q). eexists. split; [reflexivity|]. intros w H. inversion H; subst. intros [A B].
  vm_compute in B. apply B. reflexivity.
Qed.
Print Assumptions C63_large_factors_refuted.

Definition ex_dist (c i : list Q) : dbl := Fin (fold_right Qplus 0 (map (fun p => (fst p - snd p) * (fst p - snd p)) (combine c i)))%Q.
Definition ex_train (s : som (list Q)) : outcome (som (list Q)) :=
  train 1000 ex_dist (fun o : list Q => o) (linear_unit_disk 2) linear_restraint (fun _ => [[1; 0]; [0; 1]]%Q) 3 s.
Definition ex_start : som (list Q) := mkSom 2 1 [[0; 0]; [1; 1]]%Q.
Example C63_example : well_formed ex_start /\ dimension 2 ex_start /\
  match ex_train ex_start with
  | Ok s' => forallb (fun w => Qle_bool 0 (comp 0 w) && Qle_bool (comp 0 w) 1) (cells s') && negb (Qeq_bool (comp 0 (nth 0 (cells s') [])) 0)
  | _ => false
  end = true.
Proof. split; [repeat split; simpl; auto|]. split; [repeat constructor|]. vm_compute. reflexivity. Qed.

(** ** C75: one training step *)

(** Each weight moves towards the input by the fraction neighbourhood * learning factor. *)
Theorem C75_training_step : forall (I : Type) dmax dist (weights : I -> list Q) nf lf i n s obj nd,
  well_formed s -> dimension nd s -> List.length (weights obj) = nd ->
  exists s' bx by_ d, find_bmu dmax (fun c => dist c (weights obj)) s = Ok (bx, by_, d) /\
    train_one dmax dist weights nf lf i n s obj = Ok s' /\ sx s' = sx s /\ sy s' = sy s /\ well_formed s' /\ dimension nd s' /\
    forall x y w, cell_at s x y = Some w ->
      exists w', cell_at s' x y = Some w' /\
        (Qeq (nf (bx, by_) (x, y) i n) 0 -> w' = w) /\
        forall k, k < nd ->
          let f := (nf (bx, by_) (x, y) i n * lf i n)%Q in
          (comp k w' == (1 - f) * comp k w + f * comp k (weights obj))%Q.
Proof. intros. apply train_one_step; auto. Qed.
Print Assumptions C75_training_step.
(** Iterations with learning factor zero have no effect. *)
Theorem C75_no_learning : forall (I : Type) dmax dist (weights : I -> list Q) nf lf sample n s,
  (forall i, lf i n == 0)%Q -> train dmax dist weights nf lf sample n s = Ok s.
Proof. intros. unfold train. apply train_from_zero; auto. Qed.
Print Assumptions C75_no_learning.
Example C75_example :
  match train_one 1000 ex_dist (fun o : list Q => o) (fun b c _ _ => if (fst b =? fst c) then 1%Q else 0%Q) (fun _ _ => (1#2)%Q) 0 3 ex_start [1; 0]%Q with
  | Ok s' => map (map Qred) (cells s')
  | _ => []
  end = [[1#2; 0]; [1; 1]]%Q.
Proof. vm_compute. reflexivity. Qed.

(** ** C64: the disc neighbourhood *)

Theorem C64_disc : forall r bmu cell i n,
  (0 <= r)%Q -> (r <= inject_Z (2 ^ 63))%Q ->
  (Z.of_nat (fst bmu) < 2 ^ 63 /\ Z.of_nat (snd bmu) < 2 ^ 63 /\ Z.of_nat (fst cell) < 2 ^ 63 /\ Z.of_nat (snd cell) < 2 ^ 63)%Z ->
  let rad := (r * linear_restraint i n)%Q in
  ((linear_unit_disk r bmu cell i n = 1%Q <->
     fst cell <= fst bmu /\ snd cell <= snd bmu /\ (inject_Z (dist2 bmu cell) < rad * rad)%Q) /\
   (linear_unit_disk r bmu cell i n = 1%Q \/ linear_unit_disk r bmu cell i n = 0%Q)).
Proof. intros. apply disk_spec; auto. Qed.
(** So the factor does not depend on the distance alone. *)
Theorem C64_symmetric_refuted : exists r p q i n,
  linear_unit_disk r p q i n = 1%Q /\ linear_unit_disk r q p i n = 0%Q.
Proof. exists 3%Q, (1, 0), (0, 0), 0, 10. split; vm_compute; reflexivity. Qed.
Print Assumptions C64_symmetric_refuted.

(** ** C65: sampling *)

Theorem C65_jackknife : forall draw size n, fair draw -> 0 < size -> 0 < n ->
  exists l, pass (jack_start draw size) jack_next n n = Ok l /\ NoDup l /\ List.length l = Nat.min size n /\ Forall (fun x => x < n) l.
Proof. intros. apply jack_pass; auto. Qed.
(** Every sequence of distinct elements can be drawn. *)
Theorem C65_jackknife_any_selection : forall l n, NoDup l -> Forall (fun x => x < n) l ->
  exists draws : list nat, (forall j d, nth_error draws j = Some d -> d + j < n) /\
    forall draw, (forall j d, nth_error draws j = Some d -> draw j (n - S j) = d) ->
      jack_pick draw (List.length l) 0 (seq 0 n) = Ok l.
Proof.
  intros l n N F. destruct (jack_pick_complete l 0 (seq 0 n) N) as (ds & L & B & R).
  - intros x Hx. apply in_seq. rewrite Forall_forall in F. specialize (F x Hx). lia.
  - exists ds. rewrite seq_length in B. split; auto. intros draw H. apply R. intros j d Hj. simpl. rewrite seq_length. auto.
Qed.
Print Assumptions C65_jackknife_any_selection.
(** With sample size 0, or without elements, the behaviour is undefined. *)
Theorem C65_jackknife_empty_undefined : forall draw size n, size = 0 \/ n = 0 -> pass (jack_start draw size) jack_next n n = UB.
Proof. intros draw size n [->| ->]; [reflexivity|]. destruct size; reflexivity. Qed.
Print Assumptions C65_jackknife_empty_undefined.
Theorem C65_full_set : forall n, pass full_start full_next n n = Ok (seq 0 n).
Proof. intros. apply full_pass. Qed.
Print Assumptions C65_full_set.
Theorem C65_bootstrap : forall draw n, fair draw -> 0 < n ->
  exists it, it < n /\ pass (boot_start draw) boot_next n 1 = Ok [it].
Proof. intros. apply boot_pass; auto. Qed.
Print Assumptions C65_bootstrap.
Example C65_example : fair (fun k m => m - k) /\ pass (jack_start (fun k m => m - k) 3) jack_next 5 5 = Ok [4; 2; 0]
  /\ pass (jack_start (fun k m => m - k) 9) jack_next 3 3 = Ok [2; 0; 1].
Proof. split; [intros k m; lia|]. split; reflexivity. Qed.

(** ** C66: projection *)

Theorem C66_projection : forall W T I dmax (dist : W -> I -> dbl) (adder : T -> I -> T) init (s : som W) inputs, well_formed s ->
  exists g, project dmax dist adder init s inputs = Ok g /\ sx g = sx s /\ sy g = sy s /\
    forall x y, x < sx s -> y < sy s ->
      cell_at g x y = Some (fold_left adder (filter (lands dmax dist s x y) inputs) init).
Proof. intros. apply project_spec; auto. Qed.
(** Every input lands on exactly one cell of the map. *)
Theorem C66_one_cell : forall W I dmax (dist : W -> I -> dbl) (s : som W) i, well_formed s ->
  exists x y, x < sx s /\ y < sy s /\ forall x' y', lands dmax dist s x' y' i = true <-> (x', y') = (x, y).
Proof.
  intros W I dmax dist s i wf. destruct (bmu_minimal dmax (fun c => dist c i) s wf) as (x & y & d & E & X & Y & _).
  exists x, y. split; auto. split; auto. intros x' y'. unfold lands. rewrite E. rewrite andb_true_iff, !Nat.eqb_eq.
  split; [intros [-> ->]; auto|intro H; inversion H; auto].
Qed.
Print Assumptions C66_one_cell.
Example C66_example :
  match project 1000 (fun w i => example_dist i w) (fun (l : list Q) i => l ++ [i]) [] example_som [2; 0; 9; 1; 2]%Q with
  | Ok g => cells g
  | _ => []
  end = [[]; [2; 2]; []; []; [9]; [0; 1]]%Q.
Proof. vm_compute. reflexivity. Qed.

(** ** C67: the u-matrix *)

Theorem C67_umatrix : forall W (dist : W -> W -> Q) t (s : som W), well_formed s -> ~ (sx s = 1 /\ sy s = 1) ->
  exists u, umatrix dist t s = Ok u /\ sx u = sx s /\ sy u = sy s /\
    forall x y c, cell_at s x y = Some c ->
      exists v l ds, cell_at u x y = Some (Fin v) /\ NoDup l /\ (forall x' y', In (x', y') l <-> adjacent s x y x' y') /\
        l <> [] /\ Forall2 (fun p d => exists w, cell_at s (fst p) (snd p) = Some w /\ d = dist c w) l ds /\ aggregates t v ds.
Proof. intros. apply umatrix_spec; auto. Qed.
Theorem C67_single_cell : forall W (dist : W -> W -> Q) (w : W),
  umatrix dist UMin (mkSom 1 1 [w]) = UB /\ umatrix dist UMax (mkSom 1 1 [w]) = UB /\
  umatrix dist UMean (mkSom 1 1 [w]) = Ok (mkSom 1 1 [NaN]).
Proof. intros. apply umatrix_single. Qed.
Print Assumptions C67_single_cell.
Example C67_example : exists u, umatrix (fun a b => Qabs.Qabs (a - b)) UMin example_som = Ok u /\ cells u = [Fin 3; Fin 0; Fin 2; Fin 0; Fin 2; Fin 1].
Proof. eexists. split; [vm_compute; reflexivity|reflexivity]. Qed.

(** ** C76: stored maps *)

(** What is read is what was written, whatever follows in the archive. *)
Theorem C76_archive_round_trip : forall dname (s : som (list Q)) rest, List.length (cells s) = sx s * sy s ->
  load dname (save dname s ++ rest) = Ok (s, rest).
Proof. intros. apply load_save; auto. Qed.
Print Assumptions C76_archive_round_trip.
(** An archive of which only a part was written cannot be loaded. *)
Theorem C76_truncated_archive : forall dname (s : som (list Q)) kept lost,
  List.length (cells s) = sx s * sy s -> save dname s = kept ++ lost -> lost <> [] -> load dname kept = Throw.
Proof. intros. apply (load_truncated dname s kept lost); auto. Qed.
Print Assumptions C76_truncated_archive.
Theorem C76_archive_other_distance : forall dname dname' (s : som (list Q)) rest, dname <> dname' -> load dname' (save dname s ++ rest) = Throw.
Proof. intros. apply load_other; auto. Qed.
Print Assumptions C76_archive_other_distance.
Theorem C76_fits_round_trip : forall dname nd (s : som (list Q)), List.length (cells s) = sx s * sy s -> dimension nd s ->
  fits_import dname nd (fits_export dname nd s) = Ok s.
Proof. intros. apply fits_round_trip; auto. Qed.
Theorem C76_fits_other_type : forall dname dname' nd nd' (s : som (list Q)), dname <> dname' \/ nd <> nd' ->
  fits_import dname' nd' (fits_export dname nd s) = Throw.
Proof.
  intros dname dname' nd nd' s H. unfold fits_import, fits_export. cbn [f_dist f_axes].
  destruct (String.eqb_spec dname dname'); cbn [negb]; auto.
  destruct (Nat.eqb_spec nd nd'); cbn [negb]; auto. destruct H; contradiction.
Qed.
Print Assumptions C76_fits_other_type.
Example C76_example : f_data (fits_export "L2" 2 (mkSom 2 1 [[1; 2]; [3; 4]]%Q)) = [1; 3; 2; 4]%Q
  /\ dimension 2 (mkSom 2 1 [[1; 2]; [3; 4]]%Q).
Proof. split; [reflexivity|repeat constructor]. Qed.

(** ** C77: the kohonen neighbourhood *)

(** The buffer never shows: each call gives the value for its own arguments,
    whatever the calls before. *)
Theorem C77_history_independent : forall exp log xs ys cutoff calls,
  (forall bmu cell i n, In (bmu, cell, i, n) calls -> 0 < n) ->
  fst (kohonen_run exp log xs ys cutoff kohonen_init calls)
  = map (fun c => let '(bmu, cell, i, n) := c in kohonen_value exp cutoff (sigma exp log xs ys i n) bmu cell) calls.
Proof. intros. apply kohonen_run_ok; auto. simpl. auto. Qed.
Theorem C77_cutoff : forall exp cutoff sig b c, exp_like exp ->
  (kohonen_value exp cutoff sig b c == 0 <-> cutoff * cutoff * (sig * sig) <= inject_Z (dist2 b c))%Q.
Proof. intros. apply kohonen_zero_iff; auto. Qed.
Print Assumptions C77_cutoff.
Theorem C77_decreasing : forall exp cutoff sig b c c', exp_like exp -> (dist2 b c <= dist2 b c')%Z ->
  (kohonen_value exp cutoff sig b c' <= kohonen_value exp cutoff sig b c)%Q.
Proof. intros. apply kohonen_decreasing; auto. Qed.
Print Assumptions C77_decreasing.
(** The radius shrinks from half of the longer side of the map in the first iteration to 1 at the end, when exp
    and log are inverses of each other. *)
Theorem C77_radius : forall exp log xs ys n, (forall a b, a == b -> exp a == exp b)%Q -> (exp 0 == 1)%Q -> (forall r, 0 < r -> exp (- log r) * r == 1)%Q ->
  0 < n -> 0 < Nat.max xs ys ->
  (sigma exp log xs ys 0 n == inject_Z (Z.of_nat (Nat.max xs ys)) / 2)%Q /\ (sigma exp log xs ys n n == 1)%Q.
Proof.
  intros exp log xs ys n P E0 EL N M. unfold sigma, init_sigma. set (r := (inject_Z (Z.of_nat (Nat.max xs ys)) / 2)%Q).
  assert (RP : (0 < r)%Q). { unfold r. apply Qlt_shift_div_l; [reflexivity|]. rewrite Qmult_0_l. change (inject_Z 0 < inject_Z (Z.of_nat (Nat.max xs ys)))%Q. rewrite <- (Zlt_Qlt 0 (Z.of_nat (Nat.max xs ys))). lia. }
  assert (NP : ~ (inject_Z (Z.of_nat n) == 0)%Q). { intros Q. unfold Qeq in Q. cbn [Qnum Qden inject_Z] in Q. lia. }
  split.
  - rewrite (P _ 0%Q); [rewrite E0; ring|]. change (inject_Z (Z.of_nat 0)) with 0%Q. unfold Qdiv. ring.
  - destruct (Qeq_dec (log r) 0) as [LZ|LZ].
    + rewrite (P _ (- log r)%Q); [rewrite Qmult_comm; apply EL, RP|]. assert (A : (log r == 0)%Q) by exact LZ. clear LZ. unfold Qdiv. setoid_rewrite A. change (/ 0)%Q with 0%Q. setoid_rewrite Qmult_0_r. change (/ 0)%Q with 0%Q. ring.
    + rewrite (P _ (- log r)%Q); [rewrite Qmult_comm; apply EL, RP|]. field. auto.
Qed.
Print Assumptions C77_radius.
(** A function that meets [exp_like]: 1 / (1 - x) below 0. *)
Example C77_exp_like : exp_like (fun x => if Qle_bool x 0 then / (1 - x) else 1 + x)%Q.
Proof.
  assert (P : forall x, (x <= 0 -> 0 < / (1 - x) /\ / (1 - x) <= 1)%Q).
  { intros x H. assert (0 < 1 - x)%Q by (apply (Qplus_lt_l _ _ x); ring_simplify; apply Qle_lt_trans with 0%Q; auto; reflexivity).
    split; [apply Qinv_lt_0_compat; auto|]. apply Qle_trans with (1 / (1 - x))%Q.
    - unfold Qdiv. rewrite Qmult_1_l. apply Qle_refl.
    - apply Qle_shift_div_r; auto. rewrite Qmult_1_l. apply (Qplus_le_l _ _ (x - 1)). ring_simplify. auto. }
  assert (M : forall x y, (x <= y -> (if Qle_bool x 0 then / (1 - x) else 1 + x) <= (if Qle_bool y 0 then / (1 - y) else 1 + y))%Q).
  { intros x y H. destruct (Qle_bool x 0) eqn:A, (Qle_bool y 0) eqn:B.
    - apply Qle_bool_iff in A, B. apply Qle_trans with (1 / (1 - x))%Q; [unfold Qdiv; rewrite Qmult_1_l; apply Qle_refl|].
      assert (0 < 1 - x)%Q by (apply (Qplus_lt_l _ _ x); ring_simplify; apply Qle_lt_trans with 0%Q; auto; reflexivity).
      assert (0 < 1 - y)%Q by (apply (Qplus_lt_l _ _ y); ring_simplify; apply Qle_lt_trans with 0%Q; auto; reflexivity).
      apply Qle_shift_div_r; auto. rewrite Qmult_comm. apply Qle_trans with ((1 - y) * / (1 - y))%Q.
      + rewrite Qmult_inv_r; [apply Qle_refl|]. intro E. rewrite E in H1. discriminate H1.
      + apply Qmult_le_compat_r; [|apply Qlt_le_weak, Qinv_lt_0_compat; auto]. apply (Qplus_le_l _ _ (x + y - 1)). ring_simplify. auto.
    - apply Qle_bool_iff in A. apply Qle_trans with 1%Q; [apply P; auto|].
      destruct (Qlt_le_dec 0 y); [|apply Qle_bool_iff in q; congruence].
      apply (Qplus_le_l _ _ (-(1))). ring_simplify. apply Qlt_le_weak; auto.
    - exfalso. apply Qle_bool_iff in B. assert (x <= 0)%Q by (eapply Qle_trans; eauto). apply Qle_bool_iff in H0. congruence.
    - apply Qplus_le_r. auto. }
  split; [|split].
  - intros x H. assert (Qle_bool x 0 = true) as -> by (apply Qle_bool_iff; auto). auto.
  - intros x y E. apply Qle_antisym; apply M; rewrite E; apply Qle_refl.
  - exact M.
Qed.

(** ** C78: a new map *)

Theorem C78_new_map : forall A nd x y (init : nat -> A) a b, a < x -> b < y ->
  exists w, cell_at (som_new nd x y init) a b = Some w /\ List.length w = nd /\
    forall k, k < nd -> nth_error w k = Some (init ((a + b * x) * nd + k)).
Proof. intros. apply som_new_spec; auto. Qed.
Print Assumptions C78_new_map.
Theorem C78_new_map_well_formed : forall A nd x y (init : nat -> A), 0 < x -> 0 < y ->
  well_formed (som_new nd x y init) /\ dimension nd (som_new nd x y init).
Proof.
  intros A nd x y init X Y. unfold som_new. destruct (fill_spec init nd (x * y) 0) as [L N]. split; [repeat split; auto|].
  unfold dimension. simpl. apply Forall_forall. intros w Hw. apply In_nth_error in Hw. destruct Hw as [i Hi].
  assert (i < x * y) by (rewrite <- L; apply nth_error_Some; congruence). rewrite N in Hi by auto. inversion Hi.
  apply take_stream_spec.
Qed.
Print Assumptions C78_new_map_well_formed.
Example C78_example : cells (som_new 2 2 1 (fun k => k)) = [[0; 1]; [2; 3]].
Proof. reflexivity. Qed.

Print Assumptions C62_best_matching_unit.
Print Assumptions C63_training_keeps_range.
Print Assumptions C64_disc.
Print Assumptions C65_jackknife.
Print Assumptions C66_projection.
Print Assumptions C67_umatrix.
Print Assumptions C76_fits_round_trip.
Print Assumptions C77_history_independent.
