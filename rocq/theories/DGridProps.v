(** C162: interpolation on a grid in double precision. *)
From Coq Require Import ZArith Reals List Bool Arith Lia Lra.
From Flocq Require Import Core IEEE754.BinarySingleNaN.
From Verif Require Import Common CumulModel FloatModel FloatProofs DoubleProofs DoubleProofs2 DInterpModel DInterpSpec DInterpProofs DInterpProofs2 InterpSpec GridInterpModel GridInterpSpec DGridModel DGridSpec DGridProofs DGridProofs2.
Import ListNotations.
Local Open Scope R_scope.

(** The interpolator is built for an array of the right shape and called once. *)
Definition asked (grid : list daxis) (values : list nat -> double) (ex : bool) (args : list dcoord) : outcome double :=
  do t <- dbuild grid (rev (map daxis_size grid)) values ex; dcall t args.
Lemma asked_computed grid values ex args : grid <> [] -> Forall good_axis grid -> Forall2 fits grid args -> exists v, asked grid values ex args = Ok v /\ computed ex grid values args v.
Proof. intros N G FT. unfold asked. destruct (build_ok grid values ex N G) as [t E]. rewrite E. cbn [bind]. exact (call_ok grid _ values ex t args G FT E). Qed.

(** For knots in ascending order an interpolator is built, and it returns for all finite arguments, whatever the values are. *)
Theorem C162_defined grid values ex args : grid <> [] -> Forall good_axis grid -> Forall2 fits grid args -> exists v, asked grid values ex args = Ok v.
Proof. intros N G FT. destruct (asked_computed grid values ex args N G FT) as (v & E & _). exists v. exact E. Qed.
Print Assumptions C162_defined.

(** Inside the grid a finite result differs from the multilinear interpolation of the values by at most the budget, which
    adds a few units in the last place of (1 + 4 kappa) M for every continuous axis. *)
Theorem C162_error grid scales values ex args M v : grid <> [] -> Forall good_axis grid -> Forall2 fits grid args -> Forall2 inside grid args -> Forall2 scaled grid scales ->
  (forall c, is_index grid c -> Rabs (B2R (values c)) <= M) -> asked grid values ex args = Ok v -> is_finite v = true ->
  exists e, grid_value ex (map real_axis grid) (fun c => B2R (values c)) (map real_coord args) e /\ Rabs (B2R v - e) <= budget grid scales M.
Proof.
  intros N G FT I SC B E F. destruct (asked_computed grid values ex args N G FT) as (v' & E' & C). rewrite E in E'. injection E' as <-.
  destruct (computed_error ex grid values args v C scales M G FT SC I B F) as (e & A1 & _ & A2). exists e. auto.
Qed.
Print Assumptions C162_error.

(** With finite values, knots of a usual size and a budget that is not huge nothing overflows: the result is finite, and so the bound holds. *)
Theorem C162_accuracy grid scales values ex args M : grid <> [] -> Forall good_axis grid -> Forall2 fits grid args -> Forall2 inside grid args -> Forall2 scaled grid scales -> Forall usual grid ->
  (forall c, is_index grid c -> is_finite (values c) = true /\ Rabs (B2R (values c)) <= M) -> 0 <= M -> M + budget grid scales M <= bpow radix2 400 ->
  exists v e, asked grid values ex args = Ok v /\ is_finite v = true /\
    grid_value ex (map real_axis grid) (fun c => B2R (values c)) (map real_coord args) e /\ Rabs (B2R v - e) <= budget grid scales M.
Proof.
  intros N G FT I SC U B MP BD. destruct (asked_computed grid values ex args N G FT) as (v & E & C). pose proof (computed_finite ex grid values args v C scales M G FT SC I U B MP BD) as F.
  destruct (computed_error ex grid values args v C scales M G FT SC I (fun c h => proj2 (B c h)) F) as (e & A1 & _ & A2). exists v, e. auto.
Qed.
Print Assumptions C162_accuracy.

(** Equal values are reproduced exactly, everywhere inside the grid and, with extrapolation, everywhere. *)
Theorem C162_flat grid values ex args r v : grid <> [] -> Forall good_axis grid -> Forall2 fits grid args -> ex = true \/ Forall2 inside grid args ->
  (forall c, is_index grid c -> is_finite (values c) = true /\ B2R (values c) = r) -> asked grid values ex args = Ok v -> is_finite v = true /\ B2R v = r.
Proof.
  intros N G FT I B E. destruct (asked_computed grid values ex args N G FT) as (v' & E' & C). rewrite E in E'. injection E' as <-. exact (computed_flat ex grid values args v C r G FT I B).
Qed.
Print Assumptions C162_flat.

(** Without extrapolation the result is zero as soon as one argument is outside of the knots of its axis, whatever the values are. *)
Theorem C162_outside grid values args v : grid <> [] -> Forall good_axis grid -> Forall2 fits grid args -> Exists (fun p => outside (fst p) (snd p)) (combine grid args) ->
  asked grid values false args = Ok v -> is_finite v = true /\ B2R v = 0.
Proof.
  intros N G FT X E. destruct (asked_computed grid values false args N G FT) as (v' & E' & C). rewrite E in E'. injection E' as <-. exact (computed_outside grid values args v C G FT X).
Qed.
Print Assumptions C162_outside.

Definition i2d (z : Z) : double := d2 z 0.
Lemma good_ints (zs : list Z) : zs <> [] -> forallb (fun p => dlt (i2d (fst p)) (i2d (snd p))) (combine zs (tl zs)) = true -> forallb (fun z => is_finite (i2d z)) zs = true -> good_axis (DCont (map i2d zs)).
Proof.
  intros N A F. split; [destruct zs; [congruence|discriminate]|]. split.
  - intros i a b HA HB. rewrite forallb_forall in A. rewrite nth_error_map in HA, HB. destruct (nth_error zs i) as [u|] eqn:EU; [|discriminate]. destruct (nth_error zs (S i)) as [w|] eqn:EW; [|discriminate]. cbn in HA, HB. injection HA as <-. injection HB as <-.
    apply (A (u, w)). clear -EU EW. revert i EU EW. induction zs as [|z zs IH]; intros i EU EW; [destruct i; discriminate|]. destruct zs as [|z' zs]; [destruct i; discriminate|]. destruct i as [|i]; [cbn in EU, EW; injection EU as <-; injection EW as <-; left; reflexivity|]. right. apply (IH i EU EW).
  - rewrite forallb_forall in F. apply Forall_forall. intros x X. apply in_map_iff in X. destruct X as (z & <- & Z). apply F, Z.
Qed.
Lemma by_tests (f g : outcome double) (test : double -> double -> bool) : match f, g with Ok r, Ok s => test r s | _, _ => false end = true -> exists r s, f = Ok r /\ g = Ok s /\ test r s = true.
Proof. destruct f as [r| | |], g as [s| | |]; intro H; try discriminate H. exists r, s. repeat split. exact H. Qed.
Lemma by_test (f : outcome double) (test : double -> bool) : match f with Ok r => test r | _ => false end = true -> exists r, f = Ok r /\ test r = true.
Proof. destruct f as [r| | |]; intro H; try discriminate H. exists r. split; [reflexivity|exact H]. Qed.

(** The result depends on the order of the axes: the same values on the same knots, with the two axes exchanged. *)
Theorem C162_axis_order_refuted : exists k l values x y v w, good_axis (DCont k) /\ good_axis (DCont l) /\
  asked [DCont k; DCont l] values false [DNum x; DNum y] = Ok v /\ asked [DCont l; DCont k] (fun c => values (rev c)) false [DNum y; DNum x] = Ok w /\ dlt w v = true.
Proof.
  exists (map i2d [0; 3]%Z), (map i2d [0; 4]%Z), (fun c => match c with [O; S O] => i2d 1 | _ => i2d 0 end), (i2d 1), (i2d 3).
  match goal with |- exists v w, _ /\ _ /\ ?f = Ok v /\ ?g = Ok w /\ _ => destruct (by_tests f g (fun v w => dlt w v)) as (v & w & A & B & C) end; [vm_compute; reflexivity|].
  exists v, w. split; [apply good_ints; [discriminate|vm_compute; reflexivity|vm_compute; reflexivity]|]. split; [apply good_ints; [discriminate|vm_compute; reflexivity|vm_compute; reflexivity]|]. auto.
Qed.
Print Assumptions C162_axis_order_refuted.

(** At a node of the grid the result need not be the value of the node. *)
Theorem C162_nodes_refuted : exists k l values v, good_axis (DCont (map i2d k)) /\ good_axis (DCont (map i2d l)) /\ nth_error k 1 = Some 11%Z /\ nth_error l 0 = Some 0%Z /\ values [0; 1]%nat = i2d 4 /\
  asked [DCont (map i2d k); DCont (map i2d l)] values false [DNum (i2d 11); DNum (i2d 0)] = Ok v /\ dlt v (i2d 4) = true.
Proof.
  exists [4; 11]%Z, [0; 1]%Z, (fun c => match c with [_; O] => i2d 7 | _ => i2d 4 end).
  match goal with |- exists v, _ /\ _ /\ _ /\ _ /\ _ /\ ?f = Ok v /\ _ => destruct (by_test f (fun v => dlt v (i2d 4))) as (v & A & B) end; [vm_compute; reflexivity|].
  exists v. split; [apply good_ints; [discriminate|vm_compute; reflexivity|vm_compute; reflexivity]|]. split; [apply good_ints; [discriminate|vm_compute; reflexivity|vm_compute; reflexivity]|]. auto.
Qed.
Print Assumptions C162_nodes_refuted.

(** Equal knots are accepted, but not interpolated: with all the values 5 the result at the knot 1, given twice, is 3. *)
Theorem C162_equal_knots_refuted : exists v, asked [DCont [i2d 1; i2d 1]; DCont [i2d 0; i2d 1]] (fun _ => i2d 5) false [DNum (i2d 1); DNum (i2d 0)] = Ok v /\ deq v (i2d 3) = true.
Proof. apply by_test. vm_compute. reflexivity. Qed.
Print Assumptions C162_equal_knots_refuted.

(** Knots that are not numbers are accepted too: the order is only tested between neighbours. 5 and 3 are not in order. *)
Theorem C162_nan_knots_refuted : exists t, dbuild [DCont [i2d 5; dnan; i2d 3]; DCont [i2d 0; i2d 1]] [2; 3]%nat (fun _ => i2d 1) false = Ok t.
Proof.
  destruct (dbuild [DCont [i2d 5; dnan; i2d 3]; DCont [i2d 0; i2d 1]] [2; 3]%nat (fun _ => i2d 1) false) as [t| | |] eqn:E; [exists t; reflexivity| | |]; exfalso;
    (assert (Q : match dbuild [DCont [i2d 5; dnan; i2d 3]; DCont [i2d 0; i2d 1]] [2; 3]%nat (fun _ => i2d 1) false with Ok _ => true | _ => false end = true) by (vm_compute; reflexivity)); rewrite E in Q; discriminate.
Qed.
Print Assumptions C162_nan_knots_refuted.

(** A grid of two continuous axes and a discrete one, an argument inside and one outside, and the size of the budget. *)
Example C162_grid : let grid := [DCont (map i2d [0; 3]%Z); DDisc [7; 9]%Z; DCont (map i2d [1; 2; 4]%Z)] in
  Forall good_axis grid /\ Forall2 fits grid [DNum (i2d 1); DKey 9; DNum (i2d 3)] /\ Forall2 inside grid [DNum (i2d 1); DKey 9; DNum (i2d 3)] /\
  Forall2 scaled grid [(1, 3); (0, 0); (4, 4)] /\ Forall usual grid /\
  Exists (fun p => outside (fst p) (snd p)) (combine grid [DNum (i2d 1); DKey 9; DNum (i2d 5)]) /\
  0 < budget grid [(1, 3); (0, 0); (4, 4)] 100 < bpow radix2 (-30).
Proof.
  assert (V : B2R (i2d 0) = 0 /\ B2R (i2d 1) = 1 /\ B2R (i2d 2) = 2 /\ B2R (i2d 3) = 3 /\ B2R (i2d 4) = 4).
  { repeat split; match goal with |- B2R ?x = _ => replace (B2R x) with (SF2R radix2 (B2SF x)) by apply SF2R_B2SF; let y := eval vm_compute in (B2SF x) in replace (B2SF x) with y by (vm_compute; reflexivity) end; cbn; unfold F2R; cbn; lra. }
  destruct V as (V0 & V1 & V2 & V3 & V4). assert (P : 100 < bpow radix2 100) by (apply Rlt_trans with (bpow radix2 7); [cbn; lra|apply bpow_lt; lia]). assert (Q : bpow radix2 (-400) < 1) by (change 1 with (bpow radix2 0); apply bpow_lt; lia).
  assert (G : forall k, (7 <= k)%Z -> 100 < bpow radix2 k) by (intros k K; apply Rlt_le_trans with (bpow radix2 7); [cbn; lra|apply bpow_le; exact K]).
  assert (A1 : good_axis (DCont (map i2d [0; 3]%Z))) by (apply good_ints; [discriminate|vm_compute; reflexivity|vm_compute; reflexivity]).
  assert (A2 : good_axis (DCont (map i2d [1; 2; 4]%Z))) by (apply good_ints; [discriminate|vm_compute; reflexivity|vm_compute; reflexivity]).
  assert (L1 : forall (D : nat -> double -> Prop), D 0%nat (i2d 0) -> D 1%nat (i2d 3) -> forall i x, nth_error (map i2d [0; 3]%Z) i = Some x -> D i x).
  { intros D D0 D1 [|[|[|i]]] x H; try discriminate H; injection H as <-; assumption. }
  assert (L2 : forall (D : nat -> double -> Prop), D 0%nat (i2d 1) -> D 1%nat (i2d 2) -> D 2%nat (i2d 4) -> forall i x, nth_error (map i2d [1; 2; 4]%Z) i = Some x -> D i x).
  { intros D D0 D1 D2 [|[|[|[|i]]]] x H; try discriminate H; injection H as <-; assumption. }
  assert (P1 : forall (D : double -> double -> Prop), D (i2d 0) (i2d 3) -> forall i x0 x1, nth_error (map i2d [0; 3]%Z) i = Some x0 -> nth_error (map i2d [0; 3]%Z) (S i) = Some x1 -> D x0 x1).
  { intros D D0 [|[|[|i]]] x0 x1 H0 H1; try discriminate H1; injection H0 as <-; injection H1 as <-; assumption. }
  assert (P2 : forall (D : double -> double -> Prop), D (i2d 1) (i2d 2) -> D (i2d 2) (i2d 4) -> forall i x0 x1, nth_error (map i2d [1; 2; 4]%Z) i = Some x0 -> nth_error (map i2d [1; 2; 4]%Z) (S i) = Some x1 -> D x0 x1).
  { intros D D0 D1 [|[|[|[|i]]]] x0 x1 H0 H1; try discriminate H1; injection H0 as <-; injection H1 as <-; assumption. }
  pose proof (G 1023%Z ltac:(lia)) as BIG. cbv zeta. split; [|split; [|split; [|split; [|split; [|split]]]]].
  - constructor; [exact A1|]. constructor; [discriminate|]. constructor; [exact A2|constructor].
  - constructor; [reflexivity|]. constructor; [right; left; reflexivity|]. constructor; [reflexivity|constructor].
  - constructor; [exists (i2d 0), (i2d 3); repeat split|]. constructor; [exact I|]. constructor; [exists (i2d 1), (i2d 4); repeat split|constructor].
  - constructor; [|constructor; [split; [cbn; lra|split; [cbn; lra|exact I]]|constructor; [|constructor]]]; (split; [cbn; lra|split; [cbn; lra|split]]); cbn [fst snd].
    + apply (L1 (fun i x => Rabs (B2R x) <= 3)); rewrite ?V0, ?V3; apply Rabs_le; lra.
    + apply (P1 (fun x0 x1 => 3 <= 1 * (B2R x1 - B2R x0) /\ B2R x1 - B2R x0 < bpow radix2 1023)). rewrite V0, V3. lra.
    + apply (L2 (fun i x => Rabs (B2R x) <= 4)); rewrite ?V1, ?V2, ?V4; apply Rabs_le; lra.
    + apply (P2 (fun x0 x1 => 4 <= 4 * (B2R x1 - B2R x0) /\ B2R x1 - B2R x0 < bpow radix2 1023)); rewrite ?V1, ?V2, ?V4; lra.
  - constructor; [|constructor; [exact I|constructor; [|constructor]]]; split.
    + apply (L1 (fun i x => Rabs (B2R x) <= bpow radix2 100)); rewrite ?V0, ?V3; apply Rabs_le; lra.
    + apply (P1 (fun x0 x1 => bpow radix2 (-400) <= B2R x1 - B2R x0)). rewrite V0, V3. lra.
    + apply (L2 (fun i x => Rabs (B2R x) <= bpow radix2 100)); rewrite ?V1, ?V2, ?V4; apply Rabs_le; lra.
    + apply (P2 (fun x0 x1 => bpow radix2 (-400) <= B2R x1 - B2R x0)); rewrite ?V1, ?V2, ?V4; lra.
  - right. right. left. exists (i2d 1), (i2d 4). split; [reflexivity|]. split; [reflexivity|]. right. vm_compute. reflexivity.
  - cbn [budget map]. cbv zeta. set (u := bpow radix2 (-53)). set (t := bpow radix2 (-1075)). assert (UP : 0 < u) by apply bpow_gt_0. assert (TP : 0 < t) by apply bpow_gt_0.
    assert (TU : t < u) by (apply bpow_lt; lia). assert (U1 : u < / 1000000) by (apply Rlt_trans with (bpow radix2 (-20)); [apply bpow_lt; lia|cbn; lra]).
    assert (U2 : 2 ^ 23 * u = bpow radix2 (-30)) by (unfold u; change (2 ^ 23) with (bpow radix2 23) || (replace (2 ^ 23) with (bpow radix2 23) by (cbn; lra)); rewrite <- bpow_plus; reflexivity). nra.
Qed.
