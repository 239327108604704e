(** Properties of the KdTree in double precision: C132, C133. *)
From Coq Require Import List Arith Bool ZArith Reals Lra Lia Permutation Sorted.
From Flocq Require Import Core IEEE754.BinarySingleNaN.
From Verif Require Import Common FloatModel FloatProofs DoubleProofs DoubleProofs2 DKdModel DKdSpec DKdProofs.
Import ListNotations.

(** ** C132 *)

(** The search finds every point, each as often as it was given, whose computed distance is
    smaller than the radius, and no other: the pruning of the tree never loses a point to
    rounding, for any coordinates of the query, even infinite ones or NaN. *)
Theorem C132_search : forall (T : Type) (coord : T -> nat -> double) sort N leaf data c radius,
  dsorts coord sort -> N > 0 -> leaf > 0 -> (forall e, In e data -> moderate coord N e) ->
  dle d0 radius = true ->
  exists found, dkd_find coord sort N leaf data c radius = Ok found /\
    Permutation found (filter (fun e => dlt (computed_square coord e c N) (dmul radius radius)) data).
Proof.
  intros T coord sort N leaf data c radius Hs PN PL M R.
  assert (NR : num radius) by (destruct radius; try reflexivity; discriminate R).
  destruct (build_total coord sort N leaf Hs PL PN (length data) 0 data PN M (le_n _)) as (t & E & F).
  unfold dkd_find, dkd_build. rewrite E. cbn [bind]. eexists. split; [reflexivity|].
  assert (R0 : (0 <= ext radius)%R). { apply (dle_iff d0 radius) in R; [|reflexivity|exact NR]. exact R. }
  specialize (F c radius NR R0). unfold dclose_to in F.
  erewrite filter_ext; [exact F|]. intros e. unfold computed_square. cbv beta. rewrite computed_eq. reflexivity.
Qed.
Print Assumptions C132_search.

(** A sort that meets the hypothesis. *)
Fixpoint dinsert {T} (key : T -> double) (x : T) (l : list T) : list T :=
  match l with
  | [] => [x]
  | y :: r => if dle (key x) (key y) then x :: y :: r else y :: dinsert key x r
  end.
Definition disort {T} (coord : T -> nat -> double) (axis : nat) (l : list T) : list T :=
  fold_right (dinsert (fun e => coord e axis)) [] l.
Lemma dinsert_perm {T} (key : T -> double) x l : Permutation (dinsert key x l) (x :: l).
Proof.
  induction l as [|y l IH]; cbn [dinsert]; [apply Permutation_refl|]. destruct (dle _ _); [apply Permutation_refl|].
  eapply Permutation_trans; [apply perm_skip, IH|]. apply perm_swap.
Qed.
Lemma dinsert_sorted {T} (key : T -> double) x l : num (key x) -> Forall (fun y => num (key y)) l ->
  StronglySorted (fun a b => dle (key a) (key b) = true) l -> StronglySorted (fun a b => dle (key a) (key b) = true) (dinsert key x l).
Proof.
  intros NX NL H. induction H as [|y l Hs IH Hf]; cbn [dinsert]; [repeat constructor|]. inversion NL as [|? ? NY NL']; subst.
  destruct (dle (key x) (key y)) eqn:E.
  - constructor; [constructor; assumption|]. constructor; [assumption|]. rewrite Forall_forall in *. intros a Ha.
    pose proof (Hf a Ha) as Q. pose proof (NL' a Ha) as NA. apply dle_iff in E, Q; try assumption. apply dle_iff; try assumption. lra.
  - constructor; [apply IH; assumption|]. apply Forall_forall. intros z Hz.
    apply (Permutation_in _ (dinsert_perm key x l)) in Hz. destruct Hz as [<-|Hz].
    + apply dle_no in E; try assumption. apply dle_iff; try assumption. lra.
    + rewrite Forall_forall in Hf. apply Hf, Hz.
Qed.
Lemma disort_sorts {T} (coord : T -> nat -> double) : dsorts coord (disort coord).
Proof.
  intros axis l. unfold disort. induction l as [|x l (IH1 & IH2)]; cbn [fold_right]; [split; [constructor|intros _; constructor]|]. split.
  - eapply Permutation_trans; [apply dinsert_perm|]. apply perm_skip. assumption.
  - intros H. apply dinsert_sorted.
    + apply H. left. reflexivity.
    + apply Forall_forall. intros y Hy. apply H. right. apply (Permutation_in _ IH1 Hy).
    + apply IH2. intros e He. apply H. right. exact He.
Qed.
Definition dxy (p : double * double) (i : nat) : double := match i with O => fst p | _ => snd p end.
Definition dex_points : list (double * double) :=
  [(d2 0 0, d2 0 0); (d2 1 0, d2 1 0); (d2 1 0, d2 1 0); (d2 4 0, d2 0 0); (d2 0 0, d2 5 0); (d2 2 0, d2 2 0); (d2 (-1) 0, d2 3 0); (d2 1 (-3), d2 (-1) 0)].
Example C132_example :
  dsorts dxy (disort dxy) /\ (forall e, In e dex_points -> moderate dxy 2 e) /\ dle d0 (d2 3 (-1)) = true /\
  option_map (map (fun p => (B2SF (fst p), B2SF (snd p)))) (match dkd_find dxy (disort dxy) 2 1 dex_points (dxy (d2 1 0, d2 0 0)) (d2 3 (-1)) with Ok l => Some l | _ => None end)
  = Some (map (fun p => (B2SF (fst p), B2SF (snd p))) [(d2 0 0, d2 0 0); (d2 1 (-3), d2 (-1) 0); (d2 1 0, d2 1 0); (d2 1 0, d2 1 0)]).
Proof.
  split; [apply disort_sorts|]. split.
  - assert (B : forall m : positive, (Z.pos m <= 5)%Z -> (IZR (Z.pos m) < bpow radix2 1023)%R).
    { intros m H. apply Rle_lt_trans with 5%R; [apply IZR_le, H|]. apply Rlt_le_trans with (bpow radix2 3); [cbn; lra|apply bpow_le; lia]. }
    intros e I i L.
    assert (X : forall x, In x [d2 0 0; d2 1 0; d2 4 0; d2 5 0; d2 2 0; d2 (-1) 0; d2 3 0; d2 1 (-3)] -> is_finite x = true /\ (Rabs (B2R x) < bpow radix2 1023)%R).
    { intros x J. repeat (destruct J as [<-|J]; [split; [vm_compute; reflexivity|]|]); [..|destruct J];
        (apply Rle_lt_trans with 5%R; [|apply (B 5%positive); lia]).
      all: match goal with |- context [B2R ?d] => let s := eval vm_compute in (B2SF d) in replace (B2R d) with (SF2R radix2 s) by (rewrite <- SF2R_B2SF; f_equal; vm_compute; reflexivity) end.
      all: unfold SF2R, F2R; cbn; rewrite ?Rabs_R0; try lra; apply Rabs_le; lra. }
    repeat (destruct I as [<-|I]; [destruct i as [|[|]]; [| |lia]; cbn [dxy fst snd]; apply X; cbn [In]; tauto|]). destruct I.
  - split; [vm_compute; reflexivity|]. vm_compute. reflexivity.
Qed.

(** A point with coordinates of 2^1023 or more can be lost: the middle of two of them
    overflows, and everything at its right is searched only if infinity is within reach. *)
Theorem C132_large_coordinates_refuted : exists data c radius,
  dle d0 radius = true /\ (forall e, In e data -> is_finite (dxy e 0) = true /\ is_finite (dxy e 1) = true) /\
  dkd_find dxy (disort dxy) 2 1 data c radius = Ok [] /\
  exists e, In e data /\ dlt (computed_square dxy e c 2) (dmul radius radius) = true.
Proof.
  exists [(d2 1 1023, d0); (d2 3 1022, d0)], (dxy (d2 3 1022, d0)), d1. split; [vm_compute; reflexivity|]. split; [|split].
  - intros e I. repeat (destruct I as [<-|I]; [split; vm_compute; reflexivity|]). destruct I.
  - vm_compute. reflexivity.
  - exists (d2 3 1022, d0). split; [right; left; reflexivity|]. vm_compute. reflexivity.
Qed.
Print Assumptions C132_large_coordinates_refuted.

(** ** C133 *)

(** A point is found if its distance is smaller than the radius by a relative 2^-40 in
    the squares, and is not found if it is larger by as much, for up to 1024 dimensions and
    radii from 2^-400 to 2^500; in between, rounding decides. *)
Theorem C133_tolerance : forall (T : Type) (coord : T -> nat -> double) sort N leaf data c radius,
  dsorts coord sort -> 0 < N <= 1024 -> leaf > 0 -> (forall e, In e data -> moderate coord N e) ->
  (forall i, i < N -> is_finite (c i) = true) -> is_finite radius = true ->
  (bpow radix2 (-400) <= B2R radius <= bpow radix2 500)%R ->
  exists found, dkd_find coord sort N leaf data c radius = Ok found /\
    forall e, In e data ->
      ((exact_square coord e c N <= B2R radius ^ 2 * (1 - bpow radix2 (-40)))%R -> In e found) /\
      ((exact_square coord e c N >= B2R radius ^ 2 * (1 + bpow radix2 (-40)))%R -> ~ In e found).
Proof.
  intros T coord sort N leaf data c radius Hs PN PL M FC FR [RL RH].
  assert (R : dle d0 radius = true).
  { apply dle_iff; [reflexivity|apply finite_num, FR|]. rewrite (dext_finite _ FR). apply Rle_trans with (2 := RL). apply (bpow_ge_0 radix2). }
  destruct (C132_search T coord sort N leaf data c radius Hs ltac:(lia) PL M R) as (found & E & P).
  exists found. split; [exact E|]. intros e He.
  assert (FE : forall i, i < N -> is_finite (coord e i) = true) by (intros i L; apply (M e He i L)).
  assert (Q : exact_square coord e c N = exact_from coord e c N 0) by (symmetry; apply exact_from_spec).
  assert (W : computed_square coord e c N = dsquare_dist coord e c N 0 d0) by (unfold computed_square; rewrite computed_eq; reflexivity).
  replace (B2R radius ^ 2)%R with (B2R radius * B2R radius)%R by ring. rewrite Q. split; intros H.
  - apply (Permutation_in _ (Permutation_sym P)). apply filter_In. split; [exact He|]. rewrite W.
    apply near_found; try assumption. lia.
  - intros I. apply (Permutation_in _ P) in I. apply filter_In in I. destruct I as [_ I]. rewrite W in I.
    rewrite far_not_found in I; try assumption; [discriminate|lia|apply Rge_le, H].
Qed.
Print Assumptions C133_tolerance.
Example C133_example : (0 < 2 <= 1024)%nat /\ (forall i, i < 2 -> is_finite (dxy (d1, d0) i) = true) /\ is_finite dtwo = true /\
  (bpow radix2 (-400) <= B2R dtwo <= bpow radix2 500)%R /\
  (exact_square dxy (d2 3 0, d2 1 0) (dxy (d1, d0)) 2 >= B2R dtwo ^ 2 * (1 + bpow radix2 (-40)))%R /\
  (exact_square dxy (d1, d1) (dxy (d1, d0)) 2 <= B2R dtwo ^ 2 * (1 - bpow radix2 (-40)))%R.
Proof.
  assert (V0 : B2R d0 = 0%R) by reflexivity.
  assert (V1 : B2R d1 = 1%R) by (rewrite <- SF2R_B2SF; replace (B2SF d1) with (SpecFloat.S754_finite false 4503599627370496%positive (-52)%Z) by (vm_compute; reflexivity); unfold SF2R, F2R; cbn; lra).
  assert (V2 : B2R dtwo = 2%R) by (rewrite <- SF2R_B2SF; replace (B2SF dtwo) with (SpecFloat.S754_finite false 4503599627370496%positive (-51)%Z) by (vm_compute; reflexivity); unfold SF2R, F2R; cbn; lra).
  assert (V3 : B2R (d2 3 0) = 3%R) by (rewrite <- SF2R_B2SF; replace (B2SF (d2 3 0)) with (SpecFloat.S754_finite false 6755399441055744%positive (-51)%Z) by (vm_compute; reflexivity); unfold SF2R, F2R; cbn; lra).
  assert (V4 : B2R (d2 1 0) = 1%R) by exact V1.
  split; [lia|]. split; [intros [|[|]] L; [reflexivity|reflexivity|lia]|]. split; [reflexivity|]. unfold exact_square. cbn [seq fold_right dxy fst snd]. rewrite V0, V1, V2, V3, V4.
  assert (P : (0 < bpow radix2 (-40) <= / 8)%R) by (split; [apply bpow_gt_0|apply (bpow_le radix2 (-40) (-3)); lia]).
  split; [split|split; lra].
  - apply Rle_trans with (bpow radix2 0); [apply bpow_le; lia|cbn; lra].
  - apply Rle_trans with (bpow radix2 1); [cbn; lra|apply bpow_le; lia].
Qed.

(** With a radius whose square underflows not even the point itself is found. *)
Theorem C133_small_radius_refuted : exists data c radius,
  is_finite radius = true /\ (0 < B2R radius)%R /\ (forall e, In e data -> exact_square dxy e c 2 = 0%R) /\
  data <> [] /\ dkd_find dxy (disort dxy) 2 1 data c radius = Ok [].
Proof.
  exists [(d0, d0)], (dxy (d0, d0)), (d2 1 (-600)). split; [vm_compute; reflexivity|]. split; [|split; [|split]].
  - rewrite <- SF2R_B2SF. replace (B2SF (d2 1 (-600))) with (SpecFloat.S754_finite false 4503599627370496%positive (-652)%Z) by (vm_compute; reflexivity).
    apply F2R_gt_0. reflexivity.
  - intros e [<-|[]]. unfold exact_square. cbn [seq fold_right dxy fst snd]. change (B2R d0) with 0%R. ring.
  - discriminate.
  - vm_compute. reflexivity.
Qed.
Print Assumptions C133_small_radius_refuted.

(** With a radius whose square overflows, points well within the radius can be missed: their
    computed distance is infinite as well. *)
Theorem C133_large_radius_refuted : exists data c radius,
  is_finite radius = true /\ (forall e, In e data -> (exact_square dxy e c 2 = bpow radix2 1200)%R) /\
  (B2R radius = bpow radix2 1000)%R /\ data <> [] /\ dkd_find dxy (disort dxy) 2 1 data c radius = Ok [].
Proof.
  assert (V : forall k, (k = 600 \/ k = 1000)%Z -> B2R (d2 1 k) = bpow radix2 k).
  { intros k [->| ->]; rewrite <- SF2R_B2SF.
    - replace (B2SF (d2 1 600)) with (SpecFloat.S754_finite false 4503599627370496%positive (548)%Z) by (vm_compute; reflexivity). unfold SF2R, F2R. cbn [cond_Zopp Fnum Fexp].
      change 600%Z with (52 + 548)%Z. rewrite bpow_plus. f_equal.
    - replace (B2SF (d2 1 1000)) with (SpecFloat.S754_finite false 4503599627370496%positive (948)%Z) by (vm_compute; reflexivity). unfold SF2R, F2R. cbn [cond_Zopp Fnum Fexp].
      change 1000%Z with (52 + 948)%Z. rewrite bpow_plus. f_equal. }
  exists [(d2 1 600, d0)], (dxy (d0, d0)), (d2 1 1000). split; [vm_compute; reflexivity|]. split; [|split; [apply V; right; reflexivity|split]].
  - intros e [<-|[]]. unfold exact_square. cbn [seq fold_right dxy fst snd]. change (B2R d0) with 0%R. rewrite V by (left; reflexivity).
    change 1200%Z with (600 + 600)%Z. rewrite bpow_plus. ring.
  - discriminate.
  - vm_compute. reflexivity.
Qed.
Print Assumptions C133_large_radius_refuted.
