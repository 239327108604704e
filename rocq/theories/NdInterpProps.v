(** Properties of the interpolation of N-dimensional arrays: C122. Values are real
    numbers; the axioms of the standard library's reals appear below. *)
From Coq Require Import Reals List Arith Bool Lia Lra.
From Verif Require Import Common CumulModel FunModel FunSpec FunProofs FunProofs2 FunProps InterpModel InterpSpec InterpProofs GridInterpModel GridInterpSpec GridInterpProofs GridInterpProps NdInterpModel NdInterpSpec NdInterpProofs.
Import ListNotations.
Local Open Scope R_scope.

(** ** C122: the interpolation of an array *)

Lemma rev_nonempty {A B} (f : A -> B) l : l <> [] -> rev (map f l) <> [].
Proof. intros N H. apply (f_equal (@length _)) in H. rewrite rev_length, map_length in H. destruct l; [congruence|discriminate H]. Qed.

(** For strictly ascending axes with a knot at least and an array whose dimensions are
    those of the axes, in the same order, the function is built and returns the
    multilinear interpolation of the array. *)
Theorem C122_value grid values extrapolate : grid <> [] -> Forall strictly_sorted grid -> Forall (fun ks => ks <> []) grid ->
  exists t, interpn grid (map (@length R) grid) values Linear extrapolate = Ok t /\
    forall args y, nd_value extrapolate grid values args y -> interpn_call t args = Ok y.
Proof.
  intros N P NE. destruct (C94_value (rev (map Cont grid)) values extrapolate (rev_nonempty _ _ N) (proper_rev _ P)) as (t & B & _).
  rewrite sizes_rev in B. exists t. split; [unfold interpn; rewrite B; reflexivity|]. intros args y V. exact (nd_call_ok extrapolate grid values t args y N P NE B V).
Qed.
Print Assumptions C122_value.

(** Every call with a coordinate for every axis has a value, and only one. *)
Theorem C122_every_call grid values extrapolate args : Forall strictly_sorted grid -> Forall (fun ks => ks <> []) grid -> length args = length grid ->
  exists y, nd_value extrapolate grid values args y /\ forall y', nd_value extrapolate grid values args y' -> y' = y.
Proof.
  intros P NE L. destruct (nd_exists extrapolate grid args P NE L values) as (y & Hy). exists y. split; [exact Hy|]. intros y' Hy'.
  destruct grid as [|ks grid]; [inversion Hy; subst; inversion Hy'; subst; reflexivity|].
  destruct (C122_value (ks :: grid) values extrapolate ltac:(discriminate) P NE) as (t & _ & V). pose proof (V _ _ Hy). pose proof (V _ _ Hy'). congruence.
Qed.
Print Assumptions C122_every_call.

(** At knots (i, j, ...) of the axes it returns element (i, j, ...) of the array. *)
Theorem C122_nodes grid values extrapolate t indices args : grid <> [] -> Forall strictly_sorted grid ->
  interpn grid (map (@length R) grid) values Linear extrapolate = Ok t ->
  length indices = length grid -> Forall2 (fun p x => nth_error (fst p) (snd p) = Some x) (combine grid indices) args ->
  interpn_call t args = Ok (values indices).
Proof.
  intros N P B L F. unfold interpn in B. destruct (build _ _ _ _) as [t'| | |] eqn:E; cbn [bind] in B; try discriminate B. injection B as ->.
  rewrite <- (sizes_rev grid) in E. rewrite <- (rev_involutive indices) at 1. unfold interpn_call.
  apply (C94_nodes (rev (map Cont grid)) values extrapolate t (rev indices) _ (rev_nonempty _ _ N) (proper_rev _ P) E); [|rewrite !rev_length, map_length; exact L].
  clear - L F. assert (EC : combine (rev (map Cont grid)) (rev indices) = rev (combine (map Cont grid) indices)).
  { clear F. revert indices L. induction grid as [|g grid IH]; intros [|i indices] L; try discriminate L; [reflexivity|]. cbn [map rev combine]. injection L as L. rewrite <- (IH indices L).
    assert (L2 : length (rev (map Cont grid)) = length (rev indices)) by (rewrite !rev_length, map_length; congruence). revert L2. generalize (rev (map Cont grid)) (rev indices). intros a. induction a as [|h a IHa]; intros [|z b] L2; try discriminate L2; [reflexivity|]. cbn. rewrite IHa; [reflexivity|]. injection L2. auto. }
  rewrite EC. clear EC. assert (F2 : Forall2 (fun p c => at_knot (fst p) (snd p) c) (combine (map Cont grid) indices) (map Num args)).
  { clear L. revert indices args F. induction grid as [|g grid IH]; intros [|i indices] args F; cbn [combine map] in *; inversion F as [|p c l args' H F']; subst; try constructor; [exact H|apply IH; exact F']. }
  clear - F2. induction F2 as [|p c l m H F2 IH]; [constructor|]. cbn [rev]. apply Forall2_app; [exact IH|]. constructor; [exact H|constructor].
Qed.
Print Assumptions C122_nodes.

(** Not extrapolated, the result is zero when a coordinate is outside of its axis. *)
Theorem C122_outside grid values t args ks x : Forall strictly_sorted grid -> Forall (fun ks => ks <> []) grid ->
  interpn grid (map (@length R) grid) values Linear false = Ok t -> length args = length grid ->
  In (ks, x) (combine grid args) -> x < el ks 0 \/ el ks (length ks - 1) < x -> interpn_call t args = Ok 0.
Proof.
  intros P NE B L I X. assert (N : grid <> []) by (intros ->; destruct I). destruct (C122_every_call grid values false args P NE L) as (y & Hy & _).
  destruct (C122_value grid values false N P NE) as (t' & B' & V). rewrite B in B'. injection B' as <-. rewrite (V _ _ Hy). f_equal.
  apply (value_outside _ _ _ _ Hy P). exists ks, x. split; assumption.
Qed.
Print Assumptions C122_outside.

(** Over axes with knots the function is built exactly when the interpolation is linear,
    the array has the dimensions of the axes in the same order, and the axes but the
    first are in order; otherwise it throws. *)
Theorem C122_accepted grid shape values type extrapolate : grid <> [] -> Forall (fun ks => ks <> []) grid ->
  let fits := type = Linear /\ shape = map (@length R) grid /\ forall ks, In ks (tl grid) -> sorted ks in
  (fits -> exists t, interpn grid shape values type extrapolate = Ok t) /\ (~ fits -> interpn grid shape values type extrapolate = Throw).
Proof.
  intros N NE. cbv zeta. assert (A : forall a, In a (rev (map Cont grid)) -> axis_size a <> 0%nat).
  { intros a I. apply in_rev in I. apply in_map_iff in I. destruct I as (ks & <- & I). rewrite Forall_forall in NE. specialize (NE ks I). destruct ks; [congruence|discriminate]. }
  assert (TL : removelast (rev (map Cont grid)) = rev (map Cont (tl grid))).
  { destruct grid as [|g grid]; [congruence|]. cbn [map rev tl]. rewrite removelast_app by discriminate. cbn. apply app_nil_r. }
  destruct (C95_accepted (rev (map Cont grid)) shape values extrapolate (rev_nonempty _ _ N) A) as [YES NO]. rewrite sizes_rev, TL in YES, NO. unfold interpn. split.
  - intros (-> & -> & O). destruct YES as [t B]; [split; [reflexivity|]; intros a I; apply in_rev in I; apply in_map_iff in I; destruct I as (ks & <- & I); exact (O ks I)|]. rewrite B. eexists. reflexivity.
  - intros H. destruct type.
    + rewrite NO; [reflexivity|]. intros [E O]. apply H. split; [reflexivity|]. split; [exact E|]. intros ks I. apply (O (Cont ks)). apply -> in_rev. apply in_map. exact I.
    + destruct (build _ _ _ _) as [t| | |] eqn:B; try reflexivity; exfalso.
      * assert (F : ~ (shape = map (@length R) grid /\ (forall a, In a (rev (map Cont (tl grid))) -> match a with Cont ks => sorted ks | Disc _ => True end))) by (intros F; destruct (YES F) as [t E]; discriminate E). discriminate (NO F).
      * assert (F : ~ (shape = map (@length R) grid /\ (forall a, In a (rev (map Cont (tl grid))) -> match a with Cont ks => sorted ks | Disc _ => True end))) by (intros F; destruct (YES F) as [t E]; discriminate E). discriminate (NO F).
Qed.
Print Assumptions C122_accepted.

(** The order of the first axis is not checked. *)
Theorem C122_first_axis_unchecked_refuted : exists grid, ~ Forall sorted grid /\
  forall values extrapolate, exists t, interpn grid (map (@length R) grid) values Linear extrapolate = Ok t.
Proof.
  exists [[1; 0]]. split; [|intros; eexists; reflexivity]. intros F. inversion F as [|a l H]; subst. specialize (H 0%nat 1%nat 1 0 ltac:(lia) eq_refl eq_refl). lra.
Qed.
Print Assumptions C122_first_axis_unchecked_refuted.

Example C122_example : let grid := [[0; 1; 3]; [0; 2]] in let values := fun c => match c with [i; j] => INR (10 * i + j) | _ => 0 end in
  Forall strictly_sorted grid /\ Forall (fun ks => ks <> []) grid /\ nd_value false grid values [2; 1] (31 / 2) /\ map (@length R) grid = [3; 2]%nat.
Proof.
  intros grid values. split; [constructor; [apply sorted3; lra|constructor; [apply strict2; lra|constructor]]|]. split; [repeat constructor; discriminate|]. split; [|reflexivity].
  replace (31 / 2) with (line (el [0; 1; 3] 1) (line (el [0; 2] 0) 10 (el [0; 2] 1) 11 1) (el [0; 1; 3] 2) (line (el [0; 2] 0) 20 (el [0; 2] 1) 21 1) 2) by (unfold line, el; cbn; field).
  replace 10 with (values [1; 0]%nat) by (unfold values; cbn; lra). replace 11 with (values [1; 1]%nat) by (unfold values; cbn; lra). replace 20 with (values [2; 0]%nat) by (unfold values; cbn; lra). replace 21 with (values [2; 1]%nat) by (unfold values; cbn; lra).
  apply NCell; [cbn; lia|left; unfold el; cbn; lra| |].
  - apply (NCell false [0; 2] 0 1 [] (fun c => values (1%nat :: c))); [cbn; lia|left; unfold el; cbn; lra|apply (NEnd false (fun c => values (1 :: 0 :: c)%nat))|apply (NEnd false (fun c => values (1 :: 1 :: c)%nat))].
  - apply (NCell false [0; 2] 0 1 [] (fun c => values (2%nat :: c))); [cbn; lia|left; unfold el; cbn; lra|apply (NEnd false (fun c => values (2 :: 0 :: c)%nat))|apply (NEnd false (fun c => values (2 :: 1 :: c)%nat))].
Qed.
