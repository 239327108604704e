(** Properties of the interpolation on a grid: C94, C95. Values are real numbers;
    the axioms of the standard library's reals appear below. *)
From Coq Require Import Reals List Arith Bool ZArith Lia Lra.
From Verif Require Import Common CumulModel FunModel FunSpec FunProofs FunProofs2 FunProps InterpModel InterpSpec InterpProofs GridInterpModel GridInterpSpec GridInterpProofs.
Import ListNotations.
Local Open Scope R_scope.

(** ** C94: the interpolated value *)

(** For ascending continuous axes and discrete axes without repetition, the
    interpolator is built and returns the multilinear interpolation of the values. *)
Theorem C94_value grid values extrapolate : grid <> [] -> Forall proper grid ->
  exists t, build grid (rev (map axis_size grid)) values extrapolate = Ok t /\
    forall args y, grid_value extrapolate grid values args y -> call t args = Ok y.
Proof. intros N P. exact (build_ok extrapolate grid values N P). Qed.
Print Assumptions C94_value.

(** Every call has a value: any number on a continuous axis, any of the values of a
    discrete one; and only one. *)
Theorem C94_every_call grid values extrapolate args : Forall proper grid -> Forall2 suits grid args ->
  exists y, grid_value extrapolate grid values args y /\ forall y', grid_value extrapolate grid values args y' -> y' = y.
Proof.
  intros P F2. destruct (value_exists extrapolate grid args P F2 values) as (y & Hy). exists y. split; [exact Hy|]. intros y' Hy'.
  destruct grid as [|a grid]; [inversion F2; subst; inversion Hy; inversion Hy'; subst; congruence|].
  destruct (C94_value (a :: grid) values extrapolate ltac:(discriminate) P) as (t & _ & V). pose proof (V _ _ Hy). pose proof (V _ _ Hy'). congruence.
Qed.
Print Assumptions C94_every_call.

(** At the knots it returns the values themselves; the coordinates in the array are
    those of the axes in reverse order. *)
Theorem C94_nodes grid values extrapolate t indices args : grid <> [] -> Forall proper grid -> build grid (rev (map axis_size grid)) values extrapolate = Ok t ->
  Forall2 (fun p c => at_knot (fst p) (snd p) c) (combine grid indices) args -> length indices = length grid -> call t args = Ok (values (rev indices)).
Proof.
  intros N P B K L. destruct (C94_value grid values extrapolate N P) as (t' & B' & V). rewrite B in B'. injection B' as <-. apply V. clear B V N.
  revert values indices args K L. induction grid as [|a grid IH]; intros values indices args K L.
  - destruct indices; [|cbn in L; lia]. cbn in K. inversion K; subst. cbn. constructor.
  - destruct indices as [|i indices]; [cbn in L; lia|]. cbn [combine] in K. inversion K as [|p c l args' HK KS]; subst. inversion P as [|a' g' PA PG]; subst. cbn [fst snd] in HK. cbn [rev].
    assert (G : forall v, grid_value extrapolate grid v args' (v (rev indices))) by (intro v; apply IH; [exact PG|exact KS|cbn in L; lia]).
    destruct a as [ks|ks], c as [x|k]; cbn in HK, PA; try contradiction.
    + assert (HI : (i < length ks)%nat) by (apply nth_error_Some; congruence). rewrite (el_nth ks i HI) in HK. injection HK as <-.
      destruct (Nat.eq_dec (length ks) 1) as [E1|N1].
      * destruct ks as [|k [|k' ks]]; cbn in E1; try lia. destruct i; [|cbn in HI; lia]. apply GOnly; [right; reflexivity|]. apply (G (fun c => values (c ++ [0%nat]))).
      * destruct (Nat.eq_dec i (length ks - 1)) as [E|NE].
        -- destruct i as [|i]; [lia|]. pose proof (el_strict ks i (S i) PA ltac:(lia) ltac:(lia)). rewrite <- (line_right (el ks i) (values (rev indices ++ [i])) (el ks (S i)) (values (rev indices ++ [S i]))) by lra.
           apply (GCell extrapolate ks i); [lia|left; lra|apply (G (fun c => values (c ++ [i])))|apply (G (fun c => values (c ++ [S i])))].
        -- pose proof (el_strict ks i (S i) PA ltac:(lia) ltac:(lia)). rewrite <- (line_left (el ks i) (values (rev indices ++ [i])) (el ks (S i)) (values (rev indices ++ [S i]))).
           apply (GCell extrapolate ks i); [lia|left; lra|apply (G (fun c => values (c ++ [i])))|apply (G (fun c => values (c ++ [S i])))].
    + eapply GKey; [exact HK|]. apply (G (fun c => values (c ++ [i]))).
Qed.
Print Assumptions C94_nodes.

(** Within the grid the result lies between the bounds of the values. *)
Theorem C94_bounds grid values extrapolate t args y lo hi : grid <> [] -> Forall proper grid -> build grid (rev (map axis_size grid)) values extrapolate = Ok t ->
  Forall2 suits grid args -> Forall2 within grid args -> (forall c, lo <= values c <= hi) -> call t args = Ok y -> lo <= y <= hi.
Proof.
  intros N P B ST W BD C. destruct (C94_value grid values extrapolate N P) as (t' & B' & V). rewrite B in B'. injection B' as <-. destruct (value_exists extrapolate grid args P ST values) as (y' & Hy).
  rewrite (V _ _ Hy) in C. injection C as ->. clear - Hy W BD P. revert W BD P. induction Hy as [v|ks i k grid v args y Hk Hy IH|ks i x grid v args y1 y2 Hi C H1 IH1 H2 IH2|k x grid v args y C Hy IH|ks x grid v args E PL X F2]; intros W BD P.
  - apply BD.
  - inversion W; subst. inversion P; subst. apply IH; auto.
  - inversion W as [|a c g l WA WG]; subst. inversion P as [|a g PA PG]; subst. cbn in WA, PA. specialize (IH1 WG (fun c => BD (c ++ [i])) PG). specialize (IH2 WG (fun c => BD (c ++ [S i])) PG).
    pose proof (el_strict ks i (S i) PA ltac:(lia) ltac:(lia)) as D. assert (X : el ks i <= x <= el ks (S i)). { destruct C as [C|(_ & [(-> & C)|(-> & C)])]; [exact C|lra|lra]. }
    unfold line. set (u := (x - el ks i) / (el ks (S i) - el ks i)). assert (U : 0 <= u <= 1).
    { unfold u. split; [apply Rmult_le_pos; [lra|left; apply Rinv_0_lt_compat; lra]|]. apply (Rmult_le_reg_r (el ks (S i) - el ks i)); [lra|]. unfold Rdiv. rewrite Rmult_assoc, Rinv_l by lra. lra. }
    assert (0 <= u * (y2 - lo)) by (apply Rmult_le_pos; lra). assert (0 <= (1 - u) * (y1 - lo)) by (apply Rmult_le_pos; lra). assert (0 <= u * (hi - y2)) by (apply Rmult_le_pos; lra). assert (0 <= (1 - u) * (hi - y1)) by (apply Rmult_le_pos; lra). lra.
  - inversion W; subst. inversion P; subst. apply IH; auto.
  - inversion W as [|a c g l WA WG]; subst. cbn in WA. lra.
Qed.
Print Assumptions C94_bounds.

(** Not extrapolated, the result is zero when a coordinate is outside of its axis. *)
Theorem C94_outside grid values t args : grid <> [] -> Forall proper grid -> build grid (rev (map axis_size grid)) values false = Ok t ->
  Forall2 suits grid args -> ~ Forall2 within grid args -> call t args = Ok 0.
Proof.
  intros N P B ST W. destruct (C94_value grid values false N P) as (t' & B' & V). rewrite B in B'. injection B' as <-. apply V. clear B V N. revert values P W. induction ST as [|a c grid args SA ST IH]; intros values P W; [exfalso; apply W; constructor|].
  inversion P as [|a' g' PA PG]; subst. destruct a as [ks|ks], c as [x|k]; cbn in SA; try contradiction; cbn in PA.
  - assert (PL : (0 < length ks)%nat) by (destruct ks; [congruence|cbn; lia]).
    destruct (Rlt_dec x (el ks 0)) as [X|X]; [apply GOutside; auto|]. destruct (Rlt_dec (el ks (length ks - 1)) x) as [X'|X']; [apply GOutside; auto|].
    assert (W' : ~ Forall2 within grid args) by (intro H; apply W; constructor; [cbn; lra|exact H]).
    destruct (Nat.eq_dec (length ks) 1) as [E1|N1].
    + destruct ks as [|k [|k' ks]]; cbn in E1; try lia. apply GOnly; [right; unfold el in X, X'; cbn in X, X'; lra|]. apply IH; auto.
    + destruct (inside_cell ks x PA ltac:(lia) ltac:(lra)) as (i & Hi & XI). replace 0 with (line (el ks i) 0 (el ks (S i)) 0 x) by (unfold line; ring). apply (GCell false ks i); [exact Hi|left; exact XI|apply IH; auto|apply IH; auto].
  - destruct (In_nth_error _ _ SA) as (i & Hi). apply (GKey false ks i k); [exact Hi|]. apply IH; auto. intro H. apply W. constructor; [exact I|exact H].
Qed.
Print Assumptions C94_outside.

(** The documentation of the class says that element (0, 1) of the values is at knot
    0 of the first axis and knot 1 of the second; it is the other way round. *)
Theorem C94_axis_order_refuted : exists grid values t, build grid [2; 2]%nat values false = Ok t /\
  Forall proper grid /\ grid = [Cont [0; 1]; Cont [0; 1]] /\ call t [Num 0; Num 1] <> Ok (values [0; 1]%nat).
Proof.
  set (grid := [Cont [0; 1]; Cont [0; 1]]). set (values := fun c => match c with [i; j] => INR i | _ => 0 end).
  assert (P : Forall proper grid) by (repeat constructor; apply strict2; lra).
  destruct (C94_value grid values false ltac:(discriminate) P) as (t & B & _). exists grid, values, t. split; [exact B|]. split; [exact P|]. split; [reflexivity|].
  rewrite (C94_nodes grid values false t [0; 1]%nat [Num 0; Num 1] ltac:(discriminate) P B) by (repeat constructor). cbn. intro E. injection E as E. lra.
Qed.
Print Assumptions C94_axis_order_refuted.

(** A value that is not on a discrete axis: the documentation promises zero, the
    code reads past the end of the knots. *)
Theorem C94_absent_value_refuted : forall ks values extrapolate k, ~ In k ks -> exists t, build [Disc ks] [length ks] values extrapolate = Ok t /\ call t [Key k] = UB.
Proof.
  intros ks values e k N. cbn [build axis_size]. rewrite Nat.eqb_refl. eexists. split; [reflexivity|]. cbn [call leaf_value]. rewrite find_key_none by exact N. reflexivity.
Qed.
Print Assumptions C94_absent_value_refuted.

Example C94_example : let grid := [Cont [0; 1; 3]; Disc [7; 5]%Z] in
  Forall proper grid /\ Forall2 suits grid [Num 2; Key 5%Z] /\ grid_value false grid (fun c => match c with [i; j] => INR (10 * i + j) | _ => 0 end) [Num 2; Key 5%Z] (23 / 2).
Proof.
  intro grid. split; [constructor; [apply sorted3; lra|constructor; [|constructor]]; cbn; repeat constructor; cbn; intuition congruence|].
  split; [constructor; [cbn; congruence|constructor; [cbn; tauto|constructor]]|].
  replace (23 / 2) with (line (el [0; 1; 3] 1) (INR 11) (el [0; 1; 3] 2) (INR 12) 2) by (unfold line, el; cbn; field).
  apply (GCell false [0; 1; 3] 1); [cbn; lia|left; unfold el; cbn; lra| |].
  - apply (GKey false _ 1 5%Z); [reflexivity|]. apply (GEnd false (fun c => match (c ++ [1%nat]) ++ [1%nat] with [i; j] => INR (10 * i + j) | _ => 0 end)).
  - apply (GKey false _ 1 5%Z); [reflexivity|]. apply (GEnd false (fun c => match (c ++ [1%nat]) ++ [2%nat] with [i; j] => INR (10 * i + j) | _ => 0 end)).
Qed.

(** ** C95: which grids are accepted *)

Lemma build_all_throw {T} (f : nat -> outcome T) : forall n i, (forall j, f j = Throw) -> (0 < n)%nat -> build_all f i n = Throw.
Proof. intros [|n] i H P; [lia|]. cbn [build_all]. rewrite H. reflexivity. Qed.

Lemma build_unfold a b rest shape values e : build (a :: b :: rest) shape values e =
  if negb (Nat.eqb (length shape) (length (a :: b :: rest))) then Throw else if negb (in_order a) then Throw else if negb (Nat.eqb (axis_size a) (last shape 0%nat)) then Throw
  else do subs <- build_all (fun i => build (b :: rest) (removelast shape) (fun c => values (c ++ [i])) e) 0 (axis_size a); Ok (Node a subs e).
Proof. reflexivity. Qed.

(** An interpolator for axes with knots is built exactly when there is a dimension
    for every axis, in reverse order and of its size, and the continuous axes but
    the last are in order; otherwise the constructor throws. *)
Theorem C95_accepted grid shape values extrapolate : grid <> [] -> (forall a, In a grid -> axis_size a <> 0%nat) ->
  let fits := shape = rev (map axis_size grid) /\ forall a, In a (removelast grid) -> match a with Cont ks => sorted ks | Disc _ => True end in
  (fits -> exists t, build grid shape values extrapolate = Ok t) /\ (~ fits -> build grid shape values extrapolate = Throw).
Proof.
  intros N S0. cbv zeta. revert shape values N S0. induction grid as [|a grid IH]; intros shape values N S0; [congruence|]. destruct grid as [|b grid].
  - cbn [build map rev app removelast]. split.
    + intros [-> _]. rewrite Nat.eqb_refl. eexists. reflexivity.
    + intro H. destruct shape as [|n [|m shape]]; try reflexivity. destruct (Nat.eqb (axis_size a) n) eqn:E; [|reflexivity]. apply Nat.eqb_eq in E. exfalso. apply H. split; [subst; reflexivity|]. intros x [].
  - change (rev (map axis_size (a :: b :: grid))) with (rev (map axis_size (b :: grid)) ++ [axis_size a]). change (removelast (a :: b :: grid)) with (a :: removelast (b :: grid)).
    assert (IHs : forall s v, (s = rev (map axis_size (b :: grid)) /\ (forall a, In a (removelast (b :: grid)) -> match a with Cont ks => sorted ks | Disc _ => True end) -> exists t, build (b :: grid) s v extrapolate = Ok t) /\
       (~ (s = rev (map axis_size (b :: grid)) /\ (forall a, In a (removelast (b :: grid)) -> match a with Cont ks => sorted ks | Disc _ => True end)) -> build (b :: grid) s v extrapolate = Throw)).
    { intros s v. apply IH; [discriminate|]. intros x Hx. apply S0. right. exact Hx. }
    assert (SA : axis_size a <> 0%nat) by (apply S0; left; reflexivity). split.
    + intros [-> O]. rewrite build_cons. rewrite app_length, rev_length, map_length. replace (Nat.eqb (length (b :: grid) + length [axis_size a]) (length (a :: b :: grid))) with true by (symmetry; apply Nat.eqb_eq; cbn; lia). cbn [negb].
      replace (in_order a) with true. 2:{ symmetry. destruct a as [ks|ks]; [apply sorted_increasing; exact (O (Cont ks) (or_introl eq_refl))|reflexivity]. } cbn [negb].
      destruct (build_all_ok (fun i => build (b :: grid) (rev (map axis_size (b :: grid))) (fun c => values (c ++ [i])) extrapolate) (axis_size a) 0) as (subs & E & _ & _).
      { intros j _. apply IHs. split; [reflexivity|]. intros x I. exact (O x (or_intror I)). }
      rewrite E. cbn [bind]. eexists. reflexivity.
    + intro H. rewrite build_unfold. destruct (Nat.eqb (length shape) (length (a :: b :: grid))) eqn:EL; [|reflexivity]. apply Nat.eqb_eq in EL. cbn [negb]. destruct (in_order a) eqn:EO; [|reflexivity]. cbn [negb].
      destruct (Nat.eqb (axis_size a) (last shape 0%nat)) eqn:EA; [|reflexivity]. apply Nat.eqb_eq in EA. cbn [negb]. rewrite (build_all_throw (fun i => build (b :: grid) (removelast shape) (fun c => values (c ++ [i])) extrapolate) (axis_size a) 0); [reflexivity| |lia].
      intro j. apply IHs. intros [ES O]. apply H. split.
      * rewrite <- ES. rewrite EA. apply app_removelast_last. destruct shape; [cbn in EL; lia|discriminate].
      * intros x [<-|I].
        -- destruct a as [k|k]; [apply increasing_sorted; exact EO|exact Logic.I].
        -- exact (O x I).
Qed.
Print Assumptions C95_accepted.

(** The order of the last axis is not checked: a grid of one axis out of order is
    accepted, though the interpolation along it needs the order. *)
Theorem C95_last_axis_unchecked_refuted : exists ks, ~ sorted ks /\ forall values extrapolate, exists t, build [Cont ks] [length ks] values extrapolate = Ok t.
Proof. exists [1; 0]. split; [intro H; specialize (H 0%nat 1%nat 1 0 ltac:(lia) eq_refl eq_refl); lra|]. intros. eexists. reflexivity. Qed.
Print Assumptions C95_last_axis_unchecked_refuted.

Example C95_example : exists t, build [Cont [0; 1; 3]; Disc [7; 5]%Z] [2; 3]%nat (fun _ => 0) true = Ok t.
Proof. apply (C95_accepted [Cont [0; 1; 3]; Disc [7; 5]%Z] [2; 3]%nat (fun _ => 0) true); [discriminate|intros a [<-|[<-|[]]]; discriminate|]. split; [reflexivity|]. intros a [<-|[]]. apply strict_sorted, sorted3; lra. Qed.
