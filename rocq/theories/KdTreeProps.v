(** KdTree: theorems for C21. *)
From Coq Require Import List Arith QArith Qround ZArith Bool Lia Permutation Sorted Lqa.
From Verif Require Import Common KdTreeModel KdTreeProofs.
Import ListNotations.
Local Open Scope nat_scope.

(** What std::sort promises for the comparison of coordinates. *)
Definition sorts {T} (coord : T -> nat -> Q) (sort : nat -> list T -> list T) : Prop :=
  forall axis l, Permutation (sort axis l) l /\
    StronglySorted (fun x y => (coord x axis <= coord y axis)%Q) (sort axis l).

(** Exact arithmetic: the search returns, with multiplicity, the points at a
    Euclidean distance smaller than the radius, which [sum_squares] spells out. *)
Theorem C21_radius_search :
  forall (T : Type) (coord : T -> nat -> Q) (sort : nat -> list T -> list T) (N S_ : nat)
         (data : list T) (c : nat -> Q) (r : Q),
    sorts coord sort -> 1 <= N -> 1 <= S_ -> (0 <= r)%Q ->
    exists res, kd_find coord (fun x => x) sort N S_ data c r = Ok res /\
      Permutation res (filter (fun e => Qltb (sum_squares coord e c (seq 0 N)) (r * r)) data).
Proof.
  intros T coord sort N S_ data c r Hs HN HS Hr.
  destruct (build_total coord (fun x => x) sort N S_) with (fuel := length data) (axis := 0) (data := data)
    as (t & B1 & _ & _ & B4); try assumption; try lia; try (intros; apply Hs); try (intros; lra).
  { apply Forall_forall. intros x _ ax _. split; lra. }
  eexists. unfold kd_find, kd_build. rewrite B1. cbn [bind]. split; [reflexivity|].
  eapply Permutation_trans; [apply B4; try assumption; intros; lra|].
  rewrite (filter_ext (close_to coord (fun x => x) N c r) (fun e => Qltb (sum_squares coord e c (seq 0 N)) (r * r))).
  - apply Permutation_refl.
  - intros e. unfold close_to. pose proof (square_dist_exact coord e c N 0 0) as E.
    destruct (Qltb (sum_squares coord e c (seq 0 N)) (r * r)) eqn:F.
    + apply Qltb_lt. apply Qltb_lt in F. lra.
    + apply Qltb_ge. apply Qltb_ge in F. lra.
Qed.
Print Assumptions C21_radius_search.

(** Rounded arithmetic: for every monotone, idempotent, odd rounding for which
    the coordinates, their doubles and the radius are representable, the tree
    never loses nor adds a point with respect to testing each point with the
    same rounded formula. *)
Theorem C21_radius_search_with_rounding :
  forall (T : Type) (coord : T -> nat -> Q) (rnd : Q -> Q) (sort : nat -> list T -> list T) (N S_ : nat)
         (data : list T) (c : nat -> Q) (r : Q),
    (forall x y, (x <= y)%Q -> (rnd x <= rnd y)%Q) ->
    (forall x, (rnd (rnd x) == rnd x)%Q) ->
    (forall x, (rnd (- x) == - rnd x)%Q) ->
    sorts coord sort -> 1 <= N -> 1 <= S_ ->
    (forall e ax, In e data -> ax < N ->
       (rnd (coord e ax) == coord e ax)%Q /\ (rnd (2 * coord e ax) == 2 * coord e ax)%Q) ->
    (0 <= r)%Q -> (rnd r == r)%Q ->
    exists res, kd_find coord rnd sort N S_ data c r = Ok res /\
      Permutation res (filter (close_to coord rnd N c r) data).
Proof.
  intros T coord rnd sort N S_ data c r M I O Hs HN HS Hu Hr Er.
  assert (Z : (rnd 0 == 0)%Q) by (pose proof (O 0%Q) as H; pose proof (M 0%Q (-0)%Q ltac:(lra)); pose proof (M (-0)%Q 0%Q ltac:(lra)); lra).
  destruct (build_total coord rnd sort N S_) with (fuel := length data) (axis := 0) (data := data)
    as (t & B1 & _ & _ & B4); try assumption; try lia; try (intros; apply Hs).
  { apply Forall_forall. intros x Hx ax Hax. apply Hu; assumption. }
  eexists. unfold kd_find, kd_build. rewrite B1. cbn [bind]. split; [reflexivity|]. apply B4; assumption.
Qed.
Print Assumptions C21_radius_search_with_rounding.

(** The tree holds exactly the data and no leaf is larger than the leaf size. *)
Theorem C21_tree_holds_the_data :
  forall (T : Type) (coord : T -> nat -> Q) (sort : nat -> list T -> list T) (N S_ : nat) (data : list T),
    sorts coord sort -> 1 <= N -> 1 <= S_ ->
    exists t, kd_build coord (fun x => x) sort N S_ data = Ok t /\
      Permutation (concat (leaves t)) data /\ Forall (fun d => length d <= S_) (leaves t).
Proof.
  intros T coord sort N S_ data Hs HN HS.
  destruct (build_total coord (fun x => x) sort N S_) with (fuel := length data) (axis := 0) (data := data)
    as (t & B1 & B2 & B3 & _); try assumption; try lia; try (intros; apply Hs); try (intros; lra).
  { apply Forall_forall. intros x _ ax _. split; lra. }
  exists t. split; [exact B1|]. split; assumption.
Qed.
Print Assumptions C21_tree_holds_the_data.

(** A concrete sort, to show that the hypothesis [sorts] can be met. *)
Fixpoint insert_by {T} (key : T -> Q) (x : T) (l : list T) : list T :=
  match l with
  | [] => [x]
  | y :: r => if Qle_bool (key x) (key y) then x :: y :: r else y :: insert_by key x r
  end.
Definition isort {T} (coord : T -> nat -> Q) (axis : nat) (l : list T) : list T :=
  fold_right (insert_by (fun e => coord e axis)) [] l.

Lemma insert_perm {T} (key : T -> Q) x l : Permutation (insert_by key x l) (x :: l).
Proof.
  induction l as [|y l IH]; simpl; [apply Permutation_refl|]. destruct (Qle_bool _ _); [apply Permutation_refl|].
  eapply Permutation_trans; [apply perm_skip, IH|]. apply perm_swap.
Qed.
Lemma insert_sorted {T} (key : T -> Q) x l : StronglySorted (fun a b => (key a <= key b)%Q) l ->
  StronglySorted (fun a b => (key a <= key b)%Q) (insert_by key x l).
Proof.
  intros H. induction H as [|y l Hs IH Hf]; simpl; [repeat constructor|].
  destruct (Qle_bool (key x) (key y)) eqn:E.
  - apply Qle_bool_iff in E. constructor; [constructor; assumption|]. constructor; [assumption|].
    eapply Forall_impl; [|exact Hf]. intros a Ha. simpl in Ha. lra.
  - constructor; [assumption|]. apply Forall_forall. intros z Hz.
    apply (Permutation_in _ (insert_perm key x l)) in Hz. destruct Hz as [<-|Hz].
    + destruct (Qlt_le_dec (key y) (key x)); [lra|]. apply Qle_bool_iff in q. congruence.
    + rewrite Forall_forall in Hf. auto.
Qed.
Lemma isort_sorts {T} (coord : T -> nat -> Q) : sorts coord (isort coord).
Proof.
  intros axis l. unfold isort. induction l as [|x l (IH1 & IH2)]; simpl; [split; constructor|]. split.
  - eapply Permutation_trans; [apply insert_perm|]. apply perm_skip. assumption.
  - apply insert_sorted. assumption.
Qed.

(** Points of the plane given by pairs; leaves of one point. *)
Definition xy (p : Q * Q) (i : nat) : Q := match i with O => fst p | _ => snd p end.
Definition ex_points : list (Q * Q) :=
  [(0, 0); (1, 1); (1, 1); (4, 0); (0, 5); (2, 2); (-(1), 3); (1, -(1))]%Q.

Example C21_case :
  sorts xy (isort xy) /\
  kd_find xy (fun x => x) (isort xy) 2 1 ex_points (xy (1, 0)%Q) (3 # 2)
    = Ok [(0, 0); (1, 1); (1, -(1)); (1, 1)]%Q.
Proof. split; [apply isort_sorts|]. vm_compute. reflexivity. Qed.

(** A rounding that meets the hypotheses and is not the identity: towards zero. *)
Definition to_zero (x : Q) : Q :=
  if Qle_bool 0 x then inject_Z (Qfloor x) else - inject_Z (Qfloor (- x)).
Lemma to_zero_mono x y : (x <= y)%Q -> (to_zero x <= to_zero y)%Q.
Proof.
  intros H. unfold to_zero.
  assert (F : forall z, (0 <= z)%Q -> (0 <= inject_Z (Qfloor z))%Q).
  { intros z Hz. rewrite <- Zle_Qle with (x := 0%Z). change 0%Z with (Qfloor 0). apply Qfloor_resp_le. assumption. }
  destruct (Qle_bool 0 x) eqn:Ex, (Qle_bool 0 y) eqn:Ey.
  - rewrite <- Zle_Qle. apply Qfloor_resp_le. assumption.
  - exfalso. apply Qle_bool_iff in Ex. assert (0 <= y)%Q by lra. apply Qle_bool_iff in H0. congruence.
  - apply Qle_bool_iff in Ey. assert (x <= 0)%Q.
    { destruct (Qlt_le_dec x 0); [lra|]. apply Qle_bool_iff in q. congruence. }
    pose proof (F y Ey). pose proof (F (- x)%Q ltac:(lra)). lra.
  - assert (inject_Z (Qfloor (- y)) <= inject_Z (Qfloor (- x)))%Q; [|lra].
    rewrite <- Zle_Qle. apply Qfloor_resp_le. lra.
Qed.
Example C21_rounding_case :
  (forall x y, (x <= y)%Q -> (to_zero x <= to_zero y)%Q) /\ to_zero (7 # 2) = 3%Q /\ to_zero (- (7 # 2)) = (-(3))%Q /\
  kd_find xy to_zero (isort xy) 2 1 ex_points (xy (1 # 2, 0)%Q) 2
    = Ok [(0, 0); (1, 1); (1, -(1)); (1, 1)]%Q.
Proof. split; [exact to_zero_mono|]. split; [reflexivity|]. split; [reflexivity|]. vm_compute. reflexivity. Qed.

(** For a negative radius the result depends on the shape of the tree: the
    leaves compare with the square of the radius, the pruning does not. *)
Theorem C21_negative_radius_refuted :
  exists (data : list (Q * Q)) c r, (r < 0)%Q /\
    kd_find xy (fun x => x) (isort xy) 2 4 data c r = Ok [(0, 0); (1, 0)]%Q /\
    kd_find xy (fun x => x) (isort xy) 2 1 data c r = Ok [(0, 0)]%Q.
Proof. exists [(0, 0); (1, 0)]%Q, (xy (0, 0)%Q), (- (2))%Q. split; [lra|]. split; vm_compute; reflexivity. Qed.
Print Assumptions C21_negative_radius_refuted.
