(** Proofs about self-organizing maps: best matching unit, training, projection. *)
From Coq Require Import List Arith ZArith QArith Qabs Bool Lia Lqa.
From Verif Require Import Common DblModel DblProofs SOMModel SOMSpec.
Import ListNotations.
Local Open Scope nat_scope.
Local Notation length := List.length.

(** ** Positions *)
Lemma pos_lt a b x y : x < a -> y < b -> x + y * a < a * b.
Proof. intros; nia. Qed.
Lemma pos_x a x y : x < a -> (x + y * a) mod a = x.
Proof. intros. rewrite Nat.mod_add by lia. apply Nat.mod_small; auto. Qed.
Lemma pos_y a x y : x < a -> (x + y * a) / a = y.
Proof. intros. rewrite Nat.div_add by lia. rewrite Nat.div_small; auto. Qed.
Lemma pos_split a p : 0 < a -> p = p mod a + (p / a) * a.
Proof. intros. rewrite (Nat.div_mod p a) at 1 by lia. lia. Qed.
Lemma pos_div_lt a b p : 0 < a -> p < a * b -> p / a < b.
Proof. intros. apply Nat.div_lt_upper_bound; lia. Qed.

Section Pos.
  Context {W : Type}.
  Variable s : som W.
  Hypothesis wf : well_formed s.
  Lemma y_of_small p : p < sx s * sy s -> y_of s p = p / sx s.
  Proof. intro H. unfold y_of. rewrite Nat.mod_small; auto. Qed.
  Lemma x_of_lt p : x_of s p < sx s.
  Proof. destruct wf. apply Nat.mod_upper_bound. lia. Qed.
  Lemma y_of_lt p : p < sx s * sy s -> y_of s p < sy s.
  Proof. destruct wf as (A & B & _). intro H. rewrite y_of_small by auto. apply pos_div_lt; auto. Qed.
  Lemma pos_of_xy p : p < sx s * sy s -> x_of s p + y_of s p * sx s = p.
  Proof. destruct wf as (A & B & _). intro H. rewrite y_of_small by auto. symmetry. apply pos_split; auto. Qed.
  Lemma cell_at_pos p : p < sx s * sy s -> cell_at s (x_of s p) (y_of s p) = nth_error (cells s) p.
  Proof.
    intro H. unfold cell_at. pose proof (x_of_lt p). pose proof (y_of_lt p H).
    apply Nat.ltb_lt in H0, H1. rewrite H0, H1. simpl. rewrite pos_of_xy; auto.
  Qed.
End Pos.
Lemma cell_at_some {W} (s : som W) x y w : cell_at s x y = Some w -> x < sx s /\ y < sy s /\ nth_error (cells s) (x + y * sx s) = Some w.
Proof.
  unfold cell_at. destruct (x <? sx s) eqn:A, (y <? sy s) eqn:B; simpl; try discriminate.
  apply Nat.ltb_lt in A, B. auto.
Qed.
Lemma cell_at_intro {W} (s : som W) x y : x < sx s -> y < sy s -> cell_at s x y = nth_error (cells s) (x + y * sx s).
Proof. intros A B. unfold cell_at. apply Nat.ltb_lt in A, B. rewrite A, B. reflexivity. Qed.
Lemma cell_exists {W} (s : som W) x y : well_formed s -> x < sx s -> y < sy s -> exists w, cell_at s x y = Some w.
Proof.
  intros (A & B & L) X Y. rewrite cell_at_intro by auto.
  destruct (nth_error (cells s) (x + y * sx s)) eqn:E; eauto.
  apply nth_error_None in E. pose proof (pos_lt _ _ _ _ X Y). lia.
Qed.

(** ** Best matching unit *)
Section Bmu.
  Context {W : Type}.
  Variable dist : W -> dbl.
  (** The loop invariant, over the whole list [pre ++ l]. *)
  Lemma bmu_loop_spec (start : dbl) (Hs : is_nan start = false) : forall l pre best closest p d,
    (forall i w, nth_error pre i = Some w -> dlt (dist w) closest = false) ->
    ((best = 0 /\ closest = start) \/
     (exists w, nth_error pre best = Some w /\ closest = dist w /\ dlt (dist w) start = true
        /\ forall i w', i < best -> nth_error pre i = Some w' -> dle (dist w') closest = false)) ->
    bmu_loop dist l (length pre) best closest = (p, d) ->
    (forall i w, nth_error (pre ++ l) i = Some w -> dlt (dist w) d = false) /\
    ((p = 0 /\ d = start) \/
     (exists w, nth_error (pre ++ l) p = Some w /\ d = dist w /\ dlt (dist w) start = true
        /\ forall i w', i < p -> nth_error (pre ++ l) i = Some w' -> dle (dist w') d = false)).
  Proof.
    induction l as [|w r IH]; intros pre best closest p d Hmin Hbest E; simpl in E.
    - inversion E; subst. rewrite app_nil_r. auto.
    - assert (Nc : is_nan closest = false).
      { destruct Hbest as [[_ ->]|(w0 & _ & -> & L & _)]; auto. apply dlt_not_nan in L. tauto. }
      replace (pre ++ w :: r) with ((pre ++ [w]) ++ r) by (rewrite <- app_assoc; reflexivity).
      replace (S (length pre)) with (length (pre ++ [w])) in E by (rewrite app_length; simpl; lia).
      destruct (dlt (dist w) closest) eqn:L.
      + apply IH with (best := length pre) (closest := dist w); auto.
        * intros i w' H. destruct (Nat.lt_ge_cases i (length pre)).
          -- rewrite nth_error_app1 in H by auto. apply Hmin in H.
             apply (dlt_neg_trans _ closest); auto. apply dlt_asym; auto.
          -- rewrite nth_error_app2 in H by auto. destruct (i - length pre) as [|m]; simpl in H; [|destruct m; discriminate].
             inversion H; subst. apply dlt_irrefl.
        * right. exists w. split; [rewrite nth_error_app2, Nat.sub_diag by lia; reflexivity|].
          split; auto. split.
          -- destruct Hbest as [[_ ->]|(w0 & _ & -> & L0 & _)]; auto. eapply dlt_trans; eauto.
          -- intros i w' Hi H. rewrite nth_error_app1 in H by auto. apply Hmin in H.
             unfold dle. apply orb_false_iff. split.
             ++ apply (dlt_neg_trans _ closest); auto. apply dlt_asym; auto.
             ++ destruct (deq (dist w') (dist w)) eqn:Q; auto. exfalso.
                destruct (dist w'), (dist w), closest; simpl in *; try discriminate; auto.
                rewrite Qeq_bool_iff in Q. rewrite Qlt_b_iff in L. rewrite Qlt_b_false in H. lra.
      + apply IH with (best := best) (closest := closest); auto.
        * intros i w' H. destruct (Nat.lt_ge_cases i (length pre)).
          -- rewrite nth_error_app1 in H by auto. eauto.
          -- rewrite nth_error_app2 in H by auto. destruct (i - length pre) as [|m]; simpl in H; [|destruct m; discriminate].
             inversion H; subst. auto.
        * destruct Hbest as [B|(w0 & Hn & -> & L0 & B)]; [left; auto|right].
          exists w0. assert (best < length pre) by (apply nth_error_Some; congruence).
          split; [rewrite nth_error_app1; auto|]. split; auto. split; auto.
          intros i w' Hi H'. rewrite nth_error_app1 in H' by lia. eauto.
  Qed.
End Bmu.

Lemma find_bmu_ok {W} dmax (dist : W -> dbl) (s : som W) : well_formed s ->
  exists p d, p < sx s * sy s /\ find_bmu dmax dist s = Ok (x_of s p, y_of s p, d) /\
    (forall i w, nth_error (cells s) i = Some w -> dlt (dist w) d = false) /\
    ((p = 0 /\ d = Fin dmax) \/
     (exists w, nth_error (cells s) p = Some w /\ d = dist w /\ dlt (dist w) (Fin dmax) = true
        /\ forall i w', i < p -> nth_error (cells s) i = Some w' -> dle (dist w') d = false)).
Proof.
  intros (A & B & L). destruct (bmu_loop dist (cells s) 0 0 (Fin dmax)) as [p d] eqn:E.
  assert (P := bmu_loop_spec dist (Fin dmax) eq_refl (cells s) [] 0 (Fin dmax) p d).
  simpl in P. destruct P as [M P]; auto.
  { intros i w H. destruct i; discriminate. }
  exists p, d. split.
  { destruct P as [[-> _]|(w & H & _)]; [nia|]. rewrite <- L. apply nth_error_Some. congruence. }
  split; auto. unfold find_bmu. rewrite E. destruct (cells s); [simpl in L; nia|reflexivity].
Qed.

Lemma before_pos {W} (s : som W) x y x' y' : x' < sx s -> x < sx s ->
  before (x', y') (x, y) -> x' + y' * sx s < x + y * sx s.
Proof. unfold before; simpl; intros; nia. Qed.

Lemma bmu_minimal {W} dmax (dist : W -> dbl) (s : som W) : well_formed s ->
  exists x y d, find_bmu dmax dist s = Ok (x, y, d) /\ x < sx s /\ y < sy s /\
    ((exists x' y' w', cell_at s x' y' = Some w' /\ dlt (dist w') (Fin dmax) = true) ->
     exists w, cell_at s x y = Some w /\ d = dist w /\
       (forall x' y' w', cell_at s x' y' = Some w' -> dlt (dist w') d = false) /\
       (forall x' y' w', cell_at s x' y' = Some w' -> before (x', y') (x, y) -> dle (dist w') d = false)).
Proof.
  intro wf. destruct (find_bmu_ok dmax dist s wf) as (p & d & Hp & E & M & P).
  exists (x_of s p), (y_of s p), d. split; auto. split; [apply x_of_lt; auto|]. split; [apply y_of_lt; auto|].
  intros (x' & y' & w' & Hc & Hl). apply cell_at_some in Hc. destruct Hc as (_ & _ & Hc).
  destruct P as [[-> ->]|(w & Hw & -> & L & F)].
  - apply M in Hc. congruence.
  - exists w. rewrite cell_at_pos by auto. split; auto. split; auto. split.
    + intros a b c H. apply cell_at_some in H. destruct H as (_ & _ & H). eauto.
    + intros a b c H Hb. apply cell_at_some in H. destruct H as (X & Y & H). apply (F (a + b * sx s)); auto.
      apply (before_pos s) in Hb; auto. 2:{ apply x_of_lt; auto. }
      rewrite pos_of_xy in Hb; auto.
Qed.
Lemma bmu_none {W} dmax (dist : W -> dbl) (s : som W) : well_formed s ->
  (forall x y w, cell_at s x y = Some w -> dlt (dist w) (Fin dmax) = false) ->
  find_bmu dmax dist s = Ok (0, 0, Fin dmax).
Proof.
  intros wf H. destruct (find_bmu_ok dmax dist s wf) as (p & d & Hp & E & M & P).
  destruct P as [[-> ->]|(w & Hw & -> & L & F)].
  - rewrite E. f_equal. unfold x_of, y_of. destruct wf as (A & B & _).
    rewrite Nat.mod_small, Nat.mod_small, Nat.div_small; auto; lia.
  - rewrite <- (cell_at_pos s wf) in Hw by auto. apply H in Hw. congruence.
Qed.

(** ** Training *)
Section Cells.
  Variable nf : nat * nat -> Q.
  Variable lf : Q.
  Variable input : list Q.
  Lemma update_cells_length s : forall l p, length (update_cells nf lf input s p l) = length l.
  Proof. induction l; simpl; auto. Qed.
  Lemma update_cells_nth s : forall l p i,
    nth_error (update_cells nf lf input s p l) i =
    match nth_error l i with
    | Some w => Some (let f := nf (x_of s (p + i), y_of s (p + i)) in if Qeq_bool f 0 then w else update_cell f lf input w)
    | None => None
    end.
  Proof.
    induction l as [|w r IH]; intros p i; destruct i; simpl; auto.
    - rewrite Nat.add_0_r. reflexivity.
    - rewrite IH. replace (S p + i) with (p + S i) by lia. reflexivity.
  Qed.
End Cells.
Lemma update_cell_length f lf : forall w input, length (update_cell f lf input w) = length w.
Proof. induction w; intros [|b t]; simpl; auto. Qed.
Lemma update_cell_nth f lf : forall w input k, length w = length input -> k < length w ->
  comp k (update_cell f lf input w) = update_weight f lf (comp k input) (comp k w).
Proof.
  unfold comp. induction w as [|a r IH]; intros [|b t] k L H; simpl in *; try lia.
  destruct k; simpl; auto. apply IH; lia.
Qed.

Lemma factor_zero (q l a b : Q) : (q == 0)%Q -> (a == (1 - q * l) * a + q * l * b)%Q.
Proof. intros E. rewrite E. ring. Qed.
Lemma factor_update (q l a b : Q) : (a + q * l * (b - a) == (1 - q * l) * a + q * l * b)%Q.
Proof. ring. Qed.

Section Training.
  Context {I : Type}.
  Variable dmax : Q.
  Variable dist : list Q -> list Q -> dbl.
  Variable weights : I -> list Q.
  Variable nf : nat * nat -> nat * nat -> nat -> nat -> Q.
  Variable lf : nat -> nat -> Q.
  Notation train_one := (train_one dmax dist weights nf lf).
  Notation train_pass := (train_pass dmax dist weights nf lf).
  Notation train_from := (train_from dmax dist weights nf lf).

  Lemma train_one_step i n s obj nd : well_formed s -> dimension nd s -> length (weights obj) = nd ->
    exists s' bx by_ d, find_bmu dmax (fun c => dist c (weights obj)) s = Ok (bx, by_, d) /\
      train_one i n s obj = Ok s' /\ sx s' = sx s /\ sy s' = sy s /\ well_formed s' /\ dimension nd s' /\
      forall x y w, cell_at s x y = Some w ->
        exists w', cell_at s' x y = Some w' /\
          (Qeq (nf (bx, by_) (x, y) i n) 0 -> w' = w) /\
          forall k, k < nd ->
            let f := (nf (bx, by_) (x, y) i n * lf i n)%Q in
            (comp k w' == (1 - f) * comp k w + f * comp k (weights obj))%Q.
  Proof.
    intros wf D L. destruct (find_bmu_ok dmax (fun c => dist c (weights obj)) s wf) as (p & d & Hp & E & _).
    set (g := fun c => nf (x_of s p, y_of s p) c i n).
    set (cs := update_cells g (lf i n) (weights obj) s 0 (cells s)).
    exists (mkSom (sx s) (sy s) cs), (x_of s p), (y_of s p), d. split; auto.
    unfold SOMModel.train_one. rewrite E. simpl. split; [reflexivity|]. split; [reflexivity|]. split; [reflexivity|].
    split.
    { destruct wf as (A & B & C). repeat split; simpl; auto. unfold cs. rewrite update_cells_length. auto. }
    split.
    { unfold dimension. simpl. apply Forall_forall. intros w Hw. apply In_nth_error in Hw. destruct Hw as [j Hj].
      unfold cs in Hj. rewrite update_cells_nth in Hj. destruct (nth_error (cells s) j) eqn:Ej; [|discriminate].
      apply nth_error_In in Ej. unfold dimension in D. rewrite Forall_forall in D. specialize (D _ Ej).
      inversion Hj. cbv zeta. destruct (Qeq_bool _ 0); auto. rewrite update_cell_length. auto. }
    intros x y w Hc. pose proof Hc as Hc0. apply cell_at_some in Hc. destruct Hc as (X & Y & Hc).
    assert (Lw : length w = nd).
    { unfold dimension in D. rewrite Forall_forall in D. apply D. eapply nth_error_In; eauto. }
    unfold cell_at at 1. simpl. apply Nat.ltb_lt in X as X', Y as Y'. rewrite X', Y'. simpl.
    unfold cs. rewrite update_cells_nth, Hc. simpl.
    assert (P : x + y * sx s < sx s * sy s) by (apply pos_lt; auto).
    assert (EX : x_of s (x + y * sx s) = x) by (apply pos_x; auto).
    assert (EY : y_of s (x + y * sx s) = y).
    { rewrite y_of_small by auto. apply pos_y; auto. }
    rewrite EX, EY. fold (g (x, y)). unfold g at 1 2 3.
    destruct (Qeq_bool (nf (x_of s p, y_of s p) (x, y) i n) 0) eqn:Z.
    - eexists. split; [reflexivity|]. split; auto. intros k Hk. apply Qeq_bool_eq in Z. apply (factor_zero _ _ _ _ Z).
    - eexists. split; [reflexivity|]. split.
      + intro H. apply Qeq_bool_iff in H. unfold g in Z. congruence.
      + intros k Hk. rewrite update_cell_nth by lia. apply factor_update.
  Qed.

  Lemma convex_range (lo hi f a b : Q) : unit_factor f -> within lo hi a -> within lo hi b ->
    within lo hi ((1 - f) * a + f * b)%Q.
  Proof.
    unfold unit_factor, within. intros [F0 F1] [A0 A1] [B0 B1]. split.
    - apply Qle_trans with ((1 - f) * lo + f * lo)%Q; [lra|].
      apply Qplus_le_compat; [rewrite (Qmult_comm (1-f) lo), (Qmult_comm (1-f) a)|rewrite (Qmult_comm f lo), (Qmult_comm f b)]; apply Qmult_le_compat_r; lra.
    - apply Qle_trans with ((1 - f) * hi + f * hi)%Q; [|lra].
      apply Qplus_le_compat; [rewrite (Qmult_comm (1-f) hi), (Qmult_comm (1-f) a)|rewrite (Qmult_comm f hi), (Qmult_comm f b)]; apply Qmult_le_compat_r; lra.
  Qed.
  Lemma unit_mult a b : unit_factor a -> unit_factor b -> unit_factor (a * b)%Q.
  Proof.
    unfold unit_factor. intros [A0 A1] [B0 B1]. split.
    - apply Qmult_le_0_compat; auto.
    - apply Qle_trans with (1 * b)%Q; [apply Qmult_le_compat_r; auto|lra].
  Qed.
  Lemma within_eq lo hi a b : (a == b)%Q -> within lo hi a -> within lo hi b.
  Proof. unfold within. intros E [A B]. split; lra. Qed.

  Variable nd : nat.
  Hypothesis weights_dim : forall o, length (weights o) = nd.

  Lemma train_pass_ok i n : forall objs s, well_formed s -> dimension nd s ->
    exists s', train_pass i n s objs = Ok s' /\ sx s' = sx s /\ sy s' = sy s /\ well_formed s' /\ dimension nd s'.
  Proof.
    induction objs as [|o r IH]; intros s wf D.
    - exists s. simpl. auto.
    - destruct (train_one_step i n s o nd wf D (weights_dim o)) as (s1 & bx & by_ & d & _ & E & X & Y & wf1 & D1 & _).
      destruct (IH s1 wf1 D1) as (s2 & E2 & X2 & Y2 & wf2 & D2).
      exists s2. simpl. rewrite E. simpl. split; auto. split; [congruence|]. split; [congruence|]. auto.
  Qed.
  Lemma train_from_ok sample n : forall todo i s, well_formed s -> dimension nd s ->
    exists s', train_from sample todo i n s = Ok s' /\ sx s' = sx s /\ sy s' = sy s /\ well_formed s' /\ dimension nd s'.
  Proof.
    induction todo as [|k IH]; intros i s wf D; simpl.
    - exists s. auto.
    - destruct (Qeq_bool (lf i n) 0); simpl.
      + apply IH; auto.
      + destruct (train_pass_ok i n (sample i) s wf D) as (s1 & E & X & Y & wf1 & D1). rewrite E. simpl.
        destruct (IH (S i) s1 wf1 D1) as (s2 & E2 & X2 & Y2 & wf2 & D2).
        exists s2. split; auto. split; [congruence|]. split; [congruence|]. auto.
  Qed.

  Variable nf_unit : forall b c i n, unit_factor (nf b c i n).
  Variable lf_unit : forall i n, unit_factor (lf i n).
  Definition all_within (k : nat) (lo hi : Q) (s : som (list Q)) : Prop :=
    forall x y w, cell_at s x y = Some w -> within lo hi (comp k w).

  Lemma train_pass_range k lo hi i n : k < nd -> forall objs s s', well_formed s -> dimension nd s ->
    (forall o, In o objs -> within lo hi (comp k (weights o))) ->
    all_within k lo hi s -> train_pass i n s objs = Ok s' -> all_within k lo hi s'.
  Proof.
    intros Hk. induction objs as [|o r IH]; intros s s' wf D Ho H E.
    - simpl in E. inversion E; subst; auto.
    - destruct (train_one_step i n s o nd wf D (weights_dim o)) as (s1 & bx & by_ & d & _ & E1 & X & Y & wf1 & D1 & F).
      simpl in E. rewrite E1 in E. simpl in E. apply (IH s1 s'); auto.
      { intros o' Ho'. apply Ho. right; auto. }
      intros x y w' Hc. pose proof (cell_at_some _ _ _ _ Hc) as (Hx & Hy & _).
      rewrite X in Hx. rewrite Y in Hy.
      destruct (cell_exists s x y wf Hx Hy) as [w Hw]. destruct (F x y w Hw) as (w2 & Hw2 & _ & G).
      rewrite Hw2 in Hc. inversion Hc; subst. specialize (G k Hk). cbv zeta in G.
      apply (within_eq lo hi _ _ (Qeq_sym _ _ G)).
      apply convex_range.
      + apply unit_mult; auto.
      + eapply H; eauto.
      + apply Ho. left; auto.
  Qed.
  Lemma train_from_range k lo hi sample n : k < nd ->
    (forall i o, In o (sample i) -> within lo hi (comp k (weights o))) ->
    forall todo i s s', well_formed s -> dimension nd s -> all_within k lo hi s ->
    train_from sample todo i n s = Ok s' -> all_within k lo hi s'.
  Proof.
    intros Hk Ho. induction todo as [|m IH]; intros i s s' wf D H E; simpl in E.
    - inversion E; subst; auto.
    - destruct (Qeq_bool (lf i n) 0); simpl in E.
      + eapply (IH (S i) s); eauto.
      + destruct (train_pass_ok i n (sample i) s wf D) as (s1 & E1 & X & Y & wf1 & D1). rewrite E1 in E. simpl in E.
        apply (IH (S i) s1 s'); auto. apply (train_pass_range k lo hi i n Hk (sample i) s s1); auto.
        intros o Hoi. apply (Ho i o Hoi).
  Qed.
  Lemma train_from_zero sample n : (forall i, (lf i n == 0)%Q) -> forall todo i s, train_from sample todo i n s = Ok s.
  Proof.
    intros H. induction todo as [|m IH]; intros i s; simpl; auto.
    assert (Qeq_bool (lf i n) 0 = true) as -> by (apply Qeq_bool_iff; auto). simpl. auto.
  Qed.
End Training.

(** ** Projection *)
Lemma list_set_spec {A} (x : A) : forall l i, i < length l ->
  exists l', list_set l i x = Some l' /\ length l' = length l /\
    forall j, nth_error l' j = if j =? i then Some x else nth_error l j.
Proof.
  induction l as [|y r IH]; intros i H; simpl in H; [lia|].
  destruct i as [|i]; simpl.
  - exists (x :: r). split; auto. split; auto. intros [|j]; reflexivity.
  - destruct (IH i) as (l' & E & L & N); [lia|]. rewrite E. exists (y :: l'). split; auto. split; [simpl; auto|].
    intros [|j]; simpl; auto.
Qed.

Section Projection.
  Context {W T I : Type}.
  Variable dmax : Q.
  Variable dist : W -> I -> dbl.
  Variable adder : T -> I -> T.
  Variable s : som W.
  Hypothesis wf : well_formed s.
  Let bmu (i : I) := find_bmu dmax (fun c => dist c i) s.

  Lemma project_loop_spec : forall inputs (g : som T), sx g = sx s -> sy g = sy s -> length (cells g) = sx s * sy s ->
    exists g', project_loop bmu adder g inputs = Ok g' /\ sx g' = sx s /\ sy g' = sy s /\ length (cells g') = sx s * sy s /\
      forall x y, x < sx s -> y < sy s ->
        cell_at g' x y = match cell_at g x y with
                         | Some c => Some (fold_left adder (filter (lands dmax dist s x y) inputs) c)
                         | None => None
                         end.
  Proof.
    induction inputs as [|i r IH]; intros g X Y L.
    - exists g. simpl. split; auto. split; auto. split; auto. split; auto. intros. destruct (cell_at g x y); auto.
    - destruct (find_bmu_ok dmax (fun c => dist c i) s wf) as (p & d & Hp & E & _).
      assert (PX : x_of s p < sx s) by (apply x_of_lt; auto).
      assert (PY : y_of s p < sy s) by (apply y_of_lt; auto).
      assert (PP : x_of s p + y_of s p * sx s = p) by (apply pos_of_xy; auto).
      unfold bmu. simpl. rewrite E. simpl. unfold som_get. rewrite X, PP.
      destruct (nth_error (cells g) p) as [c|] eqn:Ec; [|apply nth_error_None in Ec; lia]. simpl.
      destruct (list_set_spec (adder c i) (cells g) p) as (l' & El & Ll & Nl); [lia|].
      rewrite El. simpl.
      destruct (IH (mkSom (sx s) (sy g) l')) as (g' & Eg & X' & Y' & L' & N'); simpl; auto; [congruence|].
      exists g'. split; [exact Eg|]. split; auto. split; auto. split; auto.
      intros x y Hx Hy. rewrite N' by auto. clear N'.
      rewrite (cell_at_intro (mkSom (sx s) (sy g) l')) by (simpl; lia). simpl.
      rewrite (cell_at_intro g) by lia. rewrite Nl, X.
      unfold lands at 2. rewrite E.
      destruct (Nat.eqb_spec (x + y * sx s) p) as [Hpp|Hpp].
      + assert (x_of s p = x /\ y_of s p = y) as [-> ->].
        { subst p. rewrite y_of_small by (apply pos_lt; auto). unfold x_of. rewrite pos_x, pos_y; auto. }
        rewrite !Nat.eqb_refl. simpl. rewrite Hpp, Ec. reflexivity.
      + assert ((x_of s p =? x) && (y_of s p =? y) = false) as ->.
        { apply andb_false_iff. destruct (Nat.eqb_spec (x_of s p) x); auto. right.
          apply Nat.eqb_neq. intro. subst x y. lia. }
        reflexivity.
  Qed.
  Lemma project_spec (init : T) inputs :
    exists g, project dmax dist adder init s inputs = Ok g /\ sx g = sx s /\ sy g = sy s /\
      forall x y, x < sx s -> y < sy s ->
        cell_at g x y = Some (fold_left adder (filter (lands dmax dist s x y) inputs) init).
  Proof.
    destruct (project_loop_spec inputs (mkSom (sx s) (sy s) (repeat init (sx s * sy s)))) as (g & E & X & Y & L & N); simpl; auto.
    { apply repeat_length. }
    exists g. split; [exact E|]. split; auto. split; auto. intros x y Hx Hy. rewrite N by auto.
    rewrite cell_at_intro by (simpl; auto). simpl.
    assert (P : x + y * sx s < sx s * sy s) by (apply pos_lt; auto).
    assert (nth_error (repeat init (sx s * sy s)) (x + y * sx s) = Some init) as ->; auto.
    { destruct (nth_error (repeat init (sx s * sy s)) (x + y * sx s)) eqn:Z.
      - apply nth_error_In, repeat_spec in Z. congruence.
      - apply nth_error_None in Z. rewrite repeat_length in Z. lia. }
  Qed.
End Projection.
