(** Proofs about photometry objects. *)
From Coq Require Import ZArith List Arith Bool Lia.
From Verif Require Import Common TextModel TextProofs CatalogModel PhotModel PhotSpec.
Import ListNotations.

Lemma set_at_spec {A} (l : list A) : forall i a m, set_at l i a = Some m -> replaced l i a m.
Proof.
  induction l as [|b r IH]; intros i a m H; [discriminate|]. destruct i as [|i]; cbn in H.
  - injection H as <-. split; [reflexivity|]. split; [cbn; lia|]. split; [reflexivity|]. intros [|j] N; [congruence|reflexivity].
  - destruct (set_at r i a) as [m'|] eqn:E; [|discriminate]. injection H as <-. destruct (IH _ _ _ E) as (L & I & G & O). split; [cbn; lia|]. split; [cbn; lia|]. split; [exact G|].
    intros [|j] N; [reflexivity|]. apply O. lia.
Qed.
Lemma set_at_some {A} (l : list A) : forall i a, i < length l -> exists m, set_at l i a = Some m.
Proof. induction l as [|b r IH]; intros i a H; cbn in H; [lia|]. destruct i as [|i]; [eexists; reflexivity|]. destruct (IH i a ltac:(lia)) as [m E]. cbn. rewrite E. eexists. reflexivity. Qed.
Lemma of_option_ok {A} (o : option A) a : of_option o = Ok a -> o = Some a.
Proof. destruct o; cbn; congruence. Qed.
Ltac bind_ok H := match type of H with bind ?o _ = Ok _ => let E := fresh "E" in destruct o as [?| | |] eqn:E; cbn [bind] in H; [|discriminate H|discriminate H|discriminate H]; try apply of_option_ok in E end.

(** The sizes agree. *)
Definition sized (s : pstate) : Prop := forall k b, nth_error (ps_objects s) k = Some b -> exists names, nth_error (ps_names s) (po_ptr b) = Some names /\ length names = length (po_values b).
Lemma nth_snoc {A} (l : list A) a k b : nth_error (l ++ [a]) k = Some b -> nth_error l k = Some b \/ (k = length l /\ b = a).
Proof.
  intro H. destruct (Nat.lt_ge_cases k (length l)) as [L|L]; [left; rewrite nth_error_app1 in H by exact L; exact H|right].
  rewrite nth_error_app2 in H by exact L. destruct (k - length l) as [|d] eqn:E; cbn in H; [injection H as <-; split; [lia|reflexivity]|destruct d; discriminate].
Qed.
Lemma sized_step s o s' : sized s -> (forall r l, o <> PReplace r l) -> pstep s o = Ok s' -> sized s'.
Proof.
  intros S N H. destruct o as [l|[r|] values|k|k i v|r i n|r l]; cbn [pstep] in H.
  - injection H as <-. intros k b E. destruct (S k b E) as (names & A & L). exists names. split; [|exact L]. cbn. rewrite nth_error_app1; [exact A|]. apply nth_error_Some. congruence.
  - bind_ok H. destruct (Nat.eqb _ _) eqn:Q; [|injection H as <-; exact S]. injection H as <-. apply Nat.eqb_eq in Q. intros k b K. cbn in K. destruct (nth_snoc _ _ _ _ K) as [K1|[-> ->]]; [apply (S k b K1)|]. exists a. split; [exact E|exact Q].
  - injection H as <-. exact S.
  - bind_ok H. injection H as <-. intros j b K. cbn in K. destruct (nth_snoc _ _ _ _ K) as [K1|[-> ->]]; [apply (S j b K1)|]. apply (S k a E).
  - bind_ok H. bind_ok H. bind_ok H. injection H as <-. destruct (set_at_spec _ _ _ _ E1) as (L & I & G & O). destruct (set_at_spec _ _ _ _ E0) as (L0 & _).
    intros j b K. cbn in K. destruct (Nat.eq_dec j k) as [->|NE].
    + rewrite G in K. injection K as <-. destruct (S k a E) as (names & A & Q). exists names. split; [exact A|]. cbn. congruence.
    + rewrite (O j NE) in K. apply (S j b K).
  - bind_ok H. bind_ok H. bind_ok H. injection H as <-. destruct (set_at_spec _ _ _ _ E1) as (L & I & G & O). destruct (set_at_spec _ _ _ _ E0) as (L0 & _).
    intros j b K. cbn in K. destruct (S j b K) as (names & A & Q). destruct (Nat.eq_dec (po_ptr b) r) as [EQ|NE].
    + exists a0. cbn. rewrite EQ in *. split; [exact G|]. rewrite E in A. injection A as <-. congruence.
    + exists names. cbn. rewrite (O _ NE). split; assumption.
  - exfalso. apply (N r l). reflexivity.
Qed.
Lemma sized_run h : forall s s', sized s -> keeps_sizes h -> prun s h = Ok s' -> sized s'.
Proof.
  induction h as [|o h IH]; intros s s' S K H; cbn in H; [injection H as <-; exact S|]. bind_ok H. apply (IH a s'); [|intros r l I; apply (K r l); right; exact I|exact H].
  apply (sized_step s o a S); [|exact E]. intros r l ->. apply (K r l). left. reflexivity.
Qed.
Lemma sized_empty : sized pempty. Proof. intros k b H. destruct k; discriminate. Qed.
Lemma visit_ok names values : length names = length values -> forall fuel i, i <= length names -> length names - i < fuel ->
  pvisit fuel names values (mkPIter i i) = Ok (combine (skipn i names) (skipn i values)).
Proof.
  intro L. induction fuel as [|f IH]; intros i Hi Hf; [lia|]. cbn [pvisit]. unfold peq, pend. cbn [pi_filter]. destruct (Nat.eqb_spec i (length names)) as [->|N].
  - rewrite skipn_all. reflexivity.
  - unfold pname, pget, pnext. cbn [pi_filter pi_value].
    destruct (nth_error names i) as [n|] eqn:EN; [|apply nth_error_None in EN; lia]. destruct (nth_error values i) as [v|] eqn:EV; [|apply nth_error_None in EV; lia]. cbn [of_option bind].
    replace ((i <? length names) && (i <? length values)) with true by (symmetry; apply andb_true_iff; split; apply Nat.ltb_lt; lia). cbn [bind]. rewrite IH by lia. cbn [bind].
    assert (SK : forall A (l : list A) a, nth_error l i = Some a -> skipn i l = a :: skipn (S i) l).
    { clear. intros A l a. revert i. induction l as [|b r IH]; intros [|i] H; cbn in H; try discriminate; [injection H as ->; reflexivity|]. exact (IH i H). }
    rewrite (SK _ _ _ EN), (SK _ _ _ EV). reflexivity.
Qed.
Lemma find_from_ok names : forall values name, length names = length values ->
  (exists i v, nth_error names i = Some name /\ nth_error values i = Some v /\ (forall j, j < i -> nth_error names j <> Some name) /\ pfind_from names values name = Ok (Some v)) \/
  (~ In name names /\ pfind_from names values name = Ok None).
Proof.
  induction names as [|n r IH]; intros values name L.
  - right. split; [intros []|reflexivity].
  - destruct values as [|v vs]; [discriminate|]. cbn [pfind_from]. destruct (text_eqb n name) eqn:E.
    + apply text_eqb_iff in E. subst n. left. exists 0, v. repeat split; try reflexivity. intros j Hj. lia.
    + assert (N : n <> name) by (intro Z; apply text_eqb_iff in Z; congruence). destruct (IH vs name ltac:(cbn in L; lia)) as [(i & w & A & B & C & D)|[A B]].
      * left. exists (S i), w. repeat split; try assumption. intros [|j] Hj; cbn; [congruence|apply C; lia].
      * right. split; [intros [Z|Z]; [exact (N Z)|exact (A Z)]|exact B].
Qed.
