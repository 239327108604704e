(** Proofs about the interpolation of N-dimensional arrays. *)
From Coq Require Import Reals List Arith Bool Lia Lra.
From Verif Require Import Common CumulModel FunModel FunSpec InterpModel InterpSpec InterpProofs GridInterpModel GridInterpSpec GridInterpProofs GridInterpProps NdInterpModel NdInterpSpec.
Import ListNotations.
Local Open Scope R_scope.

(** Two corners of an axis and their weights. *)
Record corners : Type := mkC { c_i : nat; c_u : R; c_j : nat; c_v : R }.
Fixpoint ml (l : list corners) (values : list nat -> R) : R :=
  match l with
  | [] => values []
  | k :: r => c_u k * ml r (fun c => values (c_i k :: c)) + c_v k * ml r (fun c => values (c_j k :: c))
  end.
Lemma ml_snoc r k : forall values, ml (r ++ [k]) values = c_u k * ml r (fun c => values (c ++ [c_i k])) + c_v k * ml r (fun c => values (c ++ [c_j k])).
Proof. induction r as [|h r IH]; intros values; [reflexivity|]. cbn [app ml]. rewrite !IH. cbn [app]. ring. Qed.

Definition pick (e : bool) (ks : list R) (x : R) (k : corners) : Prop :=
  (exists i, (S i < length ks)%nat /\ cell e ks i x
     /\ k = mkC i (1 - (x - el ks i) / (el ks (S i) - el ks i)) (S i) ((x - el ks i) / (el ks (S i) - el ks i)))
  \/ (exists a, ks = [a] /\ (e = true \/ x = a) /\ k = mkC 0 1 0 0).
Lemma line_ml ks i x y1 y2 : line (el ks i) y1 (el ks (S i)) y2 x
  = (1 - (x - el ks i) / (el ks (S i) - el ks i)) * y1 + ((x - el ks i) / (el ks (S i) - el ks i)) * y2.
Proof. unfold line. ring. Qed.

Lemma pick_exists e ks x : strictly_sorted ks -> ks <> [] -> e = true \/ el ks 0 <= x <= el ks (length ks - 1) -> exists k, pick e ks x k.
Proof.
  intros S1 N I. destruct ks as [|a [|b ks]]; [congruence| |].
  - exists (mkC 0 1 0 0). right. exists a. split; [reflexivity|]. split; [|reflexivity]. destruct I as [I|I]; [left; exact I|right]. unfold el in I. cbn in I. lra.
  - set (l := a :: b :: ks) in *. assert (L : (2 <= length l)%nat) by (cbn; lia).
    destruct (Rlt_dec x (el l 0)) as [X|X]; [|destruct (Rlt_dec (el l (length l - 1)) x) as [Y|Y]].
    + destruct I as [I|I]; [|lra]. eexists. left. exists 0%nat. split; [lia|]. split; [|reflexivity]. right. split; [exact I|]. left. split; [reflexivity|exact X].
    + destruct I as [I|I]; [|lra]. eexists. left. exists (length l - 2)%nat. split; [lia|]. split; [|reflexivity]. right. split; [exact I|]. right. split; [reflexivity|exact Y].
    + destruct (inside_cell l x S1 L ltac:(lra)) as (i & Hi & XI). eexists. left. exists i. split; [exact Hi|]. split; [left; exact XI|reflexivity].
Qed.

(** ** The value in the order of the axes *)
Lemma value_ml e grid values args y : nd_value e grid values args y -> Forall strictly_sorted grid -> forall l, Forall2 (fun p k => pick e (fst p) (snd p) k) (combine grid args) l -> y = ml l values.
Proof.
  induction 1 as [values|ks i x grid values args y1 y2 Hi C H1 IH1 H2 IH2|k x grid values args y C H IH|ks x grid values args E X L]; intros P l F; cbn [combine] in F.
  - inversion F. reflexivity.
  - inversion F as [|p c q r PK F']; subst. inversion P as [|a g PA PG]; subst. cbn [ml]. cbn [fst snd] in PK.
    rewrite (IH1 PG r F'), (IH2 PG r F'). destruct PK as [(j & Hj & Cj & ->)|(a & -> & _)]; [|cbn in Hi; lia].
    cbn [c_i c_u c_j c_v]. rewrite <- line_ml. exact (cell_line e ks i j x (fun n => ml r (fun c => values (n :: c))) PA Hi Hj C Cj).
  - inversion F as [|p c q r PK F']; subst. inversion P as [|a g PA PG]; subst. cbn [ml]. cbn [fst snd] in PK.
    rewrite (IH PG r F'). destruct PK as [(j & Hj & _)|(a & _ & _ & ->)]; [cbn in Hj; lia|]. cbn [c_i c_u c_j c_v]. ring.
  - exfalso. inversion F as [|p c q r PK F']; subst. inversion P as [|a g PA PG]; subst. cbn [fst snd] in PK.
    destruct PK as [(j & Hj & Cj & _)|(a & -> & [B|B] & _)]; [|discriminate B|unfold el in X; cbn in X; lra].
    destruct Cj as [Cj|[B _]]; [|discriminate B].
    assert (el ks 0 <= el ks j) by (destruct (Nat.eq_dec j 0) as [->|N]; [lra|pose proof (el_strict ks 0 j PA ltac:(lia) ltac:(lia)); lra]).
    assert (el ks (S j) <= el ks (length ks - 1)) by (destruct (Nat.eq_dec (S j) (length ks - 1)) as [->|N]; [lra|pose proof (el_strict ks (S j) (length ks - 1) PA ltac:(lia) ltac:(lia)); lra]).
    lra.
Qed.

(** ** The value in the order of the library *)
Lemma grid_value_ml e : forall grid args l, length args = length grid -> Forall2 (fun p k => pick e (fst p) (snd p) k) (combine grid args) l ->
  forall values, grid_value e (rev (map Cont grid)) values (rev (map Num args)) (ml l values).
Proof.
  intros grid. induction grid as [|ks grid IH] using rev_ind; intros args l L F values.
  - destruct args; [|discriminate L]. inversion F. constructor.
  - destruct args as [|x args _] using rev_ind; [rewrite app_length in L; cbn in L; lia|].
    rewrite !app_length in L. cbn [length] in L. assert (L' : length args = length grid) by lia. clear L.
    assert (EC : combine (grid ++ [ks]) (args ++ [x]) = combine grid args ++ [(ks, x)]).
    { clear - L'. revert args L'. induction grid as [|g grid IH]; intros [|y args] L; try discriminate L; [reflexivity|]. cbn. rewrite IH; [reflexivity|]. injection L. auto. }
    rewrite EC in F. apply Forall2_app_inv_l in F. destruct F as (r & s & F1 & F2 & ->). inversion F2 as [|p k q s' PK F3]; subst. inversion F3; subst. clear F2 F3.
    rewrite !map_app, !rev_app_distr. cbn [map rev app]. rewrite ml_snoc. cbn [fst snd] in PK.
    destruct PK as [(j & Hj & Cj & ->)|(a & -> & B & ->)]; cbn [c_i c_u c_j c_v].
    + rewrite <- line_ml. apply GCell; [exact Hj|exact Cj|apply (IH args r L' F1)|apply (IH args r L' F1)].
    + match goal with |- grid_value _ _ _ _ ?v => replace v with (ml r (fun c => values (c ++ [0%nat]))) by ring end.
      apply GOnly; [exact B|]. apply (IH args r L' F1).
Qed.

Lemma picks_or_outside e grid : forall args, Forall strictly_sorted grid -> Forall (fun ks => ks <> []) grid -> length args = length grid ->
  (exists l, Forall2 (fun p k => pick e (fst p) (snd p) k) (combine grid args) l)
  \/ (e = false /\ exists ks x, In (ks, x) (combine grid args) /\ (x < el ks 0 \/ el ks (length ks - 1) < x)).
Proof.
  induction grid as [|ks grid IH]; intros args P N L.
  - left. exists []. destruct args; [constructor|discriminate L].
  - destruct args as [|x args]; [discriminate L|]. injection L as L. inversion P as [|a g PA PG]; subst. inversion N as [|a g NA NG]; subst. cbn [combine].
    destruct (IH args PG NG L) as [[l F]|[E [k [y [I X]]]]].
    + destruct (Rlt_dec x (el ks 0)) as [X|X]; [|destruct (Rlt_dec (el ks (length ks - 1)) x) as [Y|Y]].
      * destruct e; [|right; split; [reflexivity|]; exists ks, x; split; [left; reflexivity|left; exact X]].
        destruct (pick_exists true ks x PA NA (or_introl eq_refl)) as [k K]. left. exists (k :: l). constructor; assumption.
      * destruct e; [|right; split; [reflexivity|]; exists ks, x; split; [left; reflexivity|right; exact Y]].
        destruct (pick_exists true ks x PA NA (or_introl eq_refl)) as [k K]. left. exists (k :: l). constructor; assumption.
      * destruct (pick_exists e ks x PA NA) as [k K]; [right; lra|]. left. exists (k :: l). constructor; assumption.
    + right. split; [exact E|]. exists k, y. split; [right; exact I|exact X].
Qed.
Lemma value_outside grid values args y : nd_value false grid values args y -> Forall strictly_sorted grid ->
  (exists ks x, In (ks, x) (combine grid args) /\ (x < el ks 0 \/ el ks (length ks - 1) < x)) -> y = 0.
Proof.
  remember false as e eqn:Ee.
  induction 1 as [values|ks i x grid values args y1 y2 Hi C H1 IH1 H2 IH2|k x grid values args y C H IH|ks x grid values args E X L]; intros P O; cbn [combine] in O.
  - destruct O as (ks & x & [] & _).
  - inversion P as [|a g PA PG]; subst. destruct O as (ks' & x' & [I|I] & X).
    + injection I as <- <-. exfalso. destruct C as [C|[B _]]; [|discriminate B].
      assert (el ks 0 <= el ks i) by (destruct (Nat.eq_dec i 0) as [->|N]; [lra|pose proof (el_strict ks 0 i PA ltac:(lia) ltac:(lia)); lra]).
      assert (el ks (S i) <= el ks (length ks - 1)) by (destruct (Nat.eq_dec (S i) (length ks - 1)) as [->|N]; [lra|pose proof (el_strict ks (S i) (length ks - 1) PA ltac:(lia) ltac:(lia)); lra]).
      lra.
    + rewrite IH1, IH2 by (try exact PG; try reflexivity; exists ks', x'; auto). unfold line. ring.
  - inversion P as [|a g PA PG]; subst. destruct O as (ks' & x' & [I|I] & X).
    + injection I as <- <-. exfalso. destruct C as [C|C]; [discriminate C|]. unfold el in X. cbn in X. lra.
    + apply IH; [exact PG|exists ks', x'; auto].
  - reflexivity.
Qed.
Lemma value_shape e grid values args y : nd_value e grid values args y -> length args = length grid.
Proof. induction 1; cbn [length]; congruence. Qed.

Lemma nd_exists e grid : forall args, Forall strictly_sorted grid -> Forall (fun ks => ks <> []) grid -> length args = length grid ->
  forall values, exists y, nd_value e grid values args y.
Proof.
  induction grid as [|ks grid IH]; intros args P N L values.
  - destruct args; [|discriminate L]. eexists. constructor.
  - destruct args as [|x args]; [discriminate L|]. injection L as L. inversion P as [|a g PA PG]; subst. inversion N as [|a g NA NG]; subst.
    destruct (picks_or_outside e [ks] [x] ltac:(constructor; [exact PA|constructor]) ltac:(constructor; [exact NA|constructor]) eq_refl) as [[l F]|[E [k [y [I X]]]]].
    + inversion F as [|p k q r PK F']; subst. cbn [fst snd] in PK. destruct PK as [(j & Hj & Cj & _)|(b & -> & B & _)].
      * destruct (IH args PG NG L (fun c => values (j :: c))) as [y1 Y1], (IH args PG NG L (fun c => values (S j :: c))) as [y2 Y2]. eexists. eapply NCell; eassumption.
      * destruct (IH args PG NG L (fun c => values (0%nat :: c))) as [y1 Y1]. exists y1. apply NOnly; assumption.
    + destruct I as [I|[]]. injection I as <- <-. exists 0. apply NOutside; assumption.
Qed.

Lemma proper_rev grid : Forall strictly_sorted grid -> Forall proper (rev (map Cont grid)).
Proof. intros P. apply Forall_rev. apply Forall_map. exact P. Qed.
Lemma sizes_rev grid : rev (map axis_size (rev (map Cont grid))) = map (@length R) grid.
Proof. rewrite map_rev, rev_involutive, map_map. reflexivity. Qed.

Lemma nd_call_ok e grid values t args y : grid <> [] -> Forall strictly_sorted grid -> Forall (fun ks => ks <> []) grid ->
  build (rev (map Cont grid)) (map (@length R) grid) values e = Ok t -> nd_value e grid values args y -> interpn_call t args = Ok y.
Proof.
  intros N P NE B V. pose proof (value_shape _ _ _ _ _ V) as L.
  assert (N' : rev (map Cont grid) <> []) by (intros H; apply (f_equal (@length _)) in H; rewrite rev_length, map_length in H; destruct grid; [congruence|discriminate H]).
  rewrite <- (sizes_rev grid) in B. unfold interpn_call.
  destruct (picks_or_outside e grid args P NE L) as [[l F]|[E O]].
  - destruct (C94_value (rev (map Cont grid)) values e N' (proper_rev _ P)) as (t' & B' & HV). rewrite B in B'. injection B' as <-.
    rewrite (value_ml _ _ _ _ _ V P l F). apply HV. apply grid_value_ml; assumption.
  - subst e. rewrite (value_outside _ _ _ _ V P O). apply (C94_outside (rev (map Cont grid)) values t _ N' (proper_rev _ P) B).
    + clear - L NE. revert args L. induction grid as [|ks grid IH]; intros [|x args] L; try discriminate L; [constructor|]. cbn [map rev].
      inversion NE; subst. apply Forall2_app; [apply IH; [assumption|injection L; auto]|]. constructor; [assumption|constructor].
    + destruct O as (ks & x & I & X). intros W.
      assert (W2 : Forall2 within (map Cont grid) (map Num args)).
      { rewrite <- (rev_involutive (map Cont grid)), <- (rev_involutive (map Num args)). clear - W. induction W as [|a c g l H W IH]; [constructor|]. cbn [rev]. apply Forall2_app; [exact IH|]. constructor; [exact H|constructor]. }
      clear - W2 I X. revert args I W2. induction grid as [|k grid IH]; intros [|z args] I W; cbn [combine map] in *; try contradiction I.
      inversion W as [|a c g l H W']; subst. destruct I as [I|I]; [injection I as -> ->; cbn in H; lra|]. exact (IH args I W').
Qed.
