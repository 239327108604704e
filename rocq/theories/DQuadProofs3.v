(** Proofs about the adaptive integration in double precision. *)
From Coq Require Import ZArith Reals List Arith Bool Lia Lra Psatz.
From Flocq Require Import Core IEEE754.BinarySingleNaN.
From Verif Require Import Common FloatModel FloatProofs DoubleProofs DoubleProofs2 DInterpModel DInterpSpec DInterpProofs DInterpProofs2
  DSOMProofs DSOMProofs2 DSplineModel DSplineSpec DSplineProofs DSplineProofs3 DSplineProofs4 DSplineProofs5 DQuadModel DQuadSpec DQuadProofs DQuadProofs2.
Import ListNotations.

Lemma ok_inj {A} (x y : A) : Ok x = Ok y -> x = y.
Proof. congruence. Qed.
Lemma simpson_cases f a b order :
  ((order < 3)%Z -> dsimpson f a b order = Throw) /\
  ((3 <= order <= 30)%Z -> exists v, dsimpson f a b order = Ok v) /\
  ((30 < order)%Z -> dsimpson f a b order = UB).
Proof.
  unfold dsimpson, dsteps. split; [|split]; intros H.
  - destruct (Z.ltb_spec order 3); [reflexivity|lia].
  - destruct (Z.ltb_spec order 3); [lia|]. destruct (Z.ltb_spec 30 order); [lia|]. cbn [bind]. eexists. reflexivity.
  - destruct (Z.ltb_spec order 3); [lia|]. destruct (Z.ltb_spec 30 order); [|lia]. reflexivity.
Qed.
Lemma next_cases f a b p order :
  ((order < 4)%Z -> dsimpson_next f a b p order = Throw) /\
  ((4 <= order <= 30)%Z -> exists v, dsimpson_next f a b p order = Ok v) /\
  ((30 < order)%Z -> dsimpson_next f a b p order = UB).
Proof.
  unfold dsimpson_next, dsteps. split; [|split]; intros H.
  - destruct (Z.ltb_spec order 4); [reflexivity|lia].
  - destruct (Z.ltb_spec order 4); [lia|]. destruct (Z.ltb_spec 30 order); [lia|]. cbn [bind]. eexists. reflexivity.
  - destruct (Z.ltb_spec order 4); [lia|]. destruct (Z.ltb_spec 30 order); [|lia]. reflexivity.
Qed.
Lemma next_ok_order f a b p order v : dsimpson_next f a b p order = Ok v -> (4 <= order <= 30)%Z.
Proof.
  intros H. destruct (next_cases f a b p order) as (A & _ & B).
  destruct (Z.lt_ge_cases order 4); [rewrite A in H by assumption; discriminate|]. destruct (Z.lt_ge_cases 30 order); [rewrite B in H by assumption; discriminate|]. lia.
Qed.
Lemma estimate_order f a b i : forall m v, estimate f a b i m v -> (i <= m)%Z /\ (3 <= m <= 30)%Z.
Proof.
  intros m v E. induction E as [v E|m u v E IH N].
  - destruct (simpson_cases f a b i) as (A & _ & B). destruct (Z.lt_ge_cases i 3); [rewrite A in E by assumption; discriminate|]. destruct (Z.lt_ge_cases 30 i); [rewrite B in E by assumption; discriminate|]. lia.
  - apply next_ok_order in N. lia.
Qed.
Lemma estimate_fun f a b i : forall m v, estimate f a b i m v -> forall v', estimate f a b i m v' -> v = v'.
Proof.
  intros m v E. induction E as [v E|m u v E IH N]; intros v' E'.
  - inversion E' as [? E2|m2 u2 v2 E2 N2]; subst; [congruence|]. apply estimate_order in E2. lia.
  - inversion E' as [? E2|m2 u2 v2 E2 N2]; subst; [apply estimate_order in E; lia|]. assert (m2 = m) by lia. subst m2. rewrite (IH u2 E2) in N. congruence.
Qed.

(** The loop *)
Lemma refine_all f a b p i : forall fuel m u, estimate f a b i m u -> (31 - m < Z.of_nat fuel)%Z ->
  (exists k x y, (m <= k < 30)%Z /\ estimate f a b i k x /\ estimate f a b i (k + 1) y /\ settled p x y /\ drefine fuel f a b p m u = Ok y /\
     forall j x' y', (m <= j < k)%Z -> estimate f a b i j x' -> estimate f a b i (j + 1) y' -> ~ settled p x' y') \/
  (drefine fuel f a b p m u = UB /\ forall j x' y', (m <= j)%Z -> estimate f a b i j x' -> estimate f a b i (j + 1) y' -> ~ settled p x' y').
Proof.
  induction fuel as [|fuel IH]; intros m u E H; [apply estimate_order in E; lia|]. cbn [drefine]. pose proof (estimate_order _ _ _ _ _ _ E) as O.
  destruct (next_cases f a b u (m + 1)) as (_ & N2 & N3). destruct (Z.eq_dec m 30) as [->|NE].
  - rewrite N3 by lia. right. split; [reflexivity|]. intros j x y J _ EY. apply estimate_order in EY. lia.
  - destruct (N2 ltac:(lia)) as [v N]. rewrite N. cbn [bind]. assert (EV : estimate f a b i (m + 1) v) by (eapply estimate_next; eauto).
    unfold dgoes_on. cbv zeta. destruct (dlt p (Babs (ddiv (dsub v u) u))) eqn:S.
    + assert (NS : forall x y, estimate f a b i m x -> estimate f a b i (m + 1) y -> ~ settled p x y).
      { intros x y X Y. rewrite <- (estimate_fun _ _ _ _ _ _ E _ X), <- (estimate_fun _ _ _ _ _ _ EV _ Y). unfold settled. congruence. }
      destruct (IH (m + 1)%Z v EV ltac:(lia)) as [(k & x & y & K & A & B & C & D & G)|[A B]].
      * left. exists k, x, y. split; [lia|]. split; [exact A|]. split; [exact B|]. split; [exact C|]. split; [exact D|].
        intros j x' y' J. destruct (Z.eq_dec j m) as [->|]; [apply NS|apply G; lia].
      * right. split; [exact A|]. intros j x' y' J. destruct (Z.eq_dec j m) as [->|]; [apply NS|apply B; lia].
    + left. exists m, u, v. split; [lia|]. split; [exact E|]. split; [exact EV|]. split; [exact S|]. split; [reflexivity|]. intros; lia.
Qed.
Lemma adaptive_all f a b p i : (3 <= i <= 30)%Z ->
  (exists k x y, (i <= k < 30)%Z /\ estimate f a b i k x /\ estimate f a b i (k + 1) y /\ settled p x y /\ dadaptive f a b p i = Ok y /\
     forall j x' y', (i <= j < k)%Z -> estimate f a b i j x' -> estimate f a b i (j + 1) y' -> ~ settled p x' y') \/
  (dadaptive f a b p i = UB /\ forall j x' y', (i <= j)%Z -> estimate f a b i j x' -> estimate f a b i (j + 1) y' -> ~ settled p x' y').
Proof.
  intros I. destruct (proj1 (proj2 (simpson_cases f a b i)) I) as [v E]. unfold dadaptive. rewrite E. cbn [bind].
  apply refine_all; [apply estimate_first, E|lia].
Qed.

(** Finite values come from finite values *)
Lemma next_finite f a b u order v : dsimpson_next f a b u order = Ok v -> is_finite v = true -> is_finite u = true.
Proof.
  intros N F. unfold dsimpson_next in N. destruct (Z.ltb order 4); [discriminate|]. destruct (dsteps order); try discriminate. cbn [bind] in N. injection N as <-.
  destruct (fin_add _ _ F) as [_ FD]. exact (fin_div _ _ FD).
Qed.
Lemma estimates_finite f a b i : forall m v, estimate f a b i m v -> is_finite v = true -> forall j x, (j <= m)%Z -> estimate f a b i j x -> is_finite x = true.
Proof.
  intros m v E. induction E as [v E|m u v E IH N]; intros F j x J X.
  - destruct (estimate_order _ _ _ _ _ _ X). assert (j = i) by lia. subst j. rewrite <- (estimate_fun f a b i i v (estimate_first _ _ _ _ _ E) x X). exact F.
  - destruct (Z.eq_dec j (m + 1)) as [->|]; [rewrite <- (estimate_fun f a b i (m + 1) v (estimate_next _ _ _ _ _ _ _ E N) x X); exact F|].
    apply (IH (next_finite _ _ _ _ _ _ N F) j x); [lia|exact X].
Qed.
Lemma div_inf s : ddiv (B754_infinity s) (dint 2) = B754_infinity s.
Proof. apply sf_inj. destruct s; vm_compute; reflexivity. Qed.
Lemma not_finite_settles p u v f a b order : dsimpson_next f a b u order = Ok v -> is_finite u = false -> settled p u v /\ is_finite v = false.
Proof.
  intros N F. split.
  - unfold dsimpson_next in N. destruct (Z.ltb order 4); [discriminate|]. destruct (dsteps order); try discriminate. cbn [bind] in N. injection N as <-.
    match goal with |- context [dadd (dmul ?s ?h) (ddiv u (dint 2))] => generalize (dmul s h) as q end. intros q. unfold settled.
    assert (Z : ddiv (dsub (dadd q (ddiv u (dint 2))) u) u = B754_nan).
    { destruct u as [s|s| |s m e H]; try discriminate.
      - rewrite div_inf. destruct q as [s'|s'| |s' m e H]; destruct s; try destruct s'; reflexivity.
      - change (ddiv B754_nan (dint 2)) with (B754_nan (prec := 53) (emax := 1024)). destruct q; reflexivity. }
    rewrite Z. destruct p as [| | |]; reflexivity.
  - destruct (is_finite v) eqn:FV; [|reflexivity]. rewrite (next_finite _ _ _ _ _ _ N FV) in F. discriminate.
Qed.

(** ** Zero functions *)
Lemma zero_add x y : zero_double x -> zero_double y -> zero_double (dadd x y).
Proof. intros [s ->] [s' ->]. destruct s, s'; eexists; reflexivity. Qed.
Lemma zero_sub x y : zero_double x -> zero_double y -> zero_double (dsub x y).
Proof. intros [s ->] [s' ->]. destruct s, s'; eexists; reflexivity. Qed.
Lemma zero_mul_l x y : zero_double x -> is_finite y = true -> zero_double (dmul x y).
Proof. intros [s ->] F. destruct y; try discriminate; eexists; reflexivity. Qed.
Lemma zero_mul_r x y : zero_double x -> is_finite y = true -> zero_double (dmul y x).
Proof. intros [s ->] F. destruct y; try discriminate; eexists; reflexivity. Qed.
Lemma zero_div x n : zero_double x -> (1 <= n <= 24)%nat -> zero_double (ddiv x (dint n)).
Proof.
  intros [s ->] N. destruct (dint_val n ltac:(lia)) as [F V]. assert (V0 : B2R (dint n) <> 0%R) by (rewrite V; apply not_0_INR; lia).
  destruct (dint n) as [s'|s'| |s' m e H]; try discriminate; [exfalso; apply V0; reflexivity|]. eexists. reflexivity.
Qed.
Lemma zero_loop g : forall n i s, zero_double s -> (forall k, (i <= k < i + n)%nat -> zero_double (g k)) -> zero_double (dsum_loop g i n s).
Proof. induction n as [|n IH]; intros i s Z H; cbn [dsum_loop]; [exact Z|]. apply IH; [apply zero_add; [exact Z|apply H; lia]|intros k K; apply H; lia]. Qed.
Lemma zero_simpson f a b order v : usual_range a b -> (forall x, lies_between a b x -> zero_double (f x)) -> dsimpson f a b order = Ok v -> zero_double v.
Proof.
  intros U Z H. unfold dsimpson in H. destruct (Z.ltb_spec order 3); [discriminate|]. destruct (dsteps order) as [N| | |] eqn:EN; try discriminate. cbn [bind] in H. apply ok_inj in H. subst v.
  destruct (steps_range order N ltac:(lia) EN) as [HN _]. pose proof (mesh_up a b N U HN) as MU. pose proof (mesh_down a b N U HN) as MD.
  pose proof (mesh_up1 a b N U HN) as MU1. pose proof (mesh_down1 a b N U HN) as MD1. destruct (ends_between a b U) as [EA EB]. destruct (step_scaled a b N U HN) as [FH _].
  cbv zeta in MU, MD, MU1, MD1. 
  apply zero_mul_l; [|exact FH]. apply zero_add; [apply zero_add; [apply zero_add|]|].
  - apply zero_loop; [exists false; reflexivity|]. intros k K. apply Z, MU. lia.
  - apply zero_mul_r; [|reflexivity]. apply zero_add; auto.
  - apply zero_div; [|lia]. apply zero_mul_r; [|apply dint_val; lia]. apply zero_add; [apply Z, MU1|apply Z, MD1].
  - apply zero_div; [|lia]. apply zero_mul_r; [|apply dint_val; lia]. apply zero_add; [apply Z, MU; lia|apply Z, MD; lia].
Qed.
Lemma zero_next f a b p order v : usual_range a b -> (forall x, lies_between a b x -> zero_double (f x)) -> zero_double p -> dsimpson_next f a b p order = Ok v -> zero_double v.
Proof.
  intros U Z P H. unfold dsimpson_next in H. destruct (Z.ltb_spec order 4); [discriminate|]. destruct (dsteps order) as [N| | |] eqn:EN; try discriminate. cbn [bind] in H. apply ok_inj in H. subst v.
  destruct (steps_range order N ltac:(lia) EN) as [HN _]. pose proof (mesh_up a b N U HN) as MU. pose proof (mesh_down a b N U HN) as MD.
  pose proof (mesh_up1 a b N U HN) as MU1. pose proof (mesh_down1 a b N U HN) as MD1. destruct (step_scaled a b N U HN) as [FH _].
  cbv zeta in MU, MD, MU1, MD1. 
  apply zero_add; [apply zero_mul_l; [|exact FH]|apply zero_div; [exact P|lia]]. apply zero_add; [apply zero_sub; [apply zero_add|]|].
  - apply zero_loop; [exists false; reflexivity|]. intros k K. apply Z, MU. pose proof (Nat.div_mod N 2 ltac:(lia)). lia.
  - apply zero_div; [|lia]. apply zero_mul_r; [|apply dint_val; lia]. apply zero_add; [apply Z, MU1|apply Z, MD1].
  - apply zero_div; [|lia]. apply zero_mul_r; [|apply dint_val; lia]. apply zero_add; [apply Z, MU; lia|apply Z, MD; lia].
  - apply zero_div; [|lia]. apply zero_add; [apply Z, MU; lia|apply Z, MD; lia].
Qed.
Lemma zero_settles p u v : zero_double u -> zero_double v -> settled p u v.
Proof. intros U V. unfold settled. destruct (zero_sub v u V U) as [s ->]. destruct U as [s' ->]. cbn. destruct p; reflexivity. Qed.
