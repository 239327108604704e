From Coq Require Import List Arith Bool Relations Lia Permutation Sorted.
From Verif Require Import Common ConfigModel ConfigSpec.
Import ListNotations.

Lemma mem_iff x l : mem x l = true <-> In x l.
Proof.
  unfold mem. rewrite existsb_exists. split.
  - intros (y & Hy & E). apply Nat.eqb_eq in E. subst. assumption.
  - intros H. exists x. split; [assumption|apply Nat.eqb_refl].
Qed.
Lemma mem_false x l : mem x l = false <-> ~ In x l.
Proof. rewrite <- mem_iff. destruct (mem x l); split; congruence. Qed.
Lemma mem_dec x (l : list cls) : {In x l} + {~ In x l}.
Proof. apply (in_dec Nat.eq_dec). Qed.

Lemma insert_in x y l : In y (insert x l) <-> y = x \/ In y l.
Proof.
  induction l as [|z r IH]; cbn [insert].
  - simpl. intuition congruence.
  - destruct (Nat.ltb_spec x z); [simpl; intuition congruence|]. destruct (Nat.eqb_spec x z); [subst; simpl; intuition congruence|].
    cbn [In]. rewrite IH. intuition congruence.
Qed.
Lemma insert_all_in xs : forall l y, In y (insert_all xs l) <-> In y xs \/ In y l.
Proof.
  induction xs as [|x xs IH]; intros l y; [simpl; intuition|].
  change (insert_all (x :: xs) l) with (insert_all xs (insert x l)). rewrite IH, insert_in. simpl. intuition congruence.
Qed.
Lemma insert_sorted x l : StronglySorted lt l -> StronglySorted lt (insert x l).
Proof.
  induction 1 as [|z r Hr IH Hz]; cbn [insert]; [repeat constructor|].
  destruct (Nat.ltb_spec x z).
  - constructor; [constructor; assumption|]. constructor; [assumption|]. eapply Forall_impl; [|exact Hz]. intros; lia.
  - destruct (Nat.eqb_spec x z); [constructor; assumption|]. constructor; [assumption|].
    apply Forall_forall. intros y Hy. apply insert_in in Hy. rewrite Forall_forall in Hz. destruct Hy as [->|Hy]; [lia|auto].
Qed.
Lemma sorted_nodup l : StronglySorted lt l -> NoDup l.
Proof.
  induction 1 as [|z r Hr IH Hz]; constructor; [|assumption]. intros Hi. rewrite Forall_forall in Hz. specialize (Hz z Hi). lia.
Qed.

(** ** Dependency search *)
Section Graph.
  Variable dict : list cls.
  Variable deps : cls -> option (list cls).
  Hypothesis Hdom : forall t, In t dict -> exists s, deps t = Some s /\ incl s dict.

  Definition dep (a b : cls) : Prop := In a dict /\ exists s, deps a = Some s /\ In b s.

  Lemma dep_in a b : dep a b -> In a dict /\ In b dict.
  Proof.
    intros (Ha & s & E & Hb). split; [assumption|]. destruct (Hdom a Ha) as (s' & E' & Hs). apply Hs. congruence.
  Qed.

  Definition go_of (fuel : nat) (root : cls) :=
    fix go (l : list cls) : outcome (list cls) :=
      match l with
      | [] => Ok []
      | c :: r =>
          do s <- of_option (deps c);
          do found <- has_circular fuel deps root s;
          match found with [] => go r | _ => Ok (c :: found) end
      end.
  Lemma has_circular_S fuel root set :
    has_circular (S fuel) deps root set = if mem root set then Ok [root] else go_of fuel root set.
  Proof. reflexivity. Qed.

  (** A non-empty answer is a path to the root. *)
  Lemma circ_sound fuel : forall root set p, incl set dict -> has_circular fuel deps root set = Ok p -> p <> [] ->
    exists c, In c set /\ clos_refl_trans _ dep c root.
  Proof.
    induction fuel as [|fuel IH]; intros root set p Hs; [discriminate|]. rewrite has_circular_S.
    destruct (mem root set) eqn:Em; [intros _ _; apply mem_iff in Em; exists root; split; [assumption|apply rt_refl]|].
    clear Em. induction set as [|c r IHr]; cbn [go_of]; [congruence|].
    destruct (Hdom c (Hs c (or_introl eq_refl))) as (s & E & Hi). rewrite E. cbn [of_option bind].
    destruct (has_circular fuel deps root s) as [found| | |] eqn:Ef; try discriminate. cbn [bind].
    destruct found as [|x f].
    - intros H Hp. destruct IHr as (c' & Hc & R); [intros y Hy; apply Hs; right; assumption|exact H|exact Hp|].
      exists c'. split; [right; assumption|assumption].
    - intros _ _. destruct (IH root s (x :: f) Hi Ef) as (c' & Hc & R); [discriminate|].
      exists c. split; [left; reflexivity|]. eapply rt_trans; [apply rt_step|exact R].
      split; [apply Hs; left; reflexivity|]. exists s. auto.
  Qed.

  (** Chains of dependencies. *)
  Fixpoint chain (n : nat) (a : cls) : Prop :=
    match n with O => True | S k => exists b, dep a b /\ chain k b end.

  Lemma circ_complete fuel : forall root set, incl set dict -> has_circular fuel deps root set = Ok [] ->
    (forall c, In c set -> ~ clos_refl_trans _ dep c root) /\ (forall c n, In c set -> chain n c -> S n < S fuel).
  Proof.
    induction fuel as [|fuel IH]; intros root set Hs; [discriminate|]. rewrite has_circular_S.
    destruct (mem root set) eqn:Em; [discriminate|]. apply mem_false in Em.
    assert (G : forall l, incl l dict -> ~ In root l -> go_of fuel root l = Ok [] -> forall c, In c l ->
      exists s, deps c = Some s /\ incl s dict /\ has_circular fuel deps root s = Ok []).
    { clear set Hs Em. induction l as [|c r IHr]; intros Hs Em; [intros _ c []|]. cbn [go_of].
      destruct (Hdom c (Hs c (or_introl eq_refl))) as (s & E & Hi). rewrite E. cbn [of_option bind].
      destruct (has_circular fuel deps root s) as [found| | |] eqn:Ef; try discriminate. cbn [bind].
      destruct found; [|discriminate]. intros H c' [<-|Hc]; [exists s; auto|].
      apply IHr; [intros y Hy; apply Hs; right; assumption|intros Hy; apply Em; right; assumption|assumption|assumption]. }
    intros H. specialize (G set Hs Em H). split.
    - intros c Hc R. destruct (G c Hc) as (s & E & Hi & Hf). destruct (IH root s Hi Hf) as (I1 & _).
      apply clos_rt_rt1n in R. destruct R as [|b root Hb R]; [contradiction|].
      destruct Hb as (_ & s' & E' & Hb). apply (I1 b); [congruence|]. apply clos_rt1n_rt. assumption.
    - intros c n Hc Hn. destruct n as [|n]; [lia|]. destruct Hn as (b & (_ & s' & E' & Hb) & Hn).
      destruct (G c Hc) as (s & E & Hi & Hf). destruct (IH root s Hi Hf) as (_ & I2).
      assert (In b s) by congruence. specialize (I2 b n H0 Hn). lia.
  Qed.

  Lemma circ_no_throw fuel : forall root set, incl set dict ->
    (exists p, has_circular fuel deps root set = Ok p) \/ has_circular fuel deps root set = Diverge.
  Proof.
    induction fuel as [|fuel IH]; intros root set Hs; [right; reflexivity|]. rewrite has_circular_S.
    destruct (mem root set); [left; eexists; reflexivity|].
    induction set as [|c r IHr]; cbn [go_of]; [left; eexists; reflexivity|].
    destruct (Hdom c (Hs c (or_introl eq_refl))) as (s & E & Hi). rewrite E. cbn [of_option bind].
    destruct (IH root s Hi) as [(p & Ep)|Ep]; rewrite Ep; cbn [bind]; [|right; reflexivity].
    destruct p; [|left; eexists; reflexivity]. apply IHr. intros y Hy. apply Hs. right. assumption.
  Qed.

  Hypothesis Hnd : NoDup dict.

  Lemma chain_reach n : forall a b, clos_refl_trans _ dep a b -> chain n b -> chain n a.
  Proof.
    assert (G : forall n a, chain (S n) a -> chain n a).
    { induction n0 as [|k IH]; [intros; exact I|]. intros a (b & Hb & Hc). exists b. split; [assumption|apply IH; assumption]. }
    intros a b R. apply clos_rt_rt1n in R. revert n. induction R as [|x y z Hxy R IH]; intros n H; [assumption|].
    apply G. exists y. split; [assumption|]. apply IH. assumption.
  Qed.
  Lemma cycle_chain a : clos_trans _ dep a a -> forall n, chain n a.
  Proof.
    intros Ht. induction n as [|n IH]; [exact I|]. apply clos_trans_t1n in Ht. inversion Ht as [b Hb|b c Hb R]; subst.
    - exists a. auto.
    - exists b. split; [assumption|]. apply chain_reach with a; [|assumption]. clear - R. apply clos_t1n_trans in R.
      induction R; [apply rt_step; assumption|eapply rt_trans; eassumption].
  Qed.

  (** Without a cycle the search ends within as many levels as there are classes. *)
  Lemma circ_terminates (Hac : ~ cyclic dep) fuel : forall root set path,
    incl set dict -> NoDup path -> incl path dict -> (forall a b, In a path -> In b set -> clos_trans _ dep a b) ->
    length dict < fuel + length path -> has_circular fuel deps root set <> Diverge.
  Proof.
    induction fuel as [|fuel IH]; intros root set path Hs Np Ip Hp Hf.
    - pose proof (NoDup_incl_length Np Ip). simpl in Hf. lia.
    - rewrite has_circular_S. destruct (mem root set); [discriminate|].
      induction set as [|c r IHr]; cbn [go_of]; [discriminate|].
      assert (Hc : In c dict) by (apply Hs; left; reflexivity).
      destruct (Hdom c Hc) as (s & E & Hi). rewrite E. cbn [of_option bind].
      assert (Nc : ~ In c path).
      { intros Hcp. apply Hac. exists c. apply Hp; [assumption|left; reflexivity]. }
      assert (ND : has_circular fuel deps root s <> Diverge).
      { apply IH with (c :: path).
        - exact Hi.
        - constructor; assumption.
        - intros y [<-|Hy]; auto.
        - intros a b [<-|Ha] Hb; [apply t_step; split; [assumption|exists s; auto]|].
          eapply t_trans; [apply Hp; [exact Ha|left; reflexivity]|]. apply t_step. split; [assumption|exists s; auto].
        - simpl. lia. }
      destruct (circ_no_throw fuel root s Hi) as [(p & Ep)|Ep]; [|contradiction]. rewrite Ep. cbn [bind].
      destruct p; [|discriminate]. apply IHr; [intros y Hy; apply Hs; right; assumption|].
      intros a b Ha Hb. apply Hp; [assumption|right; assumption].
  Qed.

  Lemma dep_step_root t s c root : deps t = Some s -> In t dict -> In c s -> clos_refl_trans _ dep c root -> clos_trans _ dep t root.
  Proof.
    intros E Ht Hc R. assert (D : dep t c) by (split; [assumption|exists s; auto]).
    clear - D R. apply clos_rt_rtn1 in R. induction R as [|y z Hyz R IH]; [apply t_step; assumption|].
    eapply t_trans; [exact IH|apply t_step; assumption].
  Qed.

  Lemma check_spec fuel l : incl l dict ->
    (check_all fuel deps l = Ok tt -> forall t, In t l -> ~ clos_trans _ dep t t) /\
    (check_all fuel deps l = Throw -> cyclic dep) /\
    check_all fuel deps l <> UB /\
    (~ cyclic dep -> length dict < fuel -> check_all fuel deps l = Ok tt).
  Proof.
    induction l as [|t r IH]; intros Hl.
    - cbn [check_all]. repeat split; try discriminate. intros _ t [].
    - cbn [check_all]. assert (Ht : In t dict) by (apply Hl; left; reflexivity).
      destruct (Hdom t Ht) as (s & E & Hs). rewrite E. cbn [of_option bind].
      destruct (IH (fun y Hy => Hl y (or_intror Hy))) as (I1 & I2 & I3 & I4).
      destruct (circ_no_throw fuel t s Hs) as [(p & Ep)|Ep]; rewrite Ep; cbn [bind].
      + destruct p as [|x p].
        * destruct (circ_complete fuel t s Hs Ep) as (C1 & _). split; [|split; [|split]].
          -- intros H t' [<-|Ht']; [|apply I1; assumption]. intros R.
             apply clos_trans_t1n in R. inversion R as [b Hb|b c Hb R']; subst.
             ++ destruct Hb as (_ & s' & E' & Hb). apply (C1 t); [congruence|apply rt_refl].
             ++ destruct Hb as (_ & s' & E' & Hb). apply (C1 b); [congruence|]. clear - R'. apply clos_t1n_trans in R'.
                induction R'; [apply rt_step; assumption|eapply rt_trans; eassumption].
          -- exact I2.
          -- exact I3.
          -- exact I4.
        * destruct (circ_sound fuel t s (x :: p) Hs Ep) as (c & Hc & R); [discriminate|].
          assert (Cy : cyclic dep) by (exists t; eapply dep_step_root; eassumption).
          repeat split; try discriminate; auto. intros Hn. contradiction.
      + repeat split; try discriminate. intros Hac Hf. exfalso.
        apply (circ_terminates Hac fuel t s [t]) in Ep; try assumption.
        * repeat constructor; auto.
        * intros y [<-|[]]. assumption.
        * intros a b [<-|[]] Hb. apply t_step. split; [assumption|exists s; auto].
        * simpl. lia.
  Qed.

  Lemma cyclic_member : cyclic dep -> exists t, In t dict /\ clos_trans _ dep t t.
  Proof.
    intros (t & R). exists t. split; [|assumption]. apply clos_trans_t1n in R. inversion R as [b Hb|b c Hb R']; subst; apply (dep_in _ _ Hb).
  Qed.

  Lemma check_ok fuel : check_all fuel deps dict = Ok tt -> ~ cyclic dep.
  Proof.
    intros H C. destruct (cyclic_member C) as (t & Ht & R). destruct (check_spec fuel dict (incl_refl _)) as (A & _).
    exact (A H t Ht R).
  Qed.

  (** A class that is not on a cycle but reaches one makes the search endless. *)
  Lemma circ_diverges t u s : In t dict -> deps t = Some s -> ~ clos_trans _ dep t t -> clos_refl_trans _ dep t u -> clos_trans _ dep u u ->
    forall fuel, has_circular fuel deps t s = Diverge.
  Proof.
    intros Ht E Nt Rt Ru fuel. destruct (Hdom t Ht) as (s' & E' & Hs). assert (s' = s) by congruence. subst s'.
    destruct (circ_no_throw fuel t s Hs) as [([|x p] & Ep)|Ep]; [| |assumption].
    - exfalso. destruct (circ_complete fuel t s Hs Ep) as (_ & C2).
      assert (chain (S fuel) t) as (b & (_ & s' & E2 & Hb) & Hc) by (apply chain_reach with u; [assumption|apply cycle_chain; assumption]).
      assert (In b s) by congruence. specialize (C2 b fuel H Hc). lia.
    - exfalso. destruct (circ_sound fuel t s (x :: p) Hs Ep) as (c & Hc & R); [discriminate|].
      apply Nt. eapply dep_step_root; eassumption.
  Qed.
End Graph.

(** ** Initialization without failures *)
Definition quiet : event -> bool := fun _ => false.

Lemma NoDup_app_intro {A} (a b : list A) : NoDup a -> NoDup b -> (forall x, In x a -> ~ In x b) -> NoDup (a ++ b).
Proof.
  induction 1 as [|x a Hx Ha IH]; intros Hb Hd; [assumption|]. cbn [app]. constructor.
  - rewrite in_app_iff. intros [H|H]; [contradiction|]. apply (Hd x); [left; reflexivity|assumption].
  - apply IH; [assumption|]. intros y Hy. apply Hd. right. assumption.
Qed.

Section Init.
  Variable dict : list cls.
  Variable deps : cls -> option (list cls).
  Hypothesis Hdom : forall t, In t dict -> exists s, deps t = Some s /\ incl s dict.
  Hypothesis Hnd : NoDup dict.
  Hypothesis Hac : ~ cyclic (dep dict deps).
  Variable st0 : mstate.
  Variable tr0 : list event.

  Definition Rep (m : manager) (V : list cls) : Prop :=
    m_state m = st0 /\ m_dict m = dict /\ m_deps m = deps /\ m_trace m = tr0 ++ map Init V /\
    forall u, at_least_initialized (m_cstate m u) = mem u V.

  Definition good (V L : list cls) : Prop :=
    NoDup L /\ incl L dict /\ (forall u, In u L -> ~ In u V) /\
    forall l1 u l2, L = l1 ++ u :: l2 -> forall d, dep dict deps u d -> In d V \/ In d l1.

  Lemma good_nil V : good V [].
  Proof. split; [constructor|]. split; [intros x []|]. split; [intros x []|]. intros l1 u l2 H. destruct l1; discriminate. Qed.

  Lemma app_split {A} (x : A) : forall a b c d, a ++ b = c ++ x :: d ->
    (exists r, a = c ++ x :: r /\ d = r ++ b) \/ (exists r, c = a ++ r /\ b = r ++ x :: d).
  Proof.
    induction a as [|y a IH]; intros b c d H; simpl in H.
    - right. exists c. auto.
    - destruct c as [|z c]; simpl in H.
      + injection H as -> <-. left. exists a. auto.
      + injection H as -> H. destruct (IH b c d H) as [(r & -> & ->)|(r & -> & ->)]; [left|right]; exists r; auto.
  Qed.

  Lemma good_app V L1 L2 : good V L1 -> good (V ++ L1) L2 -> good V (L1 ++ L2).
  Proof.
    intros (N1 & I1 & D1 & O1) (N2 & I2 & D2 & O2). split; [|split; [|split]].
    - apply NoDup_app_intro; auto.
      intros u H1 H2. apply (D2 u H2). apply in_or_app. auto.
    - apply incl_app; assumption.
    - intros u Hu. apply in_app_or in Hu. destruct Hu as [Hu|Hu]; [auto|]. intros Hv. apply (D2 u Hu). apply in_or_app. auto.
    - intros l1 u l2 E d Hd. destruct (app_split u _ _ _ _ E) as [(r & -> & ->)|(r & -> & ->)].
      + eapply O1; [reflexivity|eassumption].
      + destruct (O2 r u l2 eq_refl d Hd) as [Hi|Hi]; [apply in_app_or in Hi; destruct Hi; auto|]; right; apply in_or_app; auto.
  Qed.

  Lemma seq_ok (a b : act) m m1 : a m = (Ok tt, m1) -> seq a b m = b m1.
  Proof. intros H. unfold seq. rewrite H. reflexivity. Qed.

  Notation reach := (clos_refl_trans _ (dep dict deps)).

  Lemma rec_init fuel : forall t m V path, Rep m V -> In t dict ->
    NoDup path -> incl path dict -> (forall a, In a path -> clos_trans _ (dep dict deps) a t) ->
    length dict < fuel + length path ->
    exists m' L, recursive_init quiet fuel t m = (Ok tt, m') /\ Rep m' (V ++ L) /\ good V L /\ In t (V ++ L) /\
      (forall u, In u L -> reach t u).
  Proof.
    induction fuel as [|fuel IH]; intros t m V path R Ht Np Ip Hp Hf.
    - pose proof (NoDup_incl_length Np Ip). simpl in Hf. lia.
    - cbn [recursive_init]. pose proof R as R0. destruct R as (R1 & R2 & R3 & R4 & R5).
      rewrite R2. assert (Em : mem t dict = true) by (apply mem_iff; assumption). rewrite Em. cbn [negb].
      destruct (at_least_initialized (m_cstate m t)) eqn:Ei.
      + exists m, []. rewrite app_nil_r. split; [reflexivity|]. split; [assumption|]. split; [apply good_nil|].
        rewrite R5 in Ei. split; [apply mem_iff; assumption|intros u []].
      + rewrite R3. destruct (Hdom t Ht) as (ds & E & Hds). rewrite E.
        assert (Nt : ~ In t V) by (rewrite R5 in Ei; apply mem_false; assumption).
        assert (Ntp : ~ In t path) by (intros H; apply Hac; exists t; auto).
        assert (G : forall l, incl l ds -> forall m V, Rep m V ->
          exists m' L, each (recursive_init quiet fuel) l m = (Ok tt, m') /\ Rep m' (V ++ L) /\ good V L /\ incl l (V ++ L) /\
            (forall u, In u L -> exists d, In d ds /\ reach d u)).
        { induction l as [|d l IHl]; intros Hl m0 V0 Rm.
          - exists m0, []. rewrite app_nil_r. split; [reflexivity|]. split; [assumption|]. split; [apply good_nil|].
            split; [intros x []|intros u []].
          - assert (Hd : In d ds) by (apply Hl; left; reflexivity).
            assert (Dt : dep dict deps t d) by (split; [assumption|exists ds; auto]).
            destruct (IH d m0 V0 (t :: path) Rm) as (m1 & L1 & E1 & R1' & G1 & I1 & Re1).
            + apply Hds. assumption.
            + constructor; assumption.
            + intros y [<-|Hy]; auto.
            + intros a [<-|Ha]; [apply t_step; assumption|]. eapply t_trans; [apply Hp; exact Ha|apply t_step; assumption].
            + simpl. lia.
            + destruct (IHl (fun y Hy => Hl y (or_intror Hy)) m1 (V0 ++ L1) R1') as (m2 & L2 & E2 & R2' & G2 & I2 & Re2).
              exists m2, (L1 ++ L2). rewrite app_assoc.
              split; [cbn [each fold_right]; rewrite (seq_ok _ _ _ _ E1); exact E2|].
              split; [assumption|]. split; [apply good_app; assumption|]. split.
              * intros y [<-|Hy]; [apply in_or_app; left; assumption|apply I2; assumption].
              * intros u Hu. apply in_app_or in Hu. destruct Hu as [Hu|Hu]; [|auto]. exists d. auto. }
        destruct (G ds (incl_refl _) m V R0) as (m1 & L & E1 & Rm1 & GL & IL & ReL).
        assert (NtL : ~ In t L).
        { intros H. destruct (ReL t H) as (d & Hd & Rd). apply Hac. exists t. eapply dep_step_root; eassumption. }
        rewrite (seq_ok _ _ _ _ E1). cbn [seq call quiet set_state].
        eexists. exists (L ++ [t]). split; [reflexivity|]. destruct Rm1 as (M1 & M2 & M3 & M4 & M5). split; [|split; [|split]].
        * unfold Rep. cbn. repeat split; auto.
          -- rewrite M4, !map_app, <- !app_assoc. reflexivity.
          -- intros u. unfold update. destruct (Nat.eqb_spec u t) as [->|Hu]; cbn [at_least_initialized].
             ++ symmetry. apply mem_iff. apply in_or_app. right. apply in_or_app. right. left. reflexivity.
             ++ rewrite M5. apply eq_true_iff_eq. rewrite !mem_iff, !in_app_iff. simpl. intuition congruence.
        * apply good_app; [assumption|]. split; [repeat constructor; auto|]. split; [intros y [<-|[]]; assumption|]. split.
          -- intros u [<-|[]] Hu. apply in_app_or in Hu. tauto.
          -- intros l1 u l2 El d Hd. left. apply IL. destruct l1 as [|x l1]; [|destruct l1; discriminate].
             injection El as <- _. destruct Hd as (_ & s' & E' & Hd). congruence.
        * apply in_or_app. right. apply in_or_app. right. left. reflexivity.
        * intros u Hu. apply in_app_or in Hu. destruct Hu as [Hu|[<-|[]]]; [|apply rt_refl].
          destruct (ReL u Hu) as (d & Hd & Rd). eapply rt_trans; [apply rt_step|exact Rd]. split; [assumption|exists ds; auto].
  Qed.

  Lemma rec_init_all fuel : length dict < fuel -> forall l, incl l dict -> forall m V, Rep m V ->
    exists m' L, each (recursive_init quiet fuel) l m = (Ok tt, m') /\ Rep m' (V ++ L) /\ good V L /\ incl l (V ++ L).
  Proof.
    intros Hf. induction l as [|t l IH]; intros Hl m V R.
    - exists m, []. rewrite app_nil_r. split; [reflexivity|]. split; [assumption|]. split; [apply good_nil|intros x []].
    - destruct (rec_init fuel t m V [] R) as (m1 & L1 & E1 & R1 & G1 & I1 & _).
      + apply Hl. left. reflexivity.
      + constructor.
      + intros x [].
      + intros a [].
      + simpl. lia.
      + destruct (IH (fun y Hy => Hl y (or_intror Hy)) m1 (V ++ L1) R1) as (m2 & L2 & E2 & R2 & G2 & I2).
        exists m2, (L1 ++ L2). rewrite app_assoc. split; [cbn [each fold_right]; rewrite (seq_ok _ _ _ _ E1); exact E2|].
        split; [assumption|]. split; [apply good_app; assumption|].
        intros y [<-|Hy]; [apply in_or_app; left; assumption|apply I2; assumption].
  Qed.
End Init.

(** The loops over preInitialize and postInitialize. *)
Lemma mark_loop (mk : cls -> event) s l : forall m, exists m',
  each (fun t => seq (call quiet (mk t)) (set_state t s)) l m = (Ok tt, m') /\
  m_state m' = m_state m /\ m_dict m' = m_dict m /\ m_deps m' = m_deps m /\ m_trace m' = m_trace m ++ map mk l /\
  (forall u, In u l -> m_cstate m' u = s) /\ (forall u, ~ In u l -> m_cstate m' u = m_cstate m u).
Proof.
  induction l as [|t l IH]; intros m.
  - exists m. rewrite app_nil_r. repeat split; auto. intros u [].
  - cbn [each fold_right].
    set (m1 := mkM (m_state m) (m_dict m) (m_deps m) (update (m_cstate m) t s) (m_trace m ++ [mk t])).
    assert (E1 : seq (call quiet (mk t)) (set_state t s) m = (Ok tt, m1)) by reflexivity.
    rewrite (seq_ok _ _ _ _ E1). destruct (IH m1) as (m' & E & A1 & A2 & A3 & A4 & A5 & A6). subst m1.
    exists m'. cbn [m_state m_dict m_deps m_cstate m_trace] in *. split; [exact E|]. split; [exact A1|]. split; [exact A2|]. split; [exact A3|].
    split; [rewrite A4, <- app_assoc; reflexivity|]. split.
    + intros u [<-|Hu]; [|auto]. destruct (mem_dec t l) as [Ht|Ht]; [auto|]. rewrite A6 by assumption. unfold update. rewrite Nat.eqb_refl. reflexivity.
    + intros u Hu. rewrite A6 by (intros H; apply Hu; right; assumption). unfold update.
      destruct (Nat.eqb_spec u t) as [->|]; [exfalso; apply Hu; left; reflexivity|reflexivity].
Qed.

(** Initialization of a closed manager, no virtual method throwing. *)
Lemma initialize_quiet m fuel :
  (forall t, In t (m_dict m) -> exists s, m_deps m t = Some s /\ incl s (m_dict m)) ->
  (forall u, ~ In u (m_dict m) -> at_least_initialized (m_cstate m u) = false) ->
  NoDup (m_dict m) -> ~ cyclic (dep (m_dict m) (m_deps m)) -> length (m_dict m) < fuel ->
  exists order m', initialize quiet fuel m = (Ok tt, m') /\ m_state m' = ManagerInitialized /\ m_dict m' = m_dict m /\ m_deps m' = m_deps m /\
    m_trace m' = m_trace m ++ map PreInit (m_dict m) ++ map Init order ++ map PostInit (m_dict m) /\
    (forall u, In u (m_dict m) -> m_cstate m' u = Final) /\ (forall u, ~ In u (m_dict m) -> at_least_initialized (m_cstate m' u) = false) /\
    Permutation order (m_dict m) /\
    (forall t d, dep (m_dict m) (m_deps m) t d -> precedes d t order).
Proof.
  intros Hdom Hout Hnd Hac Hf. unfold initialize.
  destruct (mark_loop PreInit PreInitialized (m_dict m) (mkM ManagerInitialized (m_dict m) (m_deps m) (m_cstate m) (m_trace m)))
    as (m1 & E1 & A1 & A2 & A3 & A4 & A5 & A6).
  rewrite (seq_ok _ _ _ _ E1). cbn [m_state m_dict m_deps m_cstate m_trace] in *.
  destruct (rec_init_all (m_dict m) (m_deps m) Hdom Hac ManagerInitialized (m_trace m1) fuel Hf (m_dict m) (incl_refl _) m1 [])
    as (m2 & L & E2 & (B1 & B2 & B3 & B4 & B5) & G & I2).
  { unfold Rep. cbn [map]. rewrite app_nil_r. repeat split; auto. intros u. cbn [mem existsb].
    destruct (mem_dec u (m_dict m)) as [Hu|Hu]; [rewrite A5 by assumption; reflexivity|]. rewrite A6 by assumption. apply Hout; assumption. }
  rewrite (seq_ok _ _ _ _ E2). cbn [app] in *.
  destruct (mark_loop PostInit Final (m_dict m) m2) as (m3 & E3 & C1 & C2 & C3 & C4 & C5 & C6).
  exists L, m3. destruct G as (N & Il & _ & O).
  split; [exact E3|]. split; [congruence|]. split; [congruence|]. split; [congruence|].
  split; [rewrite C4, B4, A4, <- !app_assoc; reflexivity|]. split; [exact C5|]. split.
  { intros u Hu. rewrite C6 by assumption. pose proof (B5 u) as Hb. assert (mem u L = false) as Em by (apply mem_false; intros H; apply Hu; auto).
    congruence. }
  split; [apply NoDup_Permutation; try assumption; intros x; split; auto|].
  intros t d D. assert (In t L) by (apply I2; apply D). apply in_split in H. destruct H as (l1 & l2 & ->).
  destruct (O l1 t l2 eq_refl d D) as [[]|Hd]. apply in_split in Hd. destruct Hd as (a & b & ->).
  exists a, b, l2. rewrite <- app_assoc. reflexivity.
Qed.
