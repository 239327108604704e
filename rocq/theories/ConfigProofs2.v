From Coq Require Import List Arith Bool Relations Lia Permutation Sorted.
From Verif Require Import Common ConfigModel ConfigSpec ConfigProofs.
Import ListNotations.

(** ** Virtual methods that throw cut the sequence of calls *)
Definition Cut (a : (event -> bool) -> act) : Prop := forall h m o0 m0, a quiet m = (o0, m0) ->
  exists E, m_trace m0 = m_trace m ++ E /\
    (((forall e, In e E -> h e = false) /\ a h m = (o0, m0)) \/
     (exists E1 e E2, E = E1 ++ e :: E2 /\ (forall x, In x E1 -> h x = false) /\ h e = true /\
        exists m', a h m = (Throw, m') /\ m_trace m' = m_trace m ++ E1 ++ [e])).

Lemma cut_same (a : act) : (forall m, m_trace (snd (a m)) = m_trace m) -> Cut (fun _ => a).
Proof.
  intros H h m o0 m0 E. exists []. rewrite app_nil_r. split; [rewrite <- (H m), E; reflexivity|]. left. split; [intros e []|assumption].
Qed.
Lemma cut_call e : Cut (fun h => call h e).
Proof.
  intros h m o0 m0 E. unfold call, quiet in E. injection E as <- <-. exists [e]. cbn [m_trace]. split; [reflexivity|].
  destruct (h e) eqn:He.
  - right. exists [], e, []. repeat split; auto; [intros x []|]. unfold call. rewrite He. eexists. split; reflexivity.
  - left. split; [intros x [<-|[]]; assumption|]. unfold call. rewrite He. reflexivity.
Qed.
Lemma cut_seq a b : Cut a -> Cut b -> Cut (fun h => seq (a h) (b h)).
Proof.
  intros Ha Hb h m o0 m0 H. unfold seq in H. destruct (a quiet m) as (oa, m1) eqn:Ea.
  destruct (Ha h m oa m1 Ea) as (E1 & T1 & C1).
  assert (Bad : forall m', a h m = (Throw, m') -> seq (a h) (b h) m = (Throw, m')) by (intros m' Em; unfold seq; rewrite Em; reflexivity).
  destruct C1 as [(Q1 & A1)|(P & e & S & -> & Q1 & He & m' & Em & Tm)].
  - destruct oa as [u| | |].
    + destruct (Hb h m1 o0 m0 H) as (E2 & T2 & C2). exists (E1 ++ E2). split; [rewrite T2, T1, app_assoc; reflexivity|].
      destruct C2 as [(Q2 & A2)|(P & e & S & -> & Q2 & He & m' & Em & Tm)].
      * left. split; [intros e Hi; apply in_app_or in Hi; destruct Hi; auto|]. unfold seq. rewrite A1. exact A2.
      * right. exists (E1 ++ P), e, S. split; [rewrite app_assoc; reflexivity|].
        split; [intros x Hi; apply in_app_or in Hi; destruct Hi; auto|]. split; [assumption|]. exists m'. split; [unfold seq; rewrite A1; exact Em|].
        rewrite Tm, T1, <- !app_assoc. reflexivity.
    + injection H as <- <-. exists E1. split; [exact T1|]. left. split; [assumption|]. unfold seq. rewrite A1. reflexivity.
    + injection H as <- <-. exists E1. split; [exact T1|]. left. split; [assumption|]. unfold seq. rewrite A1. reflexivity.
    + injection H as <- <-. exists E1. split; [exact T1|]. left. split; [assumption|]. unfold seq. rewrite A1. reflexivity.
  - destruct oa as [u| | |].
    + destruct (Hb h m1 o0 m0 H) as (E2 & T2 & C2). exists ((P ++ e :: S) ++ E2). split; [rewrite T2, T1, <- app_assoc; reflexivity|].
      right. exists P, e, (S ++ E2). split; [rewrite <- app_assoc; reflexivity|]. split; [assumption|]. split; [assumption|].
      exists m'. split; [apply Bad; assumption|assumption].
    + injection H as <- <-. exists (P ++ e :: S). split; [exact T1|]. right. exists P, e, S. repeat split; auto. exists m'. auto.
    + injection H as <- <-. exists (P ++ e :: S). split; [exact T1|]. right. exists P, e, S. repeat split; auto. exists m'. auto.
    + injection H as <- <-. exists (P ++ e :: S). split; [exact T1|]. right. exists P, e, S. repeat split; auto. exists m'. auto.
Qed.
Lemma cut_each f l : (forall t, Cut (fun h => f h t)) -> Cut (fun h => each (f h) l).
Proof.
  intros H. induction l as [|t l IH]; [apply cut_same; reflexivity|]. cbn [each fold_right].
  apply (cut_seq (fun h => f h t) (fun h => each (f h) l)); [apply H|apply IH].
Qed.
Lemma cut_set t s : Cut (fun _ => set_state t s).
Proof. apply cut_same. reflexivity. Qed.
Lemma cut_rec fuel : forall t, Cut (fun h => recursive_init h fuel t).
Proof.
  induction fuel as [|fuel IH]; intros t.
  - cbn [recursive_init]. apply cut_same. reflexivity.
  - intros h m o0 m0. cbn [recursive_init]. destruct (negb (mem t (m_dict m))).
    { intros E. injection E as <- <-. exists []. rewrite app_nil_r. split; [reflexivity|left]. split; [intros e []|reflexivity]. }
    destruct (at_least_initialized (m_cstate m t)).
    { intros E. injection E as <- <-. exists []. rewrite app_nil_r. split; [reflexivity|left]. split; [intros e []|reflexivity]. }
    destruct (m_deps m t) as [ds|].
    2:{ intros E. injection E as <- <-. exists []. rewrite app_nil_r. split; [reflexivity|left]. split; [intros e []|reflexivity]. }
    revert h m o0 m0.
    apply (cut_seq (fun h => each (recursive_init h fuel) ds) (fun h => seq (call h (Init t)) (set_state t Initialized))).
    + apply cut_each. exact IH.
    + apply cut_seq; [apply cut_call|apply cut_set].
Qed.
Lemma cut_initialize fuel m h o0 m0 : initialize quiet fuel m = (o0, m0) ->
  exists E, m_trace m0 = m_trace m ++ E /\
    (((forall e, In e E -> h e = false) /\ initialize h fuel m = (o0, m0)) \/
     (exists E1 e E2, E = E1 ++ e :: E2 /\ (forall x, In x E1 -> h x = false) /\ h e = true /\
        exists m', initialize h fuel m = (Throw, m') /\ m_trace m' = m_trace m ++ E1 ++ [e])).
Proof.
  unfold initialize. intros H.
  assert (C : Cut (fun h => seq (each (fun t => seq (call h (PreInit t)) (set_state t PreInitialized)) (m_dict m))
    (seq (each (recursive_init h fuel) (m_dict m)) (each (fun t => seq (call h (PostInit t)) (set_state t Final)) (m_dict m))))).
  { apply (cut_seq (fun h => each (fun t => seq (call h (PreInit t)) (set_state t PreInitialized)) (m_dict m))).
    - apply (cut_each (fun h t => seq (call h (PreInit t)) (set_state t PreInitialized))). intros t.
      apply (cut_seq (fun h => call h (PreInit t)) (fun _ => set_state t PreInitialized)); [apply cut_call|apply cut_set].
    - apply (cut_seq (fun h => each (recursive_init h fuel) (m_dict m))).
      + apply cut_each. apply cut_rec.
      + apply (cut_each (fun h t => seq (call h (PostInit t)) (set_state t Final))). intros t.
        apply (cut_seq (fun h => call h (PostInit t)) (fun _ => set_state t Final)); [apply cut_call|apply cut_set]. }
  exact (C h _ _ _ H).
Qed.

(** ** What initialize leaves alone *)
Definition outside_ok (m : manager) : Prop := forall u, ~ In u (m_dict m) -> at_least_initialized (m_cstate m u) = false.
Definition Frame (dict : list cls) (a : act) : Prop := forall m, m_dict m = dict ->
  m_state (snd (a m)) = m_state m /\ m_dict (snd (a m)) = dict /\ m_deps (snd (a m)) = m_deps m /\
  (outside_ok m -> outside_ok (snd (a m))).
Lemma frame_seq d a b : Frame d a -> Frame d b -> Frame d (seq a b).
Proof.
  intros Ha Hb m Hm. destruct (Ha m Hm) as (A1 & A2 & A3 & A4). unfold seq.
  destruct (a m) as (o, m1). cbn [snd] in *. destruct o; [|repeat split; auto..].
  destruct (Hb m1 A2) as (B1 & B2 & B3 & B4). repeat split; try congruence. auto.
Qed.
Lemma frame_each d f l : (forall t, In t l -> Frame d (f t)) -> Frame d (each f l).
Proof.
  induction l as [|t l IH]; intros H; [intros m Hm; cbn; repeat split; auto|]. cbn [each fold_right].
  apply frame_seq; [apply H; left; reflexivity|]. apply IH. intros u Hu. apply H. right. assumption.
Qed.
Lemma frame_call d h e : Frame d (call h e).
Proof. intros m Hm. cbn. repeat split; auto. Qed.
Lemma frame_set d t s : In t d -> Frame d (set_state t s).
Proof.
  intros Ht m Hm. cbn. repeat split; auto. intros H u Hu. cbn in *. unfold update. destruct (Nat.eqb_spec u t) as [->|]; [congruence|].
  apply H. assumption.
Qed.
Lemma frame_rec d h fuel : forall t, Frame d (recursive_init h fuel t).
Proof.
  induction fuel as [|fuel IH]; intros t m Hm; [cbn; repeat split; auto|]. cbn [recursive_init].
  destruct (mem t (m_dict m)) eqn:Em; cbn [negb]; [|cbn; repeat split; auto].
  destruct (at_least_initialized (m_cstate m t)); [cbn; repeat split; auto|].
  destruct (m_deps m t) as [ds|]; [|cbn; repeat split; auto].
  apply frame_seq; [apply frame_each; auto| |assumption]. apply frame_seq; [apply frame_call|]. apply frame_set.
  apply mem_iff in Em. congruence.
Qed.
Lemma frame_initialize h fuel m :
  m_state (snd (initialize h fuel m)) = ManagerInitialized /\ m_dict (snd (initialize h fuel m)) = m_dict m /\
  m_deps (snd (initialize h fuel m)) = m_deps m /\ (outside_ok m -> outside_ok (snd (initialize h fuel m))).
Proof.
  unfold initialize. set (m1 := mkM ManagerInitialized (m_dict m) (m_deps m) (m_cstate m) (m_trace m)).
  match goal with |- m_state (snd (?a m1)) = _ /\ _ => assert (F : Frame (m_dict m) a) end.
  { apply frame_seq; [|apply frame_seq].
    - apply frame_each. intros t Ht. apply frame_seq; [apply frame_call|apply frame_set; assumption].
    - apply frame_each. intros t Ht. apply frame_rec.
    - apply frame_each. intros t Ht. apply frame_seq; [apply frame_call|apply frame_set; assumption]. }
  exact (F m1 eq_refl).
Qed.

(** ** Registration *)
Section Reg.
  Variable decl : cls -> list cls.
  Notation declares := (fun a b => In b (decl a)).
  Notation reach := (clos_refl_trans _ declares).
  Definition closed (dict : list cls) : Prop := forall a b, In a dict -> In b (decl a) -> In b dict.

  Lemma closed_reach dict a b : closed dict -> In a dict -> reach a b -> In b dict.
  Proof. intros Hc Ha R. apply clos_rt_rt1n in R. induction R as [|x y z Hxy R IH]; [assumption|]. apply IH. eapply Hc; eassumption. Qed.

  Definition same_rest (m m' : manager) : Prop :=
    m_state m' = m_state m /\ m_deps m' = m_deps m /\ m_cstate m' = m_cstate m /\ m_trace m' = m_trace m.

  Definition fold_reg fuel l o := fold_left (fun o d => do m0 <- o; register decl fuel d m0) l o.
  Lemma fold_reg_cons fuel d l m : fold_reg fuel (d :: l) (Ok m) = fold_reg fuel l (register decl fuel d m).
  Proof. reflexivity. Qed.
  Lemma fold_reg_bad fuel l : fold_reg fuel l Throw = Throw /\ fold_reg fuel l UB = UB /\ fold_reg fuel l Diverge = Diverge.
  Proof. induction l as [|d l IH]; cbn in *; auto. Qed.

  Lemma register_spec fuel : forall t m m', register decl fuel t m = Ok m' ->
    StronglySorted lt (m_dict m) -> closed (m_dict m) ->
    StronglySorted lt (m_dict m') /\ closed (m_dict m') /\ same_rest m m' /\
    (forall u, In u (m_dict m') <-> In u (m_dict m) \/ reach t u) /\
    (forall v, clos_trans _ declares v v -> ~ In v (m_dict m) -> ~ In v (m_dict m')).
  Proof.
    induction fuel as [|fuel IH]; intros t m m'; [discriminate|]. cbn [register].
    destruct (is_registration (m_state m)); cbn [negb]; [|discriminate].
    destruct (mem t (m_dict m)) eqn:Em.
    - intros E Hs Hc. injection E as <-. apply mem_iff in Em. repeat split; auto.
      intros [H|H]; [assumption|]. eapply closed_reach; eassumption.
    - apply mem_false in Em. intros E Hs Hc. fold (fold_reg fuel (decl t) (Ok m)) in E.
      assert (G : forall l m m1, fold_reg fuel l (Ok m) = Ok m1 -> StronglySorted lt (m_dict m) -> closed (m_dict m) ->
        StronglySorted lt (m_dict m1) /\ closed (m_dict m1) /\ same_rest m m1 /\
        (forall u, In u (m_dict m1) <-> In u (m_dict m) \/ exists d, In d l /\ reach d u) /\
        (forall v, clos_trans _ declares v v -> ~ In v (m_dict m) -> ~ In v (m_dict m1))).
      { clear m Hs Hc Em E. induction l as [|d l IHl]; intros m m1 E Hs Hc.
        - injection E as <-. repeat split; auto. intros [H|(d & [] & _)]. assumption.
        - rewrite fold_reg_cons in E. destruct (register decl fuel d m) as [m0| | |] eqn:Er;
            [|destruct (fold_reg_bad fuel l) as (B & _); congruence|destruct (fold_reg_bad fuel l) as (_ & B & _); congruence
             |destruct (fold_reg_bad fuel l) as (_ & _ & B); congruence].
          destruct (IH d m m0 Er Hs Hc) as (A1 & A2 & (A3 & A4 & A5 & A6) & A7 & A8).
          destruct (IHl m0 m1 E A1 A2) as (B1 & B2 & (B3 & B4 & B5 & B6) & B7 & B8).
          split; [assumption|]. split; [assumption|]. split; [repeat split; congruence|]. split.
          + intros u. rewrite B7, A7. split.
            * intros [[H|H]|(d' & Hd & R)]; [auto|right; exists d; split; [left; reflexivity|assumption]|right; exists d'; split; [right; assumption|assumption]].
            * intros [H|(d' & [<-|Hd] & R)]; [auto|auto|right; exists d'; auto].
          + intros v Hv Hn. apply B8; [assumption|]. apply A8; assumption. }
      destruct (fold_reg fuel (decl t) (Ok m)) as [m1| | |] eqn:Ef; try discriminate. cbn [bind] in E. injection E as <-.
      destruct (G (decl t) m m1 Ef Hs Hc) as (B1 & B2 & (B3 & B4 & B5 & B6) & B7 & B8). cbn [m_dict m_state m_deps m_cstate m_trace].
      assert (Dt : forall b, In b (decl t) -> In b (m_dict m1)).
      { intros b Hb. apply B7. right. exists b. split; [assumption|apply rt_refl]. }
      split; [apply insert_sorted; assumption|]. split.
      { intros a b Ha Hb. apply insert_in in Ha. apply insert_in. right. destruct Ha as [->|Ha]; [auto|eapply B2; eassumption]. }
      split; [repeat split; assumption|]. split.
      + intros u. rewrite insert_in, B7. split.
        * intros [->|[H|(d & Hd & R)]]; [right; apply rt_refl|auto|right; eapply rt_trans; [apply rt_step; exact Hd|exact R]].
        * intros [H|R]; [auto|]. apply clos_rt_rt1n in R. destruct R as [|y z Hy R]; [auto|]. right. right. exists y.
          split; [assumption|apply clos_rt1n_rt; assumption].
      + intros v Hv Hn Hi. apply insert_in in Hi. destruct Hi as [->|Hi]; [|exact (B8 v Hv Hn Hi)].
        apply (B8 t Hv Hn). apply clos_trans_t1n in Hv. inversion Hv as [b Hb|b c Hb R]; subst; [auto|].
        apply (closed_reach _ b); [assumption|auto|]. clear - R. apply clos_t1n_trans in R.
        induction R; [apply rt_step; assumption|eapply rt_trans; eassumption].
  Qed.

  Lemma register_outcome fuel : forall t m, m_state m = Registration ->
    register decl fuel t m = Diverge \/ exists m', register decl fuel t m = Ok m' /\ m_state m' = Registration.
  Proof.
    induction fuel as [|fuel IH]; intros t m Hm; [left; reflexivity|]. cbn [register]. rewrite Hm. cbn [is_registration negb].
    destruct (mem t (m_dict m)); [right; exists m; auto|]. fold (fold_reg fuel (decl t) (Ok m)).
    assert (G : forall l m, m_state m = Registration -> fold_reg fuel l (Ok m) = Diverge \/ exists m1, fold_reg fuel l (Ok m) = Ok m1 /\ m_state m1 = Registration).
    { clear - IH. induction l as [|d l IHl]; intros m Hm; [right; exists m; auto|]. rewrite fold_reg_cons.
      destruct (IH d m Hm) as [->|(m0 & -> & H0)]; [left; apply fold_reg_bad|apply IHl; assumption]. }
    destruct (G (decl t) m Hm) as [->|(m1 & -> & H1)]; [left; reflexivity|]. right. cbn [bind]. eexists. split; [reflexivity|exact H1].
  Qed.

  (** A class on a cycle of declarations can never be registered. *)
  Lemma register_cycle_diverges fuel t m : m_state m = Registration -> StronglySorted lt (m_dict m) -> closed (m_dict m) ->
    ~ In t (m_dict m) -> clos_trans _ declares t t -> register decl fuel t m = Diverge.
  Proof.
    intros Hm Hs Hc Hn Ht. destruct (register_outcome fuel t m Hm) as [H|(m' & H & _)]; [assumption|]. exfalso.
    destruct (register_spec fuel t m m' H Hs Hc) as (_ & _ & _ & A & B). apply (B t Ht Hn). apply A. right. apply rt_refl.
  Qed.

  (** Registration ends when the declarations are well-founded. *)
  Lemma register_terminates t : Acc (fun b a => In b (decl a)) t -> exists n, forall fuel m, n <= fuel -> m_state m = Registration ->
    exists m', register decl fuel t m = Ok m' /\ m_state m' = Registration.
  Proof.
    induction 1 as [t _ IH].
    assert (G : forall l, incl l (decl t) -> exists n, forall fuel m, n <= fuel -> m_state m = Registration ->
      exists m', fold_reg fuel l (Ok m) = Ok m' /\ m_state m' = Registration).
    { induction l as [|d l IHl]; intros Hl; [exists 0; intros fuel m _ Hm; exists m; auto|].
      destruct (IH d (Hl d (or_introl eq_refl))) as (n1 & H1). destruct IHl as (n2 & H2); [intros x Hx; apply Hl; right; assumption|].
      exists (Nat.max n1 n2). intros fuel m Hf Hm. rewrite fold_reg_cons. destruct (H1 fuel m) as (m0 & -> & H0); [lia|assumption|].
      apply H2; [lia|assumption]. }
    destruct (G (decl t) (incl_refl _)) as (n & H). exists (S n). intros [|fuel] m Hf Hm; [lia|]. cbn [register]. rewrite Hm. cbn [is_registration negb].
    destruct (mem t (m_dict m)); [exists m; auto|]. fold (fold_reg fuel (decl t) (Ok m)).
    destruct (H fuel m) as (m1 & -> & H1); [lia|assumption|]. cbn [bind]. eexists. split; [reflexivity|exact H1].
  Qed.
End Reg.

(** ** Histories *)
Lemma phase_app ops o : registration_phase (ops ++ [o]) =
  if existsb closing ops then registration_phase ops else registration_phase ops ++ (if closing o then [] else [o]).
Proof.
  induction ops as [|p ops IH]; cbn [app registration_phase existsb].
  - destruct (closing o); reflexivity.
  - destruct (closing p); cbn [orb]; [reflexivity|]. rewrite IH. destruct (existsb closing ops); reflexivity.
Qed.

Section History.
  Variable decl : cls -> list cls.
  Variable opts : cls -> list (nat * list nat).
  Variable throws : event -> bool.
  Notation declares := (fun a b => In b (decl a)).
  Notation reach := (clos_refl_trans _ declares).

  Definition is_close (o : op) : bool := match o with CloseRegistration => true | _ => false end.

  Record hist (ops : list op) (m : manager) : Prop := {
    h_state : is_registration (m_state m) = negb (existsb closing ops);
    h_sorted : StronglySorted lt (m_dict m);
    h_dict : forall t, In t (m_dict m) <-> registered decl ops t;
    h_out : outside_ok m;
    h_deps : if existsb is_close ops
             then (forall t, In t (m_dict m) -> exists s, m_deps m t = Some s /\ forall d, In d s <-> depends decl ops t d) /\
                  (forall t, ~ In t (m_dict m) -> m_deps m t = None)
             else (forall t d, In d (deps_or_empty m t) <-> In (RegisterDependency t d) (registration_phase ops));
    h_final : m_state m = ManagerInitialized <-> exists l1 l2, ops = l1 ++ Initialize :: l2 /\ existsb is_close l2 = false
  }.

  Lemma hist_new : hist [] new_manager.
  Proof.
    split; cbn; try reflexivity.
    - constructor.
    - intros t. split; [intros []|]. intros (t0 & [] & _).
    - intros u _. reflexivity.
    - split; [discriminate|]. intros ([|] & l2 & E & _); discriminate.
  Qed.

  Lemma registered_closed dict ops : (forall t, In t dict <-> registered decl ops t) -> closed decl dict.
  Proof.
    intros H a b Ha Hb. apply H. apply H in Ha. destruct Ha as (t0 & H0 & R). exists t0. split; [assumption|].
    eapply rt_trans; [exact R|apply rt_step; exact Hb].
  Qed.

  Lemma existsb_app_one {A} (f : A -> bool) l x : existsb f (l ++ [x]) = existsb f l || f x.
  Proof. rewrite existsb_app. cbn. rewrite orb_false_r. reflexivity. Qed.

  Lemma registered_same ops ops' : registration_phase ops' = registration_phase ops ->
    (forall t, registered decl ops' t <-> registered decl ops t) /\ (forall t d, depends decl ops' t d <-> depends decl ops t d).
  Proof. intros E. unfold registered, depends, registered. rewrite E. split; intros; reflexivity. Qed.

  Lemma phase_trailing ops o : (closing o = true \/ existsb closing ops = true) -> registration_phase (ops ++ [o]) = registration_phase ops.
  Proof. intros H. rewrite phase_app. destruct (existsb closing ops); [reflexivity|]. destruct H as [->|H]; [apply app_nil_r|discriminate]. Qed.

  Lemma final_other ops o : o <> Initialize -> is_close o = false ->
    ((exists l1 l2, ops ++ [o] = l1 ++ Initialize :: l2 /\ existsb is_close l2 = false) <->
     (exists l1 l2, ops = l1 ++ Initialize :: l2 /\ existsb is_close l2 = false)).
  Proof.
    intros Ho Hc. split.
    - intros (l1 & l2 & E & H). destruct l2 as [|x l2] using rev_ind.
      + apply app_inj_tail in E. destruct E as (_ & E). congruence.
      + rewrite app_comm_cons, app_assoc in E. apply app_inj_tail in E. destruct E as (E & ->). exists l1, l2. split; [assumption|].
        rewrite existsb_app in H. apply orb_false_iff in H. tauto.
    - intros (l1 & l2 & -> & H). exists l1, (l2 ++ [o]). split; [rewrite <- app_assoc; reflexivity|]. rewrite existsb_app_one, H, Hc. reflexivity.
  Qed.

  (** A call that changes nothing. *)
  Lemma hist_same ops m o : hist ops m -> o <> Initialize -> is_close o = false ->
    registration_phase (ops ++ [o]) = registration_phase ops -> closing o = false -> hist (ops ++ [o]) m.
  Proof.
    intros H Ho Hc Hp Hcl. destruct (registered_same ops (ops ++ [o]) Hp) as (R & D). split.
    - rewrite existsb_app_one, Hcl, orb_false_r. apply (h_state _ _ H).
    - apply (h_sorted _ _ H).
    - intros t. rewrite R. apply (h_dict _ _ H).
    - apply (h_out _ _ H).
    - rewrite existsb_app_one, Hc, orb_false_r. pose proof (h_deps _ _ H) as Hd. destruct (existsb is_close ops).
      + destruct Hd as (D1 & D2). split; [|exact D2]. intros t Ht. destruct (D1 t Ht) as (s & E & Hs). exists s. split; [assumption|].
        intros d. rewrite D. apply Hs.
      + rewrite Hp. exact Hd.
    - rewrite (h_final _ _ H). symmetry. apply final_other; assumption.
  Qed.

  Lemma close_closing o : is_close o = true -> closing o = true.
  Proof. destruct o; try discriminate; reflexivity. Qed.
  Lemma no_close ops : existsb closing ops = false -> existsb is_close ops = false.
  Proof.
    intros H. destruct (existsb is_close ops) eqn:E; [|reflexivity]. apply existsb_exists in E. destruct E as (o & Hi & Ho).
    rewrite <- H. symmetry. apply existsb_exists. exists o. split; [assumption|apply close_closing; assumption].
  Qed.
  Lemma is_registration_eq s : is_registration s = true <-> s = Registration.
  Proof. destruct s; split; try discriminate; reflexivity. Qed.

  Lemma depends_cleanup ops m : hist ops m ->
    (forall t, In t (m_dict m) -> exists s, cleanup (m_dict m) (populate decl m) t = Some s /\ forall d, In d s <-> depends decl ops t d) /\
    (forall t, ~ In t (m_dict m) -> cleanup (m_dict m) (populate decl m) t = None).
  Proof.
    intros H. split.
    - intros t Ht. unfold cleanup, populate. assert (Em : mem t (m_dict m) = true) by (apply mem_iff; assumption). rewrite Em.
      eexists. split; [reflexivity|]. intros d. rewrite filter_In, insert_all_in, mem_iff, (h_dict _ _ H).
      unfold depends. rewrite <- (h_dict _ _ H t). pose proof (h_deps _ _ H) as Hd. destruct (existsb is_close ops).
      + destruct Hd as (D1 & _). destruct (D1 t Ht) as (s & E & Hs). unfold deps_or_empty. rewrite E, Hs. unfold depends.
        rewrite <- (h_dict _ _ H t). tauto.
      + rewrite Hd. tauto.
    - intros t Ht. unfold cleanup. destruct (populate decl m t); [|reflexivity].
      assert (mem t (m_dict m) = false) as -> by (apply mem_false; assumption). reflexivity.
  Qed.

  Lemma hist_step fuel ops m o r m' : hist ops m -> step decl opts throws fuel m o = (r, m') -> r <> Diverge -> hist (ops ++ [o]) m'.
  Proof.
    intros H Hs Hr. destruct o as [t|t1 t2| | |t]; cbn [step] in Hs.
    - destruct (existsb closing ops) eqn:Ec.
      + assert (E : register decl fuel t m = Throw \/ register decl fuel t m = Diverge).
        { destruct fuel; [right; reflexivity|left]. cbn [register]. rewrite (h_state _ _ H), Ec. reflexivity. }
        destruct E as [E|E]; rewrite E in Hs; injection Hs as <- <-; [|congruence].
        apply hist_same; auto; try discriminate. apply phase_trailing. auto.
      + assert (Em : m_state m = Registration) by (apply is_registration_eq; rewrite (h_state _ _ H), Ec; reflexivity).
        destruct (register_outcome decl fuel t m Em) as [E|(m1 & E & Em1)]; rewrite E in Hs; injection Hs as <- <-; [congruence|].
        destruct (register_spec decl fuel t m m1 E (h_sorted _ _ H) (registered_closed _ _ (h_dict _ _ H))) as (A1 & A2 & (A3 & A4 & A5 & A6) & A7 & _).
        assert (Ep : registration_phase (ops ++ [Register t]) = registration_phase ops ++ [Register t]) by (rewrite phase_app, Ec; reflexivity).
        split.
        * rewrite existsb_app_one, Ec, A3. cbn. rewrite Em. reflexivity.
        * assumption.
        * intros u. rewrite A7, (h_dict _ _ H). unfold registered. rewrite Ep. split.
          -- intros [(t0 & H0 & R)|R]; [exists t0; split; [apply in_or_app; auto|assumption]|exists t; split; [apply in_or_app; right; left; reflexivity|assumption]].
          -- intros (t0 & H0 & R). apply in_app_or in H0. destruct H0 as [H0|[H0|[]]]; [left; exists t0; auto|]. injection H0 as <-. auto.
        * intros u Hu. rewrite A5. apply (h_out _ _ H). intros Hi. apply Hu. apply A7. auto.
        * rewrite existsb_app_one, (no_close _ Ec). cbn. intros u d. unfold deps_or_empty. rewrite A4, Ep, in_app_iff.
          pose proof (h_deps _ _ H) as Hd. rewrite (no_close _ Ec) in Hd. specialize (Hd u d). unfold deps_or_empty in Hd. rewrite Hd.
          split; [auto|]. intros [Hi|[Hi|[]]]; [assumption|discriminate].
        * rewrite final_other by (auto; discriminate). rewrite A3. apply (h_final _ _ H).
    - unfold register_dependency in Hs. rewrite (h_state _ _ H) in Hs. rewrite negb_involutive in Hs.
      destruct (existsb closing ops) eqn:Ec; injection Hs as <- <-.
      + apply hist_same; auto; try discriminate. apply phase_trailing. auto.
      + assert (Em : m_state m = Registration) by (apply is_registration_eq; rewrite (h_state _ _ H), Ec; reflexivity).
        assert (Ep : registration_phase (ops ++ [RegisterDependency t1 t2]) = registration_phase ops ++ [RegisterDependency t1 t2]) by (rewrite phase_app, Ec; reflexivity).
        split; cbn [m_state m_dict m_deps m_cstate m_trace].
        * rewrite existsb_app_one, Ec, Em. reflexivity.
        * apply (h_sorted _ _ H).
        * intros u. rewrite (h_dict _ _ H). unfold registered. rewrite Ep. split; intros (t0 & H0 & R); exists t0; (split; [|assumption]).
          -- apply in_or_app. auto.
          -- apply in_app_or in H0. destruct H0 as [H0|[H0|[]]]; [assumption|discriminate].
        * exact (h_out _ _ H).
        * rewrite existsb_app_one, (no_close _ Ec). cbn [orb is_close]. intros u d. unfold deps_or_empty at 1. cbn [m_deps]. unfold update. rewrite Ep, in_app_iff.
          pose proof (h_deps _ _ H) as Hd. rewrite (no_close _ Ec) in Hd.
          destruct (Nat.eqb_spec u t1) as [->|Hu].
          -- rewrite insert_in, Hd. simpl. split; [intros [->|Hi]; auto|]. intros [Hi|[Hi|[]]]; [auto|]. injection Hi as <-. auto.
          -- specialize (Hd u d). unfold deps_or_empty in Hd. rewrite Hd. simpl. split; [auto|]. intros [Hi|[Hi|[]]]; [assumption|]. congruence.
        * rewrite final_other by (auto; discriminate). apply (h_final _ _ H).
    - unfold close_registration in Hs. injection Hs as _ <-. clear Hr.
      destruct (registered_same ops (ops ++ [CloseRegistration]) (phase_trailing ops CloseRegistration (or_introl eq_refl))) as (R & D).
      destruct (depends_cleanup ops m H) as (C1 & C2).
      split; cbn [m_state m_dict m_deps m_cstate m_trace].
      + rewrite existsb_app_one. cbn. rewrite orb_true_r. reflexivity.
      + apply (h_sorted _ _ H).
      + intros t. rewrite R. apply (h_dict _ _ H).
      + exact (h_out _ _ H).
      + rewrite existsb_app_one. cbn [is_close]. rewrite orb_true_r. split; [|exact C2].
        intros t Ht. destruct (C1 t Ht) as (s & E & Hd). exists s. split; [exact E|]. intros d. rewrite D. apply Hd.
      + split; [discriminate|]. intros (l1 & l2 & E & Hl). exfalso. destruct l2 as [|x l2] using rev_ind.
        * apply app_inj_tail in E. destruct E as (_ & E). discriminate.
        * rewrite app_comm_cons, app_assoc in E. apply app_inj_tail in E. destruct E as (_ & <-). rewrite existsb_app_one in Hl.
          cbn in Hl. rewrite orb_true_r in Hl. discriminate.
    - destruct (frame_initialize throws fuel m) as (F1 & F2 & F3 & F4). rewrite Hs in *. cbn [snd] in *.
      assert (Ep : registration_phase (ops ++ [Initialize]) = registration_phase ops) by (apply phase_trailing; auto).
      destruct (registered_same ops (ops ++ [Initialize]) Ep) as (R & D).
      split.
      + rewrite existsb_app_one, F1. cbn. rewrite orb_true_r. reflexivity.
      + rewrite F2. apply (h_sorted _ _ H).
      + intros t. rewrite F2, R. apply (h_dict _ _ H).
      + apply F4. apply (h_out _ _ H).
      + rewrite existsb_app_one. cbn [is_close]. rewrite orb_false_r. pose proof (h_deps _ _ H) as Hd. destruct (existsb is_close ops).
        * rewrite F2, F3. destruct Hd as (D1 & D2). split; [|exact D2]. intros t Ht. destruct (D1 t Ht) as (s & E & Hd). exists s. split; [assumption|].
          intros d. rewrite D. apply Hd.
        * intros t d. unfold deps_or_empty. rewrite F3, Ep. apply Hd.
      + split; [|intros _; exact F1]. intros _. exists ops, []. auto.
    - injection Hs as <- <-. assert (Ep : registration_phase (ops ++ [GetConfiguration t]) = registration_phase ops \/ existsb closing ops = false).
      { destruct (existsb closing ops) eqn:Ec; [left; apply phase_trailing; auto|auto]. }
      destruct Ep as [Ep|Ec]; [apply hist_same; auto; discriminate|].
      assert (Ep : registration_phase (ops ++ [GetConfiguration t]) = registration_phase ops ++ [GetConfiguration t]) by (rewrite phase_app, Ec; reflexivity).
      split.
      + rewrite existsb_app_one. cbn. rewrite orb_false_r. apply (h_state _ _ H).
      + apply (h_sorted _ _ H).
      + intros u. rewrite (h_dict _ _ H). unfold registered. rewrite Ep. split; intros (t0 & H0 & R); exists t0; (split; [|assumption]).
        * apply in_or_app. auto.
        * apply in_app_or in H0. destruct H0 as [H0|[H0|[]]]; [assumption|discriminate].
      + exact (h_out _ _ H).
      + rewrite existsb_app_one, (no_close _ Ec). cbn. intros u d. pose proof (h_deps _ _ H) as Hd. rewrite (no_close _ Ec) in Hd.
        rewrite Hd, Ep, in_app_iff. split; [auto|]. intros [Hi|[Hi|[]]]; [assumption|discriminate].
      + rewrite final_other by (auto; discriminate). apply (h_final _ _ H).
  Qed.

  Lemma run_hist fuel : forall ops2 ops1 m xs m', hist ops1 m -> run decl opts throws fuel m ops2 = (xs, m') -> no_divergence xs -> hist (ops1 ++ ops2) m'.
  Proof.
    induction ops2 as [|o ops2 IH]; intros ops1 m xs m' H Hr Hn.
    - injection Hr as _ <-. rewrite app_nil_r. assumption.
    - cbn [run] in Hr. destruct (step decl opts throws fuel m o) as (x, m1) eqn:Es.
      destruct (run decl opts throws fuel m1 ops2) as (ys, m2) eqn:Er. injection Hr as <- <-.
      replace (ops1 ++ o :: ops2) with ((ops1 ++ [o]) ++ ops2) by (rewrite <- app_assoc; reflexivity).
      apply (IH (ops1 ++ [o]) m1 ys m2); [|assumption|intros Hi; apply Hn; right; assumption].
      apply (hist_step fuel ops1 m o x m1 H Es). intros ->. apply Hn. left. reflexivity.
  Qed.

  Lemma run_app fuel : forall a b m, run decl opts throws fuel m (a ++ b) =
    let '(xa, m1) := run decl opts throws fuel m a in let '(xb, m2) := run decl opts throws fuel m1 b in (xa ++ xb, m2).
  Proof.
    induction a as [|o a IH]; intros b m; cbn [run app].
    - destruct (run decl opts throws fuel m b); reflexivity.
    - destruct (step decl opts throws fuel m o) as (x, m1). rewrite IH.
      destruct (run decl opts throws fuel m1 a) as (xa, m2). destruct (run decl opts throws fuel m2 b); reflexivity.
  Qed.
  Lemma run_length fuel : forall a m xs m', run decl opts throws fuel m a = (xs, m') -> length xs = length a.
  Proof.
    induction a as [|o a IH]; intros m xs m' H; cbn [run] in H; [injection H as <- _; reflexivity|].
    destruct (step decl opts throws fuel m o) as (x, m1). destruct (run decl opts throws fuel m1 a) as (ys, m2) eqn:E.
    injection H as <- _. simpl. f_equal. eapply IH. exact E.
  Qed.

  (** The dependencies of the manager while closing, for any history. *)
  Lemma close_graph ops m : hist ops m ->
    let deps := cleanup (m_dict m) (populate decl m) in
    (forall t, In t (m_dict m) -> exists s, deps t = Some s /\ incl s (m_dict m)) /\
    (forall a b, dep (m_dict m) deps a b <-> depends decl ops a b).
  Proof.
    intros H. destruct (depends_cleanup ops m H) as (C1 & C2). cbv zeta. split.
    - intros t Ht. destruct (C1 t Ht) as (s & E & Hs). exists s. split; [exact E|]. intros d Hd. apply (h_dict _ _ H). apply Hs in Hd. apply Hd.
    - intros a b. split.
      + intros (Ha & s & E & Hb). destruct (C1 a Ha) as (s' & E' & Hs). apply Hs. congruence.
      + intros D. assert (Ha : In a (m_dict m)) by (apply (h_dict _ _ H); apply D). split; [assumption|].
        destruct (C1 a Ha) as (s & E & Hs). exists s. split; [exact E|]. apply Hs. assumption.
  Qed.
  Lemma closed_graph ops m : hist ops m -> existsb is_close ops = true ->
    (forall t, In t (m_dict m) -> exists s, m_deps m t = Some s /\ incl s (m_dict m)) /\
    (forall a b, dep (m_dict m) (m_deps m) a b <-> depends decl ops a b).
  Proof.
    intros H Hc. pose proof (h_deps _ _ H) as Hd. rewrite Hc in Hd. destruct Hd as (C1 & C2). split.
    - intros t Ht. destruct (C1 t Ht) as (s & E & Hs). exists s. split; [exact E|]. intros d Hd. apply (h_dict _ _ H). apply Hs in Hd. apply Hd.
    - intros a b. split.
      + intros (Ha & s & E & Hb). destruct (C1 a Ha) as (s' & E' & Hs). apply Hs. congruence.
      + intros D. assert (Ha : In a (m_dict m)) by (apply (h_dict _ _ H); apply D). split; [assumption|].
        destruct (C1 a Ha) as (s & E & Hs). exists s. split; [exact E|]. apply Hs. assumption.
  Qed.

  Lemma clos_trans_iff {A} (r s : A -> A -> Prop) : (forall a b, r a b <-> s a b) -> forall a b, clos_trans _ r a b <-> clos_trans _ s a b.
  Proof.
    intros H a b. split; induction 1; try (apply t_step; apply H; assumption); eapply t_trans; eassumption.
  Qed.
  Lemma cyclic_iff {A} (r s : A -> A -> Prop) : (forall a b, r a b <-> s a b) -> (cyclic r <-> cyclic s).
  Proof. intros H. unfold cyclic. split; intros (a & Ha); exists a; eapply clos_trans_iff; try exact Ha; intros; [symmetry|]; apply H. Qed.

  Lemma close_spec fuel ops m : hist ops m ->
    (forall o, fst (close_registration decl opts fuel m) = Ok o -> ~ cyclic (depends decl ops)) /\
    (fst (close_registration decl opts fuel m) = Throw -> cyclic (depends decl ops)) /\
    fst (close_registration decl opts fuel m) <> UB /\
    (~ cyclic (depends decl ops) -> length (m_dict m) < fuel -> fst (close_registration decl opts fuel m) = Ok (all_options opts (m_dict m))).
  Proof.
    intros H. destruct (close_graph ops m H) as (Hdom & Hdep). cbv zeta in *.
    pose proof (sorted_nodup _ (h_sorted _ _ H)) as Nd.
    destruct (check_spec _ _ Hdom fuel (m_dict m) (incl_refl _)) as (A1 & A2 & A3 & A4).
    pose proof (check_ok _ _ Hdom fuel) as A5.
    pose proof (cyclic_iff _ _ Hdep) as Hc. unfold close_registration. cbn [fst].
    destruct (check_all fuel (cleanup (m_dict m) (populate decl m)) (m_dict m)) as [u| | |] eqn:E; cbn [bind].
    - destruct u. repeat split; try discriminate. intros o _. rewrite <- Hc. apply A5. reflexivity.
    - repeat split; try discriminate; auto; [intros _; apply Hc; auto|]. intros Hn Hf. rewrite <- Hc in Hn. specialize (A4 Hn Hf). discriminate.
    - congruence.
    - repeat split; try discriminate; auto. intros Hn Hf. rewrite <- Hc in Hn. specialize (A4 Hn Hf). discriminate.
  Qed.
End History.
