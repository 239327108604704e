From Coq Require Import List Arith Bool Relations Lia Permutation Sorted.
From Verif Require Import Common ConfigModel ConfigSpec ConfigProofs ConfigProofs2.
Import ListNotations.

Lemma phase_closed a o b : closing o = true -> registration_phase (a ++ o :: b) = registration_phase a.
Proof.
  intros H. induction a as [|p a IH]; cbn [app registration_phase]; [rewrite H; reflexivity|]. destruct (closing p); [reflexivity|]. f_equal. exact IH.
Qed.

Lemma app_cut {A} (l : list A) i x : nth_error l i = Some x -> exists a b, l = a ++ x :: b /\ length a = i.
Proof. intros H. apply nth_error_split in H. destruct H as (a & b & E & L). exists a, b. auto. Qed.

Lemma seq_inv (a b : act) m m' : seq a b m = (Ok tt, m') -> exists m1, a m = (Ok tt, m1) /\ b m1 = (Ok tt, m').
Proof. unfold seq. destruct (a m) as (o, m1). destruct o as [[]| | |]; try discriminate. intros H. exists m1. auto. Qed.
Lemma each_mono (f g : cls -> act) l : (forall t m m', f t m = (Ok tt, m') -> g t m = (Ok tt, m')) ->
  forall m m', each f l m = (Ok tt, m') -> each g l m = (Ok tt, m').
Proof.
  intros H. induction l as [|t l IH]; intros m m' E; [exact E|]. cbn [each fold_right] in *.
  apply seq_inv in E. destruct E as (m1 & E1 & E2). rewrite (seq_ok _ _ _ _ (H _ _ _ E1)). apply IH. exact E2.
Qed.
Lemma rec_mono throws fuel : forall fuel' t m m', fuel <= fuel' -> recursive_init throws fuel t m = (Ok tt, m') -> recursive_init throws fuel' t m = (Ok tt, m').
Proof.
  induction fuel as [|fuel IH]; intros [|fuel'] t m m' Hf; try lia; [discriminate|discriminate|]. cbn [recursive_init].
  destruct (negb (mem t (m_dict m))); [auto|]. destruct (at_least_initialized (m_cstate m t)); [auto|].
  destruct (m_deps m t) as [ds|]; [|auto]. intros E. apply seq_inv in E. destruct E as (m1 & E1 & E2).
  rewrite (seq_ok _ _ m m1); [exact E2|]. revert E1. apply each_mono. intros u a b. apply IH. lia.
Qed.
Lemma initialize_mono throws fuel fuel' m m' : fuel <= fuel' -> initialize throws fuel m = (Ok tt, m') -> initialize throws fuel' m = (Ok tt, m').
Proof.
  unfold initialize. intros Hf E. apply seq_inv in E. destruct E as (m1 & E1 & E). apply seq_inv in E. destruct E as (m2 & E2 & E3).
  rewrite (seq_ok _ _ _ _ E1). rewrite (seq_ok _ _ m1 m2); [exact E3|]. revert E2. apply each_mono. intros u a b. apply rec_mono. assumption.
Qed.
Lemma map_init_inj a b : map Init a = map Init b -> a = b.
Proof. revert b. induction a as [|x a IH]; intros [|y b] H; try discriminate; [reflexivity|]. injection H as -> H. f_equal. auto. Qed.

Section S.
  Variable decl : cls -> list cls.
  Variable opts : cls -> list (nat * list nat).
  Variable throws0 : event -> bool.
  Variable fuel0 : nat.

  Lemma closed_history ops xs m i : run decl opts throws0 fuel0 new_manager ops = (xs, m) -> no_divergence xs ->
    nth_error ops i = Some CloseRegistration -> nth_error xs i = Some (Ok tt) ->
    hist decl ops m /\ existsb is_close ops = true /\ ~ cyclic (depends decl ops).
  Proof.
    intros Hr Hn Ho Hx. split; [|split].
    - change ops with ([] ++ ops). eapply run_hist; [apply hist_new|exact Hr|exact Hn].
    - apply existsb_exists. exists CloseRegistration. split; [eapply nth_error_In; exact Ho|reflexivity].
    - destruct (app_cut _ _ _ Ho) as (a & b & -> & La).
      rewrite run_app in Hr. destruct (run decl opts throws0 fuel0 new_manager a) as (xa, m1) eqn:Ea.
      destruct (run decl opts throws0 fuel0 m1 (CloseRegistration :: b)) as (xb, m2) eqn:Eb. injection Hr as <- <-.
      assert (Lx : length xa = i) by (rewrite <- La; eapply run_length; exact Ea).
      rewrite nth_error_app2 in Hx by lia. replace (i - length xa) with 0 in Hx by lia.
      assert (H1 : hist decl a m1).
      { change a with ([] ++ a). eapply run_hist; [apply hist_new|exact Ea|]. intros Hi. apply Hn. apply in_or_app. auto. }
      cbn [run step] in Eb. destruct (close_registration decl opts fuel0 m1) as (r, m1') eqn:Ec.
      destruct (run decl opts throws0 fuel0 m1' b) as (xb', m3). injection Eb as <- <-.
      destruct (close_spec decl opts fuel0 a m1 H1) as (C1 & _). rewrite Ec in C1. cbn [fst nth_error] in *.
      destruct r as [o| | |]; try discriminate. specialize (C1 o eq_refl).
      intros Cy. apply C1. destruct (registered_same decl a (a ++ CloseRegistration :: b) (phase_closed a CloseRegistration b eq_refl)) as (_ & D).
      eapply cyclic_iff; [|exact Cy]. intros; symmetry; apply D.
  Qed.

  Lemma initialization ops xs m i : run decl opts throws0 fuel0 new_manager ops = (xs, m) -> no_divergence xs ->
    nth_error ops i = Some CloseRegistration -> nth_error xs i = Some (Ok tt) ->
    exists keys order,
      StronglySorted lt keys /\ (forall t, In t keys <-> registered decl ops t) /\
      Permutation order keys /\ (forall t d, depends decl ops t d -> precedes d t order) /\
      let E := map PreInit keys ++ map Init order ++ map PostInit keys in
      exists n, forall fuel throws, n <= fuel ->
        exists r m', initialize throws fuel m = (r, m') /\ m_state m' = ManagerInitialized /\
          ((forall e, In e E -> throws e = false) -> r = Ok tt /\ m_trace m' = m_trace m ++ E /\ forall t, In t keys -> m_cstate m' t = Final) /\
          (forall E1 e E2, E = E1 ++ e :: E2 -> throws e = true -> (forall x, In x E1 -> throws x = false) ->
             r = Throw /\ m_trace m' = m_trace m ++ E1 ++ [e]).
  Proof.
    intros Hr Hn Ho Hx. destruct (closed_history ops xs m i Hr Hn Ho Hx) as (H & Hc & Hac).
    destruct (closed_graph decl ops m H Hc) as (Hdom & Hdep).
    assert (Hac' : ~ cyclic (dep (m_dict m) (m_deps m))) by (rewrite (cyclic_iff _ _ Hdep); assumption).
    pose proof (sorted_nodup _ (h_sorted _ _ _ H)) as Nd.
    destruct (initialize_quiet m (S (length (m_dict m))) Hdom (h_out _ _ _ H) Nd Hac') as (order & m0 & E0 & A1 & A2 & A3 & A4 & A5 & A6 & A7 & A8); [lia|].
    exists (m_dict m), order. split; [apply (h_sorted _ _ _ H)|]. split; [apply (h_dict _ _ _ H)|]. split; [exact A7|].
    split; [intros t d D; apply A8; apply Hdep; exact D|]. cbv zeta. exists (S (length (m_dict m))). intros fuel throws Hf.
    destruct (initialize_quiet m fuel Hdom (h_out _ _ _ H) Nd Hac') as (order' & m1 & E1 & B1 & B2 & B3 & B4 & B5 & B6 & B7 & B8); [lia|].
    assert (Eo : order' = order) by
      (apply (initialize_mono _ _ fuel) in E0; [|lia]; assert (m1 = m0) by congruence; subst m1; rewrite B4 in A4;
       apply app_inv_head, app_inv_head, app_inv_tail in A4; apply map_init_inj; exact A4). subst order'.
    set (E := map PreInit (m_dict m) ++ map Init order ++ map PostInit (m_dict m)) in *.
    destruct (cut_initialize fuel m throws (Ok tt) m1 E1) as (E' & T & C).
    assert (E' = E) by (rewrite B4 in T; apply app_inv_head in T; congruence). subst E'.
    destruct (initialize throws fuel m) as (r, m') eqn:Ei. exists r, m'. split; [reflexivity|].
    split; [destruct (frame_initialize throws fuel m) as (F & _); rewrite Ei in F; exact F|].
    destruct C as [(Q & Em)|(P & e & S & EE & Q & He & m'' & Em & Tm)].
    - injection Em as -> ->. split; [intros _; auto|]. intros P e S EE He _. exfalso.
      assert (throws e = false) by (apply Q; rewrite EE; apply in_or_app; right; left; reflexivity). congruence.
    - injection Em as -> ->. split.
      + intros Hq. exfalso. assert (throws e = false) by (apply Hq; rewrite EE; apply in_or_app; right; left; reflexivity). congruence.
      + intros P' e' S' EE' He' Q'. split; [reflexivity|].
        assert (Same : P' = P /\ e' = e).
        { rewrite EE in EE'. clear - EE' He He' Q Q'. revert P' EE' Q'. induction P as [|x P IH]; intros [|y P'] EE' Q'; simpl in EE'.
          - injection EE' as <- _. auto.
          - injection EE' as <- _. rewrite (Q' e (or_introl eq_refl)) in He. discriminate.
          - injection EE' as <- _. rewrite (Q x (or_introl eq_refl)) in He'. discriminate.
          - injection EE' as <- EE'. destruct (IH (fun z Hz => Q z (or_intror Hz)) P' EE' (fun z Hz => Q' z (or_intror Hz))) as (-> & ->). auto. }
        destruct Same as (-> & ->). exact Tm.
  Qed.
End S.

(** ** Options *)
Section Options.
  Variable opts : cls -> list (nat * list nat).
  Definition of_group (g : nat) (ps : list (nat * list nat)) : list nat := flat_map (fun p => if fst p =? g then snd p else []) ps.

  (** [all] holds exactly the groups of the pairs [ps] seen so far. *)
  Definition holds (all ps : list (nat * list nat)) : Prop :=
    StronglySorted lt (map fst all) /\ (forall g, In g (map fst all) <-> In g (map fst ps)) /\
    (forall g l, In (g, l) all -> l = of_group g ps).

  Lemma add_group_keys g o all : forall h, In h (map fst (add_group g o all)) <-> h = g \/ In h (map fst all).
  Proof.
    induction all as [|(k, p) r IH]; intros h; cbn [add_group]; [simpl; intuition congruence|].
    destruct (Nat.ltb_spec g k); [simpl; intuition congruence|]. destruct (Nat.eqb_spec g k); [subst; simpl; intuition congruence|].
    cbn [map fst In]. rewrite IH. intuition congruence.
  Qed.
  Lemma add_group_sorted g o all : StronglySorted lt (map fst all) -> StronglySorted lt (map fst (add_group g o all)).
  Proof.
    induction all as [|(k, p) r IH]; intros H; cbn [add_group]; [repeat constructor|]. inversion H as [|? ? Hs Hf]; subst. cbn [map fst] in *.
    destruct (Nat.ltb_spec g k).
    - cbn [map fst]. constructor; [assumption|]. constructor; [assumption|]. eapply Forall_impl; [|exact Hf]. intros; lia.
    - destruct (Nat.eqb_spec g k); [exact H|]. cbn [map fst]. constructor; [auto|]. apply Forall_forall. intros h Hh.
      apply add_group_keys in Hh. rewrite Forall_forall in Hf. destruct Hh as [->|Hh]; [lia|auto].
  Qed.
  Lemma add_group_in g o all : StronglySorted lt (map fst all) -> forall h l, In (h, l) (add_group g o all) ->
    (h <> g /\ In (h, l) all) \/ (h = g /\ ((~ In g (map fst all) /\ l = o) \/ exists l0, In (g, l0) all /\ l = l0 ++ o)).
  Proof.
    induction all as [|(k, p) r IH]; intros H h l; cbn [add_group].
    - intros [E|[]]. injection E as <- <-. right. split; [reflexivity|]. left. split; [intros []|reflexivity].
    - inversion H as [|? ? Hs Hf]; subst. cbn [map fst] in *. rewrite Forall_forall in Hf.
      destruct (Nat.ltb_spec g k) as [L|L].
      + assert (Ng : ~ In g (k :: map fst r)) by (intros [->|Hi]; [lia|specialize (Hf g Hi); lia]).
        intros [E|Hi]; [injection E as <- <-; right; split; [reflexivity|]; left; auto|]. left. split; [|assumption].
        intros ->. apply Ng. apply (in_map fst) in Hi. exact Hi.
      + destruct (Nat.eqb_spec g k) as [->|Nk].
        * intros [E|Hi]; [injection E as <- <-; right; split; [reflexivity|]; right; exists p; split; [left; reflexivity|reflexivity]|].
          left. split; [|right; assumption]. intros ->. apply (in_map fst) in Hi. specialize (Hf k Hi). lia.
        * intros [E|Hi]; [injection E as <- <-; left; split; [congruence|left; reflexivity]|].
          destruct (IH Hs h l Hi) as [(Hn & Hi')|(-> & [(Hn & ->)|(l0 & Hi' & ->)])].
          -- left. split; [assumption|right; assumption].
          -- right. split; [reflexivity|]. left. split; [intros [?|?]; [congruence|contradiction]|reflexivity].
          -- right. split; [reflexivity|]. right. exists l0. split; [right; assumption|reflexivity].
  Qed.
  Lemma of_group_none g ps : ~ In g (map fst ps) -> of_group g ps = [].
  Proof.
    induction ps as [|(k, o) ps IH]; intros H; [reflexivity|]. unfold of_group in *. cbn [flat_map fst snd]. destruct (Nat.eqb_spec k g); [exfalso; apply H; left; assumption|].
    apply IH. intros Hi. apply H. right. assumption.
  Qed.
  Lemma holds_add all ps g o : holds all ps -> holds (add_group g o all) (ps ++ [(g, o)]).
  Proof.
    intros (H1 & H2 & H3). split; [apply add_group_sorted; assumption|]. split.
    - intros h. rewrite add_group_keys, H2, map_app, in_app_iff. cbn. intuition congruence.
    - intros h l Hi. unfold of_group. rewrite flat_map_app. fold (of_group h ps). cbn [flat_map fst snd]. rewrite app_nil_r.
      destruct (add_group_in g o all H1 h l Hi) as [(Hn & Hi')|(-> & [(Hn & ->)|(l0 & Hi' & ->)])].
      + rewrite <- (H3 h l Hi'). destruct (Nat.eqb_spec g h); [congruence|]. rewrite app_nil_r. reflexivity.
      + rewrite Nat.eqb_refl, of_group_none; [reflexivity|]. rewrite <- H2. assumption.
      + rewrite Nat.eqb_refl, <- (H3 g l0 Hi'). reflexivity.
  Qed.
  Lemma holds_fold qs : forall all ps, holds all ps -> holds (fold_left (fun acc2 p => add_group (fst p) (snd p) acc2) qs all) (ps ++ qs).
  Proof.
    induction qs as [|(g, o) qs IH]; intros all ps H; [rewrite app_nil_r; assumption|]. cbn [fold_left fst snd].
    replace (ps ++ (g, o) :: qs) with ((ps ++ [(g, o)]) ++ qs) by (rewrite <- app_assoc; reflexivity). apply IH. apply holds_add. assumption.
  Qed.
  Lemma all_options_holds dict : holds (all_options opts dict) (flat_map opts dict).
  Proof.
    unfold all_options. assert (G : forall all ps, holds all ps ->
      holds (fold_left (fun acc t => fold_left (fun acc2 p => add_group (fst p) (snd p) acc2) (opts t) acc) dict all) (ps ++ flat_map opts dict)).
    { induction dict as [|t dict IH]; intros all ps H; [rewrite app_nil_r; assumption|]. cbn [fold_left flat_map].
      rewrite app_assoc. apply IH. apply holds_fold. assumption. }
    apply (G [] []). split; [constructor|]. split; [reflexivity|intros g l []].
  Qed.
  Lemma all_options_spec dict :
    StronglySorted lt (map fst (all_options opts dict)) /\
    (forall g, In g (map fst (all_options opts dict)) <-> exists t, In t dict /\ In g (map fst (opts t))) /\
    (forall g l, In (g, l) (all_options opts dict) -> l = flat_map (fun t => flat_map (fun p => if fst p =? g then snd p else []) (opts t)) dict).
  Proof.
    destruct (all_options_holds dict) as (H1 & H2 & H3). split; [assumption|]. split.
    - intros g. rewrite H2. clear. induction dict as [|t dict IH]; cbn [flat_map]; [split; [intros []|intros (t & [] & _)]|].
      rewrite map_app, in_app_iff, IH. split.
      + intros [H|(u & Hu & H)]; [exists t; split; [left; reflexivity|assumption]|exists u; split; [right; assumption|assumption]].
      + intros (u & [<-|Hu] & H); [auto|right; exists u; auto].
    - intros g l Hi. rewrite (H3 g l Hi). clear. unfold of_group. induction dict as [|t dict IH]; [reflexivity|]. cbn [flat_map].
      rewrite flat_map_app, IH. reflexivity.
  Qed.
End Options.
