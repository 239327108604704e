(** Properties of the configuration manager. *)
From Coq Require Import List Arith Bool Relations Lia Permutation Sorted.
From Verif Require Import Common ConfigModel ConfigSpec ConfigProofs ConfigProofs2 ConfigProofs3.
Import ListNotations.

(** ** C56: initialization order *)

(** In any history in which a closeRegistration() returned normally, the next
    initialize() calls preInitialize of every registered configuration, then
    initialize of each exactly once and after its dependencies, then
    postInitialize of each. A call that throws ends the sequence and the
    exception leaves initialize(). *)
Theorem C56_initialization_order : forall decl opts throws0 fuel0 ops xs m i,
  run decl opts throws0 fuel0 new_manager ops = (xs, m) -> no_divergence xs ->
  nth_error ops i = Some CloseRegistration -> nth_error xs i = Some (Ok tt) ->
  exists keys order,
    StronglySorted lt keys /\ (forall t, In t keys <-> registered decl ops t) /\
    Permutation order keys /\ (forall t d, depends decl ops t d -> precedes d t order) /\
    let E := map PreInit keys ++ map Init order ++ map PostInit keys in
    exists n, forall fuel throws, n <= fuel ->
      exists r m', initialize throws fuel m = (r, m') /\ m_state m' = ManagerInitialized /\
        ((forall e, In e E -> throws e = false) ->
           r = Ok tt /\ m_trace m' = m_trace m ++ E /\ forall t, In t keys -> m_cstate m' t = Final) /\
        (forall E1 e E2, E = E1 ++ e :: E2 -> throws e = true -> (forall x, In x E1 -> throws x = false) ->
           r = Throw /\ m_trace m' = m_trace m ++ E1 ++ [e]).
Proof. exact initialization. Qed.

(** Class 4 declares 7 and 2; the user adds the dependency of 2 on 7 and one on the unregistered 9. *)
Definition decl_case (t : cls) : list cls := if t =? 4 then [7; 2] else [].
Definition ops_case : list op :=
  [Register 4; RegisterDependency 2 7; RegisterDependency 2 9; Register 5; CloseRegistration; Register 6; GetConfiguration 2].
Example C56_case :
  fst (run decl_case (fun _ => []) (fun _ => false) 5 new_manager ops_case) = [Ok tt; Ok tt; Ok tt; Ok tt; Ok tt; Throw; Throw] /\
  let m := snd (run decl_case (fun _ => []) (fun _ => false) 5 new_manager ops_case) in
  m_trace (snd (initialize (fun _ => false) 5 m)) =
    [PreInit 2; PreInit 4; PreInit 5; PreInit 7; Init 7; Init 2; Init 4; Init 5; PostInit 2; PostInit 4; PostInit 5; PostInit 7] /\
  (let bad e := match e with Init 2 => true | _ => false end in
   fst (initialize bad 5 m) = Throw /\
   m_trace (snd (initialize bad 5 m)) = [PreInit 2; PreInit 4; PreInit 5; PreInit 7; Init 7; Init 2]).
Proof. vm_compute. repeat split. Qed.

(** Without closeRegistration() the initialization throws as soon as a
    configuration has no entry in the dependency map. *)
Theorem C56_without_closing_refuted : exists decl m,
  m = snd (run decl (fun _ => []) (fun _ => false) 5 new_manager [Register 1]) /\
  forall fuel, fst (initialize (fun _ => false) (S fuel) m) = Throw.
Proof. exists (fun _ => []). eexists. split; [reflexivity|]. intros fuel. reflexivity. Qed.

(** ** C57: circular dependencies *)

(** closeRegistration() returns exactly when the dependencies are acyclic. *)
Theorem C57_circular_dependencies : forall decl opts throws fuel ops xs m,
  run decl opts throws fuel new_manager ops = (xs, m) -> no_divergence xs ->
  (forall fuel', match fst (step decl opts throws fuel' m CloseRegistration) with
                 | Ok _ => ~ cyclic (depends decl ops)
                 | Throw => cyclic (depends decl ops)
                 | UB => False
                 | Diverge => True
                 end) /\
  (~ cyclic (depends decl ops) ->
     exists n, forall fuel', n <= fuel' -> fst (step decl opts throws fuel' m CloseRegistration) = Ok tt).
Proof.
  intros decl opts throws fuel ops xs m Hr Hn.
  assert (H : hist decl ops m) by (change ops with ([] ++ ops); eapply run_hist; [apply hist_new|exact Hr|exact Hn]).
  split.
  - intros fuel'. destruct (close_spec decl opts fuel' ops m H) as (C1 & C2 & C3 & _). cbn [step].
    destruct (close_registration decl opts fuel' m) as (r, m'). cbn [fst] in *. destruct r as [o| | |]; cbn [bind fst].
    + exact (C1 o eq_refl).
    + auto.
    + congruence.
    + exact I.
  - intros Hac. exists (S (length (m_dict m))). intros fuel' Hf. destruct (close_spec decl opts fuel' ops m H) as (_ & _ & _ & C4).
    specialize (C4 Hac ltac:(lia)). cbn [step]. destruct (close_registration decl opts fuel' m) as (r, m'). cbn [fst] in *. rewrite C4. reflexivity.
Qed.

(** The circular case may not be reported: when the first registered class
    (in the type order) is on no cycle but depends, directly or not, on a
    class of a cycle, closeRegistration() recurses for ever. *)
Theorem C57_undetected_cycle_diverges : forall decl opts throws fuel ops xs m t u,
  run decl opts throws fuel new_manager ops = (xs, m) -> no_divergence xs ->
  registered decl ops t -> (forall t', registered decl ops t' -> t <= t') ->
  ~ clos_trans _ (depends decl ops) t t -> clos_refl_trans _ (depends decl ops) t u -> clos_trans _ (depends decl ops) u u ->
  forall fuel', fst (step decl opts throws fuel' m CloseRegistration) = Diverge.
Proof.
  intros decl opts throws fuel ops xs m t u Hr Hn Ht Hmin Nt Rt Ru fuel'.
  assert (H : hist decl ops m) by (change ops with ([] ++ ops); eapply run_hist; [apply hist_new|exact Hr|exact Hn]).
  destruct (close_graph decl opts ops m H) as (Hdom & Hdep). cbv zeta in *.
  pose proof (clos_trans_iff _ _ Hdep) as Ht'.
  assert (Rt' : clos_refl_trans _ (dep (m_dict m) (cleanup (m_dict m) (populate decl m))) t u).
  { clear - Rt Hdep. induction Rt; [apply rt_step; apply Hdep; assumption|apply rt_refl|eapply rt_trans; eassumption]. }
  cbn [step]. unfold close_registration. cbn [fst].
  pose proof (h_sorted _ _ _ H) as Hs. pose proof (h_dict _ _ _ H) as Hd.
  assert (Hin : In t (m_dict m)) by (apply Hd; exact Ht).
  destruct (m_dict m) as [|t0 r] eqn:Ed; [destruct Hin|].
  assert (t0 = t).
  { assert (t <= t0) by (apply Hmin; apply Hd; left; reflexivity). destruct Hin as [->|Hin]; [reflexivity|].
    inversion Hs as [|? ? _ Hf]; subst. rewrite Forall_forall in Hf. specialize (Hf t Hin). lia. }
  subst t0. cbn [check_all]. destruct (Hdom t Hin) as (s & E & Hi). rewrite E. cbn [of_option bind].
  rewrite (circ_diverges _ _ Hdom t u s Hin E) by (try assumption; rewrite Ht'; assumption). reflexivity.
Qed.

(** Classes whose constructors declare each other cannot be registered: the
    call recurses for ever. *)
Theorem C57_declared_cycle_diverges : forall decl opts throws fuel ops xs m t,
  run decl opts throws fuel new_manager ops = (xs, m) -> no_divergence xs ->
  existsb closing ops = false -> ~ registered decl ops t ->
  clos_trans _ (fun a b => In b (decl a)) t t ->
  forall fuel', fst (step decl opts throws fuel' m (Register t)) = Diverge.
Proof.
  intros decl opts throws fuel ops xs m t Hr Hn Hc Ht Cy fuel'.
  assert (H : hist decl ops m) by (change ops with ([] ++ ops); eapply run_hist; [apply hist_new|exact Hr|exact Hn]).
  cbn [step]. rewrite (register_cycle_diverges decl fuel' t m); [reflexivity| | | | |exact Cy].
  - apply is_registration_eq. rewrite (h_state _ _ _ H), Hc. reflexivity.
  - apply (h_sorted _ _ _ H).
  - eapply registered_closed. apply (h_dict _ _ _ H).
  - rewrite (h_dict _ _ _ H). exact Ht.
Qed.
(** With well-founded declarations registration ends. *)
Theorem C57_registration_terminates : forall decl opts throws fuel ops xs m t,
  run decl opts throws fuel new_manager ops = (xs, m) -> no_divergence xs ->
  existsb closing ops = false -> Acc (fun b a => In b (decl a)) t ->
  exists n, forall fuel', n <= fuel' -> fst (step decl opts throws fuel' m (Register t)) = Ok tt.
Proof.
  intros decl opts throws fuel ops xs m t Hr Hn Hc Ha.
  assert (H : hist decl ops m) by (change ops with ([] ++ ops); eapply run_hist; [apply hist_new|exact Hr|exact Hn]).
  destruct (register_terminates decl t Ha) as (n & Hn'). exists n. intros fuel' Hf.
  destruct (Hn' fuel' m Hf) as (m' & E & _).
  - apply is_registration_eq. rewrite (h_state _ _ _ H), Hc. reflexivity.
  - cbn [step]. rewrite E. reflexivity.
Qed.
Example C57_case :
  let cyc := [Register 2; Register 3; RegisterDependency 2 3; RegisterDependency 3 2] in
  fst (run (fun _ => []) (fun _ => []) (fun _ => false) 9 new_manager (cyc ++ [CloseRegistration])) = [Ok tt; Ok tt; Ok tt; Ok tt; Throw] /\
  fst (run (fun _ => []) (fun _ => []) (fun _ => false) 9 new_manager (cyc ++ [Register 1; RegisterDependency 1 2; CloseRegistration])) =
    [Ok tt; Ok tt; Ok tt; Ok tt; Ok tt; Ok tt; Diverge] /\
  (* the smallest class, 1, depends on the cycle without being part of it *)
  (forall t', registered (fun _ => []) (cyc ++ [Register 1; RegisterDependency 1 2]) t' -> 1 <= t') /\
  depends (fun _ => []) (cyc ++ [Register 1; RegisterDependency 1 2]) 1 2 /\
  cyclic (depends (fun _ => []) (cyc ++ [Register 1; RegisterDependency 1 2])).
Proof.
  cbv zeta. split; [vm_compute; reflexivity|]. split; [vm_compute; reflexivity|].
  assert (R : forall t, In t [1; 2; 3] -> registered (fun _ => []) ([Register 2; Register 3; RegisterDependency 2 3; RegisterDependency 3 2] ++ [Register 1; RegisterDependency 1 2]) t).
  { intros t Ht. exists t. split; [|apply rt_refl]. cbn in *. decompose [or] Ht; subst; auto 8; contradiction. }
  split.
  { intros t' (t0 & Hi & Rt). assert (t0 = t') by (apply clos_rt_rt1n in Rt; destruct Rt as [|y z []]; reflexivity). subst t0.
    cbn in Hi. decompose [or] Hi; try discriminate; try contradiction; match goal with E : Register _ = _ |- _ => injection E as <- end; lia. }
  split; [split; [apply R; cbn; auto|]; split; [apply R; cbn; auto|]; left; cbn; auto 8|].
  exists 2. eapply t_trans; apply t_step with (y := 3) || apply t_step;
    (split; [apply R; cbn; auto|]; split; [apply R; cbn; auto|]; left; cbn; auto 8).
Qed.

(** ** C58: life cycle *)

(** After closeRegistration() or initialize() registrations throw and change nothing. *)
Theorem C58_registration_closed : forall decl opts throws fuel ops xs m,
  run decl opts throws fuel new_manager ops = (xs, m) -> no_divergence xs ->
  In CloseRegistration ops \/ In Initialize ops ->
  forall fuel' t t', step decl opts throws (S fuel') m (Register t) = (Throw, m) /\
    step decl opts throws (S fuel') m (RegisterDependency t t') = (Throw, m).
Proof.
  intros decl opts throws fuel ops xs m Hr Hn Hc fuel' t t'.
  assert (H : hist decl ops m) by (change ops with ([] ++ ops); eapply run_hist; [apply hist_new|exact Hr|exact Hn]).
  assert (Ec : existsb closing ops = true) by (apply existsb_exists; destruct Hc as [Hc|Hc]; eexists; split; try exact Hc; reflexivity).
  cbn [step register]. unfold register_dependency. rewrite (h_state _ _ _ H), Ec. split; reflexivity.
Qed.
(** getConfiguration succeeds exactly for the registered classes after an
    initialize() that no closeRegistration() followed. *)
Theorem C58_get_configuration : forall decl opts throws fuel ops xs m fuel' t,
  run decl opts throws fuel new_manager ops = (xs, m) -> no_divergence xs ->
  exists r, step decl opts throws fuel' m (GetConfiguration t) = (r, m) /\ (r = Ok tt \/ r = Throw) /\
    (r = Ok tt <-> registered decl ops t /\ exists l1 l2, ops = l1 ++ Initialize :: l2 /\ ~ In CloseRegistration l2).
Proof.
  intros decl opts throws fuel ops xs m fuel' t Hr Hn.
  assert (H : hist decl ops m) by (change ops with ([] ++ ops); eapply run_hist; [apply hist_new|exact Hr|exact Hn]).
  assert (F : m_state m = ManagerInitialized <-> exists l1 l2, ops = l1 ++ Initialize :: l2 /\ ~ In CloseRegistration l2).
  { rewrite (h_final _ _ _ H). split; intros (l1 & l2 & E & Hl); exists l1, l2; (split; [exact E|]).
    - intros Hi. assert (existsb is_close l2 = true) by (apply existsb_exists; exists CloseRegistration; auto). congruence.
    - destruct (existsb is_close l2) eqn:Ex; [|reflexivity]. exfalso. apply Hl. apply existsb_exists in Ex. destruct Ex as ([] & Hi & Ho); try discriminate. exact Hi. }
  cbn [step]. unfold get_configuration. eexists. split; [reflexivity|].
  rewrite <- F, <- (h_dict _ _ _ H), <- mem_iff. destruct (m_state m); cbn [bind].
  - split; [auto|]. split; [discriminate|intros (_ & X); discriminate].
  - split; [auto|]. split; [discriminate|intros (_ & X); discriminate].
  - destruct (mem t (m_dict m)); cbn [bind]; (split; [auto|]); split; auto; try discriminate. intros (X & _). discriminate.
Qed.
(** Registering again a registered class, or one declared by a registered one, changes nothing. *)
Theorem C58_register_again : forall decl opts throws fuel ops xs m fuel' t,
  run decl opts throws fuel new_manager ops = (xs, m) -> no_divergence xs ->
  ~ In CloseRegistration ops -> ~ In Initialize ops -> registered decl ops t ->
  step decl opts throws (S fuel') m (Register t) = (Ok tt, m).
Proof.
  intros decl opts throws fuel ops xs m fuel' t Hr Hn H1 H2 Ht.
  assert (H : hist decl ops m) by (change ops with ([] ++ ops); eapply run_hist; [apply hist_new|exact Hr|exact Hn]).
  assert (Ec : existsb closing ops = false).
  { destruct (existsb closing ops) eqn:E; [|reflexivity]. apply existsb_exists in E. destruct E as ([] & Hi & Ho); try discriminate; contradiction. }
  cbn [step register]. rewrite (h_state _ _ _ H), Ec. cbn [negb].
  assert (mem t (m_dict m) = true) as -> by (apply mem_iff, (h_dict _ _ _ H); exact Ht). reflexivity.
Qed.
Example C58_case :
  fst (run decl_case (fun _ => []) (fun _ => false) 5 new_manager (ops_case ++ [Initialize; GetConfiguration 2; GetConfiguration 6; CloseRegistration; GetConfiguration 2])) =
  [Ok tt; Ok tt; Ok tt; Ok tt; Ok tt; Throw; Throw; Ok tt; Ok tt; Throw; Ok tt; Throw] /\
  registered decl_case ops_case 7.
Proof.
  split; [vm_compute; reflexivity|]. exists 4. split; [left; reflexivity|]. apply rt_step. left. reflexivity.
Qed.

(** ** C71: the program options *)

(** closeRegistration() returns one group per name, in the order of the names,
    holding the options of that group of all registered configurations, in the
    type order. *)
Theorem C71_program_options : forall decl opts throws fuel ops xs m fuel' o,
  run decl opts throws fuel new_manager ops = (xs, m) -> no_divergence xs ->
  fst (close_registration decl opts fuel' m) = Ok o ->
  exists keys, StronglySorted lt keys /\ (forall t, In t keys <-> registered decl ops t) /\
    StronglySorted lt (map fst o) /\
    (forall g, In g (map fst o) <-> exists t, In t keys /\ In g (map fst (opts t))) /\
    (forall g l, In (g, l) o -> l = flat_map (fun t => flat_map (fun p => if fst p =? g then snd p else []) (opts t)) keys).
Proof.
  intros decl opts throws fuel ops xs m fuel' o Hr Hn Ho.
  assert (H : hist decl ops m) by (change ops with ([] ++ ops); eapply run_hist; [apply hist_new|exact Hr|exact Hn]).
  exists (m_dict m). split; [apply (h_sorted _ _ _ H)|]. split; [apply (h_dict _ _ _ H)|].
  unfold close_registration in Ho. cbn [fst] in Ho. destruct (check_all _ _ _); try discriminate. injection Ho as <-.
  apply all_options_spec.
Qed.
Example C71_case :
  all_options (fun t => if t =? 1 then [(5, [10; 11])] else [(2, [20]); (5, [21])]) [1; 3] = [(2, [20]); (5, [10; 11; 21])].
Proof. reflexivity. Qed.

Print Assumptions C56_initialization_order.
Print Assumptions C56_without_closing_refuted.
Print Assumptions C57_circular_dependencies.
Print Assumptions C57_undetected_cycle_diverges.
Print Assumptions C57_declared_cycle_diverges.
Print Assumptions C57_registration_terminates.
Print Assumptions C58_registration_closed.
Print Assumptions C58_get_configuration.
Print Assumptions C58_register_again.
Print Assumptions C71_program_options.
