(** Model of the configuration manager (Configuration/src/lib/ConfigManager.cpp,
    Configuration/Configuration/_impl/ConfigManager.icpp and Configuration.icpp).

    A configuration class is a number; the order of the numbers is the order of
    std::type_index. [decl t] lists the classes the constructor of class [t]
    declares as dependencies (declareDependency, Configuration.icpp:27-32).
    Program options are given by [opts t], group by group.

    One manager is modelled; ConfigManager::getInstance (ConfigManager.cpp:34-41)
    only selects it by id. Logging is dropped. *)
From Coq Require Import List Arith Bool.
From Verif Require Import Common.
Import ListNotations.

Definition cls : Type := nat.

(** std::set / std::map keys as increasing lists. *)
Fixpoint insert (x : cls) (l : list cls) : list cls :=
  match l with
  | [] => [x]
  | y :: r => if x <? y then x :: l else if x =? y then l else y :: insert x r
  end.
Definition insert_all (xs l : list cls) : list cls := fold_left (fun acc x => insert x acc) xs l.
Definition mem (x : cls) (l : list cls) : bool := existsb (Nat.eqb x) l.

(** Configuration.h:49-58. *)
Inductive cstate : Type := Constructed | PreInitialized | Initialized | Final.
(** [state >= INITIALIZED]. *)
Definition at_least_initialized (s : cstate) : bool :=
  match s with Initialized | Final => true | _ => false end.
(** ConfigManager.h:189. *)
Inductive mstate : Type := Registration | WaitingInitialization | ManagerInitialized.
(** Calls of the virtual methods, in the order they are made. *)
Inductive event : Type := PreInit (t : cls) | Init (t : cls) | PostInit (t : cls).

(** ConfigManager.h:191-195. [m_dict] are the keys of m_config_dictionary,
    [m_cstate] the state of each configuration object, [m_trace] the calls of
    virtual methods made so far. *)
Record manager : Type := mkM {
  m_state : mstate;
  m_dict : list cls;
  m_deps : cls -> option (list cls);
  m_cstate : cls -> cstate;
  m_trace : list event
}.
Definition new_manager : manager := mkM Registration [] (fun _ => None) (fun _ => Constructed) [].

Definition is_registration (s : mstate) : bool := match s with Registration => true | _ => false end.

Section Manager.
  Variable decl : cls -> list cls.
  Variable opts : cls -> list (nat * list nat).
  (** Which calls of virtual methods throw. *)
  Variable throws : event -> bool.

  Definition update {A} (f : cls -> A) (t : cls) (a : A) : cls -> A := fun u => if u =? t then a else f u.

  (** ConfigManager.icpp:28-39 with the constructors' declareDependency
      (Configuration.icpp:27-32). The null entry that operator[] leaves in the
      dictionary while the constructor runs is not modelled: constructors only
      declare dependencies. The recursion is bounded by fuel. *)
  Fixpoint register (fuel : nat) (t : cls) (m : manager) : outcome manager :=
    match fuel with
    | O => Diverge
    | S fuel' =>
        if negb (is_registration (m_state m)) then Throw
        else if mem t (m_dict m) then Ok m
        else
          do m1 <- fold_left (fun o d => do m0 <- o; register fuel' d m0) (decl t) (Ok m);
          Ok (mkM (m_state m1) (insert t (m_dict m1)) (m_deps m1) (m_cstate m1) (m_trace m1))
    end.

  Definition deps_or_empty (m : manager) (t : cls) : list cls :=
    match m_deps m t with Some l => l | None => [] end.

  (** ConfigManager.icpp:41-50. *)
  Definition register_dependency (t1 t2 : cls) (m : manager) : outcome manager :=
    if negb (is_registration (m_state m)) then Throw
    else Ok (mkM (m_state m) (m_dict m) (update (m_deps m) t1 (Some (insert t2 (deps_or_empty m t1)))) (m_cstate m) (m_trace m)).

  (** ConfigManager.icpp:52-64: the configuration found. *)
  Definition get_configuration (t : cls) (m : manager) : outcome cls :=
    match m_state m with
    | ManagerInitialized => if mem t (m_dict m) then Ok t else Throw
    | _ => Throw
    end.

  (** ConfigManager.cpp:45-63. Dereferencing find() of a missing key is undefined. *)
  Fixpoint has_circular (fuel : nat) (deps : cls -> option (list cls)) (root : cls) (set : list cls) : outcome (list cls) :=
    match fuel with
    | O => Diverge
    | S fuel' =>
        if mem root set then Ok [root]
        else
          (fix go (l : list cls) : outcome (list cls) :=
             match l with
             | [] => Ok []
             | c :: r =>
                 do s <- of_option (deps c);
                 do found <- has_circular fuel' deps root s;
                 match found with [] => go r | _ => Ok (c :: found) end
             end) set
    end.

  (** ConfigManager.cpp:97-99. *)
  Definition populate (m : manager) : cls -> option (list cls) := fun t =>
    if mem t (m_dict m) then Some (insert_all (decl t) (deps_or_empty m t)) else m_deps m t.
  (** ConfigManager.cpp:65-91. *)
  Definition cleanup (dict : list cls) (deps : cls -> option (list cls)) : cls -> option (list cls) := fun t =>
    match deps t with
    | Some l => if mem t dict then Some (filter (fun d => mem d dict) l) else None
    | None => None
    end.
  (** ConfigManager.cpp:105-116. *)
  Fixpoint check_all (fuel : nat) (deps : cls -> option (list cls)) (dict : list cls) : outcome unit :=
    match dict with
    | [] => Ok tt
    | t :: r =>
        do s <- of_option (deps t);
        do found <- has_circular fuel deps t s;
        match found with [] => check_all fuel deps r | _ => Throw end
    end.

  (** ConfigManager.cpp:118-136: the options of all configurations, one group
      per name in the order of the names. *)
  Fixpoint add_group (g : nat) (o : list nat) (all : list (nat * list nat)) : list (nat * list nat) :=
    match all with
    | [] => [(g, o)]
    | (h, p) :: r => if g <? h then (g, o) :: all else if g =? h then (h, p ++ o) :: r else (h, p) :: add_group g o r
    end.
  Definition all_options (dict : list cls) : list (nat * list nat) :=
    fold_left (fun acc t => fold_left (fun acc2 p => add_group (fst p) (snd p) acc2) (opts t) acc) dict [].

  (** ConfigManager.cpp:93-137. The state and the dependency map stay changed
      when the call throws. *)
  Definition close_registration (fuel : nat) (m : manager) : outcome (list (nat * list nat)) * manager :=
    let deps := cleanup (m_dict m) (populate m) in
    let m1 := mkM WaitingInitialization (m_dict m) deps (m_cstate m) (m_trace m) in
    (do _ <- check_all fuel deps (m_dict m); Ok (all_options (m_dict m)), m1).

  (** Statements of initialize(): they change the manager and may throw. *)
  Definition act : Type := manager -> outcome unit * manager.
  Definition skip : act := fun m => (Ok tt, m).
  Definition seq (a b : act) : act := fun m =>
    match a m with
    | (Ok _, m1) => b m1
    | (o, m1) => (o, m1)
    end.
  Definition each (f : cls -> act) (l : list cls) : act := fold_right (fun t a => seq (f t) a) skip l.
  Definition call (e : event) : act := fun m =>
    (if throws e then Throw else Ok tt, mkM (m_state m) (m_dict m) (m_deps m) (m_cstate m) (m_trace m ++ [e])).
  Definition set_state (t : cls) (s : cstate) : act := fun m =>
    (Ok tt, mkM (m_state m) (m_dict m) (m_deps m) (update (m_cstate m) t s) (m_trace m)).

  (** ConfigManager.cpp:139-152; map::at throws for a missing key. *)
  Fixpoint recursive_init (fuel : nat) (t : cls) : act := fun m =>
    match fuel with
    | O => (Diverge, m)
    | S fuel' =>
        if negb (mem t (m_dict m)) then (Throw, m)
        else if at_least_initialized (m_cstate m t) then (Ok tt, m)
        else match m_deps m t with
             | None => (Throw, m)
             | Some ds => seq (each (recursive_init fuel') ds) (seq (call (Init t)) (set_state t Initialized)) m
             end
    end.

  (** ConfigManager.cpp:154-170. *)
  Definition initialize (fuel : nat) : act := fun m =>
    seq (each (fun t => seq (call (PreInit t)) (set_state t PreInitialized)) (m_dict m))
      (seq (each (recursive_init fuel) (m_dict m))
        (each (fun t => seq (call (PostInit t)) (set_state t Final)) (m_dict m)))
      (mkM ManagerInitialized (m_dict m) (m_deps m) (m_cstate m) (m_trace m)).

  (** The interface of the manager. *)
  Inductive op : Type :=
  | Register (t : cls)
  | RegisterDependency (t1 t2 : cls)
  | CloseRegistration
  | Initialize
  | GetConfiguration (t : cls).
  Definition step (fuel : nat) (m : manager) (o : op) : outcome unit * manager :=
    let of_reg (r : outcome manager) := match r with Ok m' => (Ok tt, m') | Throw => (Throw, m) | UB => (UB, m) | Diverge => (Diverge, m) end in
    match o with
    | Register t => of_reg (register fuel t m)
    | RegisterDependency t1 t2 => of_reg (register_dependency t1 t2 m)
    | CloseRegistration => let '(r, m') := close_registration fuel m in (do _ <- r; Ok tt, m')
    | Initialize => initialize fuel m
    | GetConfiguration t => (do _ <- get_configuration t m; Ok tt, m)
    end.
  (** Calls one after the other, the caller catching the exceptions. *)
  Fixpoint run (fuel : nat) (m : manager) (ops : list op) : list (outcome unit) * manager :=
    match ops with
    | [] => ([], m)
    | o :: r => let '(x, m1) := step fuel m o in let '(xs, m2) := run fuel m1 r in (x :: xs, m2)
    end.
End Manager.
