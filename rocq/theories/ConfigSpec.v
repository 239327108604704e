(** Vocabulary of the configuration manager statements. *)
From Coq Require Import List Arith Bool Relations.
From Verif Require Import Common ConfigModel.
Import ListNotations.

Definition closing (o : op) : bool :=
  match o with CloseRegistration | Initialize => true | _ => false end.

(** The part of a history made while the manager accepts registrations. *)
Fixpoint registration_phase (ops : list op) : list op :=
  match ops with
  | [] => []
  | o :: r => if closing o then [] else o :: registration_phase r
  end.

(** Registered by the user, or declared by the constructor of a registered one. *)
Definition registered (decl : cls -> list cls) (ops : list op) (t : cls) : Prop :=
  exists t0, In (Register t0) (registration_phase ops) /\ clos_refl_trans _ (fun a b => In b (decl a)) t0 t.

(** [t] must be initialized after [d]: both are registered and the dependency
    was registered by the user or declared by the constructor of [t]. *)
Definition depends (decl : cls -> list cls) (ops : list op) (t d : cls) : Prop :=
  registered decl ops t /\ registered decl ops d /\
  (In (RegisterDependency t d) (registration_phase ops) \/ In d (decl t)).

Definition cyclic {A} (r : A -> A -> Prop) : Prop := exists a, clos_trans A r a a.

(** [a] comes before [b] in the list. *)
Definition precedes {A} (a b : A) (l : list A) : Prop := exists l1 l2 l3, l = l1 ++ a :: l2 ++ b :: l3.

(** All calls returned or threw. *)
Definition no_divergence (xs : list (outcome unit)) : Prop := ~ In Diverge xs.
