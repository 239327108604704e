(** Shared vocabulary of all the models: the outcome of a C++ call. *)

(** [Ok a]: the call returned [a].
    [Throw]: it threw a C++ exception (which one is not modelled unless a
    module says so).
    [UB]: it ran into undefined behaviour (out-of-range access, division by
    zero, dereference of an end iterator or null pointer, ...).
    [Diverge]: it never returns (unbounded recursion, a lock that is never
    released, or fuel exhausted in a loop modelled with fuel). *)
Inductive outcome (A : Type) : Type :=
| Ok (a : A)
| Throw
| UB
| Diverge.
Arguments Ok {A} a.
Arguments Throw {A}.
Arguments UB {A}.
Arguments Diverge {A}.

Definition bind {A B : Type} (o : outcome A) (f : A -> outcome B) : outcome B :=
  match o with
  | Ok a => f a
  | Throw => Throw
  | UB => UB
  | Diverge => Diverge
  end.

Notation "'do' x <- o ; e" := (bind o (fun x => e))
  (at level 200, x pattern, o at level 100, e at level 200).

(** Unchecked [v[i]] of a C++ vector: out of range is undefined behaviour. *)
Definition of_option {A : Type} (o : option A) : outcome A :=
  match o with Some a => Ok a | None => UB end.
