(** Infinite executions of the thread pool. *)
From Coq Require Import List Arith.
From Verif Require Import ThreadPoolModel.
Import ListNotations.

(** At moment [k] the operating system lets the thread of [sched k] make one transition; a
    thread that cannot move stays where it is. *)
Definition schedule : Type := nat -> action.
Fixpoint state_at (n : nat) (fails : task -> bool) (s : pool) (sched : schedule) (k : nat) : pool :=
  match k with
  | O => s
  | S j => let s1 := state_at n fails s sched j in match step n fails s1 (sched j) with Some s2 => s2 | None => s1 end
  end.
(** No thread is forgotten forever. *)
Definition fair (n : nat) (sched : schedule) : Prop :=
  (forall w k, w < n -> exists j, k <= j /\ sched j = Work w) /\
  (forall k, exists j, k <= j /\ sched j = Client).
(** A flag that is set again and again is also seen set again and again by the waiting thread. *)
Definition observant (n : nat) (fails : task -> bool) (s : pool) (sched : schedule) : Prop :=
  forall w, w < n ->
    (forall k, exists j, k <= j /\ sleeping (state_at n fails s sched j) w = true) ->
    forall k, exists j, k <= j /\ sched j = Client /\ sleeping (state_at n fails s sched j) w = true.
(** Inside block(); inside the destructor. *)
Definition in_block (s : pool) : Prop := match client s with BLoop _ | BQuery | BWait _ | BFinal => True | _ => False end.
Definition in_destructor (s : pool) : Prop := match client s with DFill _ | DWait _ | DJoin _ => True | _ => False end.
Definition block_ended (s : pool) : Prop := client s = CReturned \/ exists t, client s = CThrew t.
