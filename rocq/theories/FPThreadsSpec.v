(** Notions for the properties of the file pool used by several threads. *)
From Coq Require Import List Arith.
From Verif Require Import FPThreadsModel.
Import ListNotations.

(** The states that an interleaving of the calls of [n] threads may reach in a
    pool for at most [limit] files. *)
Definition reached (limit n : nat) (s : state) : Prop := exists l, exec limit n start l = Some s.

(** No thread is inside a call. *)
Definition quiet (n : nat) (s : state) : Prop := forall t, t < n -> pcs s t = Idle.

(** Number of calls to getAccessor, and whether closeAll is called. *)
Definition gets (l : list action) : nat := length (filter (fun a => match a with Call _ (Get _ _) => true | _ => false end) l).
Definition no_close_all (l : list action) : Prop := forall t, ~ In (Call t CloseAll) l.

(** All along the history there is room: the files in the pool and the calls to
    getAccessor in progress are together within the limit. *)
Definition in_get (p : tpc) : bool :=
  match p with
  | Idle | RHand _ | RUnlock _ _ | CList _ | CCall _ _ _ | CEvict _ _ _ | CErase _ _ _ => false
  | _ => true
  end.
Definition roomy (limit n : nat) (l : list action) : Prop := forall l1 l2 s, l = l1 ++ l2 -> exec limit n start l1 = Some s ->
  length (files s) + length (filter (fun t => in_get (pcs s t)) (seq 0 n)) <= limit.

(** Thread [t] waits: it is inside a call and its next transition is not possible
    now. *)
Definition waits (limit t : nat) (s : state) : Prop := pcs s t <> Idle /\ forall ok, run limit t ok s = Blocked.
(** The threads wait for each other: some wait and none can do anything. *)
Definition stuck (limit n : nat) (s : state) : Prop :=
  (exists t, t < n /\ pcs s t <> Idle) /\ forall t, t < n -> pcs s t = Idle \/ waits limit t s.
(** What thread [t] asks for is taken by a live accessor. *)
Definition waits_for_accessor (t : nat) (s : state) : Prop :=
  exists h w a, pcs s t = GFile h w /\ In a (accs s) /\ a_handler a = h /\ (w = true \/ a_write a = true).

(** The next thing that thread [t] does is undefined. *)
Definition undefined (limit t : nat) (s : state) : Prop := exists ok, run limit t ok s = Undefined.
