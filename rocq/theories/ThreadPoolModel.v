(** Model of the thread pool (AlexandriaKernel/src/lib/ThreadPool.cpp).

    The pool is an interleaving transition system. One transition is one access
    to shared memory, except that the sections under m_queue_mutex are one
    transition each (the queue is only accessed under the mutex). Memory is
    sequentially consistent; m_exception_ptr, which the code reads and writes
    without a lock, is treated like the atomic flags. sleep_for has no effect on
    the state: a sleeping thread may continue at any moment.

    A task is identified by its submission number. [fails t] tells whether it
    throws. Tasks end; what they do besides is not modelled, except that they
    may submit, like any other thread, at any moment. *)
From Coq Require Import List Arith Bool.
Import ListNotations.

Definition task : Type := nat.

(** What an observer of the tasks sees. [Assigned t w]: worker [w] has taken
    [t] from the queue. *)
Inductive event : Type :=
| Submitted (t : task)
| Assigned (t : task) (w : nat)
| Started (t : task) (w : nat)
| Finished (t : task) (w : nat)
| Failed (t : task) (w : nat).

(** Positions of a worker in Worker::operator() (ThreadPool.cpp:48-76). *)
Inductive wpc : Type :=
| WCheckRun            (* line 49, m_run_flag *)
| WCheckExc            (* line 49, m_exception_ptr *)
| WPop                 (* lines 52-57 *)
| WHave (t : task)     (* line 62, before the call *)
| WRun (t : task)      (* line 62, inside the task *)
| WSetExc (t : task)   (* line 64 *)
| WSleepSet            (* line 67 *)
| WAsleep              (* lines 68-69 *)
| WExit1               (* line 73 *)
| WExit2               (* line 74 *)
| WExit3               (* line 75 *)
| WEnd.

(** Positions of the thread that calls block() and the destructor. *)
Inductive cpc : Type :=
| CIdle
| BLoop (queue_is_empty : bool)  (* line 147 *)
| BQuery                         (* lines 148-150 *)
| BWait (i : nat)                (* line 156, flag i *)
| BFinal                         (* line 158 *)
| CReturned                      (* block() returned *)
| CThrew (t : task)              (* block() threw the exception of task t *)
| DFill (i : nat)                (* line 164, flag i *)
| DWait (i : nat)                (* line 166, flag i *)
| DJoin (i : nat)                (* lines 167-169, thread i *)
| CDestroyed.

(** ThreadPool.h:107-115 and the program counters; [tr] is the history. *)
Record pool : Type := mkP {
  queue : list task;
  next : nat;
  exc : option task;
  pc : nat -> wpc;
  run : nat -> bool;
  sleeping : nat -> bool;
  done : nat -> bool;
  client : cpc;
  tr : list event
}.

Definition upd {A} (f : nat -> A) (i : nat) (a : A) : nat -> A := fun j => if j =? i then a else f j.

(** [Work w]: the next transition of worker [w]. [Submit]: some thread, which
    may be a worker running a task, submits a task. [Client]: the next
    transition of the thread inside block() or the destructor. *)
Inductive action : Type := Work (w : nat) | Submit | CallBlock | CallDestructor | Client.

Section Pool.
  (** Number of threads of the pool. *)
  Variable n : nat.
  Variable fails : task -> bool.

  (** ThreadPool.cpp:90-102. *)
  Definition new_pool : pool :=
    mkP [] 0 None (fun _ => WCheckRun) (fun _ => true) (fun _ => false) (fun _ => false) CIdle [].

  Definition goto (s : pool) (w : nat) (p : wpc) : pool :=
    mkP (queue s) (next s) (exc s) (upd (pc s) w p) (run s) (sleeping s) (done s) (client s) (tr s).
  Definition log (s : pool) (es : list event) : pool :=
    mkP (queue s) (next s) (exc s) (pc s) (run s) (sleeping s) (done s) (client s) (tr s ++ es).
  Definition set_queue (s : pool) (q : list task) : pool :=
    mkP q (next s) (exc s) (pc s) (run s) (sleeping s) (done s) (client s) (tr s).
  Definition set_exc (s : pool) (t : task) : pool :=
    mkP (queue s) (next s) (Some t) (pc s) (run s) (sleeping s) (done s) (client s) (tr s).
  Definition set_run (s : pool) (w : nat) (b : bool) : pool :=
    mkP (queue s) (next s) (exc s) (pc s) (upd (run s) w b) (sleeping s) (done s) (client s) (tr s).
  Definition set_sleeping (s : pool) (w : nat) (b : bool) : pool :=
    mkP (queue s) (next s) (exc s) (pc s) (run s) (upd (sleeping s) w b) (done s) (client s) (tr s).
  Definition set_done (s : pool) (w : nat) (b : bool) : pool :=
    mkP (queue s) (next s) (exc s) (pc s) (run s) (sleeping s) (upd (done s) w b) (client s) (tr s).
  Definition set_client (s : pool) (c : cpc) : pool :=
    mkP (queue s) (next s) (exc s) (pc s) (run s) (sleeping s) (done s) c (tr s).

  (** Worker::operator() (ThreadPool.cpp:48-76). *)
  Definition work (s : pool) (w : nat) : option pool :=
    match pc s w with
    | WCheckRun => Some (goto s w (if run s w then WCheckExc else WExit1))
    | WCheckExc => Some (goto s w (match exc s with None => WPop | Some _ => WExit1 end))
    | WPop =>
        match queue s with
        | [] => Some (goto s w WSleepSet)
        | t :: q => Some (goto (log (set_queue s q) [Assigned t w]) w (WHave t))
        end
    | WHave t => Some (goto (log s [Started t w]) w (WRun t))
    | WRun t =>
        if fails t then Some (goto (log s [Failed t w]) w (WSetExc t))
        else Some (goto (log s [Finished t w]) w WCheckRun)
    | WSetExc t => Some (goto (set_exc s t) w WCheckRun)
    | WSleepSet => Some (goto (set_sleeping s w true) w WAsleep)
    | WAsleep => Some (goto (set_sleeping s w false) w WCheckRun)
    | WExit1 => Some (goto (set_sleeping s w true) w WExit2)
    | WExit2 => Some (goto (set_done s w true) w WExit3)
    | WExit3 => Some (goto (set_run s w false) w WEnd)
    | WEnd => None
    end.

  (** submit (ThreadPool.cpp:172-179). Without threads the task runs inside the
      call and its exception goes to the submitter. *)
  Definition submit (s : pool) : pool :=
    let t := next s in
    let s1 := mkP (queue s) (S t) (exc s) (pc s) (run s) (sleeping s) (done s) (client s) (tr s ++ [Submitted t]) in
    if n =? 0 then log s1 [Assigned t 0; Started t 0; if fails t then Failed t 0 else Finished t 0]
    else set_queue s1 (queue s ++ [t]).

  (** Is the client outside block() and the destructor? *)
  Definition idle (c : cpc) : bool := match c with CIdle | CReturned | CThrew _ => true | _ => false end.

  (** block() (ThreadPool.cpp:144-159), waitWorkers (106-113), checkForException
      (117-126) and the destructor (161-170). [None]: the thread is blocked. *)
  Definition client_step (s : pool) : option pool :=
    match client s with
    | BLoop e => Some (set_client s (if e then BWait 0 else match exc s with None => BQuery | Some _ => BWait 0 end))
    | BQuery => Some (set_client s (BLoop (match queue s with [] => true | _ => false end)))
    | BWait i => if i <? n then Some (if sleeping s i then set_client s (BWait (S i)) else s) else Some (set_client s BFinal)
    | BFinal => Some (set_client s (match exc s with None => CReturned | Some t => CThrew t end))
    | DFill i => if i <? n then Some (set_client (set_run s i false) (DFill (S i))) else Some (set_client s (DWait 0))
    | DWait i => if i <? n then Some (if done s i then set_client s (DWait (S i)) else s) else Some (set_client s (DJoin 0))
    | DJoin i =>
        if i <? n then match pc s i with WEnd => Some (set_client s (DJoin (S i))) | _ => None end
        else Some (set_client s CDestroyed)
    | _ => None
    end.

  Definition step (s : pool) (a : action) : option pool :=
    match a with
    | Work w => if w <? n then work s w else None
    | Submit => match client s with CDestroyed => None | _ => Some (submit s) end
    | CallBlock => if idle (client s) then Some (set_client s (BLoop false)) else None
    | CallDestructor => if idle (client s) then Some (set_client s (DFill 0)) else None
    | Client => client_step s
    end.
  (** An execution: any sequence of transitions that can be made. *)
  Fixpoint exec (s : pool) (l : list action) : option pool :=
    match l with
    | [] => Some s
    | a :: r => match step s a with Some s1 => exec s1 r | None => None end
    end.

  (** queued, running, activeThreads and checkForException(false)
      (ThreadPool.cpp:117-142). The flags of running() and activeThreads() are
      read at one moment. *)
  Definition queued (s : pool) : nat := length (queue s).
  Definition running (s : pool) : nat := n - length (filter (sleeping s) (seq 0 n)).
  Definition active_threads (s : pool) : nat := n - length (filter (done s) (seq 0 n)).
  Definition has_exception (s : pool) : bool := match exc s with Some _ => true | None => false end.
End Pool.
