(** What the log of a file pool says, independently of the pool. *)
From Coq Require Import List Arith Bool.
From Verif Require Import FilePoolModel.
Import ListNotations.

(** The files opened and not yet closed. *)
Definition open_step (l : list fid) (e : event) : list fid :=
  match e with
  | EOpen i _ _ _ => i :: l
  | EUse _ => l
  | EClose i => filter (fun j => negb (j =? i)) l
  end.
Definition open_ids (log : list event) : list fid := fold_left open_step log [].

(** How a file that is open was opened: by which handler, of which type, and
    whether for writing. *)
Definition opened_step (i : fid) (o : option (hid * ftype * bool)) (e : event) : option (hid * ftype * bool) :=
  match e with
  | EOpen j h ty w => if j =? i then Some (h, ty, w) else o
  | EUse _ => o
  | EClose j => if j =? i then None else o
  end.
Definition opened (log : list event) (i : fid) : option (hid * ftype * bool) := fold_left (opened_step i) log None.

(** One plus the position in the log of the last opening or use of a file. *)
Definition touches (i : fid) (e : event) : bool :=
  match e with EOpen j _ _ _ => j =? i | EUse j => j =? i | EClose _ => false end.
Fixpoint last_use_from (n : nat) (log : list event) (i : fid) : nat :=
  match log with
  | [] => 0
  | e :: r => Nat.max (if touches i e then S n else 0) (last_use_from (S n) r i)
  end.
Definition last_use (log : list event) (i : fid) : nat := last_use_from 0 log i.

Definition is_open_event (e : event) : Prop := exists i h ty w, e = EOpen i h ty w.

(** A state is reachable when it is the result of some history. *)
Definition reachable (lim : nat) (s : pool) : Prop := exists ops rs, run (new_pool lim) ops = (rs, s).
Definition held (s : pool) (i : fid) : Prop := exists a, In a (accs s) /\ a_fid a = i.
(** The descriptor is at rest in its handler: it can be reused or closed. *)
Definition idle (s : pool) (i : fid) (h : hid) : Prop := In i (map fst (avail (hs s h))).
(** What a request with the given mode closes in its own handler: everything at
    rest when the handler was last used in the other mode. *)
Definition mode_change (s : pool) (h : hid) (write : bool) : list fid :=
  if Bool.eqb (readonly (hs s h)) write then map fst (avail (hs s h)) else [].
(** Each handler is always used with the same type of descriptor. *)
Definition typed (t : hid -> ftype) (o : op) : Prop :=
  match o with Get h ty _ _ _ _ => ty = t h | _ => True end.

(** The file is free for an access in the given mode: no live accessor at all
    for writing, no live write accessor for reading. *)
Definition get_ready (s : pool) (h : hid) (w : bool) : Prop :=
  if w then forall a, In a (accs s) -> a_handler a <> h
  else forall a, In a (accs s) -> a_handler a = h -> a_write a = false.

(** Histories in which the deleter runs as soon as the last owner is gone. *)
Inductive aop : Type := AGet (path : nat) | ADrop (h : hid).
Definition expand (o : aop) : list rop := match o with AGet p => [RGet p] | ADrop h => [RDrop h; RDelete h] end.
