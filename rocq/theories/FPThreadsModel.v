(** Model of the file pool used by several threads (FilePool/src/lib/*.cpp,
    FilePool/FilePool/_impl/*.icpp), at the granularity of its mutexes.

    One transition of a thread goes from one acquisition of a mutex to the next.
    The sections under m_mutex of the manager acquire no other mutex, so each is
    one transition; m_handler_mutex and m_file_mutex of the handlers are kept.
    Simplifications: there is one type of descriptor, accessors are not taken in
    a Try mode, handlers outlive the calls, the address of a closed file is not
    used again, a waiting writer does not hold back readers. *)
From Coq Require Import List Arith Bool.
Import ListNotations.

Notation fid := nat (only parsing).
Notation hid := nat (only parsing).
Notation node := nat (only parsing).

(** Where a thread is. [h]: the handler, [w]: write access asked for, [i]: a
    file, [nd]: the iterator over m_sorted_ids, [o]: the handler that the copied
    m_request_close refers to. *)
Inductive tpc : Type :=
| Idle
| GFile (h : hid) (w : bool)                          (* FileHandler.icpp:31-36, 89-94: m_file_mutex *)
| GHand (h : hid) (w : bool)                          (* lines 38, 96: m_handler_mutex *)
| GMode (h : hid) (w : bool)                          (* lines 41-47, 99-105 *)
| GShut (h : hid) (w : bool) (i : fid)                (* FileManager.icpp:67-70 for line 43 or 101 *)
| GPick (h : hid) (w : bool)                          (* lines 60, 108-116 *)
| GIntent (h : hid) (w : bool)                        (* LRUFileManager.cpp:40-46 *)
| GCall (h : hid) (w : bool) (nd : node) (i : fid) (o : hid)   (* LRUFileManager.cpp:48, FileHandler.cpp:38 *)
| GEvict (h : hid) (w : bool) (nd : node) (i : fid) (o : hid)  (* FileHandler.cpp:39-42, FileManager.icpp:63-65 *)
| GErase (h : hid) (w : bool) (i : fid) (o : hid)     (* FileManager.icpp:67-70, FileHandler.cpp:43-44 *)
| GNext (h : hid) (w : bool) (nd : node)              (* LRUFileManager.cpp:49, 44 *)
| GOpen (h : hid) (w : bool)                          (* FileManager.icpp:46-50 *)
| GInsert (h : hid) (w : bool) (i : fid)              (* FileManager.icpp:52-55 *)
| GList (h : hid) (w : bool) (i : fid)                (* FileManager.icpp:57, LRUFileManager.cpp:61-64 *)
| GUse (h : hid) (w : bool) (i : fid)                 (* FileHandler.icpp:79, 134, LRUFileManager.cpp:75-86 *)
| GGive (h : hid) (w : bool) (i : fid)                (* FileHandler.icpp:80-81, 135 *)
| GThrow (h : hid) (w : bool)                         (* an exception leaves getAccessor *)
| RHand (k : nat)                                     (* FileAccessor.icpp:36, 51, FileHandler.icpp:75-76, 130-131 *)
| RUnlock (h : hid) (w : bool)                        (* destruction of m_shared_lock, m_unique_lock *)
| CList (l : list fid)                                (* FileManager.cpp:69-71 *)
| CCall (l : list fid) (i : fid) (o : hid)            (* FileHandler.cpp:38 *)
| CEvict (l : list fid) (i : fid) (o : hid)           (* FileHandler.cpp:39-42, FileManager.icpp:63-65 *)
| CErase (l : list fid) (i : fid) (o : hid).          (* FileManager.icpp:67-70, FileHandler.cpp:43-44 *)

(** A live accessor. *)
Record acc : Type := mkA { a_key : nat; a_fid : fid; a_handler : hid; a_write : bool }.

(** [files]: the keys of m_files; [nodes]: m_sorted_ids, a list whose nodes have
    an identity; [opened]: the descriptors open for the operating system;
    [avail], [rdonly], [hlock], [shared], [excl]: m_available_fd (ordered by id),
    m_is_readonly, m_handler_mutex and m_file_mutex of each handler; [owner]: the
    handler whose close() the file's m_request_close calls; [writable]: whether the
    descriptor was opened for writing. *)
Record state : Type := mkS {
  files : list fid;
  nodes : list (node * fid);
  next_node : node;
  next_fid : fid;
  next_key : nat;
  opened : list fid;
  avail : hid -> list fid;
  rdonly : hid -> bool;
  owner : fid -> hid;
  writable : fid -> bool;
  hlock : hid -> option nat;
  shared : hid -> nat;
  excl : hid -> bool;
  pcs : nat -> tpc;
  accs : list acc
}.
(** FileHandler.cpp:24-25, LRUFileManager.cpp:26-33. *)
Definition start : state :=
  mkS [] [] 0 0 0 [] (fun _ => []) (fun _ => true) (fun _ => 0) (fun _ => false) (fun _ => None) (fun _ => 0) (fun _ => false) (fun _ => Idle) [].

Definition upd {A} (f : nat -> A) (i : nat) (a : A) : nat -> A := fun j => if j =? i then a else f j.
Definition mem (i : nat) (l : list nat) : bool := existsb (Nat.eqb i) l.
Definition remove (i : nat) (l : list nat) : list nat := filter (fun j => negb (j =? i)) l.
(** m_available_fd[id] = ... *)
Fixpoint insert (i : fid) (l : list fid) : list fid :=
  match l with [] => [i] | j :: r => if i <? j then i :: l else if i =? j then l else j :: insert i r end.
(** m_current_pos and the erasure of a node of the list. *)
Definition listed (i : fid) (l : list (node * fid)) : bool := mem i (map snd l).
Definition unlist (i : fid) (l : list (node * fid)) : list (node * fid) := filter (fun p => negb (snd p =? i)) l.
(** The rest of the list after a node; [None]: the node is not in the list. *)
Fixpoint after (nd : node) (l : list (node * fid)) : option (list (node * fid)) :=
  match l with [] => None | p :: r => if fst p =? nd then Some r else after nd r end.

Definition set_files (s : state) (x : list fid) : state := mkS x (nodes s) (next_node s) (next_fid s) (next_key s) (opened s) (avail s) (rdonly s) (owner s) (writable s) (hlock s) (shared s) (excl s) (pcs s) (accs s).
Definition set_nodes (s : state) (x : list (node * fid)) (n : node) : state := mkS (files s) x n (next_fid s) (next_key s) (opened s) (avail s) (rdonly s) (owner s) (writable s) (hlock s) (shared s) (excl s) (pcs s) (accs s).
Definition set_opened (s : state) (x : list fid) (n : fid) : state := mkS (files s) (nodes s) (next_node s) n (next_key s) x (avail s) (rdonly s) (owner s) (writable s) (hlock s) (shared s) (excl s) (pcs s) (accs s).
Definition set_avail (s : state) (h : hid) (x : list fid) : state := mkS (files s) (nodes s) (next_node s) (next_fid s) (next_key s) (opened s) (upd (avail s) h x) (rdonly s) (owner s) (writable s) (hlock s) (shared s) (excl s) (pcs s) (accs s).
Definition set_rdonly (s : state) (h : hid) (x : bool) : state := mkS (files s) (nodes s) (next_node s) (next_fid s) (next_key s) (opened s) (avail s) (upd (rdonly s) h x) (owner s) (writable s) (hlock s) (shared s) (excl s) (pcs s) (accs s).
Definition set_owner (s : state) (i : fid) (h : hid) : state := mkS (files s) (nodes s) (next_node s) (next_fid s) (next_key s) (opened s) (avail s) (rdonly s) (upd (owner s) i h) (writable s) (hlock s) (shared s) (excl s) (pcs s) (accs s).
Definition set_writable (s : state) (i : fid) (w : bool) : state := mkS (files s) (nodes s) (next_node s) (next_fid s) (next_key s) (opened s) (avail s) (rdonly s) (owner s) (upd (writable s) i w) (hlock s) (shared s) (excl s) (pcs s) (accs s).
Definition set_hlock (s : state) (h : hid) (x : option nat) : state := mkS (files s) (nodes s) (next_node s) (next_fid s) (next_key s) (opened s) (avail s) (rdonly s) (owner s) (writable s) (upd (hlock s) h x) (shared s) (excl s) (pcs s) (accs s).
Definition set_shared (s : state) (h : hid) (x : nat) : state := mkS (files s) (nodes s) (next_node s) (next_fid s) (next_key s) (opened s) (avail s) (rdonly s) (owner s) (writable s) (hlock s) (upd (shared s) h x) (excl s) (pcs s) (accs s).
Definition set_excl (s : state) (h : hid) (x : bool) : state := mkS (files s) (nodes s) (next_node s) (next_fid s) (next_key s) (opened s) (avail s) (rdonly s) (owner s) (writable s) (hlock s) (shared s) (upd (excl s) h x) (pcs s) (accs s).
Definition set_accs (s : state) (x : list acc) (k : nat) : state := mkS (files s) (nodes s) (next_node s) (next_fid s) k (opened s) (avail s) (rdonly s) (owner s) (writable s) (hlock s) (shared s) (excl s) (pcs s) x.
Definition goto (s : state) (t : nat) (p : tpc) : state := mkS (files s) (nodes s) (next_node s) (next_fid s) (next_key s) (opened s) (avail s) (rdonly s) (owner s) (writable s) (hlock s) (shared s) (excl s) (upd (pcs s) t p) (accs s).

(** What one transition may be: made, waiting for a mutex, undefined. *)
Inductive outcome : Type := Next (s : state) | Blocked | Undefined.

(** Descriptor closed and its node erased: OpenCloseTrait::close and
    notifyClosedFile (FileManager.icpp:63-65, LRUFileManager.cpp:67-72), with its
    removal from the available descriptors of handler [h], whose mutex is held.
    Erasing a missing node is undefined. *)
Definition shut (s : state) (h : hid) (i : fid) (k : state -> state) : outcome :=
  if listed i (nodes s) then
    Next (k (set_avail (set_nodes (set_opened s (remove i (opened s)) (next_fid s)) (unlist i (nodes s)) (next_node s)) h (remove i (avail s h))))
  else Undefined.
(** m_files.erase (FileManager.icpp:67-70). *)
Definition erase (s : state) (i : fid) (k : state -> state) : outcome :=
  if mem i (files s) then Next (k (set_files s (remove i (files s)))) else Undefined.
(** The body of the loop over m_sorted_ids up to the call (LRUFileManager.cpp:44-48). *)
Definition visit (s : state) (t : nat) (h : hid) (w : bool) (l : list (node * fid)) : outcome :=
  match l with
  | [] => Next (goto s t (GThrow h w))
  | (nd, i) :: _ => if mem i (files s) then Next (goto s t (GCall h w nd i (owner s i))) else Undefined
  end.
(** Destruction of the lock of an accessor. *)
Definition unlock_file (s : state) (h : hid) (w : bool) : state :=
  if w then set_excl s h false else set_shared s h (shared s h - 1).

Section Threads.
  (** m_limit and the number of threads. *)
  Variables limit n : nat.

  (** The next transition of thread [t]. [ok]: the operating system opens the
      file. *)
  Definition run (t : nat) (ok : bool) (s : state) : outcome :=
    match pcs s t with
    | Idle => Blocked
    | GFile h w =>
        if w then if (shared s h =? 0) && negb (excl s h) then Next (goto (set_excl s h true) t (GHand h w)) else Blocked
        else if negb (excl s h) then Next (goto (set_shared s h (S (shared s h))) t (GHand h w)) else Blocked
    | GHand h w => match hlock s h with None => Next (goto (set_hlock s h (Some t)) t (GMode h w)) | Some _ => Blocked end
    | GMode h w =>
        if Bool.eqb (rdonly s h) w then
          match avail s h with
          | [] => Next (goto (set_rdonly s h (negb w)) t (GPick h w))
          | i :: _ => shut s h i (fun s1 => goto s1 t (GShut h w i))
          end
        else Next (goto s t (GPick h w))
    | GShut h w i => erase s i (fun s1 => goto s1 t (GMode h w))
    | GPick h w =>
        match avail s h with
        | [] => Next (goto s t (GIntent h w))
        | i :: r => Next (goto (set_avail s h (if w then [] else r)) t (GUse h w i))
        end
    | GIntent h w => if length (files s) <? limit then Next (goto s t (GOpen h w)) else visit s t h w (nodes s)
    | GCall h w nd i o => match hlock s o with None => Next (goto (set_hlock s o (Some t)) t (GEvict h w nd i o)) | Some _ => Blocked end
    | GEvict h w nd i o =>
        if mem i (avail s o) then shut s o i (fun s1 => goto s1 t (GErase h w i o)) else Next (goto (set_hlock s o None) t (GNext h w nd))
    | GErase h w i o => erase s i (fun s1 => goto (set_hlock s1 o None) t (GIntent h w))
    | GNext h w nd => match after nd (nodes s) with Some r => visit s t h w r | None => Undefined end
    | GOpen h w =>
        if ok then Next (goto (set_writable (set_opened s (next_fid s :: opened s) (S (next_fid s))) (next_fid s) w) t (GInsert h w (next_fid s)))
        else Next (goto s t (GThrow h w))
    | GInsert h w i => Next (goto (set_owner (set_files s (i :: files s)) i h) t (GList h w i))
    | GList h w i => Next (goto (set_nodes s (nodes s ++ [(next_node s, i)]) (S (next_node s))) t (GUse h w i))
    | GUse h w i =>
        if mem i (files s) && listed i (nodes s) then Next (goto (set_nodes s (unlist i (nodes s) ++ [(next_node s, i)]) (S (next_node s))) t (GGive h w i))
        else Undefined
    | GGive h w i => Next (goto (set_hlock (set_accs s (mkA (next_key s) i h w :: accs s) (S (next_key s))) h None) t Idle)
    | GThrow h w => Next (goto (unlock_file (set_hlock s h None) h w) t Idle)
    | RHand k =>
        match find (fun a => a_key a =? k) (accs s) with
        | Some a =>
            let h := a_handler a in
            match hlock s h with
            | None => Next (goto (set_accs (set_avail s h (insert (a_fid a) (avail s h))) (filter (fun b => negb (a_key b =? k)) (accs s)) (next_key s))
                              t (RUnlock h (a_write a)))
            | Some _ => Blocked
            end
        | None => Undefined
        end
    | RUnlock h w => Next (goto (unlock_file s h w) t Idle)
    | CList [] => Next (goto s t Idle)
    | CList (i :: l) => if mem i (files s) then Next (goto s t (CCall l i (owner s i))) else Undefined
    | CCall l i o => match hlock s o with None => Next (goto (set_hlock s o (Some t)) t (CEvict l i o)) | Some _ => Blocked end
    | CEvict l i o =>
        if mem i (avail s o) then shut s o i (fun s1 => goto s1 t (CErase l i o)) else Next (goto (set_hlock s o None) t (CList l))
    | CErase l i o => erase s i (fun s1 => goto (set_hlock s1 o None) t (CList l))
    end.

  (** The calls of the interface: getAccessor, destruction of an accessor,
      closeAll (the copy of the pointers, FileManager.cpp:62-66, included; their order,
      which is that of the addresses, is that of the last insertion here). *)
  Inductive request : Type := Get (h : hid) (w : bool) | Release (k : nat) | CloseAll.
  Definition releasing (k : nat) (p : tpc) : bool := match p with RHand j => j =? k | _ => false end.
  (** A thread that is not inside a call calls; an accessor is destroyed once. *)
  Definition call (t : nat) (r : request) (s : state) : outcome :=
    match pcs s t with
    | Idle =>
        match r with
        | Get h w => Next (goto s t (GFile h w))
        | Release k =>
            if existsb (fun a => a_key a =? k) (accs s) && negb (existsb (fun u => releasing k (pcs s u)) (seq 0 n)) then Next (goto s t (RHand k)) else Blocked
        | CloseAll => Next (goto s t (CList (files s)))
        end
    | _ => Blocked
    end.
  Inductive action : Type := Call (t : nat) (r : request) | Run (t : nat) (ok : bool).
  Definition step (s : state) (a : action) : outcome :=
    match a with
    | Call t r => if t <? n then call t r s else Blocked
    | Run t ok => if t <? n then run t ok s else Blocked
    end.
  (** An execution: transitions that are made, one after the other. *)
  Fixpoint exec (s : state) (l : list action) : option state :=
    match l with
    | [] => Some s
    | a :: r => match step s a with Next s1 => exec s1 r | _ => None end
    end.
End Threads.
