(** Model of the file pool (FilePool/src/lib/*.cpp, FilePool/FilePool/_impl/*.icpp).

    A history is a sequence of calls; each call is one transition (calls of
    different threads interleave at call granularity, except in the last
    section, which looks inside open()). File descriptors are identified by
    their FileId, an address chosen by the allocator: [Get] takes the address
    the allocator would return. Types of descriptors are numbers. m_file_mutex
    of a handler is represented by the live accessors, which own its locks. *)
From Coq Require Import List Arith Bool.
Import ListNotations.

Definition fid : Type := nat.
Definition hid : Type := nat.
Definition ftype : Type := nat.

(** What happens to the files. [EUse]: notifyUsed. *)
Inductive event : Type :=
| EOpen (i : fid) (h : hid) (ty : ftype) (write : bool)
| EUse (i : fid)
| EClose (i : fid).

(** FileHandler.h: m_available_fd (a map ordered by id) and m_is_readonly. *)
Record handler : Type := mkH { avail : list (fid * ftype); readonly : bool }.
(** A live accessor; [a_key] is its identity. *)
Record acc : Type := mkA { a_key : nat; a_handler : hid; a_fid : fid; a_type : ftype; a_write : bool }.

(** LRUFileManager. [files] are the keys of m_files, [owner] the handler whose
    close() a file's m_request_close calls, [sorted] is m_sorted_ids. *)
Record pool : Type := mkP {
  limit : nat;
  files : list fid;
  owner : fid -> hid;
  sorted : list fid;
  hs : hid -> handler;
  accs : list acc;
  next_key : nat;
  log : list event
}.

(** FileHandler.cpp:24-25, LRUFileManager.cpp:26-33 with a limit given. *)
Definition new_pool (limit : nat) : pool := mkP limit [] (fun _ => 0) [] (fun _ => mkH [] true) [] 0 [].

Inductive res : Type :=
| RAcc (a : acc)
| RNull        (* null accessor *)
| RDone
| RThrow
| RBlocked     (* the call waits for an accessor to be destroyed *)
| RDeadlock    (* the call waits for a mutex its own thread holds *)
| RUB.

Definition upd {A} (f : nat -> A) (i : nat) (a : A) : nat -> A := fun j => if j =? i then a else f j.
Definition mem (i : nat) (l : list nat) : bool := existsb (Nat.eqb i) l.
Definition remove (i : nat) (l : list nat) : list nat := filter (fun j => negb (j =? i)) l.
Fixpoint insert (p : fid * ftype) (l : list (fid * ftype)) : list (fid * ftype) :=
  match l with
  | [] => [p]
  | q :: r => if fst p <? fst q then p :: l else if fst p =? fst q then p :: r else q :: insert p r
  end.

(** Statements: a result ([None]: continue) and the new state. *)
Definition act : Type := pool -> option res * pool.
Definition skip : act := fun s => (None, s).
Definition seq (a b : act) : act := fun s => match a s with (None, s1) => b s1 | r => r end.
Definition fail (r : res) : act := fun s => (Some r, s).
Definition modify (f : pool -> pool) : act := fun s => (None, f s).

Definition set_files (s : pool) (l : list fid) : pool := mkP (limit s) l (owner s) (sorted s) (hs s) (accs s) (next_key s) (log s).
Definition set_sorted (s : pool) (l : list fid) : pool := mkP (limit s) (files s) (owner s) l (hs s) (accs s) (next_key s) (log s).
Definition set_handler (s : pool) (h : hid) (x : handler) : pool := mkP (limit s) (files s) (owner s) (sorted s) (upd (hs s) h x) (accs s) (next_key s) (log s).
Definition set_owner (s : pool) (i : fid) (h : hid) : pool := mkP (limit s) (files s) (upd (owner s) i h) (sorted s) (hs s) (accs s) (next_key s) (log s).
Definition set_accs (s : pool) (l : list acc) (k : nat) : pool := mkP (limit s) (files s) (owner s) (sorted s) (hs s) l k (log s).
Definition write_log (s : pool) (e : event) : pool := mkP (limit s) (files s) (owner s) (sorted s) (hs s) (accs s) (next_key s) (log s ++ [e]).
Definition set_avail (s : pool) (h : hid) (l : list (fid * ftype)) : pool := set_handler s h (mkH l (readonly (hs s h))).

(** FileManager::close (FileManager.icpp:61-71) with notifyClosedFile
    (LRUFileManager.cpp:67-72), called by TypedFdWrapper::close. Erasing an
    iterator that is not in the list is undefined. *)
Definition close_file (i : fid) : act := fun s =>
  if mem i (sorted s) then
    let s1 := write_log s (EClose i) in
    let s2 := set_sorted s1 (remove i (sorted s1)) in
    (None, set_files s2 (remove i (files s2)))
  else (Some RUB, s).
(** Closing all available descriptors of a handler (FileHandler.icpp:42-45,
    100-103, FileHandler.cpp:27-31). *)
Definition close_avail (h : hid) : act := fun s =>
  seq (fold_right (fun p a => seq (close_file (fst p)) a) skip (avail (hs s h))) (modify (fun s1 => set_avail s1 h [])) s.

(** FileHandler::close (FileHandler.cpp:37-45): whether the file was closed. *)
Definition handler_close (h : hid) (i : fid) (s : pool) : bool * (option res * pool) :=
  if mem i (map fst (avail (hs s h))) then
    (true, seq (close_file i) (modify (fun s1 => set_avail s1 h (filter (fun p => negb (fst p =? i)) (avail (hs s1 h))))) s)
  else (false, (None, s)).

(** The loop over the ids of LRUFileManager::notifyIntentToOpen
    (LRUFileManager.cpp:44-53), called with m_handler_mutex of handler [own]
    held: calling close() of that handler never returns. *)
Fixpoint evict (own : hid) (ids : list fid) (s : pool) : bool * (option res * pool) :=
  match ids with
  | [] => (false, (None, s))
  | i :: r =>
      if negb (mem i (files s)) then (false, (Some RUB, s))
      else if owner s i =? own then (false, (Some RDeadlock, s))
      else match handler_close (owner s i) i s with
           | (true, x) => (true, x)
           | (false, (None, s1)) => evict own r s1
           | (false, x) => (false, x)
           end
  end.
(** LRUFileManager::notifyIntentToOpen (LRUFileManager.cpp:39-58). The fuel
    bounds the number of rounds; each round closes a file. *)
Fixpoint intent (fuel : nat) (own : hid) : act := fun s =>
  if limit s <=? length (files s) then
    match fuel with
    | O => (Some RDeadlock, s)
    | S fuel' =>
        match evict own (sorted s) s with
        | (true, (None, s1)) => intent fuel' own s1
        | (false, (None, s1)) => (Some RThrow, s1)
        | (_, (Some r, s1)) => (Some r, s1)
        end
    end
  else (None, s).
(** FileManager::open (FileManager.icpp:41-59) with notifyOpenedFile
    (LRUFileManager.cpp:60-65). [ok]: the operating system opens the file. The
    metadata object is allocated after the intent has been accepted; when the
    address [i] is in use the allocation fails (std::bad_alloc). *)
Definition open_file (own : hid) (ty : ftype) (write : bool) (i : fid) (ok : bool) : act := fun s =>
  seq (intent (S (length (files s))) own)
    (fun s1 => if ok && negb (mem i (files s1)) then
                 let s2 := write_log (set_owner s1 i own) (EOpen i own ty write) in
                 let s3 := set_files s2 (i :: files s2) in
                 (None, set_sorted s3 (sorted s3 ++ [i]))
               else (Some RThrow, s1)) s.
(** LRUFileManager::notifyUsed (LRUFileManager.cpp:74-87). *)
Definition notify_used (i : fid) : act := fun s =>
  if mem i (sorted s) then (None, set_sorted (write_log s (EUse i)) (remove i (sorted s) ++ [i])) else (Some RUB, s).

Definition live (h : hid) (s : pool) : list acc := filter (fun a => a_handler a =? h) (accs s).
Definition writers (h : hid) (s : pool) : list acc := filter a_write (live h s).

(** The end of getReadAccessor / getWriteAccessor: the descriptor [i] leaves
    the available ones and goes to a new accessor. *)
Definition hand_out (h : hid) (i : fid) (ty : ftype) (write : bool) (l : list (fid * ftype)) : act := fun s =>
  seq (notify_used i)
    (fun s1 => let a := mkA (next_key s1) h i ty write in
               (Some (RAcc a), set_accs s1 (a :: accs s1) (S (next_key s1)))) (set_avail s h l).

(** FileHandler::getWriteAccessor (FileHandler.icpp:26-82). With [try_lock] the
    lock that try_lock() has taken is locked again, which throws
    boost::lock_error (lines 32-36). *)
Definition get_write (h : hid) (ty : ftype) (try_lock : bool) (i : fid) (ok : bool) : act := fun s =>
  if negb (length (live h s) =? 0) then (Some (if try_lock then RNull else RBlocked), s)
  else if try_lock then (Some RThrow, s)
  else
    seq (fun s1 => if readonly (hs s1 h) then seq (close_avail h) (modify (fun s2 => set_handler s2 h (mkH (avail (hs s2 h)) false))) s1 else (None, s1))
      (fun s1 =>
        (* lines 52-57: a descriptor of another type is dropped, not closed *)
        let s2 := match avail (hs s1 h) with
                  | (j, ty') :: _ => if ty' =? ty then s1 else set_avail s1 h []
                  | [] => s1
                  end in
        match avail (hs s2 h) with
        | [] => seq (open_file h ty true i ok) (hand_out h i ty true []) s2
        | (j, _) :: _ => hand_out h j ty true [] s2
        end) s.

(** First descriptor of type [ty] (FileHandler.icpp:107-113). *)
Definition first_of_type (ty : ftype) (l : list (fid * ftype)) : option fid :=
  match find (fun p => snd p =? ty) l with Some p => Some (fst p) | None => None end.
(** FileHandler::getReadAccessor (FileHandler.icpp:84-136). *)
Definition get_read (h : hid) (ty : ftype) (try_lock : bool) (i : fid) (ok : bool) : act := fun s =>
  if negb (length (writers h s) =? 0) then (Some (if try_lock then RNull else RBlocked), s)
  else if try_lock then (Some RThrow, s)
  else
    seq (fun s1 => if negb (readonly (hs s1 h)) then seq (close_avail h) (modify (fun s2 => set_handler s2 h (mkH (avail (hs s2 h)) true))) s1 else (None, s1))
      (fun s1 =>
        match first_of_type ty (avail (hs s1 h)) with
        | Some j => hand_out h j ty false (filter (fun p => negb (fst p =? j)) (avail (hs s1 h))) s1
        | None => seq (open_file h ty false i ok) (fun s2 => hand_out h i ty false (avail (hs s2 h)) s2) s1
        end) s.

(** Destruction of an accessor (FileAccessor.icpp:34-36, 51-53, return_callback
    of FileHandler.icpp:74-77, 129-132). *)
Definition release (k : nat) : act := fun s =>
  match find (fun a => a_key a =? k) (accs s) with
  | Some a => (Some RDone, set_accs (set_avail s (a_handler a) (insert (a_fid a, a_type a) (avail (hs s (a_handler a)))))
                             (filter (fun b => negb (a_key b =? k)) (accs s)) (next_key s))
  | None => (Some RUB, s)
  end.

(** FileManager::closeAll (FileManager.cpp:58-72). The callback that destroys
    itself while it runs is taken to be harmless. *)
Definition close_all : act := fun s =>
  seq (fold_right (fun i a => seq (fun s1 => snd (handler_close (owner s1 i) i s1)) a) skip (files s)) (fail RDone) s.
(** Destruction of a handler (FileHandler.cpp:27-31). Its accessors refer to it:
    destroying it while one is alive is undefined. *)
Definition drop_handler (h : hid) : act := fun s =>
  if negb (length (live h s) =? 0) then (Some RUB, s) else seq (close_avail h) (fail RDone) s.

(** The interface. [Get h ty write try i ok]: getAccessor<ty>(mode) of handler [h]
    (FileHandler.icpp:138-147). *)
Inductive op : Type :=
| Get (h : hid) (ty : ftype) (write try_lock : bool) (i : fid) (ok : bool)
| Release (key : nat)
| CloseAll
| DropHandler (h : hid).
Definition call (o : op) : act :=
  match o with
  | Get h ty w t i ok => if w then get_write h ty t i ok else get_read h ty t i ok
  | Release k => release k
  | CloseAll => close_all
  | DropHandler h => drop_handler h
  end.
Definition step (s : pool) (o : op) : res * pool :=
  match call o s with (Some r, s1) => (r, s1) | (None, s1) => (RUB, s1) end.
Fixpoint run (s : pool) (ops : list op) : list res * pool :=
  match ops with
  | [] => ([], s)
  | o :: r => let '(x, s1) := step s o in let '(xs, s2) := run s1 r in (x :: xs, s2)
  end.

(** LRUFileManager.cpp:89-99; unsigned subtraction wraps at 2^32, which natural
    subtraction does not show: see the theorem on the limit. *)
Definition get_used (s : pool) : nat := length (sorted s).
Definition get_available (s : pool) : nat := limit s - length (sorted s).

(** ** Handler registry (FileManager.cpp:74-107)

    Paths are numbers: the canonical forms. A handler object is a number too. *)
Record registry : Type := mkR {
  r_map : nat -> option hid;   (* m_handlers: path to handler *)
  r_live : list (hid * nat);   (* handlers with owners, and their paths *)
  r_dead : list (hid * nat);   (* last owner gone, deleter not yet run *)
  r_next : hid
}.
Definition new_registry : registry := mkR (fun _ => None) [] [] 0.
Inductive rop : Type := RGet (path : nat) | RDrop (h : hid) | RDelete (h : hid).
(** [RGet]: getFileHandler (FileManager.cpp:74-100; the weak pointer of a
    handler without owners is expired). [RDrop]: the last owner of a handler
    lets it go. [RDelete]: the deleter of the shared pointer runs
    (FileManager.cpp:87-95). *)
Definition rstep (s : registry) (o : rop) : option hid * registry :=
  match o with
  | RGet p =>
      match r_map s p with
      | Some h => if existsb (fun x => fst x =? h) (r_live s) then (Some h, s)
                  else (Some (r_next s), mkR (upd (r_map s) p (Some (r_next s))) ((r_next s, p) :: r_live s) (r_dead s) (S (r_next s)))
      | None => (Some (r_next s), mkR (upd (r_map s) p (Some (r_next s))) ((r_next s, p) :: r_live s) (r_dead s) (S (r_next s)))
      end
  | RDrop h =>
      match find (fun x => fst x =? h) (r_live s) with
      | Some x => (None, mkR (r_map s) (filter (fun y => negb (fst y =? h)) (r_live s)) (x :: r_dead s) (r_next s))
      | None => (None, s)
      end
  | RDelete h =>
      match find (fun x => fst x =? h) (r_dead s) with
      | Some x => (None, mkR (upd (r_map s) (snd x) None) (r_live s) (filter (fun y => negb (fst y =? h)) (r_dead s)) (r_next s))
      | None => (None, s)
      end
  end.
Fixpoint rrun (s : registry) (ops : list rop) : list (option hid) * registry :=
  match ops with
  | [] => ([], s)
  | o :: r => let '(x, s1) := rstep s o in let '(xs, s2) := rrun s1 r in (x :: xs, s2)
  end.

(** ** open() called by several threads

    notifyIntentToOpen tests the size under the mutex and releases it before
    the new file is inserted (LRUFileManager.cpp:39-58, FileManager.icpp:44-55).
    Only the number of files is kept; nothing can be closed. *)
Record threads : Type := mkT { t_size : nat; t_passed : nat -> bool }.
Inductive top : Type := TIntent (i : nat) | TInsert (i : nat).
Definition tstep (limit n : nat) (s : threads) (o : top) : option threads :=
  match o with
  | TIntent i => if (i <? n) && negb (t_passed s i) && (t_size s <? limit) then Some (mkT (t_size s) (upd (t_passed s) i true)) else None
  | TInsert i => if (i <? n) && t_passed s i then Some (mkT (S (t_size s)) (upd (t_passed s) i false)) else None
  end.
Fixpoint trun (limit n : nat) (s : threads) (l : list top) : option threads :=
  match l with
  | [] => Some s
  | o :: r => match tstep limit n s o with Some s1 => trun limit n s1 r | None => None end
  end.
