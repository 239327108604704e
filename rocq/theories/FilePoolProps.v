(** File pool: the limit, the choice of the file to close, accessors, locks and
    handlers (C29 to C34, C73, C74). *)
From Coq Require Import List Arith Bool Lia.
From Verif Require Import FilePoolModel FilePoolSpec FilePoolProofs FilePoolProofs2 FilePoolProofs3 FilePoolProofs4.
Import ListNotations.

(** * C29 *)

(** At every point of every history (calls of all threads, each call taken as a
    whole) the number of open files is at most the limit. *)
Theorem C29_open_files_within_limit : forall lim s, reachable lim s ->
  forall pre suf, log s = pre ++ suf -> length (open_ids pre) <= lim.
Proof. exact within_limit. Qed.

Theorem C29_used_and_available : forall lim s, reachable lim s ->
  get_used s = length (open_ids (log s)) /\ get_used s + get_available s = lim.
Proof. exact used_available. Qed.

(** Only a request that succeeds opens a file, and it opens one. *)
Theorem C29_only_success_opens : forall lim s o r s' evs, reachable lim s -> step s o = (r, s') -> log s' = log s ++ evs ->
  forall i h ty w, In (EOpen i h ty w) evs -> exists k, o = Get h ty w false i true /\ r = RAcc (mkA k h i ty w).
Proof. exact only_success_opens. Qed.

(** A request that opens a file first closes what its own handler has open in
    the other mode, and then exactly one file of another handler when the limit
    is still reached and none when it is not. *)
Theorem C29_open_at_limit_closes_one : forall lim s h ty w tr i ok r s' evs, reachable lim s -> step s (Get h ty w tr i ok) = (r, s') ->
  log s' = log s ++ evs -> (exists e, In e evs /\ is_open_event e) ->
  exists V, evs = map EClose (mode_change s h w) ++ map EClose V ++ [EOpen i h ty w; EUse i]
    /\ ((length (open_ids (log s ++ map EClose (mode_change s h w))) < lim /\ V = [])
        \/ (length (open_ids (log s ++ map EClose (mode_change s h w))) = lim /\ exists v h', V = [v] /\ h' <> h /\ idle s v h')).
Proof. exact open_at_limit. Qed.

(** Inside open() the test of the limit and the insertion of the file are two
    critical sections: [n] threads can exceed the limit, by at most [n - 1]. *)
Theorem C29_threads_bound : forall lim n l s, 1 <= n -> trun lim n (mkT 0 (fun _ => false)) l = Some s -> t_size s <= lim + (n - 1).
Proof. exact thread_bound. Qed.
Theorem C29_threads_within_limit_refuted : exists lim n l s, trun lim n (mkT 0 (fun _ => false)) l = Some s /\ t_size s > lim.
Proof. exists 1, 2, [TIntent 0; TIntent 1; TInsert 0; TInsert 1]. eexists. split; [reflexivity|]. cbn. lia. Qed.
Print Assumptions C29_threads_within_limit_refuted.

(** A history of a pool of two files: the third open closes the least recently
    used file. *)
Definition two_files : list op :=
  [Get 0 7 false false 3 true; Release 0; Get 1 7 false false 4 true; Release 1; Get 0 7 false false 5 true; Release 2].
Example ex_two_files : log (snd (run (new_pool 2) two_files)) = [EOpen 3 0 7 false; EUse 3; EOpen 4 1 7 false; EUse 4; EUse 3].
Proof. vm_compute. reflexivity. Qed.
Example ex_third_open : let x := step (snd (run (new_pool 2) two_files)) (Get 2 7 true false 5 true) in
  fst x = RAcc (mkA 3 2 5 7 true)
  /\ log (snd x) = [EOpen 3 0 7 false; EUse 3; EOpen 4 1 7 false; EUse 4; EUse 3; EClose 4; EOpen 5 2 7 true; EUse 5].
Proof. vm_compute. split; reflexivity. Qed.
Example ex_reachable : reachable 2 (snd (run (new_pool 2) two_files)).
Proof. exists two_files, (fst (run (new_pool 2) two_files)). apply surjective_pairing. Qed.

(** * C30 *)

(** A file of another handler is closed only at the limit; it is at rest, and
    among the files at rest in other handlers its last use is the oldest. *)
Theorem C30_victim_least_recently_used : forall lim s h ty w tr i ok r s' evs v, reachable lim s -> step s (Get h ty w tr i ok) = (r, s') ->
  log s' = log s ++ evs -> In (EClose v) evs -> ~ In v (mode_change s h w) ->
  length (open_ids (log s ++ map EClose (mode_change s h w))) = lim
  /\ (exists h', h' <> h /\ idle s v h')
  /\ (forall u h', h' <> h -> idle s u h' -> u <> v -> last_use (log s) v < last_use (log s) u).
Proof. exact victim_oldest. Qed.

(** At the limit, with nothing to reuse, a request throws iff no file of its own
    handler is open and no other file is at rest. *)
Theorem C30_throws_iff_none_closable : forall lim s h ty w i r s', reachable lim s -> step s (Get h ty w false i true) = (r, s') ->
  get_ready s h w -> ~ In i (open_ids (log s)) ->
  length (open_ids (log s ++ map EClose (mode_change s h w))) = lim ->
  (forall j, In (j, ty) (avail (hs s h)) -> In j (mode_change s h w)) ->
  (r = RThrow <-> forall u h' ty' w', opened (log s ++ map EClose (mode_change s h w)) u = Some (h', ty', w') -> h' <> h /\ ~ idle s u h').
Proof. exact throws_iff. Qed.

(** The claim that a request at the limit always closes a file or throws is
    false: when a file of the requesting handler is the oldest one, the manager
    calls back a handler whose mutex the request holds. *)
Theorem C30_never_deadlocks_refuted : exists lim ops h ty w i, Forall (fun r => exists a, r = RAcc a) (fst (run (new_pool lim) ops)) /\
  fst (step (snd (run (new_pool lim) ops)) (Get h ty w false i true)) = RDeadlock.
Proof. exists 1, [Get 0 7 false false 3 true], 0, 7, false, 4. vm_compute. split; [repeat constructor; eauto|reflexivity]. Qed.
Print Assumptions C30_never_deadlocks_refuted.

Example ex_victim : last_use (log (snd (run (new_pool 2) two_files))) 4 = 4 /\ last_use (log (snd (run (new_pool 2) two_files))) 3 = 5.
Proof. vm_compute. split; reflexivity. Qed.
Example ex_throw : fst (run (new_pool 1) [Get 0 7 false false 3 true; Get 1 7 false false 4 true]) = [RAcc (mkA 0 0 3 7 false); RThrow].
Proof. vm_compute. reflexivity. Qed.

(** * C31 *)

(** As long as an accessor lives its file is not closed, whatever happens. *)
Theorem C31_held_file_not_closed : forall lim ops s rs s' a, reachable lim s -> run s ops = (rs, s') -> In a (accs s) -> In a (accs s') ->
  exists evs, log s' = log s ++ evs /\ ~ In (EClose (a_fid a)) evs.
Proof. exact held_not_closed. Qed.

(** When it is destroyed the descriptor is at rest in its handler, and a request
    like the one that created it succeeds without opening or closing a file; a
    write accessor gets the same descriptor. *)
Theorem C31_returned_file_reused : forall lim s a r s1 i ok r2 s2, reachable lim s -> In a (accs s) ->
  step s (Release (a_key a)) = (r, s1) -> step s1 (Get (a_handler a) (a_type a) (a_write a) false i ok) = (r2, s2) ->
  r = RDone /\ idle s1 (a_fid a) (a_handler a) /\
  exists j, r2 = RAcc (mkA (next_key s) (a_handler a) j (a_type a) (a_write a)) /\ log s2 = log s ++ [EUse j]
    /\ (a_write a = true -> j = a_fid a).
Proof. exact returned_reused. Qed.

Example ex_held : let s' := snd (run (new_pool 1) [Get 0 7 true false 3 true; CloseAll; Get 1 7 false false 4 true]) in
  accs s' = [mkA 0 0 3 7 true] /\ log s' = [EOpen 3 0 7 true; EUse 3].
Proof. vm_compute. split; reflexivity. Qed.

(** * C32 *)

Theorem C32_readers_or_one_writer : forall lim s h, reachable lim s ->
  length (writers h s) = 0 \/ (length (writers h s) = 1 /\ length (live h s) = 1).
Proof. exact exclusive. Qed.

(** A request waits exactly when the file is not free for its mode. *)
Theorem C32_waits_iff_not_free : forall lim s h ty w i ok r s', reachable lim s -> step s (Get h ty w false i ok) = (r, s') ->
  (r = RBlocked <-> ~ get_ready s h w).
Proof.
  intros lim s h ty w i ok r s' HR H. destruct (get_inv _ _ _ _ _ _ _ _ _ _ HR H) as [(Rd & _ & s0 & M & B)|[(_ & C & _)|(Rd & C & _)]]; [|discriminate|tauto].
  split; [|tauto]. intros ->. inversion B.
Qed.

Example ex_readers : let x := run (new_pool 5) [Get 0 7 false false 3 true; Get 0 7 false false 4 true; Get 0 7 true false 5 true] in
  fst x = [RAcc (mkA 0 0 3 7 false); RAcc (mkA 1 0 4 7 false); RBlocked] /\ length (live 0 (snd x)) = 2.
Proof. vm_compute. split; reflexivity. Qed.
Example ex_writer : let x := run (new_pool 5) [Get 0 7 true false 3 true] in fst x = [RAcc (mkA 0 0 3 7 true)] /\ length (writers 0 (snd x)) = 1.
Proof. vm_compute. split; reflexivity. Qed.

(** * C33 *)

Theorem C33_try_mode : forall lim s h ty w i ok r s', reachable lim s -> step s (Get h ty w true i ok) = (r, s') ->
  s' = s /\ (get_ready s h w -> r = RThrow) /\ (~ get_ready s h w -> r = RNull).
Proof.
  intros lim s h ty w i ok r s' HR H. destruct (get_inv _ _ _ _ _ _ _ _ _ _ HR H) as [(_ & C & _)|[(Rd & _ & -> & ->)|(Rd & -> & ->)]]; [discriminate| |]; repeat split; auto; tauto.
Qed.
(** What the interface promises, an accessor when the file is free, is false. *)
Theorem C33_try_succeeds_when_free_refuted : exists lim s h ty w i, reachable lim s /\ get_ready s h w
  /\ forall a s', step s (Get h ty w true i true) <> (RAcc a, s').
Proof.
  exists 5, (new_pool 5), 0, 7, true, 3. split; [exists [], []; reflexivity|]. split; [intros a []|]. intros a s' H. discriminate.
Qed.
Print Assumptions C33_try_succeeds_when_free_refuted.

(** * C34 *)

(** When the deleter of a handler runs as soon as its last owner is gone, a path
    with a live handler gets that handler. *)
Theorem C34_same_handler : forall ops s rs p h, rrun new_registry (flat_map expand ops) = (rs, s) -> In (h, p) (r_live s) ->
  rstep s (RGet p) = (Some h, s).
Proof. exact aget_same. Qed.
(** In all interleavings a handler is returned for its own path only. *)
Theorem C34_distinct_paths : forall ops s rs p h s', rrun new_registry ops = (rs, s) -> rstep s (RGet p) = (Some h, s') ->
  In (h, p) (r_live s') /\ forall q, In (h, q) (r_live s') -> q = p.
Proof. exact rget_right_path. Qed.
(** When a request comes between the loss of the last owner and the deleter, the
    deleter removes the entry of the new handler: two handlers for one path. *)
Theorem C34_same_handler_refuted : exists ops s rs p h, rrun new_registry ops = (rs, s) /\ In (h, p) (r_live s)
  /\ forall s', rstep s (RGet p) <> (Some h, s').
Proof.
  exists [RGet 5; RDrop 0; RGet 5; RDelete 0]. do 2 eexists. exists 5, 1. split; [reflexivity|]. split; [left; reflexivity|].
  intros s' H. cbn in H. discriminate.
Qed.
Print Assumptions C34_same_handler_refuted.
Example ex_registry : fst (rrun new_registry (flat_map expand [AGet 5; AGet 6; AGet 5; ADrop 0; AGet 5; AGet 6])) =
  [Some 0; Some 1; Some 0; None; None; Some 2; Some 1].
Proof. reflexivity. Qed.

(** * C73 *)

(** The descriptor of an accessor was opened by its handler, with its type and in
    its mode, and has not been closed; two accessors never share one. *)
Theorem C73_accessor_descriptor : forall lim s a, reachable lim s -> In a (accs s) ->
  opened (log s) (a_fid a) = Some (a_handler a, a_type a, a_write a).
Proof. intros lim s a HR Ha. apply (iv_accs _ _ _ (proj1 (reachable_inv _ _ HR)) a Ha). Qed.
Theorem C73_no_sharing : forall lim s a b, reachable lim s -> In a (accs s) -> In b (accs s) -> a_fid a = a_fid b -> a = b.
Proof.
  intros lim s a b HR Ha Hb E. pose proof (proj1 (reachable_inv _ _ HR)) as HI.
  eapply (nodup_map_unique a_fid); eauto. eapply iv_accnd; eauto.
Qed.
(** The calls never leave defined behaviour, except that of destroying an
    accessor that does not exist or a handler that is in use. *)
Theorem C73_defined : forall lim s o s', reachable lim s -> step s o = (RUB, s') ->
  (exists k, o = Release k /\ forall a, In a (accs s) -> a_key a <> k) \/ (exists h a, o = DropHandler h /\ In a (accs s) /\ a_handler a = h).
Proof. exact no_ub. Qed.
Example ex_mode_change : log (snd (run (new_pool 5) [Get 0 7 false false 3 true; Release 0; Get 0 7 true false 4 true])) =
  [EOpen 3 0 7 false; EUse 3; EClose 3; EOpen 4 0 7 true; EUse 4].
Proof. vm_compute. reflexivity. Qed.

(** * C74 *)

(** When each handler is used with one type of descriptor, every open file is
    held by an accessor or at rest in its handler; and with no accessor left
    closing all files closes all of them. *)
Theorem C74_no_lost_file : forall lim t ops rs s, Forall (typed t) ops -> run (new_pool lim) ops = (rs, s) ->
  forall i h ty w, opened (log s) i = Some (h, ty, w) -> idle s i h \/ held s i.
Proof. exact typed_full. Qed.
Theorem C74_close_all : forall lim t ops rs s r s', Forall (typed t) ops -> run (new_pool lim) ops = (rs, s) -> accs s = [] ->
  step s CloseAll = (r, s') -> open_ids (log s') = [].
Proof. exact close_all_closes. Qed.
(** With two types it is false: a descriptor of another type is dropped without
    being closed, and its place is lost. *)
Theorem C74_close_all_refuted : exists lim ops, let s := snd (run (new_pool lim) ops) in
  accs s = [] /\ (forall h, avail (hs s h) = []) /\ open_ids (log s) = [3].
Proof.
  exists 5, [Get 0 7 true false 3 true; Release 0; Get 0 8 true false 4 true; Release 1; CloseAll]. cbv zeta.
  split; [vm_compute; reflexivity|]. split; [|vm_compute; reflexivity]. intros [|h]; vm_compute; reflexivity.
Qed.
Print Assumptions C74_close_all_refuted.
Example ex_typed : Forall (typed (fun _ => 7)) two_files /\ accs (snd (run (new_pool 2) two_files)) = []
  /\ open_ids (log (snd (run (new_pool 2) two_files))) = [4; 3].
Proof. split; [repeat constructor|]. vm_compute. split; reflexivity. Qed.

Print Assumptions C29_open_files_within_limit.
Print Assumptions C29_used_and_available.
Print Assumptions C29_only_success_opens.
Print Assumptions C29_open_at_limit_closes_one.
Print Assumptions C29_threads_bound.
Print Assumptions C30_victim_least_recently_used.
Print Assumptions C30_throws_iff_none_closable.
Print Assumptions C31_held_file_not_closed.
Print Assumptions C31_returned_file_reused.
Print Assumptions C32_readers_or_one_writer.
Print Assumptions C32_waits_iff_not_free.
Print Assumptions C33_try_mode.
Print Assumptions C34_same_handler.
Print Assumptions C34_distinct_paths.
Print Assumptions C73_accessor_descriptor.
Print Assumptions C73_no_sharing.
Print Assumptions C73_defined.
Print Assumptions C74_no_lost_file.
Print Assumptions C74_close_all.
