(** C137-C140: the file pool used by several threads. *)
From Coq Require Import List Arith Bool Lia.
From Verif Require Import FPThreadsModel FPThreadsSpec FPThreadsProofs FPThreadsProofs2 FPThreadsProofs3 FPThreadsProofs4 FPThreadsProofs5.
Import ListNotations.

(** ** C137: live accessors *)

(** In every interleaving, each live accessor has a descriptor of its own that is
    open, belongs to the file of the accessor and was opened in its mode. *)
Theorem C137_accessors_own_their_files : forall limit n s, reached limit n s ->
  NoDup (opened s) /\ NoDup (map a_fid (accs s)) /\
  forall a, In a (accs s) -> In (a_fid a) (opened s) /\ owner s (a_fid a) = a_handler a /\ writable s (a_fid a) = a_write a.
Proof.
  intros limit n s R. pose proof (reached_inv limit n s R) as I. split; [exact (nodup_opened n s I)|]. split; [exact (acc_distinct n s I)|]. intros a Ha.
  split; [exact (acc_open n s a I Ha)|]. split; [exact (v_acc _ _ I a Ha)|]. apply (m_acc _ _ (reached_modes limit n s R) a Ha).
Qed.
Print Assumptions C137_accessors_own_their_files.

(** An accessor for writing is the only one of its file. *)
Theorem C137_writer_is_alone : forall limit n s a b, reached limit n s -> In a (accs s) -> In b (accs s) -> a_handler a = a_handler b -> a_write a = true -> a = b.
Proof. intros limit n s a b R. exact (writer_alone n s a b (reached_inv limit n s R)). Qed.
Print Assumptions C137_writer_is_alone.

(** Two threads read file 0, one writes file 1. *)
Definition turns (t k : nat) : list action := repeat (Run t true) k.
Definition three_accessors : list action :=
  [Call 0 (Get 0 false); Call 1 (Get 1 true); Call 2 (Get 0 false)] ++ turns 0 3 ++ turns 1 10 ++ turns 0 7 ++ turns 2 10.
Example ex_three_accessors : match exec 3 3 start three_accessors with
  | Some s => accs s = [mkA 2 2 0 false; mkA 1 1 0 false; mkA 0 0 1 true] /\ opened s = [2; 1; 0] /\ quiet 3 s
  | None => False end.
Proof. vm_compute. split; [reflexivity|]. split; [reflexivity|]. intros [|[|[|t]]] H; reflexivity. Qed.

(** ** C138: open files *)

(** With [n] threads at most [n - 1] files are open beyond the limit. *)
Theorem C138_open_files_bound : forall limit n s, reached limit n s -> length (opened s) <= limit + (n - 1).
Proof. exact opened_bound. Qed.
Print Assumptions C138_open_files_bound.

Definition overtaking : list action := [Call 0 (Get 0 false)] ++ turns 0 5 ++ [Call 1 (Get 1 false)] ++ turns 1 10 ++ turns 0 5.
Theorem C138_within_limit_refuted : exists limit n s, reached limit n s /\ quiet n s /\ limit < length (opened s).
Proof.
  exists 1, 2, (match exec 1 2 start overtaking with Some s => s | None => start end).
  split; [exists overtaking; vm_compute; reflexivity|]. split; [intros [|[|t]] H; [reflexivity|reflexivity|lia]|vm_compute; lia].
Qed.
Print Assumptions C138_within_limit_refuted.

(** When no call is running, every open file is in exactly one place, an accessor
    or the available descriptors of one handler, and the manager knows exactly
    the open files. *)
Theorem C138_no_file_is_lost : forall limit n s, reached limit n s -> quiet n s ->
  (forall i, In i (opened s) ->
     ((exists a, In a (accs s) /\ a_fid a = i) /\ (forall h, ~ In i (avail s h)))
     \/ ((forall a, In a (accs s) -> a_fid a <> i) /\ exists h, In i (avail s h) /\ forall h2, In i (avail s h2) -> h2 = h)) /\
  (forall i, (In i (files s) <-> In i (opened s)) /\ (In i (map snd (nodes s)) <-> In i (opened s))) /\
  length (files s) = length (opened s).
Proof.
  intros limit n s R Q. pose proof (reached_inv limit n s R) as I. split; [intros i; exact (quiet_places n s i I Q)|]. split; [intros i; exact (quiet_registered n s i I Q)|exact (quiet_length n s I Q)].
Qed.
Print Assumptions C138_no_file_is_lost.

(** Two threads at the limit of two files: the file of handler 0 is closed for the
    one of handler 2. *)
Example ex_eviction : match exec 2 2 start ([Call 0 (Get 0 false)] ++ turns 0 10 ++ [Call 1 (Get 1 false)] ++ turns 1 10 ++ [Call 0 (Release 0)] ++ turns 0 2 ++ [Call 1 (Get 2 true)] ++ turns 1 14) with
  | Some s => accs s = [mkA 2 2 2 true; mkA 1 1 1 false] /\ opened s = [2; 1] /\ avail s 0 = [] /\ quiet 2 s
  | None => False end.
Proof. vm_compute. repeat split. intros [|[|t]] H; reflexivity. Qed.

(** ** C139: waiting *)

(** While the number of calls to getAccessor stays within the limit, threads that
    all wait do so for live accessors of the files they ask for. *)
Theorem C139_only_waits_for_accessors : forall limit n l s, exec limit n start l = Some s -> gets l <= limit -> stuck limit n s ->
  forall t, t < n -> pcs s t = Idle \/ waits_for_accessor t s.
Proof.
  intros limit n l s E G S. apply (stuck_why limit n s); [apply (reached_inv limit); exists l; exact E|exact S|]. intros t h w nd i o Ht Q. pose proof (no_eviction limit n l s t E G Ht) as N. rewrite Q in N. discriminate.
Qed.
Print Assumptions C139_only_waits_for_accessors.

(** The same for longer histories as long as there is room. *)
Theorem C139_only_waits_for_accessors_with_room : forall limit n l s, exec limit n start l = Some s -> roomy limit n l -> stuck limit n s ->
  forall t, t < n -> pcs s t = Idle \/ waits_for_accessor t s.
Proof.
  intros limit n l s E G S. apply (stuck_why limit n s); [apply (reached_inv limit); exists l; exact E|exact S|]. intros t h w nd i o Ht Q. pose proof (room_no_eviction limit n l s G E t Ht) as N. rewrite Q in N. discriminate.
Qed.
Print Assumptions C139_only_waits_for_accessors_with_room.

(** Once no accessor is alive, not all the threads inside a call wait. *)
Theorem C139_no_deadlock_without_accessors : forall limit n l s, exec limit n start l = Some s -> gets l <= limit -> accs s = [] -> ~ stuck limit n s.
Proof.
  intros limit n l s E G A S. destruct S as ((t & Ht & N) & B). destruct (C139_only_waits_for_accessors limit n l s E G (conj (ex_intro _ t (conj Ht N)) B) t Ht) as [Q|(h & w & a & _ & Q & _)]; [contradiction|]. rewrite A in Q. destruct Q.
Qed.
Print Assumptions C139_no_deadlock_without_accessors.

(** At any time, threads that all wait do so for live accessors, or one of them is
    asking a handler to close a file. *)
Theorem C139_deadlock_needs_eviction : forall limit n s, reached limit n s -> stuck limit n s ->
  (exists t h w nd i o, t < n /\ pcs s t = GCall h w nd i o) \/ forall t, t < n -> pcs s t = Idle \/ waits_for_accessor t s.
Proof.
  intros limit n s R S. pose proof (reached_inv limit n s R) as I.
  assert (D : (exists t, In t (seq 0 n) /\ (match pcs s t with GCall _ _ _ _ _ => true | _ => false end) = true) \/ forall t, In t (seq 0 n) -> (match pcs s t with GCall _ _ _ _ _ => true | _ => false end) = false).
  { destruct (existsb (fun t => match pcs s t with GCall _ _ _ _ _ => true | _ => false end) (seq 0 n)) eqn:E; [left; apply existsb_exists; exact E|right].
    intros t Ht. destruct (match pcs s t with GCall _ _ _ _ _ => true | _ => false end) eqn:Q; [|reflexivity]. rewrite <- E. symmetry. apply existsb_exists. exists t. auto. }
  destruct D as [(t & T1 & T2)|D].
  - left. apply in_seq in T1. destruct (pcs s t) as [|h w|h w|h w|h w i|h w|h w|h w nd i o|h w nd i o|h w i o|h w nd|h w|h w i|h w i|h w i|h w i|h w|k|h w|l|l i o|l i o|l i o] eqn:E; try discriminate. exists t, h, w, nd, i, o. split; [lia|exact E].
  - right. apply (stuck_why limit n s I S). intros t h w nd i o Ht Q. specialize (D t ltac:(apply in_seq; lia)). rewrite Q in D. discriminate.
Qed.
Print Assumptions C139_deadlock_needs_eviction.

(** Two threads that read two files wait for each other for ever at a limit of two. *)
Definition crossing : list action :=
  [Call 0 (Get 0 false)] ++ turns 0 10 ++ [Call 0 (Release 0)] ++ turns 0 2 ++ [Call 1 (Get 1 false)] ++ turns 1 10 ++
  [Call 1 (Get 1 false)] ++ turns 1 5 ++ [Call 0 (Get 0 false)] ++ turns 0 6 ++ [Call 0 (Get 0 false)] ++ turns 0 5.
Theorem C139_no_deadlock_refuted : exists limit s, reached limit 2 s /\ stuck limit 2 s /\ forall t, t < 2 -> ~ waits_for_accessor t s.
Proof.
  exists 2, (match exec 2 2 start crossing with Some s => s | None => start end).
  split; [exists crossing; vm_compute; reflexivity|]. split.
  - split; [exists 0; split; [lia|vm_compute; discriminate]|]. intros [|[|t]] H; [right; split; [vm_compute; discriminate|intros []; vm_compute; reflexivity]|right; split; [vm_compute; discriminate|intros []; vm_compute; reflexivity]|lia].
  - intros [|[|t]] H (h & w & a & Q & _); [vm_compute in Q; discriminate|vm_compute in Q; discriminate|lia].
Qed.
Print Assumptions C139_no_deadlock_refuted.
Definition twice : list action := [Call 0 (Get 0 false)] ++ turns 0 10 ++ [Call 0 (Get 0 false)] ++ turns 0 5.
(** One thread that reads the same file twice waits for itself at a limit of one. *)
Theorem C139_one_thread_refuted : exists limit s, reached limit 1 s /\ stuck limit 1 s /\ ~ waits_for_accessor 0 s.
Proof.
  exists 1, (match exec 1 1 start twice with Some s => s | None => start end).
  split; [exists twice; vm_compute; reflexivity|]. split.
  - split; [exists 0; split; [lia|vm_compute; discriminate]|]. intros [|t] H; [right; split; [vm_compute; discriminate|intros []; vm_compute; reflexivity]|lia].
  - intros (h & w & a & Q & _). vm_compute in Q. discriminate.
Qed.
Print Assumptions C139_one_thread_refuted.

(** A writer that waits for a reader. *)
Example ex_waits : match exec 5 2 start ([Call 0 (Get 0 false)] ++ turns 0 10 ++ [Call 1 (Get 0 true)]) with
  | Some s => waits 5 1 s /\ waits_for_accessor 1 s
  | None => False end.
Proof. vm_compute. split; [split; [discriminate|intros []; reflexivity]|]. exists 0, true, (mkA 0 0 0 false). auto. Qed.

(** ** C140: defined behaviour *)

(** Whatever the interleaving, undefined behaviour only comes from going on with
    the list of files after a file was not closed in its turn, or from closeAll. *)
Theorem C140_undefined_where : forall limit n s t, reached limit n s -> t < n -> undefined limit t s ->
  (exists h w nd, pcs s t = GNext h w nd) \/ (exists l, pcs s t = CList l).
Proof.
  intros limit n s t R Ht (ok & U). destruct (undefined_where limit n s t ok (reached_inv limit n s R) Ht U) as [(h & w & nd & A & _)|(i & l & A & _)]; [left; exists h, w, nd; exact A|right; exists (i :: l); exact A].
Qed.
Print Assumptions C140_undefined_where.

(** Within the limit and without closeAll the behaviour is defined. *)
Theorem C140_defined : forall limit n l s t, exec limit n start l = Some s -> gets l <= limit -> no_close_all l -> t < n -> ~ undefined limit t s.
Proof.
  intros limit n l s t E G C Ht U. destruct (C140_undefined_where limit n s t (ex_intro _ l E) Ht U) as [(h & w & nd & A)|(k & A)].
  - pose proof (no_eviction limit n l s t E G Ht) as N. rewrite A in N. discriminate.
  - pose proof (exec_closing limit n l start s (fun _ => eq_refl) C E t) as N. rewrite A in N. discriminate.
Qed.
Print Assumptions C140_defined.

Theorem C140_defined_with_room : forall limit n l s t, exec limit n start l = Some s -> roomy limit n l -> no_close_all l -> t < n -> ~ undefined limit t s.
Proof.
  intros limit n l s t E G C Ht U. destruct (C140_undefined_where limit n s t (ex_intro _ l E) Ht U) as [(h & w & nd & A)|(k & A)].
  - pose proof (room_no_eviction limit n l s G E t Ht) as N. rewrite A in N. discriminate.
  - pose proof (exec_closing limit n l start s (fun _ => eq_refl) C E t) as N. rewrite A in N. discriminate.
Qed.
Print Assumptions C140_defined_with_room.

(** One thread has no undefined behaviour at all. *)
Theorem C140_one_thread : forall limit s, reached limit 1 s -> ~ undefined limit 0 s.
Proof. intros limit s R (ok & U). exact (one_thread limit s ok R U). Qed.
Print Assumptions C140_one_thread.

(** Two threads at the limit: one goes on from a node of the list that the other
    has removed when it took an accessor. *)
Theorem C140_eviction_refuted : exists limit l s t, exec limit 2 start l = Some s /\ t < 2 /\ no_close_all l /\ undefined limit t s.
Proof.
  set (l := [Call 0 (Get 0 false)] ++ turns 0 10 ++ [Call 0 (Release 0)] ++ turns 0 2 ++ [Call 1 (Get 1 false)] ++ turns 1 5 ++ [Call 0 (Get 0 false)] ++ turns 0 6 ++ turns 1 2).
  exists 1, l, (match exec 1 2 start l with Some s => s | None => start end), 1. split; [vm_compute; reflexivity|]. split; [lia|]. split; [|exists true; vm_compute; reflexivity].
  intros t H. cbn in H. repeat (destruct H as [H|H]; [discriminate|]). exact H.
Qed.
Print Assumptions C140_eviction_refuted.
(** closeAll uses the metadata of a file that another thread has closed. *)
Theorem C140_close_all_refuted : exists limit l s t, exec limit 2 start l = Some s /\ t < 2 /\ gets l <= limit /\ undefined limit t s.
Proof.
  set (l := [Call 0 (Get 0 false)] ++ turns 0 10 ++ [Call 0 (Release 0)] ++ turns 0 2 ++ [Call 1 CloseAll; Call 0 (Get 0 true)] ++ turns 0 4).
  exists 5, l, (match exec 5 2 start l with Some s => s | None => start end), 1. split; [vm_compute; reflexivity|]. split; [lia|]. split; [vm_compute; lia|exists true; vm_compute; reflexivity].
Qed.
Print Assumptions C140_close_all_refuted.

Example ex_defined : gets three_accessors <= 3 /\ no_close_all three_accessors.
Proof. split; [vm_compute; lia|]. intros t H. cbn in H. repeat (destruct H as [H|H]; [discriminate|]). exact H. Qed.

(** A file taken and given back many times leaves room for one more. *)
Example ex_roomy : roomy 2 1 ([Call 0 (Get 0 false)] ++ turns 0 10 ++ [Call 0 (Release 0)] ++ turns 0 2 ++ [Call 0 (Get 0 false)] ++ turns 0 6 ++ [Call 0 (Release 1)] ++ turns 0 2 ++ [Call 0 (Get 0 false)] ++ turns 0 6).
Proof.
  set (l := _ ++ _). assert (H : forallb (fun k => match exec 2 1 start (firstn k l) with Some s => length (files s) + length (filter (fun t => in_get (pcs s t)) (seq 0 1)) <=? 2 | None => true end) (seq 0 32) = true) by (vm_compute; reflexivity).
  rewrite forallb_forall in H. intros l1 l2 s Q E. assert (L : length l1 <= 31) by (change 31 with (length l); rewrite Q, app_length; lia).
  specialize (H (length l1) ltac:(apply in_seq; lia)). rewrite Q, firstn_app, firstn_all, Nat.sub_diag, app_nil_r, E in H. apply Nat.leb_le. exact H.
Qed.
