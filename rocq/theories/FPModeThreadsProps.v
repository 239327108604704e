(** Property C150, continued: the mode of a file handler used by several threads. *)
From Coq Require Import List Arith Bool Lia.
From Verif Require Import FPThreadsModel FPThreadsSpec FPThreadsProofs FPThreadsProofs2 FPThreadsProofs3.
Import ListNotations.

(** The request a thread is inside of. *)
Definition wants (p : tpc) : option (nat * bool) :=
  match p with
  | GFile h w | GHand h w | GMode h w | GShut h w _ | GPick h w | GIntent h w | GCall h w _ _ _ | GEvict h w _ _ _ | GErase h w _ _
  | GNext h w _ | GOpen h w | GInsert h w _ | GList h w _ | GUse h w _ | GGive h w _ => Some (h, w)
  | _ => None
  end.
(** What was asked for: [A h w] is kept by every transition that is not a request. *)
Definition accounted (A : nat -> bool -> Prop) (s : state) : Prop :=
  (forall h, rdonly s h = false -> A h true) /\ (forall t h w, wants (pcs s t) = Some (h, w) -> A h w).

Lemma accounted_goto A s s' t p : accounted A s -> rdonly s' = rdonly s -> pcs s' = upd (pcs s) t p ->
  (forall h w, wants p = Some (h, w) -> A h w) -> accounted A s'.
Proof.
  intros [A1 A2] R P W. split; [rewrite R; exact A1|]. intros u h w. rewrite P. unfold upd. destruct (u =? t); [apply W | apply A2].
Qed.
Lemma run_accounted A limit t ok s s' : accounted A s -> run limit t ok s = Next s' -> accounted A s'.
Proof.
  intros G E. assert (W : forall h w, wants (pcs s t) = Some (h, w) -> A h w) by (intros h w; apply (proj2 G)).
  unfold run in E. destruct (pcs s t) as [|h w|h w|h w|h w i|h w|h w|h w nd i o|h w nd i o|h w i o|h w nd|h w|h w i|h w i|h w i|h w i|h w|k|h w|l|l i o|l i o|l i o] eqn:P; cbn [wants] in W;
    unfold shut, erase, visit in E;
    try match type of E with context [match l with _ => _ end] => destruct l as [|l0 l] end;
    repeat match type of E with
    | (if ?b then _ else _) = _ => destruct b eqn:?
    | match ?x with _ => _ end = _ => destruct x eqn:?
    end; try discriminate; injection E as <-;
    try (eapply accounted_goto; [exact G | try reflexivity | reflexivity | cbn [wants]; try discriminate; exact W]; fail).
  all: try (eapply accounted_goto; [exact G | cbn; unfold unlock_file; destruct w; reflexivity | cbn; unfold unlock_file; destruct w; reflexivity | cbn [wants]; discriminate]).
  - (* GMode, the mode is set *)
    split.
    + cbn. intros h0. unfold upd. destruct (h0 =? h) eqn:Q; [|apply (proj1 G)].
      intros X. apply Nat.eqb_eq in Q. subst h0. apply negb_false_iff in X. subst w. apply W. reflexivity.
    + cbn. intros u h0 w0. unfold upd. destruct (u =? t); [apply W | apply (proj2 G)].
Qed.

(** However the threads interleave: a handler is in write mode only if a thread has asked
    for a write accessor of it; and every live accessor has the mode of its handler. *)
Theorem C150_threads_write_mode : forall limit n l s h, exec limit n start l = Some s -> rdonly s h = false ->
  exists t, In (Call t (Get h true)) l.
Proof.
  intros limit n l s h E. 
  assert (K : forall l A s s', accounted A s -> exec limit n s l = Some s' ->
    accounted (fun h w => A h w \/ exists t, In (Call t (Get h w)) l) s').
  { clear. induction l as [|a l IH]; intros A s s' G E; cbn [exec] in E.
    - injection E as <-. destruct G as [G1 G2]. split; [intros h H; left; auto | intros t h w H; left; eauto].
    - destruct (step limit n s a) as [s1| |] eqn:S1; try discriminate.
      assert (G1 : accounted (fun h w => A h w \/ exists t, a = Call t (Get h w)) s1).
      { assert (G0 : accounted (fun h w => A h w \/ exists t, a = Call t (Get h w)) s).
        { destruct G as [G1 G2]. split; [intros h H; left; auto | intros t h w H; left; eauto]. }
        destruct a as [t r|t ok]; cbn [step] in S1; (destruct (t <? n); [|discriminate]).
        - unfold call in S1. destruct (pcs s t) eqn:P; try discriminate. destruct r as [h w|k|].
          + injection S1 as <-. eapply accounted_goto; [exact G0 | reflexivity | reflexivity|]. cbn [wants]. intros h0 w0 X. injection X as <- <-. right. eauto.
          + destruct (existsb _ (accs s) && _); [|discriminate]. injection S1 as <-. eapply accounted_goto; [exact G0 | reflexivity | reflexivity | discriminate].
          + injection S1 as <-. eapply accounted_goto; [exact G0 | reflexivity | reflexivity | discriminate].
        - apply (run_accounted _ _ _ _ _ _ G0 S1). }
      destruct (IH _ _ _ G1 E) as [H1 H2].
      assert (C : forall h w, (A h w \/ (exists t, a = Call t (Get h w))) \/ (exists t, In (Call t (Get h w)) l) -> A h w \/ exists t, In (Call t (Get h w)) (a :: l)).
      { intros h w [[X|[t ->]]|[t X]]; [auto | right; exists t; left; reflexivity | right; exists t; right; exact X]. }
      split; [intros h H; apply C, H1, H | intros t h w H; apply C, (H2 t), H]. }
  intros H. destruct (K l (fun _ _ => False) start s) with (2 := E) as [H1 _].
  - split; [discriminate | intros t h0 w0; discriminate].
  - destruct (H1 h H) as [[]|X]. exact X.
Qed.
Print Assumptions C150_threads_write_mode.
Theorem C150_threads_mode_of_accessors : forall limit n s a, reached limit n s -> In a (accs s) ->
  rdonly s (a_handler a) = negb (a_write a).
Proof. intros limit n s a R I. apply (m_acc _ _ (reached_modes limit n s R) a I). Qed.
Print Assumptions C150_threads_mode_of_accessors.

Example C150_threads_case : exists s, exec 3 2 start ([Call 0 (Get 0 true); Call 1 (Get 1 false)] ++ repeat (Run 0 true) 10 ++ repeat (Run 1 true) 10) = Some s /\
  rdonly s 0 = false /\ rdonly s 1 = true.
Proof.
  exists (match exec 3 2 start ([Call 0 (Get 0 true); Call 1 (Get 1 false)] ++ repeat (Run 0 true) 10 ++ repeat (Run 1 true) 10) with Some s => s | None => start end).
  split; vm_compute; auto.
Qed.
