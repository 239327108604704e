(** The file pool used by one thread; places of the files. *)
From Coq Require Import List Arith Bool Lia.
From Verif Require Import FPThreadsModel FPThreadsProofs FPThreadsProofs2 FPThreadsSpec FPThreadsProofs3 FPThreadsProofs4.
Import ListNotations.

Ltac st := cbn [files nodes next_node next_fid next_key opened avail rdonly owner writable hlock shared excl pcs accs
                set_files set_nodes set_opened set_avail set_rdonly set_owner set_writable set_hlock set_shared set_excl set_accs goto unlock_file].

Section One.
  Variable limit : nat.
  (** The position in a list that the only thread remembers is valid. *)
  Definition steady (s : state) : Prop :=
    match pcs s 0 with
    | GCall _ _ nd _ _ | GEvict _ _ nd _ _ | GNext _ _ nd => In nd (map fst (nodes s))
    | CList l => NoDup l /\ incl l (files s)
    | CCall l i _ | CEvict l i _ | CErase l i _ => NoDup (i :: l) /\ incl l (files s)
    | _ => True
    end.
  Lemma nodup_files s : inv 1 s -> NoDup (files s).
  Proof.
    intros I. apply (NoDup_count_occ Nat.eq_dec). intros x. change (count_occ Nat.eq_dec (files s) x) with (cnt (files s) x). pose proof (v_file _ _ I x). pose proof (v_one _ _ I x). lia.
  Qed.
  Lemma step_steady s a s' : inv 1 s -> steady s -> step limit 1 s a = Next s' -> steady s'.
  Proof.
    intros I Q. destruct a as [t r|t ok]; cbn [step]; destruct (Nat.ltb_spec t 1) as [L|]; try discriminate; assert (t = 0) by lia; subst t; intros E.
    - apply call_pc in E. destruct E as (Ep & p & -> & R). unfold steady. st. rewrite upd_eq. destruct r; subst p; try exact Logic.I. split; [apply nodup_files; exact I|apply incl_refl].
    - unfold steady in Q. unfold run in E. destruct (pcs s 0) as [|h w|h w|h w|h w i|h w|h w|h w nd i o|h w nd i o|h w i o|h w nd|h w|h w i|h w i|h w i|h w i|h w|k|h w|l|l i o|l i o|l i o] eqn:Ep; try discriminate.
      all: unfold shut, erase, visit in E.
      all: repeat match type of E with
        | (if ?b then _ else _) = _ => destruct b eqn:?
        | match ?x with _ => _ end = _ => destruct x eqn:?
        | _ => idtac end; try discriminate; injection E as <-.
      all: unfold steady; try (destruct w); st; rewrite ?upd_eq; try exact Logic.I; try exact Q.
      all: try match goal with H : nodes ?z = _ :: _ |- _ => rewrite H; left; reflexivity end.
      all: try match goal with H : after _ (nodes ?z) = Some ((?x, ?y) :: _) |- _ => apply in_map_iff; exists (x, y); split; [reflexivity|]; apply (after_in _ _ _ H); left; reflexivity end.
      + destruct Q as (Q1 & Q2). split; [exact Q1|]. intros x Hx. apply Q2. right. exact Hx.
      + destruct Q as (Q1 & Q2). inversion Q1; subst. split; assumption.
      + destruct Q as (Q1 & Q2). inversion Q1; subst. split; [assumption|]. intros x Hx. apply filter_In. split; [apply Q2; exact Hx|]. apply negb_true_iff, Nat.eqb_neq. intros ->. contradiction.
  Qed.
  Lemma one_thread s ok : reached limit 1 s -> run limit 0 ok s <> Undefined.
  Proof.
    intros R E. destruct (exec_ind limit 1 steady) with (s := s) as (I & Q); [exact Logic.I|exact step_steady|exact R|].
    destruct (undefined_where limit 1 s 0 ok I Nat.lt_0_1 E) as [(h & w & nd & A & B)|(i & l & A & B)]; unfold steady in Q; rewrite A in Q.
    - revert Q B. generalize (nodes s). induction l as [|p l IH]; cbn [map after In]; intros Q B; [destruct Q|]. destruct (Nat.eqb_spec (fst p) nd) as [Z|Z]; [discriminate|]. destruct Q as [Q|Q]; [contradiction|]. exact (IH Q B).
    - apply B. apply Q. left. reflexivity.
  Qed.
End One.

(** Places of the files. *)
Lemma acc_distinct n s : inv n s -> NoDup (map a_fid (accs s)).
Proof.
  intros I. replace (map a_fid (accs s)) with (fids (accs s)) by (unfold fids; induction (accs s); [reflexivity|cbn; f_equal; assumption]).
  apply (NoDup_count_occ Nat.eq_dec). intros x. change (count_occ Nat.eq_dec (fids (accs s)) x) with (cnt (fids (accs s)) x). pose proof (v_place _ _ I x). pose proof (v_one _ _ I x). lia.
Qed.
Lemma acc_open n s a : inv n s -> In a (accs s) -> In (a_fid a) (opened s).
Proof. intros I H. apply cnt_in. destruct (acc_places n s a I H) as (A & _). lia. Qed.
(** A writer has no company. *)
Lemma writer_alone n s a b : inv n s -> In a (accs s) -> In b (accs s) -> a_handler a = a_handler b -> a_write a = true -> a = b.
Proof.
  intros I Ha Hb E W. assert (A : In (a_handler a) (wrs (accs s))) by (apply in_flat_map; exists a; split; [exact Ha|rewrite W; left; reflexivity]). apply cnt_in in A.
  pose proof (v_wr _ _ I (a_handler a)) as V. pose proof (v_rd _ _ I (a_handler a)) as R. pose proof (v_excl _ _ I (a_handler a)) as X. destruct (excl s (a_handler a)); [|lia]. rewrite X in R by reflexivity.
  assert (O : cnt (of_h (accs s)) (a_handler a) = 1) by (rewrite acc_split; lia). clear - Ha Hb E O. revert Ha Hb O. generalize (accs s). induction l as [|c l IH]; intros Ha Hb O; [destruct Ha|].
  change (of_h (c :: l)) with (a_handler c :: of_h l) in O. rewrite cnt_cons in O.
  assert (Z : forall d, In d l -> a_handler d = a_handler a -> 0 < cnt (of_h l) (a_handler a)) by (intros d D1 D2; apply cnt_in, in_flat_map; exists d; split; [exact D1|left; exact D2]).
  destruct Ha as [->|Ha], Hb as [Hb|Hb].
  - exact Hb.
  - rewrite Nat.eqb_refl in O. specialize (Z b Hb ltac:(congruence)). lia.
  - subst c. rewrite <- E, Nat.eqb_refl in O. specialize (Z a Ha eq_refl). lia.
  - apply IH; auto. specialize (Z a Ha eq_refl). destruct (a_handler c =? a_handler a); lia.
Qed.
(** When no call is running every open file is in one accessor or available in
    the handler it belongs to, and registered. *)
Lemma quiet_places n s i : inv n s -> quiet n s -> In i (opened s) ->
  ((exists a, In a (accs s) /\ a_fid a = i) /\ (forall h, ~ In i (avail s h))) \/ ((forall a, In a (accs s) -> a_fid a <> i) /\ exists h, In i (avail s h) /\ forall h2, In i (avail s h2) -> h2 = h).
Proof.
  intros I Q H. apply cnt_in in H. pose proof (v_place _ _ I i) as P. pose proof (v_one _ _ I i) as O.
  assert (Z : cnt (over n flight (pcs s)) i = 0).
  { destruct (cnt (over n flight (pcs s)) i) eqn:E; [reflexivity|]. exfalso. assert (A : In i (over n flight (pcs s))) by (apply cnt_in; lia). apply over_in in A. destruct A as (t & A1 & A2). rewrite Q in A2 by exact A1. destruct A2. }
  destruct (cnt (fids (accs s)) i) eqn:E.
  - right. split.
    + intros a Ha Ea. assert (0 < cnt (fids (accs s)) i); [|lia]. apply cnt_in, in_flat_map. exists a. split; [exact Ha|left; exact Ea].
    + exists (owner s i). split; [apply cnt_in; lia|]. intros h2 H2. symmetry. exact (v_own _ _ I i h2 H2).
  - left. split.
    + assert (A : In i (fids (accs s))) by (apply cnt_in; lia). apply in_flat_map in A. destruct A as (a & A1 & [A2|[]]). exists a. auto.
    + intros h B. pose proof (v_own _ _ I i h B) as W. apply cnt_in in B. rewrite <- W in B. lia.
Qed.
Lemma quiet_registered n s i : inv n s -> quiet n s -> (In i (files s) <-> In i (opened s)) /\ (In i (map snd (nodes s)) <-> In i (opened s)).
Proof.
  intros I Q. assert (Z : forall g, g Idle = [] -> cnt (over n g (pcs s)) i = 0).
  { intros g G. destruct (cnt (over n g (pcs s)) i) eqn:E; [reflexivity|]. exfalso. assert (A : In i (over n g (pcs s))) by (apply cnt_in; lia). apply over_in in A. destruct A as (t & A1 & A2). rewrite Q, G in A2 by exact A1. destruct A2. }
  pose proof (v_file _ _ I i) as F. pose proof (v_node _ _ I i) as N. rewrite (Z uninserted), (Z dying) in F by reflexivity. rewrite (Z unlisted) in N by reflexivity. rewrite !cnt_in. lia.
Qed.
Lemma quiet_length n s : inv n s -> quiet n s -> length (files s) = length (opened s).
Proof.
  intros I Q. assert (D : NoDup (files s)).
  { apply (NoDup_count_occ Nat.eq_dec). intros x. change (count_occ Nat.eq_dec (files s) x) with (cnt (files s) x). pose proof (v_file _ _ I x). pose proof (v_one _ _ I x). lia. }
  apply Nat.le_antisymm; apply NoDup_incl_length; try (exact D || (eapply nodup_opened; exact I)); intros i H; apply (proj1 (quiet_registered n s i I Q)); exact H.
Qed.

(** With room no file is evicted. *)
Lemma exec_app limit n l1 : forall l2 s, exec limit n s (l1 ++ l2) = match exec limit n s l1 with Some s1 => exec limit n s1 l2 | None => None end.
Proof. induction l1 as [|a l1 IH]; intros l2 s; [reflexivity|]. cbn [app exec]. destruct (step limit n s a); auto. Qed.
Lemma run_evicting limit t ok s s' : run limit t ok s = Next s' -> evicting (pcs s t) = false -> length (files s) < limit \/ (forall h w, pcs s t <> GIntent h w) -> exists p, pcs s' = upd (pcs s) t p /\ evicting p = false.
Proof.
  unfold run. destruct (pcs s t) as [|h w|h w|h w|h w i|h w|h w|h w nd i o|h w nd i o|h w i o|h w nd|h w|h w i|h w i|h w i|h w i|h w|k|h w|l|l i o|l i o|l i o] eqn:Ep; intros E Q R; try discriminate.
  6: { destruct R as [R|R]; [|exfalso; exact (R h w eq_refl)]. apply Nat.ltb_lt in R. rewrite R in E. injection E as <-. eexists. split; [st; reflexivity|reflexivity]. }
  all: clear R; unfold shut, erase, visit in E.
  all: repeat match type of E with
    | (if ?b then _ else _) = _ => destruct b eqn:?
    | match ?x with _ => _ end = _ => destruct x eqn:?
    | _ => idtac end; try discriminate; injection E as <-.
  all: try (eexists; split; [destruct w; st; reflexivity|reflexivity]).
  all: eexists; split; [st; reflexivity|reflexivity].
Qed.
Lemma room_no_eviction limit n l : forall s, roomy limit n l -> exec limit n start l = Some s -> forall t, t < n -> evicting (pcs s t) = false.
Proof.
  induction l as [|a l IH] using rev_ind; intros s R E u Hu; [injection E as <-; reflexivity|]. rewrite exec_app in E. destruct (exec limit n start l) as [s1|] eqn:E1; [|discriminate].
  assert (R1 : roomy limit n l) by (intros l1 l2 s2 Q Ex; apply (R l1 (l2 ++ [a])); [rewrite Q, app_assoc; reflexivity|exact Ex]). specialize (IH s1 R1 eq_refl).
  specialize (R l [a] s1 eq_refl E1). cbn [exec] in E. destruct (step limit n s1 a) as [s2| |] eqn:Es; try discriminate. injection E as <-.
  destruct a as [t r|t ok]; cbn [step] in Es; destruct (Nat.ltb_spec t n) as [L|]; try discriminate.
  - apply call_pc in Es. destruct Es as (Ep & p & -> & Q). st. rewrite upd_if. destruct (u =? t); [destruct r; subst p; reflexivity|apply IH; exact Hu].
  - apply run_evicting in Es; [|apply IH; exact L|].
    + destruct Es as (p & P1 & P2). rewrite P1, upd_if. destruct (u =? t); [exact P2|apply IH; exact Hu].
    + destruct (pcs s1 t) eqn:Ep; try (right; discriminate). left. assert (In t (filter (fun t => in_get (pcs s1 t)) (seq 0 n))) by (apply filter_In; split; [apply in_seq; lia|rewrite Ep; reflexivity]).
      destruct (filter (fun t => in_get (pcs s1 t)) (seq 0 n)); [contradiction|cbn [length] in R; lia].
Qed.
