(** The invariant of the file pool used by several threads and its preservation. *)
From Coq Require Import List Arith Bool Lia.
From Verif Require Import FPThreadsModel FPThreadsProofs.
Import ListNotations.

(** What the positions of the threads mean. *)
Definition flight (p : tpc) : list nat := match p with GInsert _ _ i | GList _ _ i | GUse _ _ i | GGive _ _ i => [i] | _ => [] end.
Definition unlisted (p : tpc) : list nat := match p with GInsert _ _ i | GList _ _ i => [i] | _ => [] end.
Definition uninserted (p : tpc) : list nat := match p with GInsert _ _ i => [i] | _ => [] end.
Definition dying (p : tpc) : list nat := match p with GShut _ _ i | GErase _ _ i _ | CErase _ i _ => [i] | _ => [] end.
Definition holds (p : tpc) : list nat :=
  match p with
  | GMode h _ | GShut h _ _ | GPick h _ | GIntent h _ | GCall h _ _ _ _ | GNext h _ _ | GOpen h _ | GInsert h _ _ | GList h _ _ | GUse h _ _ | GGive h _ _ | GThrow h _ => [h]
  | GEvict h _ _ _ o | GErase h _ _ o => [h; o]
  | CEvict _ _ o | CErase _ _ o => [o]
  | _ => []
  end.
(** Handler and mode of a thread that has m_file_mutex. *)
Definition locked (p : tpc) : option (nat * bool) :=
  match p with
  | GHand h w | GMode h w | GShut h w _ | GPick h w | GIntent h w | GCall h w _ _ _ | GEvict h w _ _ _ | GErase h w _ _ | GNext h w _ | GOpen h w | GInsert h w _ | GList h w _
  | GUse h w _ | GGive h w _ | GThrow h w | RUnlock h w => Some (h, w)
  | _ => None
  end.
Definition rd (p : tpc) : list nat := match locked p with Some (h, false) => [h] | _ => [] end.
Definition wr (p : tpc) : list nat := match locked p with Some (h, true) => [h] | _ => [] end.
Definition flight_of (p : tpc) : list nat := match p with GInsert h _ _ | GList h _ _ | GUse h _ _ | GGive h _ _ => [h] | _ => [] end.
Definition rel (p : tpc) : list nat := match p with RHand k => [k] | _ => [] end.
(** Past the change of mode; before the opening. *)
Definition moded (p : tpc) : option (nat * bool) :=
  match p with
  | GPick h w | GIntent h w | GCall h w _ _ _ | GEvict h w _ _ _ | GErase h w _ _ | GNext h w _ | GOpen h w | GInsert h w _ | GList h w _ | GUse h w _ | GGive h w _ => Some (h, w)
  | _ => None
  end.
Definition opening (p : tpc) : option nat :=
  match p with GIntent h _ | GCall h _ _ _ _ | GEvict h _ _ _ _ | GErase h _ _ _ | GNext h _ _ | GOpen h _ => Some h | _ => None end.
(** The file that is being handed over, once registered. *)
Definition given (p : tpc) : option (nat * nat) := match p with GList h _ i | GUse h _ i | GGive h _ i => Some (h, i) | _ => None end.

Definition fids (l : list acc) : list nat := flat_map (fun a => [a_fid a]) l.
Definition keys (l : list acc) : list nat := flat_map (fun a => [a_key a]) l.
Definition of_h (l : list acc) : list nat := flat_map (fun a => [a_handler a]) l.
Definition rds (l : list acc) : list nat := flat_map (fun a => if a_write a then [] else [a_handler a]) l.
Definition wrs (l : list acc) : list nat := flat_map (fun a => if a_write a then [a_handler a] else []) l.
Lemma acc_out (g : acc -> list nat) k l a x : find (fun a => a_key a =? k) l = Some a -> cnt (keys l) k <= 1 ->
  cnt (flat_map g (filter (fun b => negb (a_key b =? k)) l)) x + cnt (g a) x = cnt (flat_map g l) x.
Proof.
  assert (Z : forall l, cnt (keys l) k = 0 -> filter (fun b => negb (a_key b =? k)) l = l).
  { induction l0 as [|b l0 IH]; intros H; [reflexivity|]. cbn [filter keys flat_map app] in *. rewrite cnt_cons in H. destruct (a_key b =? k) eqn:E; [lia|]. cbn [negb]. f_equal. apply IH. exact H. }
  induction l as [|b l IH]; intros F C; [discriminate|]. cbn [find filter flat_map keys app] in *. rewrite cnt_cons in C. rewrite cnt_app. destruct (a_key b =? k) eqn:E; cbn [negb].
  - injection F as ->. rewrite Z by (fold (keys l) in C; lia). lia.
  - cbn [flat_map]. rewrite cnt_app. specialize (IH F ltac:(fold (keys l) in C; lia)). lia.
Qed.
Lemma acc_split l h : cnt (of_h l) h = cnt (rds l) h + cnt (wrs l) h.
Proof. induction l as [|a l IH]; [reflexivity|]. cbn [of_h rds wrs flat_map]. rewrite !cnt_app. fold (of_h l) (rds l) (wrs l). destruct (a_write a); cbn [app]; rewrite ?cnt_cons, ?cnt_nil; lia. Qed.

Lemma upd_if {A} (f : nat -> A) i a j : upd f i a j = if j =? i then a else f j.
Proof. reflexivity. Qed.

Section Inv.
  Variables limit n : nat.
  Notation run := (run limit).
  Notation step := (step limit n).
  Notation exec := (exec limit n).
  Notation sum g s := (cnt (over n g (pcs s))).

  Record inv (s : state) : Prop := {
    v_own : forall i h, In i (avail s h) -> owner s i = h;
    v_place : forall i, cnt (opened s) i = cnt (avail s (owner s i)) i + cnt (fids (accs s)) i + sum flight s i;
    v_one : forall i, cnt (opened s) i + sum dying s i <= 1;
    v_node : forall i, cnt (map snd (nodes s)) i + sum unlisted s i = cnt (opened s) i;
    v_file : forall i, cnt (files s) i + sum uninserted s i = cnt (opened s) i + sum dying s i;
    v_fresh : forall i, next_fid s <= i -> cnt (opened s) i + sum dying s i = 0;
    v_key : forall k, cnt (keys (accs s)) k <= 1;
    v_nkey : forall k, next_key s <= k -> cnt (keys (accs s)) k = 0;
    v_rel : forall k, sum rel s k <= cnt (keys (accs s)) k;
    v_rd : forall h, cnt (rds (accs s)) h + sum rd s h = shared s h;
    v_wr : forall h, cnt (wrs (accs s)) h + sum wr s h = if excl s h then 1 else 0;
    v_excl : forall h, excl s h = true -> shared s h = 0;
    v_hold : forall h, sum holds s h = match hlock s h with Some _ => 1 | None => 0 end;
    v_mode : forall t h w, t < n -> moded (pcs s t) = Some (h, w) -> rdonly s h = negb w;
    v_acc : forall a, In a (accs s) -> owner s (a_fid a) = a_handler a;
    v_given : forall t h i, t < n -> given (pcs s t) = Some (h, i) -> owner s i = h;
    v_empty : forall t h, t < n -> opening (pcs s t) = Some h -> avail s h = [];
    v_load : forall h, rdonly s h = false -> length (avail s h) + cnt (of_h (accs s)) h + sum flight_of s h <= 1
  }.
  Lemma inv_start : inv start.
  Proof.
    assert (Z : forall g x, g Idle = [] -> cnt (over n g (fun _ => Idle)) x = 0).
    { intros g x E. unfold over. induction (seq 0 n); [reflexivity|]. cbn [flat_map]. rewrite cnt_app, IHl, E. reflexivity. }
    split; cbn; intros; rewrite ?Z by reflexivity; try lia; try contradiction; try discriminate.
  Qed.

  (** Only one thread holds the mutex of a handler. *)
  Lemma hold_one s t u h : inv s -> t < n -> u < n -> In h (holds (pcs s t)) -> In h (holds (pcs s u)) -> t = u.
  Proof.
    intros I Ht Hu A B. destruct (Nat.eq_dec t u) as [E|N]; [exact E|]. exfalso. pose proof (over_two n holds (pcs s) h t u Ht Hu N) as Q. rewrite (v_hold _ I) in Q.
    apply cnt_in in A, B. destruct (hlock s h); lia.
  Qed.
  Lemma hold_none s t h : inv s -> t < n -> hlock s h = None -> ~ In h (holds (pcs s t)).
  Proof. intros I Ht H A. pose proof (over_one n holds (pcs s) h t Ht) as Q. rewrite (v_hold _ I), H in Q. apply cnt_in in A. lia. Qed.
  Lemma moded_holds p h w : moded p = Some (h, w) -> In h (holds p).
  Proof. destruct p; cbn; intros E; try discriminate; injection E as <- <-; auto. Qed.
  Lemma given_holds p h i : given p = Some (h, i) -> In h (holds p) /\ In i (flight p).
  Proof. destruct p; cbn; intros E; try discriminate; injection E as <- <-; auto. Qed.
  Lemma opening_holds p h : opening p = Some h -> In h (holds p).
  Proof. destruct p; cbn; intros E; try discriminate; injection E as <-; auto. Qed.
  (** Who writes is alone. *)
  Lemma alone s t h : inv s -> t < n -> locked (pcs s t) = Some (h, true) -> flight_of (pcs s t) = [] ->
    cnt (of_h (accs s)) h = 0 /\ sum flight_of s h = 0.
  Proof.
    intros I Ht L Fl. pose proof (over_upd n (pcs s) rd t Idle h Ht) as R. pose proof (over_upd n (pcs s) wr t Idle h Ht) as W. pose proof (over_upd n (pcs s) flight_of t Idle h Ht) as F.
    assert (Q : cnt (over n flight_of (upd (pcs s) t Idle)) h <= cnt (over n rd (upd (pcs s) t Idle)) h + cnt (over n wr (upd (pcs s) t Idle)) h).
    { apply over_le. intros u _. unfold rd, wr. destruct (upd (pcs s) t Idle u) as [|h0 w|h0 w|h0 w|h0 w i|h0 w|h0 w|h0 w nd i o|h0 w nd i o|h0 w i o|h0 w nd|h0 w|h0 w i|h0 w i|h0 w i|h0 w i|h0 w|k|h0 w|l|l i o|l i o|l i o]; cbn [locked flight_of]; try destruct w; rewrite ?cnt_cons, ?cnt_nil; lia. }
    assert (E1 : rd (pcs s t) = []) by (unfold rd; rewrite L; reflexivity). assert (E2 : wr (pcs s t) = [h]) by (unfold wr; rewrite L; reflexivity).
    rewrite E1 in R. rewrite E2 in W. rewrite Fl in F. change (rd Idle) with (@nil nat) in R. change (wr Idle) with (@nil nat) in W. change (flight_of Idle) with (@nil nat) in F.
    rewrite cnt_cons, Nat.eqb_refl, !cnt_nil in W. rewrite !cnt_nil in *.
    pose proof (v_wr _ I h) as V1. pose proof (v_rd _ I h) as V2. pose proof (v_excl _ I h) as V3. rewrite acc_split. destruct (excl s h); [rewrite V3 in V2 by reflexivity|]; lia.
  Qed.

  Ltac st := cbn [files nodes next_node next_fid next_key opened avail rdonly owner writable hlock shared excl pcs accs
                  set_files set_nodes set_opened set_avail set_rdonly set_owner set_writable set_hlock set_shared set_excl set_accs goto unlock_file].
  Ltac cs := rewrite ?cnt_remove, ?cnt_unlist, ?map_app, ?cnt_app, ?cnt_cons, ?cnt_nil in *; cbn [map snd] in *; rewrite ?cnt_cons, ?cnt_nil in *.
  Ltac add s t Ht Ep g x :=
    match goal with |- context [upd (pcs s) t ?p] =>
      let H := fresh "Z" in pose proof (over_upd n (pcs s) g t p x Ht) as H; rewrite Ep in H;
      cbn [flight unlisted uninserted dying holds flight_of rel rd wr locked] in H
    end.
  Ltac eqs := repeat match goal with |- context [if ?a =? ?b then _ else _] => destruct (Nat.eqb_spec a b); subst | H : context [if ?a =? ?b then _ else _] |- _ => destruct (Nat.eqb_spec a b); subst end.
  Ltac others s t Ht Ep I := (* invariants about single threads *)
    let u := fresh "u" in let h0 := fresh "h0" in
    intros u h0; intros;
    match goal with H : context [upd (pcs s) t ?p u] |- _ => destruct (Nat.eq_dec u t) as [->|]; [rewrite upd_eq in H|rewrite upd_neq in H by assumption] end.
  Ltac go s t Ht Ep I :=
    split; st;
    [ (* own *) idtac
    | (* place *) let x := fresh "x" in intros x; pose proof (v_place _ I x); pose proof (v_one _ I x); try add s t Ht Ep flight x
    | (* one *) let x := fresh "x" in intros x; pose proof (v_one _ I x); pose proof (v_fresh _ I x); try add s t Ht Ep dying x
    | (* node *) let x := fresh "x" in intros x; pose proof (v_node _ I x); pose proof (v_one _ I x); try add s t Ht Ep unlisted x
    | (* file *) let x := fresh "x" in intros x; pose proof (v_file _ I x); pose proof (v_one _ I x); try add s t Ht Ep uninserted x; try add s t Ht Ep dying x
    | (* fresh *) let x := fresh "x" in let L := fresh "L" in intros x L; pose proof (v_fresh _ I x); try add s t Ht Ep dying x
    | (* key *) let x := fresh "x" in intros x; pose proof (v_key _ I x); pose proof (v_nkey _ I x)
    | (* nkey *) let x := fresh "x" in let L := fresh "L" in intros x L; pose proof (v_nkey _ I x)
    | (* rel *) let x := fresh "x" in intros x; pose proof (v_rel _ I x); try add s t Ht Ep rel x
    | (* rd *) let x := fresh "x" in intros x; pose proof (v_rd _ I x); try add s t Ht Ep rd x
    | (* wr *) let x := fresh "x" in intros x; pose proof (v_wr _ I x); try add s t Ht Ep wr x
    | (* excl *) let x := fresh "x" in intros x; pose proof (v_excl _ I x)
    | (* hold *) let x := fresh "x" in intros x; pose proof (v_hold _ I x); try add s t Ht Ep holds x
    | (* mode *) try others s t Ht Ep I
    | (* acc *) try exact (v_acc _ I)
    | (* given *) try others s t Ht Ep I
    | (* empty *) try others s t Ht Ep I
    | (* load *) let x := fresh "x" in let L := fresh "L" in intros x L; pose proof (v_load _ I x) as Vl; try specialize (Vl L); try add s t Ht Ep flight_of x
    ].
  Ltac bools := repeat match goal with
    | H : context [if ?b then 1 else 0] |- _ => destruct b eqn:?
    | |- context [if ?b then 1 else 0] => destruct b eqn:?
    | H : context [match ?o with Some _ => 1 | None => 0 end] |- _ => destruct o eqn:?
    | |- context [match ?o with Some _ => 1 | None => 0 end] => destruct o eqn:?
    end.
  Ltac fin := do 3 (rewrite ?upd_if in *; cs; eqs; try congruence); bools; try congruence; try lia; auto.
  Ltac easy1 I := solve [lia | exact (v_own _ I) | cs; lia | cs; eqs; lia | rewrite ?upd_if in *; cs; eqs; try congruence; lia | discriminate | assumption
    | eapply (v_mode _ I); eassumption | eapply (v_empty _ I); eassumption | eapply (v_given _ I); eassumption | fin ].
  (** Another thread is busy with another handler. *)
  Ltac apart s t Ht Ep I h :=
    match goal with
    | N : ?u <> t, M : moded (pcs s ?u) = Some (?h0, ?w0) |- _ =>
        assert (h0 <> h) by (intros ->; apply N; apply (hold_one s u t h I); [assumption|exact Ht|eapply moded_holds; exact M|rewrite Ep; cbn; auto])
    | N : ?u <> t, M : given (pcs s ?u) = Some (?h0, ?i0) |- _ =>
        assert (h0 <> h) by (intros ->; apply N; apply (hold_one s u t h I); [assumption|exact Ht|eapply proj1, given_holds; exact M|rewrite Ep; cbn; auto])
    | N : ?u <> t, M : opening (pcs s ?u) = Some ?h0 |- _ =>
        assert (h0 <> h) by (intros ->; apply N; apply (hold_one s u t h I); [assumption|exact Ht|eapply opening_holds; exact M|rewrite Ep; cbn; auto])
    end.
  Ltac far s t Ht Ep I h := apart s t Ht Ep I h; rewrite ?upd_neq by assumption; first [eapply (v_mode _ I); eassumption|eapply (v_empty _ I); eassumption].
  Ltac me H := cbn in H; try discriminate; injection H; intros; subst.

  (** A file about to be closed is available and nowhere else. *)
  Lemma shut_facts s h i : inv s -> In i (avail s h) ->
    owner s i = h /\ cnt (opened s) i = 1 /\ cnt (avail s h) i = 1 /\ cnt (fids (accs s)) i = 0 /\ sum flight s i = 0 /\ sum dying s i = 0 /\ sum unlisted s i = 0 /\ sum uninserted s i = 0 /\
    cnt (map snd (nodes s)) i = 1 /\ cnt (files s) i = 1.
  Proof.
    intros I A. pose proof (v_own _ I i h A) as O. pose proof (v_place _ I i) as P. pose proof (v_one _ I i) as Q. apply cnt_in in A. rewrite O in P.
    assert (U : sum unlisted s i <= sum flight s i + cnt (over n (fun _ => []) (pcs s)) i) by (apply over_le; intros u _; destruct (pcs s u); cbn [unlisted flight]; rewrite ?cnt_cons, ?cnt_nil; lia).
    assert (U2 : sum uninserted s i <= sum flight s i + cnt (over n (fun _ => []) (pcs s)) i) by (apply over_le; intros u _; destruct (pcs s u); cbn [uninserted flight]; rewrite ?cnt_cons, ?cnt_nil; lia).
    assert (Z : cnt (over n (fun _ => []) (pcs s)) i = 0) by (unfold over; induction (seq 0 n); auto).
    pose proof (v_node _ I i). pose proof (v_file _ I i). repeat split; lia.
  Qed.
  Lemma flight_facts s t i : inv s -> t < n -> In i (flight (pcs s t)) ->
    (forall h, ~ In i (avail s h)) /\ cnt (opened s) i = 1 /\ cnt (fids (accs s)) i = 0 /\ sum flight s i = 1 /\ sum dying s i = 0.
  Proof.
    intros I Ht A. pose proof (v_place _ I i) as P. pose proof (v_one _ I i) as Q. apply cnt_in in A. pose proof (over_one n flight (pcs s) i t Ht) as O.
    split; [|repeat split; lia]. intros h B. pose proof (v_own _ I i h B) as W. apply cnt_in in B. rewrite <- W in B. lia.
  Qed.

  Lemma out_own (av : nat -> list nat) h i (ow : nat -> nat) : (forall j h0, In j (av h0) -> ow j = h0) -> forall j h0, In j (upd av h (remove i (av h)) h0) -> ow j = h0.
  Proof. intros H j h0 Q. rewrite upd_if in Q. destruct (Nat.eqb_spec h0 h); [subst; apply filter_In in Q; destruct Q as (Q & _)|]; auto. Qed.
  Lemma out_cnt (av : nat -> list nat) h i k x : cnt (upd av h (remove i (av h)) k) x = if k =? h then if x =? i then 0 else cnt (av k) x else cnt (av k) x.
  Proof. rewrite upd_if. destruct (Nat.eqb_spec k h); [subst; apply cnt_remove|reflexivity]. Qed.
  Lemma out_len (av : nat -> list nat) h i k : length (upd av h (remove i (av h)) k) <= length (av k).
  Proof. rewrite upd_if. destruct (Nat.eqb_spec k h); [subst; apply length_remove|lia]. Qed.
  Lemma out_empty (av : nat -> list nat) h i k : av k = [] -> upd av h (remove i (av h)) k = [].
  Proof. intros H. rewrite upd_if. destruct (Nat.eqb_spec k h); [subst; rewrite H; reflexivity|exact H]. Qed.
  Ltac closed s h i I := first
    [ apply out_own; exact (v_own _ I)
    | rewrite out_cnt; cs; eqs; try congruence; lia
    | apply out_empty; eapply (v_empty _ I); eassumption
    | pose proof (out_len (avail s) h i); match goal with H : forall k, length _ <= _ |- context [length (upd _ _ _ ?x)] => specialize (H x); cs; lia end ].

  Lemma lock_mode s t h w : inv s -> t < n -> locked (pcs s t) = Some (h, w) -> excl s h = w.
  Proof.
    intros I Ht Ep. pose proof (v_wr _ I h) as A1. pose proof (over_one n wr (pcs s) h t Ht) as A2. pose proof (v_rd _ I h) as A3. pose proof (over_one n rd (pcs s) h t Ht) as A4. pose proof (v_excl _ I h) as A5.
    unfold rd at 1 in A4. unfold wr at 1 in A2. rewrite Ep in A2, A4.
    destruct w; cs; rewrite Nat.eqb_refl in *; destruct (excl s h); auto; [lia|rewrite A5 in A3 by reflexivity; lia].
  Qed.

  Lemma run_inv t ok s s' : inv s -> t < n -> run t ok s = Next s' -> inv s'.
  Proof.
    intros I Ht. unfold FPThreadsModel.run. destruct (pcs s t) as [|h w|h w|h w|h w i|h w|h w|h w nd i o|h w nd i o|h w i o|h w nd|h w|h w i|h w i|h w i|h w i|h w|k|h w|l|l i o|l i o|l i o] eqn:Ep; intros E; try discriminate.
    - (* GFile *) destruct w; [destruct ((shared s h =? 0) && negb (excl s h)) eqn:C; [|discriminate]; apply andb_prop in C; destruct C as (C1 & C2); apply Nat.eqb_eq in C1; apply negb_true_iff in C2
                              |destruct (negb (excl s h)) eqn:C; [|discriminate]; apply negb_true_iff in C]; injection E as <-.
      + go s t Ht Ep I; try easy1 I.
      + go s t Ht Ep I; try easy1 I.
    - (* GHand *) destruct (hlock s h) eqn:Eh; [discriminate|]. injection E as <-. go s t Ht Ep I; try easy1 I.
    - (* GMode *) destruct (Bool.eqb (rdonly s h) w) eqn:Em.
      + apply Bool.eqb_prop in Em. destruct (avail s h) as [|i r] eqn:Ea.
        * injection E as <-. go s t Ht Ep I; try easy1 I.
          -- me H0. apply upd_eq.
          -- far s t Ht Ep I h.
          -- destruct (Nat.eq_dec x h) as [Q|N]; [subst x; rewrite upd_eq in L|rewrite upd_neq in L by exact N; specialize (Vl L); cs; lia]. destruct w; [|discriminate]. destruct (alone s t h I Ht) as (A1 & A2); [rewrite Ep; reflexivity|rewrite Ep; reflexivity|].
             rewrite Ea, A1. cbn [length]. cs. lia.
        * unfold shut in E. destruct (listed i (nodes s)) eqn:El; [|discriminate]. injection E as <-. 
          destruct (shut_facts s h i I ltac:(rewrite Ea; left; reflexivity)) as (F0 & F1 & F2 & F3 & F4 & F5 & F6 & F7 & F8 & F9).
          go s t Ht Ep I; try easy1 I; closed s h i I.
      + injection E as <-. go s t Ht Ep I; try easy1 I.
        me H0. destruct (rdonly s h0), w0; try discriminate; reflexivity.
    - (* GShut *) unfold erase in E. destruct (mem i (files s)) eqn:Em; [|discriminate]. injection E as <-. apply mem_cnt in Em. go s t Ht Ep I; try easy1 I.
    - (* GPick *) assert (Md : rdonly s h = negb w) by (apply (v_mode _ I t); [exact Ht|rewrite Ep; reflexivity]).
      destruct (avail s h) as [|i r] eqn:Ea; injection E as <-. 
      + go s t Ht Ep I; try easy1 I; me H0; assumption.
      + destruct (shut_facts s h i I ltac:(rewrite Ea; left; reflexivity)) as (F0 & F1 & F2 & F3 & F4 & F5 & F6 & F7 & F8 & F9).
        assert (Q : w = true -> r = []).
        { intros ->. pose proof (v_load _ I h Md) as B. rewrite Ea in B. destruct r; [reflexivity|cbn [length] in B; lia]. }
        assert (Er : (if w then [] else r) = r) by (destruct w; [rewrite Q by reflexivity|]; reflexivity). rewrite Er. clear Q Er.
        assert (Cr : forall k x, cnt (upd (avail s) h r k) x + (if k =? h then if i =? x then 1 else 0 else 0) = cnt (avail s k) x).
        { intros k x. rewrite upd_if. destruct (Nat.eqb_spec k h); [subst k; rewrite Ea, cnt_cons|]; lia. }
        assert (Lr : forall k, length (upd (avail s) h r k) + (if k =? h then 1 else 0) = length (avail s k)).
        { intros k. rewrite upd_if. destruct (Nat.eqb_spec k h); [subst k; rewrite Ea; cbn [length]|]; lia. }
        go s t Ht Ep I; try easy1 I.
        * intros j h0 B. apply (v_own _ I). apply cnt_in in B. apply cnt_in. specialize (Cr h0 j). lia.
        * specialize (Cr (owner s x) x). cs. eqs; try congruence; lia.
        * me H0. assumption.
        * me H0. reflexivity.
        * far s t Ht Ep I h.
        * specialize (Lr x). cs. eqs; lia.
    - (* GIntent *) assert (Md : rdonly s h = negb w) by (apply (v_mode _ I t); [exact Ht|rewrite Ep; reflexivity]). assert (Me : avail s h = []) by (apply (v_empty _ I t); [exact Ht|rewrite Ep; reflexivity]).
      destruct (length (files s) <? limit).
      + injection E as <-. go s t Ht Ep I; try easy1 I; me H0; assumption.
      + unfold visit in E. destruct (nodes s) as [|(nd, i) r] eqn:En; [injection E as <-; go s t Ht Ep I; try easy1 I; me H0; assumption|].
        destruct (mem i (files s)); [|discriminate]. injection E as <-. go s t Ht Ep I; try easy1 I; try (me H0; first [assumption|reflexivity]).
    - (* GCall *) assert (Md : rdonly s h = negb w) by (apply (v_mode _ I t); [exact Ht|rewrite Ep; reflexivity]). assert (Me : avail s h = []) by (apply (v_empty _ I t); [exact Ht|rewrite Ep; reflexivity]).
      destruct (hlock s o) eqn:Eh; [discriminate|]. injection E as <-. go s t Ht Ep I; try easy1 I; try (me H0; first [assumption|reflexivity]).
    - (* GEvict *) assert (Md : rdonly s h = negb w) by (apply (v_mode _ I t); [exact Ht|rewrite Ep; reflexivity]). assert (Me : avail s h = []) by (apply (v_empty _ I t); [exact Ht|rewrite Ep; reflexivity]).
      destruct (mem i (avail s o)) eqn:Em.
      + unfold shut in E. destruct (listed i (nodes s)) eqn:El; [|discriminate]. injection E as <-. apply mem_in in Em.
        destruct (shut_facts s o i I Em) as (F0 & F1 & F2 & F3 & F4 & F5 & F6 & F7 & F8 & F9).
        go s t Ht Ep I; try easy1 I; try (me H0; first [assumption|reflexivity]); try closed s o i I.
        me H0. apply out_empty. assumption.
      + injection E as <-. go s t Ht Ep I; try easy1 I; try (me H0; first [assumption|reflexivity]).
    - (* GErase *) assert (Md : rdonly s h = negb w) by (apply (v_mode _ I t); [exact Ht|rewrite Ep; reflexivity]). assert (Me : avail s h = []) by (apply (v_empty _ I t); [exact Ht|rewrite Ep; reflexivity]).
      unfold erase in E. destruct (mem i (files s)) eqn:Em; [|discriminate]. injection E as <-. apply mem_cnt in Em. go s t Ht Ep I; try easy1 I; try (me H0; first [assumption|reflexivity]).
    - (* GNext *) assert (Md : rdonly s h = negb w) by (apply (v_mode _ I t); [exact Ht|rewrite Ep; reflexivity]). assert (Me : avail s h = []) by (apply (v_empty _ I t); [exact Ht|rewrite Ep; reflexivity]).
      destruct (after nd (nodes s)) as [r|]; [|discriminate]. unfold visit in E. destruct r as [|(nd2, i) r]; [injection E as <-; go s t Ht Ep I; try easy1 I; try (me H0; first [assumption|reflexivity])|].
      destruct (mem i (files s)); [|discriminate]. injection E as <-. go s t Ht Ep I; try easy1 I; try (me H0; first [assumption|reflexivity]).
    - (* GOpen *) assert (Md : rdonly s h = negb w) by (apply (v_mode _ I t); [exact Ht|rewrite Ep; reflexivity]). assert (Me : avail s h = []) by (apply (v_empty _ I t); [exact Ht|rewrite Ep; reflexivity]).
      destruct ok; injection E as <-; [|go s t Ht Ep I; try easy1 I; try (me H0; first [assumption|reflexivity])].
      pose proof (v_fresh _ I (next_fid s) (Nat.le_refl _)) as Fr. 
      go s t Ht Ep I; try easy1 I; try (me H0; first [assumption|reflexivity]).
      destruct (Nat.eq_dec x h) as [Q|N]; [subst x|cs; eqs; try congruence; lia]. rewrite L in Md. destruct w; [|discriminate]. destruct (alone s t h I Ht) as (A1 & A2); [rewrite Ep; reflexivity|rewrite Ep; reflexivity|].
      rewrite Me, A1. cbn [length]. cs. rewrite Nat.eqb_refl in *. lia.
    - (* GInsert *) assert (Md : rdonly s h = negb w) by (apply (v_mode _ I t); [exact Ht|rewrite Ep; reflexivity]). 
      destruct (flight_facts s t i I Ht ltac:(rewrite Ep; left; reflexivity)) as (F0 & F1 & F2 & F3 & F4).
      injection E as <-. go s t Ht Ep I; try easy1 I; try (me H0; first [assumption|reflexivity]).
      + intros j h0 B. rewrite upd_neq; [apply (v_own _ I); exact B|]. intros ->. exact (F0 _ B).
      + destruct (Nat.eq_dec x i) as [Q|N]; [subst x; rewrite upd_eq|rewrite upd_neq by exact N; cs; lia]. assert (Z0 : cnt (avail s h) i = 0) by (destruct (cnt (avail s h) i) eqn:Z1; [reflexivity|]; exfalso; apply (F0 h), cnt_in; lia).
        cs. rewrite Nat.eqb_refl in *. lia.
      + intros a Ha. rewrite upd_neq; [apply (v_acc _ I); exact Ha|]. intros Q. assert (Q1 : In (a_fid a) (fids (accs s))) by (apply in_flat_map; exists a; split; [exact Ha|left; reflexivity]). rewrite Q in Q1. apply cnt_in in Q1. lia.
      + me H0. apply upd_eq.
      + rewrite upd_neq; [eapply (v_given _ I); eassumption|]. intros ->. destruct (given_holds _ _ _ H0) as (_ & Q). apply cnt_in in Q. pose proof (over_two n flight (pcs s) i u t H Ht n0) as Q2. rewrite Ep in Q2. cbn [flight] in Q2. rewrite cnt_cons, Nat.eqb_refl in Q2. lia.
    - (* GList *) pose proof (v_given _ I t h i Ht ltac:(rewrite Ep; reflexivity)) as Gi. assert (Md : rdonly s h = negb w) by (apply (v_mode _ I t); [exact Ht|rewrite Ep; reflexivity]).
      injection E as <-. go s t Ht Ep I; try easy1 I; try (me H0; first [assumption|reflexivity]).
    - (* GUse *) pose proof (v_given _ I t h i Ht ltac:(rewrite Ep; reflexivity)) as Gi. assert (Md : rdonly s h = negb w) by (apply (v_mode _ I t); [exact Ht|rewrite Ep; reflexivity]).
      destruct (flight_facts s t i I Ht ltac:(rewrite Ep; left; reflexivity)) as (F0 & F1 & F2 & F3 & F4).
      destruct (mem i (files s) && listed i (nodes s)) eqn:El; [|discriminate]. apply andb_prop in El. destruct El as (_ & El). apply mem_cnt in El.
      injection E as <-. go s t Ht Ep I; try easy1 I; try (me H0; first [assumption|reflexivity]).
    - (* GGive *) pose proof (v_given _ I t h i Ht ltac:(rewrite Ep; reflexivity)) as Gi. assert (Md : rdonly s h = negb w) by (apply (v_mode _ I t); [exact Ht|rewrite Ep; reflexivity]).
      injection E as <-. go s t Ht Ep I; try easy1 I; try (me H0; first [assumption|reflexivity]).
      all: try (intros a [<-|Ha]; [exact Gi|apply (v_acc _ I); exact Ha]).
      all: cbn [fids keys rds wrs of_h flat_map a_key a_fid a_handler a_write]; fold (fids (accs s)) (keys (accs s)) (rds (accs s)) (wrs (accs s)) (of_h (accs s)); try destruct w; try easy1 I.
    - (* GThrow *) injection E as <-. pose proof (lock_mode s t h w I Ht ltac:(rewrite Ep; reflexivity)) as Lk.
      destruct w; go s t Ht Ep I; try easy1 I.
    - (* RHand *) destruct (find (fun a => a_key a =? k) (accs s)) as [a|] eqn:Ef; [|discriminate]. destruct (hlock s (a_handler a)) eqn:Eh; [discriminate|]. injection E as <-.
      pose proof (fun g x => acc_out g k (accs s) a x Ef (v_key _ I k)) as O. pose proof (find_some _ _ Ef) as (Ha & Hk). apply Nat.eqb_eq in Hk.
      assert (Fa : 0 < cnt (fids (accs s)) (a_fid a)) by (apply cnt_in, in_flat_map; exists a; split; [exact Ha|left; reflexivity]).
      assert (Na : ~ In (a_fid a) (avail s (a_handler a))).
      { intros B. pose proof (v_own _ I _ _ B) as B1. apply cnt_in in B. pose proof (v_place _ I (a_fid a)). pose proof (v_one _ I (a_fid a)). rewrite B1 in *. lia. }
      pose proof (v_acc _ I a Ha) as Oa.
      pose proof (O (fun a => [a_fid a])) as O1. pose proof (O (fun a => [a_key a])) as O2. pose proof (O (fun a => [a_handler a])) as O3.
      pose proof (O (fun a => if a_write a then [] else [a_handler a])) as O4. pose proof (O (fun a => if a_write a then [a_handler a] else [])) as O5.
      fold (fids (accs s)) in O1. fold (keys (accs s)) in O2. fold (of_h (accs s)) in O3. fold (rds (accs s)) in O4. fold (wrs (accs s)) in O5. clear O. cbv beta in O1, O2, O3, O4, O5.
      go s t Ht Ep I; try easy1 I.
      + intros j h B. rewrite upd_if in B. destruct (Nat.eqb_spec h (a_handler a)); [subst h|apply (v_own _ I); exact B].
        apply cnt_in in B. rewrite cnt_insert in B by exact Na. destruct (Nat.eqb_spec (a_fid a) j); [subst j; exact Oa|]. apply (v_own _ I), cnt_in. lia.
      + specialize (O1 x). unfold fids. rewrite upd_if. destruct (Nat.eqb_spec (owner s x) (a_handler a)) as [Q|N].
        * rewrite cnt_insert by exact Na. rewrite Q in *. cs. lia.
        * cs. destruct (Nat.eqb_spec (a_fid a) x); [subst x; congruence|]. lia.
      + specialize (O2 x). unfold keys. lia.
      + specialize (O2 x). unfold keys. lia.
      + specialize (O2 x). unfold keys. cs. rewrite Hk in *. lia.
      + specialize (O4 x). unfold rds. destruct (a_write a); cs; lia.
      + specialize (O5 x). unfold wrs. destruct (a_write a); cs; lia.
      + intros b Hb. apply filter_In in Hb. apply (v_acc _ I). apply Hb.
      + rewrite upd_neq; [eapply (v_empty _ I); eassumption|]. intros ->. apply (hold_none s u (a_handler a) I H Eh). eapply opening_holds. exact H0.
      + specialize (O3 x). unfold of_h. rewrite upd_if. cs. destruct (Nat.eqb_spec x (a_handler a)); [subst x; pose proof (length_insert (a_fid a) (avail s (a_handler a))); rewrite Nat.eqb_refl in *; lia|].
        destruct (Nat.eqb_spec (a_handler a) x); lia.
    - (* RUnlock *) injection E as <-. pose proof (lock_mode s t h w I Ht ltac:(rewrite Ep; reflexivity)) as Lk.
      destruct w; go s t Ht Ep I; try easy1 I.
    - (* CList *) destruct l as [|i l]; [injection E as <-; go s t Ht Ep I; try easy1 I|]. destruct (mem i (files s)); [|discriminate]. injection E as <-. go s t Ht Ep I; try easy1 I.
    - (* CCall *) destruct (hlock s o) eqn:Eh; [discriminate|]. injection E as <-. go s t Ht Ep I; try easy1 I.
    - (* CEvict *) destruct (mem i (avail s o)) eqn:Em.
      + unfold shut in E. destruct (listed i (nodes s)) eqn:El; [|discriminate]. injection E as <-. apply mem_in in Em.
        destruct (shut_facts s o i I Em) as (F0 & F1 & F2 & F3 & F4 & F5 & F6 & F7 & F8 & F9).
        go s t Ht Ep I; try easy1 I; closed s o i I.
      + injection E as <-. go s t Ht Ep I; try easy1 I.
    - (* CErase *) unfold erase in E. destruct (mem i (files s)) eqn:Em; [|discriminate]. injection E as <-. apply mem_cnt in Em. go s t Ht Ep I; try easy1 I.
  Qed.
End Inv.
