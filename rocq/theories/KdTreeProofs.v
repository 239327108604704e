From Coq Require Import List Arith QArith Bool Lia Permutation Sorted Lqa.
From Verif Require Import Common KdTreeModel.
Import ListNotations.
Local Open Scope nat_scope.

Lemma Qltb_lt x y : Qltb x y = true <-> (x < y)%Q.
Proof.
  unfold Qltb. rewrite negb_true_iff. split; intros H.
  - apply Qnot_le_lt. intros L. apply Qle_bool_iff in L. congruence.
  - destruct (Qle_bool y x) eqn:E; [|reflexivity]. apply Qle_bool_iff in E. exfalso. eapply Qlt_not_le; eassumption.
Qed.
Lemma Qltb_ge x y : Qltb x y = false <-> (y <= x)%Q.
Proof.
  unfold Qltb. rewrite negb_false_iff. apply Qle_bool_iff.
Qed.

Section P.
  Context {T : Type}.
  Variable coord : T -> nat -> Q.
  Variable rnd : Q -> Q.
  Variable sort : nat -> list T -> list T.
  Variable N S_ : nat.
  Hypothesis rnd_mono : forall x y, (x <= y)%Q -> (rnd x <= rnd y)%Q.
  Hypothesis rnd_idem : forall x, (rnd (rnd x) == rnd x)%Q.
  Hypothesis rnd_0 : (rnd 0 == 0)%Q.
  Hypothesis sort_perm : forall axis l, Permutation (sort axis l) l.
  Hypothesis sort_sorted : forall axis l, StronglySorted (fun x y => (coord x axis <= coord y axis)%Q) (sort axis l).
  Hypothesis S_pos : 1 <= S_.
  Hypothesis N_pos : 1 <= N.

  Lemma rnd_nonneg x : (0 <= x)%Q -> (0 <= rnd x)%Q.
  Proof. intros H. rewrite <- rnd_0. apply rnd_mono. assumption. Qed.

  Lemma square_dist_ge e c : forall todo i acc, (rnd acc == acc)%Q -> (0 <= acc)%Q ->
    (acc <= square_dist coord rnd e c todo i acc)%Q.
  Proof.
    induction todo as [|k IH]; intros i acc He Ha; cbn [square_dist]; [lra|].
    set (d := rnd (coord e i - c i)).
    assert (Hd : (0 <= rnd (d * d))%Q) by (apply rnd_nonneg; nra).
    assert (Hs : (acc <= rnd (acc + rnd (d * d)))%Q).
    { rewrite <- He at 1. apply rnd_mono. lra. }
    eapply Qle_trans; [exact Hs|]. apply IH; [apply rnd_idem|lra].
  Qed.

  Lemma square_dist_axis e c ax b : forall todo i acc, (rnd acc == acc)%Q -> (0 <= acc)%Q -> i <= ax -> ax < i + todo ->
    (b <= rnd (rnd (coord e ax - c ax) * rnd (coord e ax - c ax)))%Q ->
    (b <= square_dist coord rnd e c todo i acc)%Q.
  Proof.
    induction todo as [|k IH]; intros i acc He Ha Hi Hlt Hb; [lia|]. cbn [square_dist].
    set (d := rnd (coord e i - c i)).
    assert (Hd : (0 <= rnd (d * d))%Q) by (apply rnd_nonneg; nra).
    assert (Hs : (acc <= rnd (acc + rnd (d * d)))%Q).
    { rewrite <- He at 1. apply rnd_mono. lra. }
    destruct (Nat.eq_dec i ax) as [->|Hne].
    - eapply Qle_trans; [|apply square_dist_ge; [apply rnd_idem|lra]].
      eapply Qle_trans; [exact Hb|]. fold d. rewrite <- rnd_idem at 1. apply rnd_mono. lra.
    - apply IH; [apply rnd_idem|lra|lia|lia|assumption].
  Qed.

  Lemma far_away e c ax r : ax < N -> (0 <= r)%Q -> (rnd r == r)%Q ->
    (r <= coord e ax - c ax \/ r <= c ax - coord e ax)%Q ->
    (forall x, rnd (- x) == - rnd x)%Q ->
    close_to coord rnd N c r e = false.
  Proof.
    intros Hax Hr Er Hd Hodd. unfold close_to. apply Qltb_ge. apply square_dist_axis with (ax := ax); try lia; try assumption.
    - apply Qle_refl.
    - apply rnd_mono. set (d := rnd (coord e ax - c ax)).
      assert (Hdd : (r <= d \/ r <= - d)%Q).
      { destruct Hd as [Hd|Hd]; [left|right]; rewrite <- Er.
        - apply rnd_mono; assumption.
        - unfold d. rewrite <- Hodd. apply rnd_mono. lra. }
      destruct Hdd; nra.
  Qed.

  Definition usable (e : T) : Prop := forall ax, ax < N -> (rnd (coord e ax) == coord e ax)%Q /\ (rnd (2 * coord e ax) == 2 * coord e ax)%Q.

  Lemma sorted_split {A} (R : A -> A -> Prop) l k x : StronglySorted R l -> nth_error l k = Some x ->
    (forall y, In y (firstn k l) -> R y x) /\ (forall y, In y (skipn (S k) l) -> R x y).
  Proof.
    intros H. revert k. induction H as [|a l Hs IH Hf]; intros [|k] Hk; try discriminate.
    - injection Hk as <-. split; [intros y []|]. simpl. intros y Hy. rewrite Forall_forall in Hf. auto.
    - simpl in *. destruct (IH k Hk) as (I1 & I2). split; [|assumption].
      intros y [<-|Hy]; [|auto]. rewrite Forall_forall in Hf. apply Hf. eapply nth_error_In; eassumption.
  Qed.

  Lemma nth_error_ok {A} (l : list A) k : k < length l -> exists x, nth_error l k = Some x.
  Proof. intros H. destruct (nth_error l k) eqn:E; [eauto|]. apply nth_error_None in E. lia. Qed.

  Lemma firstn_S_in {A} (l : list A) k x y : nth_error l k = Some x -> In y (firstn (S k) l) -> In y (firstn k l) \/ y = x.
  Proof.
    revert k. induction l as [|a l IH]; intros [|k] Hk Hy; try discriminate.
    - injection Hk as <-. simpl in Hy. destruct Hy as [<-|[]]. right. reflexivity.
    - simpl in *. destruct Hy as [<-|Hy]; [left; left; reflexivity|]. destruct (IH k Hk Hy); auto.
  Qed.
  Lemma skipn_nth_in {A} (l : list A) k x y : nth_error l k = Some x -> In y (skipn k l) -> y = x \/ In y (skipn (S k) l).
  Proof.
    revert k. induction l as [|a l IH]; intros [|k] Hk Hy; try discriminate.
    - injection Hk as <-. simpl in Hy. destruct Hy as [<-|Hy]; auto.
    - simpl in *. apply IH; assumption.
  Qed.

  Lemma split_spec axis data : axis < N -> Forall usable data -> 2 <= length data ->
    exists v, split_value coord rnd axis (sort axis data) = Ok v /\
      (forall y, In y (firstn (length (sort axis data) / 2) (sort axis data)) -> (coord y axis <= v)%Q) /\
      (forall y, In y (skipn (length (sort axis data) / 2) (sort axis data)) -> (v <= coord y axis)%Q).
  Proof.
    intros Hax Hu Hl. set (s := sort axis data).
    assert (Els : length s = length data) by (apply Permutation_length, sort_perm).
    assert (Hus : Forall usable s).
    { apply Forall_forall. intros x Hx. rewrite Forall_forall in Hu. apply Hu. eapply Permutation_in; [apply sort_perm|exact Hx]. }
    pose proof (sort_sorted axis data) as Hs. fold s in Hs.
    assert (Hh : 1 <= length s / 2 /\ length s / 2 < length s).
    { rewrite Els. split; [apply Nat.div_le_lower_bound; lia|apply Nat.div_lt; lia]. }
    unfold split_value. destruct (length s / 2) as [|k]; [lia|].
    destruct (nth_error_ok s k ltac:(lia)) as (x & Hx). destruct (nth_error_ok s (S k) ltac:(lia)) as (y & Hy).
    rewrite Hx, Hy.
    destruct (sorted_split _ _ _ _ Hs Hx) as (X1 & X2). destruct (sorted_split _ _ _ _ Hs Hy) as (Y1 & Y2).
    set (a := coord x axis) in *. set (b := coord y axis) in *.
    assert (Hab : (a <= b)%Q).
    { apply Y1. clear - Hx. revert k Hx. induction s as [|z s IH]; intros [|k] Hx; try discriminate.
      - injection Hx as ->. left. reflexivity.
      - right. apply (IH k). exact Hx. }
    assert (B : forall v, (a <= v)%Q -> (v <= b)%Q ->
       (forall z, In z (firstn (S k) s) -> (coord z axis <= v)%Q) /\
       (forall z, In z (skipn (S k) s) -> (v <= coord z axis)%Q)).
    { intros v Ha Hb. split; intros z Hz.
      - destruct (firstn_S_in _ _ _ _ Hx Hz) as [Hz'| ->]; [specialize (X1 z Hz'); fold a in X1; lra|fold a; assumption].
      - destruct (skipn_nth_in _ _ _ _ Hy Hz) as [->|Hz']; [fold b; assumption|specialize (Y2 z Hz'); fold b in Y2; lra]. }
    rewrite Forall_forall in Hus.
    destruct (Hus x ltac:(eapply nth_error_In; eassumption) axis Hax) as (Ea & Ea2).
    destruct (Hus y ltac:(eapply nth_error_In; eassumption) axis Hax) as (Eb & Eb2).
    fold a in Ea, Ea2. fold b in Eb, Eb2.
    destruct (Qeq_bool a b) eqn:E.
    - apply Qeq_bool_iff in E. eexists. split; [reflexivity|]. apply B; lra.
    - eexists. split; [reflexivity|]. apply B.
      + rewrite <- Ea at 1. apply rnd_mono.
        assert ((2 * a <= rnd (a + b))%Q) by (rewrite <- Ea2 at 1; apply rnd_mono; lra).
        apply Qle_shift_div_l; lra.
      + apply Qle_trans with (rnd b); [|lra]. apply rnd_mono.
        assert ((rnd (a + b) <= 2 * b)%Q) by (apply Qle_trans with (rnd (2 * b)); [apply rnd_mono; lra|lra]).
        apply Qle_shift_div_r; lra.
  Qed.

  Lemma filter_false {A} (f : A -> bool) l : (forall x, In x l -> f x = false) -> filter f l = [].
  Proof. induction l as [|a l IH]; intros H; [reflexivity|]. simpl. rewrite (H a (or_introl eq_refl)). apply IH. intros; apply H; right; assumption. Qed.

  Lemma filter_permutation {A} (f : A -> bool) l l' : Permutation l l' -> Permutation (filter f l) (filter f l').
  Proof.
    intros H. induction H as [|x l l' H IH|x y l|l l' l'' H IH H' IH']; simpl.
    - constructor.
    - destruct (f x); [constructor; assumption|assumption].
    - destruct (f x), (f y); try constructor; try apply Permutation_refl.
    - eapply Permutation_trans; eassumption.
  Qed.

  Lemma build_total : forall fuel axis data, axis < N -> Forall usable data -> length data <= fuel ->
    exists t, build coord rnd sort N S_ fuel axis data = Ok t /\
      Forall (fun d => length d <= S_) (leaves t) /\ Permutation (concat (leaves t)) data /\
      forall c r, (0 <= r)%Q -> (rnd r == r)%Q -> (forall x, rnd (- x) == - rnd x)%Q ->
        Permutation (find_points coord rnd N t c r) (filter (close_to coord rnd N c r) data).
  Proof.
    induction fuel as [|fuel IH]; intros axis data Hax Hu Hl; cbn [build].
    - destruct data; [|simpl in Hl; lia]. simpl length. destruct (Nat.ltb_spec S_ 0); [lia|].
      eexists. split; [reflexivity|]. split; [repeat constructor; simpl; lia|]. split; [simpl; constructor|]. intros; apply Permutation_refl.
    - destruct (Nat.ltb_spec S_ (length data)) as [H|H].
      2:{ eexists. split; [reflexivity|]. split; [repeat constructor; assumption|]. split; [simpl; rewrite app_nil_r; apply Permutation_refl|].
          intros; apply Permutation_refl. }
      destruct (split_spec axis data Hax Hu) as (v & Hv & V1 & V2); [lia|].
      rewrite Hv. cbn [bind]. set (s := sort axis data) in *. set (h := length s / 2) in *.
      assert (Ps : Permutation s data) by apply sort_perm.
      assert (Els : length s = length data) by (apply Permutation_length, Ps).
      assert (Hh : 1 <= h /\ h < length s).
      { unfold h. rewrite Els. split; [apply Nat.div_le_lower_bound; lia|apply Nat.div_lt; lia]. }
      assert (Hm : (axis + 1) mod N < N) by (apply Nat.mod_upper_bound; lia).
      assert (Hus : forall x, In x s -> usable x).
      { intros x Hx. rewrite Forall_forall in Hu. apply Hu. eapply Permutation_in; eassumption. }
      assert (Ecut : firstn h s ++ skipn h s = s) by apply firstn_skipn.
      destruct (IH ((axis + 1) mod N) (firstn h s) Hm) as (l & L1 & L2 & L3 & L4).
      { apply Forall_forall. intros x Hx. apply Hus. rewrite <- Ecut. apply in_or_app. auto. }
      { rewrite firstn_length. lia. }
      destruct (IH ((axis + 1) mod N) (skipn h s) Hm) as (r & R1 & R2 & R3 & R4).
      { apply Forall_forall. intros x Hx. apply Hus. rewrite <- Ecut. apply in_or_app. auto. }
      { rewrite skipn_length. lia. }
      rewrite L1, R1. cbn [bind]. eexists. split; [reflexivity|]. cbn [leaves].
      split; [apply Forall_app; split; assumption|]. split.
      { rewrite concat_app. eapply Permutation_trans; [|exact Ps]. rewrite <- Ecut. apply Permutation_app; assumption. }
      intros c rad Hr Er Hodd. cbn [find_points].
      eapply Permutation_trans; [|apply filter_permutation; exact Ps].
      rewrite <- Ecut at 1. rewrite filter_app.
      destruct (Qltb (rnd (c axis + rad)) v) eqn:E1.
      + apply Qltb_lt in E1.
        rewrite (filter_false _ (skipn h s)), app_nil_r; [apply L4; assumption|].
        intros x Hx. pose proof (V2 x Hx) as Hxv.
        assert (Hex : (rnd (coord x axis) == coord x axis)%Q).
        { apply (Hus x); [rewrite <- Ecut; apply in_or_app; auto|assumption]. }
        apply far_away with (ax := axis); try assumption. left.
        destruct (Qlt_le_dec (c axis + rad) (coord x axis)) as [G|G]; [lra|].
        apply rnd_mono in G. lra.
      + destruct (Qltb v (rnd (c axis - rad))) eqn:E2.
        * apply Qltb_lt in E2.
          rewrite (filter_false _ (firstn h s)); [apply R4; assumption|].
          intros x Hx. pose proof (V1 x Hx) as Hxv.
          assert (Hex : (rnd (coord x axis) == coord x axis)%Q).
          { apply (Hus x); [rewrite <- Ecut; apply in_or_app; auto|assumption]. }
          apply far_away with (ax := axis); try assumption. right.
          destruct (Qlt_le_dec (coord x axis) (c axis - rad)) as [G|G]; [lra|].
          apply rnd_mono in G. lra.
        * apply Permutation_app; [apply L4|apply R4]; assumption.
  Qed.
End P.

(** ** The distance without rounding *)
Section Exact.
  Context {T : Type}.
  Variable coord : T -> nat -> Q.

  Fixpoint sum_squares (e : T) (c : nat -> Q) (axes : list nat) : Q :=
    match axes with
    | [] => 0
    | i :: r => (coord e i - c i) * (coord e i - c i) + sum_squares e c r
    end.

  Lemma square_dist_exact e c : forall todo i acc,
    (square_dist coord (fun x => x) e c todo i acc == acc + sum_squares e c (seq i todo))%Q.
  Proof.
    induction todo as [|k IH]; intros i acc; cbn [square_dist seq sum_squares]; [lra|].
    rewrite IH. lra.
  Qed.
End Exact.
