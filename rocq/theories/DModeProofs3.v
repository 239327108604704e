(** Zeros and the order of the peaks in the extraction of modes in double precision. *)
From Coq Require Import ZArith Reals List Arith Bool Lia Lra Psatz.
From Flocq Require Import Core IEEE754.BinarySingleNaN.
From Verif Require Import Common FloatModel FloatProofs DoubleProofs DoubleProofs2 DInterpModel DInterpSpec DInterpProofs DInterpProofs2
  DSOMProofs DSOMProofs2 DSplineModel DSplineSpec DPieceSpec DPieceProofs DPieceProofs2 DModeModel DModeSpec DModeProofs DModeProofs2.
Import ListNotations.
Local Open Scope nat_scope.

(** *** Zeros *)
Definition zn (v : double) : Prop := is_zero v \/ is_nan v = true.
Lemma zero_shape (v : double) : is_zero v <-> exists s, v = B754_zero s.
Proof. split; [destruct v as [s|[]| |[] m e H]; intros E; try discriminate; eexists; reflexivity|intros (s & ->); destruct s; reflexivity]. Qed.
Lemma zn_mul (a b : double) : zn a -> zn (dmul a b).
Proof.
  intros [H|H]; [apply zero_shape in H; destruct H as (s & ->)|destruct a; try discriminate; right; reflexivity].
  destruct b; [left; apply zero_shape; eexists; reflexivity|right; reflexivity|right; reflexivity|left; apply zero_shape; eexists; reflexivity].
Qed.
Lemma zn_add (a b : double) : zn a -> zn b -> zn (dadd a b).
Proof.
  intros [H|H] [K|K]; try (apply zero_shape in H; destruct H as (s & ->)); try (apply zero_shape in K; destruct K as (t & ->)).
  - left. apply zero_shape. destruct s, t; eexists; reflexivity.
  - destruct b; try discriminate. right. reflexivity.
  - destruct a; try discriminate. right. reflexivity.
  - destruct a; try discriminate. right. reflexivity.
Qed.
Lemma zn_total l : (forall x, In x l -> zn x) -> zn (dtotal l).
Proof.
  unfold dtotal. assert (Z : zn (d2 0 0)) by (left; reflexivity). revert Z. generalize (d2 0 0). induction l as [|a l IH]; intros s Z H; [exact Z|]. cbn [fold_left].
  apply IH; [apply zn_add; [exact Z|apply H; left; reflexivity]|intros x X; apply H; right; exact X].
Qed.
Lemma zn_not_pos (v : double) : zn v -> dlt d0 v = false.
Proof. intros [H|H]; [apply zero_shape in H; destruct H as ([] & ->); reflexivity|destruct v; try discriminate; reflexivity]. Qed.
Lemma zero_mul (a b : double) : is_zero a -> is_finite b = true -> is_zero (dmul a b).
Proof. intros H F. apply zero_shape in H. destruct H as (s & ->). destruct b; try discriminate; apply zero_shape; eexists; reflexivity. Qed.
Lemma zero_mul_r (a b : double) : is_zero b -> is_finite a = true -> is_zero (dmul a b).
Proof. intros H F. apply zero_shape in H. destruct H as (s & ->). destruct a; try discriminate; apply zero_shape; eexists; reflexivity. Qed.
Lemma zero_finite (a : double) : is_zero a -> is_finite a = true.
Proof. intros H. apply zero_shape in H. destruct H as (s & ->). reflexivity. Qed.
Lemma zero_total l : (forall x, In x l -> is_zero x) -> dtotal l = d0.
Proof.
  unfold dtotal. change (d2 0 0) with d0. induction l as [|a l IH]; intros H; [reflexivity|]. cbn [fold_left].
  replace (dadd d0 a) with d0; [apply IH; intros x X; apply H; right; exact X|].
  destruct (proj1 (zero_shape a) (H a (or_introl eq_refl))) as (s & ->). destruct s; reflexivity.
Qed.
Lemma highest_zero ys c : dhighest ys c -> (forall y, In y ys -> dle d0 y = true) -> is_zero (dval ys c) -> forall i, i < length ys -> is_zero (dval ys i).
Proof.
  intros (H1 & H2 & _) P Z i Hi. specialize (H2 i Hi). specialize (P _ (val_in ys i Hi)). destruct (dle_nums _ _ H2) as [N1 N2].
  apply zero_shape in Z. destruct Z as (s & Z). rewrite Z in *. unfold is_zero.
  apply (dle_iff _ _ num_d0 N1) in P. apply (dle_iff _ _ N1 N2) in H2. rewrite ext_d0 in P.
  assert (EZ : ext (B754_zero s : double) = 0%R) by (destruct s; reflexivity). rewrite EZ in H2. apply deq_iff; [exact N1|exact num_d0|]. rewrite ext_d0. lra.
Qed.
Lemma not_zero_pos (y : double) : dle d0 y = true -> ~ is_zero y -> dlt d0 y = true.
Proof.
  intros P Z. destruct (dle_nums _ _ P) as [_ N]. destruct (dlt d0 y) eqn:E; [reflexivity|]. exfalso. apply Z.
  apply (dlt_no _ _ num_d0 N) in E. apply (dle_iff _ _ num_d0 N) in P. apply deq_iff; [exact N|exact num_d0|]. lra.
Qed.
Lemma peak_positive xs ys c lo hi m : is_dpdf xs ys -> dhighest ys c -> hi < length ys -> ddescribes xs ys c lo hi m -> dlt d0 (dm_area m) = true -> dlt d0 (dval ys c) = true.
Proof.
  intros I H B (_ & EA & _) A. pose proof I as (LE & L3 & FX & SR & P). destruct (deq (dval ys c) d0) eqn:Z; [|apply not_zero_pos; [apply P, val_in, H|apply bool_not, Z]].
  exfalso. rewrite EA in A. rewrite zn_not_pos in A; [discriminate|]. apply zn_total. intros x X. apply in_map_iff in X. destruct X as (i & <- & Hi). apply in_range in Hi.
  apply zn_mul. left. apply (highest_zero ys c H P Z). lia.
Qed.

(** *** The order of the peaks *)
Lemma highest_sample xs merge : forall n ys l m, is_dpdf xs ys -> dhighest_modes xs ys merge n = Ok l -> In m l -> dlt d0 (dm_area m) = true ->
  exists c, c < length xs /\ dm_sample m = dval xs c /\ dlt d0 (dval ys c) = true.
Proof.
  induction n as [|n IH]; intros ys l m I E Hm A; [cbn in E; apply ok_inj in E; subst l; destruct Hm|].
  destruct (highest_step _ _ _ _ _ I E) as (m0 & r & ys' & c & lo & hi & EL & HH & MR & B & B2 & DD & Z & I' & ER). pose proof I as (LE & _). subst l. destruct Hm as [<-|Hm].
  - exists c. split; [lia|]. split; [apply DD|]. eapply peak_positive; eauto.
  - destruct (IH ys' r m I' ER Hm A) as (c' & C1 & C2 & C3). exists c'. split; [exact C1|]. split; [exact C2|].
    destruct Z as [ZL ZV]. rewrite ZV in C3 by lia. destruct ((lo <=? c') && (c' <=? hi)); [vm_compute in C3; discriminate|exact C3].
Qed.
Lemma highest_heights xs merge : forall n ys l, is_dpdf xs ys -> dhighest_modes xs ys merge n = Ok l ->
  forall i j a b, i < j -> nth_error l i = Some a -> nth_error l j = Some b -> dlt d0 (dm_area b) = true ->
  exists ca cb, ca < length xs /\ cb < length xs /\ ca <> cb /\ dm_sample a = dval xs ca /\ dm_sample b = dval xs cb /\
    dlt d0 (dval ys cb) = true /\ dle (dval ys cb) (dval ys ca) = true.
Proof.
  induction n as [|n IH]; intros ys l I E i j a b Hij Ha Hb A; [cbn in E; apply ok_inj in E; subst l; destruct i; discriminate|].
  destruct (highest_step _ _ _ _ _ I E) as (m0 & r & ys' & c & lo & hi & EL & HH & MR & B & B2 & DD & Z & I' & ER). pose proof I as (LE & _). subst l.
  destruct j as [|j]; [lia|]. cbn [nth_error] in Hb. destruct Z as [ZL ZV]. destruct i as [|i]; cbn [nth_error] in Ha.
  - apply some_inj in Ha. subst m0. destruct (highest_sample xs merge n ys' r b I' ER (nth_error_In _ _ Hb) A) as (cb & C1 & C2 & C3).
    rewrite ZV in C3 by lia. destruct ((lo <=? cb) && (cb <=? hi)) eqn:R; [vm_compute in C3; discriminate|].
    exists c, cb. split; [lia|]. split; [exact C1|]. split; [|split; [apply DD|split; [exact C2|split; [exact C3|apply HH; lia]]]].
    intros <-. apply andb_false_iff in R. destruct R as [R|R]; apply Nat.leb_gt in R; lia.
  - destruct (IH ys' r I' ER i j a b ltac:(lia) Ha Hb A) as (ca & cb & C1 & C2 & C3 & C4 & C5 & C6 & C7).
    exists ca, cb. repeat (split; [assumption|]). rewrite (ZV cb) in C6, C7 by lia. destruct ((lo <=? cb) && (cb <=? hi)); [vm_compute in C6; discriminate|].
    split; [exact C6|]. rewrite (ZV ca) in C7 by lia. destruct ((lo <=? ca) && (ca <=? hi)); [|exact C7].
    exfalso. pose proof (dlt_le_trans _ _ _ C6 C7) as X. vm_compute in X. discriminate.
Qed.

(** *** Only zeros left *)
Lemma zeros_left xs ys merge m : is_dpdf xs ys -> (forall i, i < length xs -> is_finite (dcell xs i) = true) -> (forall i, i < length ys -> is_zero (dval ys i)) ->
  dhighest_modes xs ys merge 1 = Ok [m] -> dm_sample m = dval xs 0 /\ dm_area m = d0 /\ is_nan (dm_mean m) = true.
Proof.
  intros I F Z E. destruct (highest_step _ _ _ _ _ I E) as (m0 & r & ys' & c & lo & hi & EL & HH & MR & B & B2 & DD & _). pose proof I as (LE & L3 & FX & _).
  injection EL as <- _. destruct DD as (D1 & D2 & D3 & _).
  assert (C0 : c = 0). { destruct c as [|c]; [reflexivity|exfalso]. destruct HH as (H1 & _ & H3). specialize (H3 0 ltac:(lia)).
    destruct (proj1 (zero_shape _) (Z 0 ltac:(lia))) as (s & Es). destruct (proj1 (zero_shape _) (Z (S c) H1)) as (t & Et). rewrite Es, Et in H3. destruct s, t; vm_compute in H3; discriminate. }
  assert (A0 : darea_between xs ys lo hi = d0). { apply zero_total. intros x X. apply in_map_iff in X. destruct X as (i & <- & Hi). apply in_range in Hi. apply zero_mul; [apply Z; lia|apply F; lia]. }
  assert (M0 : dmoment_between xs ys lo hi = d0). { apply zero_total. intros x X. apply in_map_iff in X. destruct X as (i & <- & Hi). apply in_range in Hi. apply zero_mul; [apply zero_mul_r; [apply Z; lia|apply FX, val_in; lia]|apply F; lia]. }
  rewrite A0, M0 in D3. split; [rewrite D1, C0; reflexivity|]. split; [rewrite D2; exact A0|]. rewrite D3. reflexivity.
Qed.

(** A test for literal pdfs. *)
Fixpoint dsteps_up (l : list double) : bool := match l with a :: ((b :: _) as r) => dlt a b && dsteps_up r | _ => true end.
Definition dpdf_test (xs ys : list double) : bool :=
  Nat.eqb (length xs) (length ys) && (3 <=? length xs) && forallb is_finite xs && dsteps_up xs && forallb (dle d0) ys.
Lemma steps_up_lt l : dsteps_up l = true -> forall i j, i < j -> j < length l -> dlt (dval l i) (dval l j) = true.
Proof.
  induction l as [|a r IH]; intros H i j Hij Hj; [cbn in Hj; lia|]. unfold dval in *.
  assert (HR : dsteps_up r = true) by (destruct r; [reflexivity|cbn [dsteps_up] in H; apply andb_true_iff in H; apply H]).
  destruct j as [|j]; [lia|]. cbn [length] in Hj. destruct i as [|i]; cbn [nth]; [|apply (IH HR i j); lia].
  destruct r as [|b r]; [cbn in Hj; lia|]. cbn [dsteps_up] in H. apply andb_true_iff in H. destruct H as [H _].
  destruct j as [|j]; [exact H|]. apply (dlt_le_trans _ b); [exact H|]. apply dlt_le. apply (IH HR 0 (S j)); lia.
Qed.
Lemma pdf_test_ok xs ys : dpdf_test xs ys = true -> is_dpdf xs ys.
Proof.
  unfold dpdf_test. intros H. repeat (apply andb_true_iff in H; destruct H as [H ?]). split; [apply Nat.eqb_eq; assumption|]. split; [apply Nat.leb_le; assumption|].
  split; [intros x X; eapply forallb_forall in X; eassumption|]. split; [apply steps_up_lt; assumption|]. intros y Y. eapply forallb_forall in Y; eassumption.
Qed.
