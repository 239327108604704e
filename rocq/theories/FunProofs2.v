From Coq Require Import Reals List Arith Bool Lia Lra Sorting.Sorted.
From Verif Require Import Common CumulModel CumulProofs FunModel FunSpec FunProofs.
Import ListNotations.
Local Open Scope R_scope.

(** *** Products of polynomials *)
Lemma add_to_spec : forall l k v, (k < length l)%nat -> exists l', add_to l k v = Ok l' /\ length l' = length l /\ forall i x, powers i l' x = powers i l x + v * x ^ (i + k).
Proof.
  induction l as [|a r IH]; intros k v H; [cbn in H; lia|]. destruct k as [|k]; cbn [add_to].
  - eexists. split; [reflexivity|]. split; [reflexivity|]. intros i x. cbn [powers]. rewrite Nat.add_0_r. ring.
  - cbn in H. destruct (IH k v ltac:(lia)) as (t & E & L & P). rewrite E. cbn [bind]. eexists. split; [reflexivity|]. split; [cbn; lia|].
    intros i x. cbn [powers]. rewrite P. replace (S i + k)%nat with (i + S k)%nat by lia. ring.
Qed.
Lemma mult_row_spec : forall c2 c i j l, (i + j + length c2 <= length l)%nat ->
  exists l', mult_row c c2 i j l = Ok l' /\ length l' = length l /\ forall x, powers 0 l' x = powers 0 l x + c * x ^ i * powers j c2 x.
Proof.
  induction c2 as [|d r IH]; intros c i j l H; cbn [mult_row].
  - exists l. split; [reflexivity|]. split; [reflexivity|]. intro x. cbn [powers]. ring.
  - cbn in H. destruct (add_to_spec l (i + j) (c * d) ltac:(lia)) as (t & E & L & P). rewrite E. cbn [bind].
    destruct (IH c i (S j) t ltac:(lia)) as (t' & E' & L' & P'). exists t'. split; [exact E'|]. split; [lia|]. intro x. rewrite P', P. cbn [powers plus]. rewrite pow_add. ring.
Qed.
Lemma mult_rows_spec c2 : forall c1 i l, (i + length c1 + length c2 <= S (length l))%nat ->
  exists l', mult_rows c1 c2 i l = Ok l' /\ length l' = length l /\ forall x, powers 0 l' x = powers 0 l x + powers i c1 x * powers 0 c2 x.
Proof.
  induction c1 as [|c r IH]; intros i l H; cbn [mult_rows].
  - exists l. split; [reflexivity|]. split; [reflexivity|]. intro x. cbn [powers]. ring.
  - cbn in H. destruct (mult_row_spec c2 c i 0 l ltac:(lia)) as (t & E & L & P). rewrite E. cbn [bind].
    destruct (IH (S i) t ltac:(lia)) as (t' & E' & L' & P'). exists t'. split; [exact E'|]. split; [lia|]. intro x. rewrite P', P. cbn [powers]. ring.
Qed.
Lemma powers_zero n : forall i x, powers i (repeat 0 n) x = 0.
Proof. induction n as [|n IH]; intros i x; [reflexivity|]. cbn [repeat powers]. rewrite IH. ring. Qed.
Lemma multiply_polynomials_spec c1 c2 : (c1 <> [] \/ c2 <> []) ->
  exists r, multiply_polynomials c1 c2 = Ok (Poly r) /\ length r = (length c1 + length c2 - 1)%nat /\ forall x, poly_eval r x = poly_eval c1 x * poly_eval c2 x.
Proof.
  intro H. assert (L : (1 <= length c1 + length c2)%nat) by (destruct c1, c2; cbn; try lia; destruct H; congruence).
  assert (E : multiply_polynomials c1 c2 = bind (mult_rows c1 c2 0 (repeat 0 (length c1 + length c2 - 1))) (fun r => Ok (Poly r))).
  { destruct c1, c2; try reflexivity. cbn in L. lia. }
  destruct (mult_rows_spec c2 c1 0 (repeat 0 (length c1 + length c2 - 1))) as (r & Er & Lr & Pr); [rewrite repeat_length; lia|].
  exists r. rewrite E, Er. split; [reflexivity|]. split; [rewrite Lr, repeat_length; reflexivity|]. intro x. rewrite !poly_eval_spec, Pr, powers_zero. ring.
Qed.

(** *** Products of functions that are not piecewise *)
Lemma simple_product fuel f g : simple f -> simple g -> exists h, multiply (S fuel) f g = Ok h /\ simple h /\ forall x, value h x = value f x * value g x.
Proof.
  intros [UF SF] [UG SG]. assert (D : multiply (S fuel) f g = Ok (Times f g) -> exists h, multiply (S fuel) f g = Ok h /\ simple h /\ forall x, value h x = value f x * value g x).
  { intro E. exists (Times f g). split; [exact E|]. split; [split; [constructor; assumption|exact I]|]. intro x. apply value_times; assumption. }
  destruct f as [c1|ks fs|h1|f1 f2]; try contradiction; destruct g as [c2|ks' fs'|h2|g1 g2]; try contradiction; try (apply D; reflexivity).
  clear D. destruct (multiply_polynomials_spec c1 c2 (or_introl SF)) as (r & E & L & P). exists (Poly r). split; [exact E|]. split.
  - split; [constructor|]. intros ->. cbn in L. destruct c1; [congruence|]. destruct c2; [congruence|]. cbn in L. lia.
  - intro x. unfold value. cbn [eval]. apply P.
Qed.

(** *** Piecewise times a function *)
Lemma mult_each_spec fuel g : simple g -> forall fs, (forall f, In f fs -> simple f) ->
  exists l, mult_each (multiply (S fuel)) fs g = Ok l /\ length l = length fs /\
    forall i f h, nth_error fs i = Some f -> nth_error l i = Some h -> simple h /\ forall x, value h x = value f x * value g x.
Proof.
  intro SG. induction fs as [|f r IH]; intro H; cbn [mult_each].
  - exists []. split; [reflexivity|]. split; [reflexivity|]. intros i f h Hf. destruct i; discriminate.
  - destruct (simple_product fuel f g (H f (or_introl eq_refl)) SG) as (h & E & Sh & V). rewrite E. cbn [bind].
    destruct (IH (fun f Hf => H f (or_intror Hf))) as (l & El & Ll & Vl). rewrite El. cbn [bind]. exists (h :: l). split; [reflexivity|]. split; [cbn; lia|].
    intros [|i] f' h' Hf Hh; cbn in Hf, Hh; [injection Hf as <-; injection Hh as <-; auto|apply (Vl i); auto].
Qed.
Lemma new_piecewise_ok ks fs : length ks = S (length fs) -> sorted ks -> new_piecewise ks fs = Ok (Piece ks fs).
Proof. intros L SR. unfold new_piecewise. rewrite L, Nat.eqb_refl. apply increasing_sorted in SR. rewrite SR. reflexivity. Qed.
Lemma piece_times ks fs l g : length ks = S (length fs) -> fs <> [] -> sorted ks -> length l = length fs ->
  (forall i f h, nth_error fs i = Some f -> nth_error l i = Some h -> simple h /\ forall x, value h x = value f x * value g x) ->
  usable (Piece ks l) /\ forall x, value (Piece ks l) x = value (Piece ks fs) x * value g x.
Proof.
  intros L N SR LL V. assert (L2 : (2 <= length ks)%nat) by (destruct fs; [congruence|cbn in L; lia]). split.
  - constructor; [lia|destruct l; [destruct fs; [congruence|discriminate LL]|discriminate]|exact SR|]. intros h Hh. apply In_nth_error in Hh. destruct Hh as (i & Hi).
    destruct (nth_ok fs i) as (f & Hf); [apply nth_lt in Hi; lia|]. apply (V i f h); auto.
  - intro x. destruct (nth_ok ks 0 ltac:(lia)) as (k0 & H0). unfold value at 1 2.
    destruct (piece_index_spec ks x k0 SR H0 L2) as [[A _]|[[A _]|[(i & a & b & A1 & A2 & A3 & _)|(l' & A1 & A2 & _)]]].
    + rewrite !(eval_below ks _ x k0 H0 A). ring.
    + subst x. destruct fs as [|f r]; [congruence|]. destruct l as [|h t]; [discriminate LL|]. rewrite (eval_first ks (f :: r) k0 f H0 eq_refl), (eval_first ks (h :: t) k0 h H0 eq_refl).
      apply (V 0%nat f h eq_refl eq_refl).
    + destruct (nth_ok fs i) as (f & Hf); [apply nth_lt in A2; lia|]. destruct (nth_ok l i) as (h & Hh); [apply nth_lt in A2; lia|].
      rewrite (eval_inside ks fs x i a b f SR A1 A2 A3 Hf), (eval_inside ks l x i a b h SR A1 A2 A3 Hh). apply (V i f h Hf Hh).
    + rewrite !(eval_above ks _ x l' SR L2 A1 A2). ring.
Qed.

(** *** Overlapping knots *)
Definition rsorted := StronglySorted Rlt.
Lemma rsorted_strict l : rsorted l <-> strictly_sorted l.
Proof.
  induction l as [|a r IH].
  - split; [intros _ i j x y _ H; destruct i; discriminate H|constructor].
  - split.
    + intro H. inversion H as [|? ? SS FA]; subst. apply IH in SS. intros i j x y Hij Hx Hy. destruct j as [|j]; [lia|]. cbn in Hy. destruct i as [|i].
      * cbn in Hx. injection Hx as <-. rewrite Forall_forall in FA. apply FA. eapply nth_error_In. exact Hy.
      * cbn in Hx. apply (SS i j); auto. lia.
    + intro H. constructor.
      * apply IH. intros i j x y Hij Hx Hy. apply (H (S i) (S j)); [lia|exact Hx|exact Hy].
      * apply Forall_forall. intros b Hb. apply In_nth_error in Hb. destruct Hb as (j & Hj). apply (H 0%nat (S j)); [lia|reflexivity|exact Hj].
Qed.
Lemma rsorted_tail a l : rsorted (a :: l) -> rsorted l.
Proof. intro H. inversion H; auto. Qed.
Lemma rsorted_lt a l b : rsorted (a :: l) -> In b l -> a < b.
Proof. intros H Hb. inversion H as [|? ? _ FA]; subst. rewrite Forall_forall in FA. auto. Qed.
Lemma rsorted_le a l b : rsorted (a :: l) -> In b (a :: l) -> a <= b.
Proof. intros H [<-|Hb]; [lra|]. left. eapply rsorted_lt; eauto. Qed.
Lemma last_in (l : list R) d : l <> [] -> In (last l d) l.
Proof. induction l as [|a r IH]; [congruence|]. intros _. destruct r as [|b r]; [left; reflexivity|]. right. apply IH. discriminate. Qed.
Lemma last_cons (a b : R) r d : last (a :: b :: r) d = last (b :: r) d.
Proof. reflexivity. Qed.
Lemma last_max l d b : rsorted l -> In b l -> b <= last l d.
Proof.
  induction l as [|a r IH]; intros H Hb; [destruct Hb|]. destruct r as [|c r]; [destruct Hb as [<-|[]]; cbn; lra|]. rewrite last_cons.
  destruct Hb as [<-|Hb]; [|apply IH; [eapply rsorted_tail; exact H|exact Hb]]. left. eapply rsorted_lt; [exact H|]. apply last_in. discriminate.
Qed.
Lemma set_insert_in a l x : In x (set_insert a l) <-> x = a \/ In x l.
Proof.
  induction l as [|b r IH]; cbn [set_insert].
  - split; [intros [<-|[]]; auto|intros [->|[]]; left; auto].
  - destruct (rlt a b); [split; [intros [<-|H]; auto|intros [->|H]; [left; auto|right; auto]]|]. destruct (req a b) eqn:E; rtest E.
    + subst b. split; [auto|intros [->|H]; [left; auto|auto]].
    + cbn [In]. rewrite IH. tauto.
Qed.
Lemma set_insert_sorted a l : rsorted l -> rsorted (set_insert a l).
Proof.
  induction l as [|b r IH]; intro H; cbn [set_insert]; [constructor; [constructor|constructor]|].
  destruct (rlt a b) eqn:A; rtest A.
  - constructor; [exact H|]. apply Forall_forall. intros x Hx. pose proof (rsorted_le b r x H Hx). lra.
  - destruct (req a b) eqn:E; rtest E; [exact H|]. constructor; [apply IH; eapply rsorted_tail; exact H|].
    apply Forall_forall. intros x Hx. apply set_insert_in in Hx. destruct Hx as [->|Hx]; [lra|eapply rsorted_lt; eauto].
Qed.

Lemma overlap_start_spec : forall fuel a r1 b r2, rsorted (a :: r1) -> rsorted (b :: r2) -> a < last (a :: r1) 0 -> b < last (a :: r1) 0 -> a < last (b :: r2) 0 -> b < last (b :: r2) 0 ->
  (length r1 + length r2 < fuel)%nat ->
  exists k1 k2, overlap_start fuel (a :: r1) (b :: r2) = Ok (k1, k2) /\ rsorted k1 /\ rsorted k2 /\ k1 <> [] /\ k2 <> [] /\ (length k1 + length k2 <= S (S (length r1 + length r2)))%nat /\
    last k1 0 = last (a :: r1) 0 /\ last k2 0 = last (b :: r2) 0 /\
    (forall k, In k k1 \/ In k k2 <-> (In k (a :: r1) \/ In k (b :: r2)) /\ Rmax a b <= k).
Proof.
  induction fuel as [|fuel IH]; intros a r1 b r2 S1 S2 L0 L1 L2 L3 F; [lia|]. cbn [overlap_start]. destruct (rlt a b) eqn:AB; rtest AB.
  - destruct r1 as [|a' r1]; [cbn in L1; lra|]. pose proof (rsorted_tail _ _ S1) as S1'. assert (AA : a < a') by (eapply rsorted_lt; [exact S1|left; auto]).
    rewrite last_cons in L1. destruct (rlt b a') eqn:BA; rtest BA.
    + exists (a' :: r1), (b :: r2). repeat (split; [assumption || discriminate || reflexivity || (cbn; lia)|]). intro k. rewrite Rmax_right by lra. split.
      * intros [H|H]; [split; [left; right; auto|]|split; [right; auto|]]; [pose proof (rsorted_le a' r1 k S1' H); lra|apply (rsorted_le b r2); auto].
      * intros [[[<-|H]|H] M]; [lra|left; auto|right; auto].
    + rewrite last_cons in L0.
      destruct (IH a' r1 b r2 S1' S2 ltac:(lra) L1 ltac:(lra) L3 ltac:(cbn in F; lia)) as (k1 & k2 & E & R1 & R2 & N1 & N2 & LL & T1 & T2 & M). exists k1, k2.
      repeat (split; [assumption || (cbn; lia)|]). intro k. rewrite M. rewrite !Rmax_right by lra. split; intros [[H|H] X]; (split; [|exact X]); auto.
      * left; right; auto.
      * destruct H as [<-|H]; [lra|left; auto].
  - destruct r2 as [|b' r2]; [cbn in L2; lra|]. pose proof (rsorted_tail _ _ S2) as S2'. assert (BB : b < b') by (eapply rsorted_lt; [exact S2|left; auto]).
    rewrite last_cons in L2. destruct (rlt a b') eqn:BA; rtest BA.
    + exists (a :: r1), (b' :: r2). repeat (split; [assumption || discriminate || reflexivity || (cbn; lia)|]). intro k. rewrite Rmax_left by lra. split.
      * intros [H|H]; [split; [left; auto|apply (rsorted_le a r1); auto]|split; [right; right; auto|]]. pose proof (rsorted_le b' r2 k S2' H). lra.
      * intros [[H|[<-|H]] M]; [left; auto|left; left; lra|right; auto].
    + rewrite last_cons in L3.
      destruct (IH a r1 b' r2 S1 S2' L0 ltac:(lra) L2 ltac:(lra) ltac:(cbn in F; lia)) as (k1 & k2 & E & R1 & R2 & N1 & N2 & LL & T1 & T2 & M). exists k1, k2.
      repeat (split; [assumption || (cbn; lia)|]). intro k. rewrite M. rewrite !Rmax_left by lra. split; intros [[H|H] X]; (split; [|exact X]); auto.
      * right; right; auto.
      * destruct H as [<-|H]; [lra|right; auto].
Qed.

Lemma merge_knots_spec : forall fuel k1 k2 acc, rsorted k1 -> rsorted k2 -> k1 <> [] -> k2 <> [] -> rsorted acc -> (length k1 + length k2 < fuel)%nat ->
  exists l, merge_knots fuel k1 k2 acc = Ok l /\ rsorted l /\
    forall k, In k l <-> In k acc \/ ((In k k1 \/ In k k2) /\ k <= last k1 0 /\ k <= last k2 0).
Proof.
  induction fuel as [|fuel IH]; intros k1 k2 acc S1 S2 N1 N2 SA F; [lia|]. destruct k1 as [|a r1]; [congruence|]. destruct k2 as [|b r2]; [congruence|]. cbn [merge_knots].
  pose proof (last_max (b :: r2) 0 b S2 (or_introl eq_refl)) as Lb. pose proof (last_max (a :: r1) 0 a S1 (or_introl eq_refl)) as La.
  destruct (rlt a b) eqn:AB; rtest AB.
  - pose proof (set_insert_sorted a acc SA) as SI. destruct r1 as [|a' r1].
    + assert (E : merge_knots fuel [] (b :: r2) (set_insert a acc) = Ok (set_insert a acc)) by (destruct fuel; [cbn in F; lia|reflexivity]). rewrite E.
      eexists. split; [reflexivity|]. split; [exact SI|]. intro k. rewrite set_insert_in. cbn [last]. split.
      * intros [->|H]; [right; split; [left; left; auto|split; [lra|eapply Rle_trans; [left; exact AB|exact Lb]]]|auto].
      * intros [H|[[[<-|[]]|H] [X Y]]]; auto. pose proof (rsorted_le b r2 k S2 H). lra.
    + destruct (IH (a' :: r1) (b :: r2) (set_insert a acc) (rsorted_tail _ _ S1) S2 ltac:(discriminate) ltac:(discriminate) SI ltac:(cbn in F |- *; lia)) as (l & E & SL & M).
      exists l. split; [exact E|]. split; [exact SL|]. intro k. rewrite M, set_insert_in, (last_cons a a'). rewrite last_cons in La. split.
      * intros [[->|H]|[[H|H] X]]; [right; split; [left; left; auto|split; [exact La|lra]]|left; exact H|right; split; [left; right; exact H|exact X]|right; split; [right; exact H|exact X]].
      * intros [H|[[[<-|H]|H] X]]; auto.
  - pose proof (set_insert_sorted b acc SA) as SI. destruct r2 as [|b' r2].
    + assert (E : merge_knots fuel (a :: r1) [] (set_insert b acc) = Ok (set_insert b acc)) by (destruct fuel; [cbn in F; lia|reflexivity]). rewrite E.
      eexists. split; [reflexivity|]. split; [exact SI|]. intro k. rewrite set_insert_in. cbn [last] in Lb |- *. split.
      * intros [->|H]; [right; split; [right; left; auto|split; [eapply Rle_trans; [exact AB|exact La]|lra]]|auto].
      * intros [H|[[H|[<-|[]]] [X Y]]]; auto. pose proof (rsorted_le a r1 k S1 H). left. lra.
    + destruct (IH (a :: r1) (b' :: r2) (set_insert b acc) S1 (rsorted_tail _ _ S2) ltac:(discriminate) ltac:(discriminate) SI ltac:(cbn in F |- *; lia)) as (l & E & SL & M).
      exists l. split; [exact E|]. split; [exact SL|]. intro k. rewrite M, set_insert_in, (last_cons b b'). rewrite last_cons in Lb. split.
      * intros [[->|H]|[[H|H] X]]; [right; split; [right; left; auto|split; [lra|exact Lb]]|left; exact H|right; split; [left; exact H|exact X]|right; split; [right; right; exact H|exact X]].
      * intros [H|[[H|[<-|H]] X]]; auto.
Qed.
Lemma overlapping_knots_spec a r1 b r2 : rsorted (a :: r1) -> rsorted (b :: r2) -> Rmax a b < Rmin (last (a :: r1) 0) (last (b :: r2) 0) ->
  exists l, overlapping_knots (a :: r1) (b :: r2) = Ok l /\ rsorted l /\
    forall k, In k l <-> (In k (a :: r1) \/ In k (b :: r2)) /\ Rmax a b <= k <= Rmin (last (a :: r1) 0) (last (b :: r2) 0).
Proof.
  intros S1 S2 O. unfold overlapping_knots. set (l1 := last (a :: r1) 0) in *. set (l2 := last (b :: r2) 0) in *.
  assert (OO : a < l1 /\ b < l1 /\ a < l2 /\ b < l2).
  { pose proof (Rmax_l a b). pose proof (Rmax_r a b). pose proof (Rmin_l l1 l2). pose proof (Rmin_r l1 l2). lra. }
  destruct OO as (O1 & O2 & O3 & O4).
  destruct (overlap_start_spec (S (length (a :: r1) + length (b :: r2))) a r1 b r2 S1 S2 O1 O2 O3 O4 ltac:(cbn; lia)) as (k1 & k2 & E & R1 & R2 & N1 & N2 & LL & T1 & T2 & M).
  rewrite E. cbn [bind fst snd].
  assert (LK : (length k1 + length k2 < S (length (a :: r1) + length (b :: r2)))%nat) by (cbn [length]; lia).
  destruct (merge_knots_spec (S (length (a :: r1) + length (b :: r2))) k1 k2 [] R1 R2 N1 N2 ltac:(constructor) LK) as (l & El & SL & ML).
  exists l. split; [exact El|]. split; [exact SL|]. intro k. rewrite ML, M, T1, T2. fold l1 l2. split.
  - intros [[]|[[H1 H2] [H3 H4]]]. split; [exact H1|]. split; [exact H2|apply Rmin_glb; auto].
  - intros [H1 [H2 H3]]. right. split; [auto|]. pose proof (Rmin_l l1 l2). pose proof (Rmin_r l1 l2). lra.
Qed.

(** *** Products of piecewise functions *)
Lemma last_skipn s : forall (l : list R) a, nth_error l s = Some a -> last (skipn s l) 0 = last l 0.
Proof.
  induction s as [|s IH]; intros l a H; [reflexivity|]. destruct l as [|b r]; [discriminate|]. cbn [skipn]. cbn in H. rewrite (IH r a H).
  destruct r as [|c r]; [destruct s; discriminate|reflexivity].
Qed.
Lemma rsorted_skipn s : forall l, rsorted l -> rsorted (skipn s l).
Proof. induction s as [|s IH]; intros l H; [exact H|]. destruct l as [|b r]; [exact H|]. cbn [skipn]. apply IH. eapply rsorted_tail. exact H. Qed.
Lemma advance_spec knot : forall ks fs h, length ks = S (length fs) -> nth_error ks 0 = Some h -> h <= knot -> knot < last ks 0 ->
  exists s a n g, advance knot ks fs = Ok (skipn s ks, skipn s fs) /\ nth_error ks s = Some a /\ nth_error ks (S s) = Some n /\ nth_error fs s = Some g /\ a <= knot < n.
Proof.
  induction ks as [|k ks IH]; intros fs h L H HK LK; [discriminate|]. cbn in H. injection H as ->. cbn [advance]. destruct ks as [|next ks]; [cbn in LK; lra|].
  destruct fs as [|g fs]; [discriminate L|]. destruct (rle next knot) eqn:E; rtest E.
  - destruct (IH fs next ltac:(cbn in L |- *; lia) eq_refl E LK) as (s & a & n & g' & EA & H1 & H2 & H3 & H4).
    exists (S s), a, n, g'. repeat (split; [assumption|]). exact H4.
  - exists 0%nat, h, next, g. split; [reflexivity|]. split; [reflexivity|]. split; [reflexivity|]. split; [reflexivity|]. lra.
Qed.
Lemma first_function_skipn fs s g : nth_error fs s = Some g -> first_function (skipn s fs) = Ok g.
Proof. intro H. pose proof (nth_error_skipn fs s 0) as E. rewrite Nat.add_0_r, H in E. destruct (skipn s fs); [discriminate|]. cbn in E. injection E as ->. reflexivity. Qed.
Lemma nth_skipn_head {A} (l : list A) s a : nth_error l s = Some a -> nth_error (skipn s l) 0 = Some a.
Proof. intro H. rewrite nth_error_skipn, Nat.add_0_r. exact H. Qed.

Definition at_piece (ks : list R) (fs : list func) (knot : R) (g : func) : Prop :=
  exists s a n, nth_error ks s = Some a /\ nth_error ks (S s) = Some n /\ nth_error fs s = Some g /\ a <= knot < n.

Lemma mult_pieces_spec fuel e : forall K ks1 fs1 ks2 fs2 h1 h2 knot, rsorted K -> last K 0 = e -> nth_error K 0 = Some knot ->
  length ks1 = S (length fs1) -> rsorted ks1 -> (forall f, In f fs1 -> simple f) -> nth_error ks1 0 = Some h1 -> h1 <= knot -> e <= last ks1 0 -> (forall k, In k ks1 -> knot <= k <= e -> In k K) ->
  length ks2 = S (length fs2) -> rsorted ks2 -> (forall f, In f fs2 -> simple f) -> nth_error ks2 0 = Some h2 -> h2 <= knot -> e <= last ks2 0 -> (forall k, In k ks2 -> knot <= k <= e -> In k K) ->
  exists l, mult_pieces (multiply (S fuel)) K e ks1 fs1 ks2 fs2 = Ok l /\ length K = S (length l) /\
    (forall h, nth_error l 0 = Some h -> exists g1 g2, at_piece ks1 fs1 knot g1 /\ at_piece ks2 fs2 knot g2 /\ forall x, value h x = value g1 x * value g2 x) /\
    forall i a b h, nth_error K i = Some a -> nth_error K (S i) = Some b -> nth_error l i = Some h ->
      simple h /\ forall x, a < x <= b -> value h x = pv ks1 (map value fs1) x * pv ks2 (map value fs2) x.
Proof.
  induction K as [|k0 K IH]; intros ks1 fs1 ks2 fs2 h1 h2 knot SK LE HK L1 S1 F1 H1 B1 E1 C1 L2 S2 F2 H2 B2 E2 C2; [discriminate|].
  cbn in HK. injection HK as ->. cbn [mult_pieces]. destruct K as [|k' K].
  - cbn in LE. subst e. destruct (req knot knot) eqn:Q; rtest Q; [|contradiction]. exists []. split; [reflexivity|]. split; [reflexivity|]. split; [intros h H; discriminate|].
    intros i a b h Ha Hb Hh. destruct i; discriminate.
  - pose proof (rsorted_tail _ _ SK) as SK'. assert (KK : knot < k') by (eapply rsorted_lt; [exact SK|left; auto]).
    rewrite last_cons in LE. assert (KE : k' <= e) by (rewrite <- LE; apply last_max; [exact SK'|left; auto]).
    destruct (req knot e) eqn:Q; rtest Q; [lra|]. clear Q.
    destruct (advance_spec knot ks1 fs1 h1 L1 H1 B1 ltac:(lra)) as (s1 & a1 & n1 & g1 & A1 & P1 & Q1 & G1 & R1). rewrite A1. cbn [bind].
    destruct (advance_spec knot ks2 fs2 h2 L2 H2 B2 ltac:(lra)) as (s2 & a2 & n2 & g2 & A2 & P2 & Q2 & G2 & R2). rewrite A2. cbn [bind fst snd].
    rewrite (first_function_skipn fs1 s1 g1 G1), (first_function_skipn fs2 s2 g2 G2). cbn [bind].
    destruct (simple_product fuel g1 g2) as (h & Eh & Sh & Vh); [apply F1; eapply nth_error_In; exact G1|apply F2; eapply nth_error_In; exact G2|]. rewrite Eh. cbn [bind].
    assert (N : forall n ks, In n ks -> (forall k, In k ks -> knot <= k <= e -> In k (knot :: k' :: K)) -> knot < n -> k' <= n).
    { intros n ks Hn C Kn. destruct (Rle_dec k' n) as [|X]; [auto|]. exfalso. destruct (C n Hn ltac:(lra)) as [Y|Y]; [lra|]. pose proof (rsorted_le k' K n SK' Y). lra. }
    assert (N1 : k' <= n1) by (apply (N n1 ks1); [eapply nth_error_In; exact Q1|exact C1|lra]).
    assert (N2 : k' <= n2) by (apply (N n2 ks2); [eapply nth_error_In; exact Q2|exact C2|lra]). clear N.
    assert (SS1 : sorted ks1) by (apply strict_sorted, rsorted_strict; exact S1). assert (SS2 : sorted ks2) by (apply strict_sorted, rsorted_strict; exact S2).
    destruct (IH (skipn s1 ks1) (skipn s1 fs1) (skipn s2 ks2) (skipn s2 fs2) a1 a2 k' SK' LE eq_refl) as (l & El & Ll & _ & Vl).
    + rewrite !skipn_length. apply nth_lt in Q1. lia.
    + apply rsorted_skipn. exact S1.
    + intros f Hf. apply F1. eapply In_skipn. exact Hf.
    + apply nth_skipn_head. exact P1.
    + lra.
    + rewrite (last_skipn s1 ks1 a1 P1). exact E1.
    + intros k Hk Xk. apply In_skipn in Hk. destruct (C1 k Hk ltac:(lra)) as [Y|Y]; [lra|exact Y].
    + rewrite !skipn_length. apply nth_lt in Q2. lia.
    + apply rsorted_skipn. exact S2.
    + intros f Hf. apply F2. eapply In_skipn. exact Hf.
    + apply nth_skipn_head. exact P2.
    + lra.
    + rewrite (last_skipn s2 ks2 a2 P2). exact E2.
    + intros k Hk Xk. apply In_skipn in Hk. destruct (C2 k Hk ltac:(lra)) as [Y|Y]; [lra|exact Y].
    + rewrite El. cbn [bind]. exists (h :: l). split; [reflexivity|]. split; [cbn in Ll |- *; lia|]. split.
      * intros h' Hh. cbn in Hh. injection Hh as <-. exists g1, g2. split; [exists s1, a1, n1; auto|]. split; [exists s2, a2, n2; auto|exact Vh].
      * intros [|i] a b h' Ha Hb Hh.
        -- cbn in Ha, Hb, Hh. injection Ha as <-. injection Hb as <-. injection Hh as <-. split; [exact Sh|]. intros x Hx. rewrite Vh.
           rewrite (pv_inside ks1 _ x s1 a1 n1 (value g1) SS1 P1 Q1 ltac:(lra)) by (apply map_nth_error; exact G1).
           rewrite (pv_inside ks2 _ x s2 a2 n2 (value g2) SS2 P2 Q2 ltac:(lra)) by (apply map_nth_error; exact G2). reflexivity.
        -- cbn [nth_error] in Hh. destruct (Vl i a b h' Ha Hb Hh) as [Sh' Vh']. split; [exact Sh'|]. intros x Hx. rewrite (Vh' x Hx).
           assert (knot < a) by (eapply rsorted_lt; [exact SK|eapply nth_error_In; exact Ha]).
           rewrite <- !skipn_map. rewrite <- (pv_skip s1 ks1 (map value fs1) x a1 SS1 P1 ltac:(lra)), <- (pv_skip s2 ks2 (map value fs2) x a2 SS2 P2 ltac:(lra)). reflexivity.
Qed.

Lemma simple_pieces_usable ks fs : simple_pieces ks fs -> usable (Piece ks fs).
Proof. intros (L & N & SR & F). constructor; auto; [apply strict_sorted; exact SR|]. intros f Hf. apply F; auto. Qed.
Lemma last_nth (l : list R) : l <> [] -> nth_error l (length l - 1) = Some (last l 0).
Proof.
  induction l as [|a r IH]; [congruence|]. intros _. destruct r as [|b r]; [reflexivity|]. rewrite last_cons. cbn [length]. replace (S (S (length r)) - 1)%nat with (S (length (b :: r) - 1)) by (cbn; lia).
  cbn [nth_error]. apply IH. discriminate.
Qed.
(** A value at a position that is not an inner knot. *)
Lemma value_at_piece ks fs x g : simple_pieces ks fs -> at_piece ks fs x g -> ~ In x (tl ks) -> value (Piece ks fs) x = value g x.
Proof.
  intros (L & N & SR & F) (s & a & n & P & Q & G & R) NI. unfold value. destruct (Req_dec a x) as [->|NE].
  - destruct s as [|s]; [rewrite (eval_first ks fs x g P G); reflexivity|]. exfalso. apply NI. destruct ks as [|k ks]; [discriminate|]. cbn in P |- *. eapply nth_error_In. exact P.
  - rewrite (eval_inside ks fs x s a n g (strict_sorted ks SR) P Q ltac:(lra) G). reflexivity.
Qed.

Lemma multiply_pieces_spec fuel a r1 fs1 b r2 fs2 : simple_pieces (a :: r1) fs1 -> simple_pieces (b :: r2) fs2 ->
  Rmax a b < Rmin (last (a :: r1) 0) (last (b :: r2) 0) ->
  exists h, multiply (S (S fuel)) (Piece (a :: r1) fs1) (Piece (b :: r2) fs2) = Ok h /\ usable h /\
    forall x, x <> Rmax a b \/ (~ In x r1 /\ ~ In x r2) -> value h x = value (Piece (a :: r1) fs1) x * value (Piece (b :: r2) fs2) x.
Proof.
  intros SP1 SP2 O. pose proof SP1 as (L1 & N1 & SR1 & F1). pose proof SP2 as (L2 & N2 & SR2 & F2).
  pose proof (proj2 (rsorted_strict _) SR1) as S1. pose proof (proj2 (rsorted_strict _) SR2) as S2.
  set (s := Rmax a b) in *. set (e := Rmin (last (a :: r1) 0) (last (b :: r2) 0)) in *.
  change (multiply (S (S fuel)) (Piece (a :: r1) fs1) (Piece (b :: r2) fs2)) with (multiply_piecewises (multiply (S fuel)) (a :: r1) fs1 (b :: r2) fs2).
  unfold multiply_piecewises. destruct (overlapping_knots_spec a r1 b r2 S1 S2 O) as (K & EK & SK & MK). rewrite EK. cbn [bind]. fold s e in MK.
  assert (Hs : In s K).
  { apply MK. split; [unfold s, Rmax; destruct (Rle_dec a b); [right; left; auto|left; left; auto]|lra]. }
  assert (He : In e K).
  { apply MK. split; [unfold e, Rmin; destruct (Rle_dec _ _); [left|right]; apply last_in; discriminate|lra]. }
  destruct K as [|k K]; [destruct Hs|].
  assert (k = s) as ->.
  { pose proof (rsorted_le k K s SK Hs). destruct (proj1 (MK k) (or_introl eq_refl)) as [_ X]. lra. }
  assert (LE : last (s :: K) 0 = e).
  { pose proof (last_max (s :: K) 0 e SK He). destruct (proj1 (MK (last (s :: K) 0)) (last_in (s :: K) 0 ltac:(discriminate))) as [_ X]. lra. }
  assert (LD : forall d, last (s :: K) d = e).
  { intro d. rewrite <- LE. generalize (s :: K), (ltac:(discriminate) : s :: K <> []). intros l NE. destruct l as [|y l]; [congruence|]. clear NE. revert y. induction l as [|z l IHl]; intro y; [reflexivity|]. exact (IHl z). }
  rewrite LD. assert (Le1 : e <= last (a :: r1) 0) by apply Rmin_l. assert (Le2 : e <= last (b :: r2) 0) by apply Rmin_r.
  assert (Sa : a <= s) by apply Rmax_l. assert (Sb : b <= s) by apply Rmax_r.
  destruct (mult_pieces_spec fuel e (s :: K) (a :: r1) fs1 (b :: r2) fs2 a b s SK LE eq_refl L1 S1 F1 eq_refl Sa Le1) as (l & El & Ll & Hl & Vl);
    [intros k Hk X; apply MK; split; auto|exact L2|exact S2|exact F2|reflexivity|exact Sb|exact Le2|intros k Hk X; apply MK; split; auto|].
  rewrite El. cbn [bind]. assert (SKs : sorted (s :: K)) by (apply strict_sorted, rsorted_strict; exact SK).
  assert (KN : K <> []) by (intros ->; cbn in LE; lra). assert (LN : l <> []) by (intros ->; cbn in Ll; destruct K; [congruence|discriminate]).
  assert (LK2 : (2 <= length (s :: K))%nat) by (destruct K; [congruence|cbn; lia]).
  exists (Piece (s :: K) l). split; [apply new_piecewise_ok; auto|].
  assert (NV : forall i h, nth_error l i = Some h -> exists x y, nth_error (s :: K) i = Some x /\ nth_error (s :: K) (S i) = Some y).
  { intros i h Hh. apply nth_lt in Hh. destruct (nth_ok (s :: K) i) as (x & Hx); [rewrite Ll; lia|]. destruct (nth_ok (s :: K) (S i)) as (y & Hy); [rewrite Ll; lia|]. eauto. }
  assert (U : usable (Piece (s :: K) l)).
  { constructor; auto. intros h Hh. apply In_nth_error in Hh. destruct Hh as (i & Hi). destruct (NV i h Hi) as (x & y & Hx & Hy). apply (Vl i x y h Hx Hy Hi). }
  split; [exact U|]. intros x X. pose proof (simple_pieces_usable _ _ SP1) as U1. pose proof (simple_pieces_usable _ _ SP2) as U2.
  destruct (piece_index_spec (s :: K) x s SKs eq_refl LK2) as [[A _]|[[A _]|[(i & p & q & A1 & A2 & A3 & _)|(l' & A1 & A2 & _)]]].
  - unfold value at 1. rewrite (eval_below (s :: K) l x s eq_refl A). unfold s, Rmax in A. destruct (Rle_dec a b).
    + unfold value at 2. rewrite (eval_below (b :: r2) fs2 x b eq_refl A). ring.
    + unfold value at 1. rewrite (eval_below (a :: r1) fs1 x a eq_refl A). ring.
  - subst x. destruct X as [X|[X1 X2]]; [contradiction|]. destruct l as [|h t]; [congruence|]. destruct (Hl h eq_refl) as (g1 & g2 & AT1 & AT2 & V).
    unfold value at 1. rewrite (eval_first (s :: K) (h :: t) s h eq_refl eq_refl). fold (value h s). rewrite V.
    rewrite (value_at_piece (a :: r1) fs1 s g1 SP1 AT1 X1), (value_at_piece (b :: r2) fs2 s g2 SP2 AT2 X2). reflexivity.
  - destruct (nth_ok l i) as (h & Hh); [apply nth_lt in A2; lia|]. unfold value at 1. rewrite (eval_inside (s :: K) l x i p q h SKs A1 A2 A3 Hh). fold (value h x).
    destruct (Vl i p q h A1 A2 Hh) as [_ V]. rewrite (V x A3). assert (s <= p) by (apply (rsorted_le s K p SK); eapply nth_error_In; exact A1).
    rewrite (value_pv (a :: r1) fs1 x U1), (value_pv (b :: r2) fs2 x U2); [reflexivity|intros k0 H0; cbn in H0; injection H0 as <-; lra|intros k0 H0; cbn in H0; injection H0 as <-; lra].
  - assert (l' = e) as ->.
    { pose proof (last_nth (s :: K) ltac:(discriminate)) as LL. rewrite LE in LL. rewrite LL in A1. injection A1 as <-. reflexivity. }
    unfold value at 1. rewrite (eval_above (s :: K) l x e SKs LK2 A1 A2). unfold e, Rmin in A2. destruct (Rle_dec _ _).
    + unfold value at 1. rewrite (eval_above (a :: r1) fs1 x (last (a :: r1) 0) (strict_sorted _ SR1)); [ring|destruct fs1; [congruence|cbn in L1 |- *; lia]|apply last_nth; discriminate|exact A2].
    + unfold value at 2. rewrite (eval_above (b :: r2) fs2 x (last (b :: r2) 0) (strict_sorted _ SR2)); [ring|destruct fs2; [congruence|cbn in L2 |- *; lia]|apply last_nth; discriminate|exact A2].
Qed.
