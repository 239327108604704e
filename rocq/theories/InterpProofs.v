From Coq Require Import Reals List Arith Bool Lia Lra.
From Coquelicot Require Import Coquelicot.
From Verif Require Import Common CumulModel CumulProofs FunModel FunSpec FunProofs FunProofs2 InterpModel InterpSpec.
Import ListNotations.
Local Open Scope R_scope.

(** *** Elements *)
Lemma el_nth l i : (i < length l)%nat -> nth_error l i = Some (el l i).
Proof. intro H. apply nth_error_nth'. exact H. Qed.
Lemma el_strict l i j : strictly_sorted l -> (i < j)%nat -> (j < length l)%nat -> el l i < el l j.
Proof. intros SR H L. apply (SR i j); [exact H|apply el_nth; lia|apply el_nth; lia]. Qed.
Lemma el_sorted l i j : sorted l -> (i <= j)%nat -> (j < length l)%nat -> el l i <= el l j.
Proof. intros SR H L. eapply sorted_le; [exact SR|exact H|apply el_nth; lia|apply el_nth; lia]. Qed.
Lemma strict_el l : (forall i, (S i < length l)%nat -> el l i < el l (S i)) -> strictly_sorted l.
Proof.
  intros H i j a b Hij Ha Hb. assert (L : (j < length l)%nat) by (apply nth_lt in Hb; exact Hb).
  rewrite (el_nth l i ltac:(lia)) in Ha. rewrite (el_nth l j L) in Hb. injection Ha as <-. injection Hb as <-. induction j as [|j IH]; [lia|].
  destruct (Nat.eq_dec i j) as [->|N]; [apply H; lia|]. specialize (IH ltac:(lia) ltac:(lia)). specialize (H j L). lra.
Qed.
Lemma last_el l d : l <> [] -> last l d = el l (length l - 1).
Proof.
  induction l as [|a r IH]; [congruence|]. intros _. destruct r as [|b r]; [reflexivity|]. cbn [last]. cbn [last] in IH. rewrite (IH ltac:(discriminate)). cbn [length].
  replace (S (S (length r)) - 1)%nat with (S (S (length r) - 1)) by lia. reflexivity.
Qed.

(** *** Derivatives and limits across a knot *)
Lemma glue_derive (f P Q : R -> R) (a x c l : R) : a < x < c -> (forall t, a < t <= x -> f t = P t) -> (forall t, x <= t < c -> f t = Q t) ->
  is_derive P x l -> is_derive Q x l -> is_derive f x l.
Proof.
  intros H HP HQ DP DQ. apply is_derive_Reals in DP. apply is_derive_Reals in DQ. apply is_derive_Reals. intros eps He.
  destruct (DP eps He) as (d1 & D1). destruct (DQ eps He) as (d2 & D2).
  assert (M : 0 < Rmin (Rmin d1 d2) (Rmin (x - a) (c - x))).
  { pose proof (cond_pos d1). pose proof (cond_pos d2). apply Rmin_glb_lt; apply Rmin_glb_lt; lra. }
  exists (mkposreal _ M). intros h Nh Hh. cbn in Hh.
  assert (B1 : Rabs h < d1). { eapply Rlt_le_trans; [exact Hh|]. eapply Rle_trans; [apply Rmin_l|apply Rmin_l]. }
  assert (B2 : Rabs h < d2). { eapply Rlt_le_trans; [exact Hh|]. eapply Rle_trans; [apply Rmin_l|apply Rmin_r]. }
  assert (B3 : Rabs h < x - a). { eapply Rlt_le_trans; [exact Hh|]. eapply Rle_trans; [apply Rmin_r|apply Rmin_l]. }
  assert (B4 : Rabs h < c - x). { eapply Rlt_le_trans; [exact Hh|]. eapply Rle_trans; [apply Rmin_r|apply Rmin_r]. }
  apply Rabs_def2 in B3. apply Rabs_def2 in B4. destruct (Rlt_dec h 0) as [Neg|Pos].
  - rewrite (HP (x + h)), (HP x) by lra. apply D1; auto.
  - rewrite (HQ (x + h)), (HQ x) by lra. apply D2; auto.
Qed.
Lemma glue_continuous (f P Q : R -> R) (a x c : R) : a < x < c -> (forall t, a < t <= x -> f t = P t) -> (forall t, x <= t < c -> f t = Q t) ->
  continuous P x -> continuous Q x -> continuous f x.
Proof.
  intros H HP HQ CP CQ. apply continuity_pt_filterlim. apply continuity_pt_filterlim in CP. apply continuity_pt_filterlim in CQ.
  intros eps He. destruct (CP eps He) as (d1 & Hd1 & D1). destruct (CQ eps He) as (d2 & Hd2 & D2).
  exists (Rmin (Rmin d1 d2) (Rmin (x - a) (c - x))). split; [apply Rmin_glb_lt; apply Rmin_glb_lt; lra|]. intros t [NT Ht]. cbn in Ht. unfold R_dist in Ht.
  assert (B1 : Rabs (t - x) < d1). { eapply Rlt_le_trans; [exact Ht|]. eapply Rle_trans; [apply Rmin_l|apply Rmin_l]. }
  assert (B2 : Rabs (t - x) < d2). { eapply Rlt_le_trans; [exact Ht|]. eapply Rle_trans; [apply Rmin_l|apply Rmin_r]. }
  assert (B3 : Rabs (t - x) < x - a). { eapply Rlt_le_trans; [exact Ht|]. eapply Rle_trans; [apply Rmin_r|apply Rmin_l]. }
  assert (B4 : Rabs (t - x) < c - x). { eapply Rlt_le_trans; [exact Ht|]. eapply Rle_trans; [apply Rmin_r|apply Rmin_r]. }
  apply Rabs_def2 in B3. apply Rabs_def2 in B4. destruct (Rlt_dec t x) as [Neg|Pos].
  - rewrite (HP t), (HP x) by lra. apply D1. split; [exact NT|exact B1].
  - rewrite (HQ t), (HQ x) by lra. apply D2. split; [exact NT|exact B2].
Qed.

(** *** Piecewise functions given by their pieces *)
Definition pieces_are (ks : list R) (fs : list func) (p : nat -> R -> R) : Prop :=
  length ks = S (length fs) /\ fs <> [] /\ forall i, (i < length fs)%nat -> exists g, nth_error fs i = Some g /\ usable g /\ forall x, value g x = p i x.

Lemma pieces_usable ks fs p : pieces_are ks fs p -> sorted ks -> usable (Piece ks fs).
Proof.
  intros (L & N & P) SR. constructor; auto. intros f Hf. apply In_nth_error in Hf. destruct Hf as (i & Hi).
  destruct (P i) as (g & Hg & U & _); [apply nth_lt in Hi; exact Hi|]. rewrite Hg in Hi. injection Hi as <-. exact U.
Qed.
Lemma pieces_inside ks fs p i x : pieces_are ks fs p -> sorted ks -> (i < length fs)%nat -> el ks i < x <= el ks (S i) -> value (Piece ks fs) x = p i x.
Proof.
  intros (L & N & P) SR Hi X. destruct (P i Hi) as (g & Hg & _ & V). unfold value.
  rewrite (eval_inside ks fs x i (el ks i) (el ks (S i)) g SR (el_nth ks i ltac:(lia)) (el_nth ks (S i) ltac:(lia)) X Hg). apply V.
Qed.
Lemma pieces_first ks fs p : pieces_are ks fs p -> value (Piece ks fs) (el ks 0) = p 0%nat (el ks 0).
Proof.
  intros (L & N & P). assert (NL : (0 < length fs)%nat) by (destruct fs; [congruence|cbn; lia]). destruct (P 0%nat NL) as (g & Hg & _ & V). unfold value. rewrite (eval_first ks fs (el ks 0) g (el_nth ks 0 ltac:(lia)) Hg). apply V.
Qed.
Lemma pieces_below ks fs p x : pieces_are ks fs p -> x < el ks 0 -> value (Piece ks fs) x = 0.
Proof. intros (L & N & P) X. unfold value. rewrite (eval_below ks fs x (el ks 0)); [reflexivity|apply el_nth; lia|exact X]. Qed.
Lemma pieces_above ks fs p x : pieces_are ks fs p -> sorted ks -> el ks (length fs) < x -> value (Piece ks fs) x = 0.
Proof.
  intros (L & N & P) SR X. assert (NL : (0 < length fs)%nat) by (destruct fs; [congruence|cbn; lia]). unfold value. rewrite (eval_above ks fs x (el ks (length fs)) SR); [reflexivity|lia| |exact X].
  replace (length ks - 1)%nat with (length fs) by lia. apply el_nth. lia.
Qed.
Lemma pieces_closed ks fs p i x : pieces_are ks fs p -> strictly_sorted ks -> (forall j, (S j < length fs)%nat -> p j (el ks (S j)) = p (S j) (el ks (S j))) ->
  (i < length fs)%nat -> el ks i <= x <= el ks (S i) -> value (Piece ks fs) x = p i x.
Proof.
  intros PA SR J Hi X. pose proof (strict_sorted ks SR) as SS. destruct (Req_dec x (el ks i)) as [->|N]; [|apply (pieces_inside ks fs p i x PA SS Hi); lra].
  destruct i as [|i]; [apply (pieces_first ks fs p PA)|]. rewrite <- (J i Hi). apply (pieces_inside ks fs p i _ PA SS ltac:(lia)).
  pose proof (el_strict ks i (S i) SR ltac:(lia)). destruct PA as (L & _). specialize (H ltac:(lia)). lra.
Qed.
Lemma locate ks n x : length ks = S n -> el ks 0 < x <= el ks n -> exists i, (i < n)%nat /\ el ks i < x <= el ks (S i).
Proof.
  intros L X. clear L. induction n as [|n IH]; [lra|]. destruct (Rle_dec x (el ks n)) as [H|H]; [destruct (IH ltac:(lra)) as (i & Hi & B); exists i; split; [lia|exact B]|].
  exists n. split; [lia|lra].
Qed.
(** Around a position inside the range the function is made of two pieces that meet there. *)
Lemma around ks fs p x : pieces_are ks fs p -> strictly_sorted ks -> (forall j, (S j < length fs)%nat -> p j (el ks (S j)) = p (S j) (el ks (S j))) ->
  el ks 0 < x < el ks (length fs) ->
  exists i j a c, a < x < c /\ (i < length fs)%nat /\ (j < length fs)%nat /\ (j = i \/ j = S i /\ x = el ks (S i)) /\ el ks i < x <= el ks (S i) /\
    (forall t, a < t <= x -> value (Piece ks fs) t = p i t) /\ (forall t, x <= t < c -> value (Piece ks fs) t = p j t).
Proof.
  intros PA SR J X. pose proof PA as (L & _). destruct (locate ks (length fs) x L ltac:(lra)) as (i & Hi & B).
  destruct (Req_dec x (el ks (S i))) as [E|N].
  - assert (S i < length fs)%nat. { destruct (Nat.eq_dec (S i) (length fs)) as [Q|Q]; [rewrite Q in E; lra|lia]. }
    exists i, (S i), (el ks i), (el ks (S (S i))). split; [pose proof (el_strict ks (S i) (S (S i)) SR ltac:(lia) ltac:(lia)); lra|].
    split; [exact Hi|]. split; [assumption|]. split; [right; auto|]. split; [exact B|]. split; intros t Ht; apply (pieces_closed ks fs p); auto; lra.
  - exists i, i, (el ks i), (el ks (S i)). split; [lra|]. split; [exact Hi|]. split; [exact Hi|]. split; [left; reflexivity|]. split; [exact B|]. split; intros t Ht; apply (pieces_closed ks fs p); auto; lra.
Qed.
Lemma pieces_continuous ks fs p x : pieces_are ks fs p -> strictly_sorted ks -> (forall j, (S j < length fs)%nat -> p j (el ks (S j)) = p (S j) (el ks (S j))) ->
  (forall i x, (i < length fs)%nat -> continuous (p i) x) -> el ks 0 < x < el ks (length fs) -> continuous (value (Piece ks fs)) x.
Proof. intros PA SR J C X. destruct (around ks fs p x PA SR J X) as (i & j & a & c & B & Hi & Hj & _ & _ & V1 & V2). apply (glue_continuous _ (p i) (p j) a x c); auto. Qed.
Lemma pieces_derive ks fs fs' p p1 x : pieces_are ks fs p -> pieces_are ks fs' p1 -> strictly_sorted ks ->
  (forall j, (S j < length fs)%nat -> p j (el ks (S j)) = p (S j) (el ks (S j))) -> (forall j, (S j < length fs)%nat -> p1 j (el ks (S j)) = p1 (S j) (el ks (S j))) ->
  (forall i x, (i < length fs)%nat -> is_derive (p i) x (p1 i x)) -> el ks 0 < x < el ks (length fs) ->
  is_derive (value (Piece ks fs)) x (value (Piece ks fs') x).
Proof.
  intros PA PA' SR J J' D X. pose proof PA as (L & _). pose proof PA' as (L' & _). destruct (around ks fs p x PA SR J X) as (i & j & a & c & B & Hi & Hj & K & IN & V1 & V2).
  rewrite (pieces_inside ks fs' p1 i x PA' (strict_sorted _ SR) ltac:(lia) IN).
  apply (glue_derive _ (p i) (p j) a x c); auto. destruct K as [->|[-> K]]; [apply D; auto|]. assert (EJ : p1 i x = p1 (S i) x) by (rewrite K; apply J'; auto). rewrite EJ. apply D. exact Hj.
Qed.

(** *** Cleaning *)
Lemma clean_id : forall xs ys px py, length xs = length ys -> sorted (px :: xs) ->
  (forall i, (i < length xs)%nat -> el (px :: xs) i = el xs i -> el (py :: ys) i <> el ys i) -> clean_from px py xs ys = Ok (xs, ys).
Proof.
  induction xs as [|x xs IH]; intros ys px py L SR D; [destruct ys; [reflexivity|discriminate]|]. destruct ys as [|y ys]; [discriminate|]. cbn [clean_from].
  assert (px <= x) by (apply (SR 0%nat 1%nat); [lia|reflexivity|reflexivity]).
  destruct (req x px) eqn:E1; rtest E1.
  - subst x. destruct (req y py) eqn:E2; rtest E2; [exfalso; apply (D 0%nat); [cbn; lia|reflexivity|symmetry; exact E2]|]. cbn [andb].
    destruct (rlt px px) eqn:E3; rtest E3; [lra|]. rewrite (IH ys px y); [reflexivity|cbn in L; lia|eapply sorted_tail; exact SR|]. intros i Hi. apply (D (S i)). cbn. lia.
  - cbn [andb]. destruct (rlt x px) eqn:E3; rtest E3; [lra|]. rewrite (IH ys x y); [reflexivity|cbn in L; lia|eapply sorted_tail; exact SR|]. intros i Hi. apply (D (S i)). cbn. lia.
Qed.
Lemma clean_throws : forall xs ys px py i, length xs = length ys -> (i < length xs)%nat -> el xs i < el (px :: xs) i -> clean_from px py xs ys = Throw.
Proof.
  induction xs as [|x xs IH]; intros ys px py i L Hi H; [cbn in Hi; lia|]. destruct ys as [|y ys]; [discriminate|]. cbn [clean_from].
  destruct i as [|i].
  - unfold el in H. cbn in H. destruct (req x px) eqn:E; rtest E; [lra|]. cbn [andb]. destruct (rlt x px) eqn:E3; rtest E3; [reflexivity|lra].
  - assert (R' : clean_from x y xs ys = Throw) by (apply (IH ys x y i); [cbn in L; lia|cbn in Hi; lia|exact H]). rewrite R'. destruct (req x px && req y py); [reflexivity|]. destruct (rlt x px); reflexivity.
Qed.
Lemma clean_dup : forall xs1 ys1 px py x y xs ys, length xs1 = length ys1 ->
  clean_from px py (xs1 ++ x :: x :: xs) (ys1 ++ y :: y :: ys) = clean_from px py (xs1 ++ x :: xs) (ys1 ++ y :: ys).
Proof.
  induction xs1 as [|a xs1 IH]; intros ys1 px py x y xs ys L.
  - destruct ys1; [|discriminate]. cbn [app clean_from]. destruct (req x x) eqn:E1; rtest E1; [|contradiction]. destruct (req y y) eqn:E2; rtest E2; [|contradiction]. cbn [andb]. reflexivity.
  - destruct ys1 as [|b ys1]; [discriminate|]. cbn [app clean_from]. rewrite IH by (cbn in L; lia). reflexivity.
Qed.
Lemma clean_dup0 x y xs ys : clean_from x y (x :: xs) (y :: ys) = clean_from x y xs ys.
Proof. cbn [clean_from]. destruct (req x x) eqn:E1; rtest E1; [|contradiction]. destruct (req y y) eqn:E2; rtest E2; [|contradiction]. reflexivity. Qed.

(** *** Linear pieces *)
Section Linear.
  Variables (lowest highest : R) (junk : list R).
  Lemma linear_pieces_length : forall xs ys, length xs = length ys -> length (linear_pieces junk xs ys) = (length xs - 1)%nat.
  Proof.
    induction xs as [|x xs IH]; intros ys L; [reflexivity|]. destruct ys as [|y ys]; [discriminate|]. destruct xs as [|x' xs]; [destruct ys; [reflexivity|discriminate]|].
    destruct ys as [|y' ys]; [discriminate|]. cbn [linear_pieces length] in *. specialize (IH (y' :: ys) ltac:(cbn; lia)). cbn [length] in IH. rewrite IH. lia.
  Qed.
  Lemma linear_pieces_nth : forall xs ys i, length xs = length ys -> (S i < length xs)%nat ->
    nth_error (linear_pieces junk xs ys) i = Some (linear_piece junk (el xs i) (el ys i) (el xs (S i)) (el ys (S i))).
  Proof.
    induction xs as [|x xs IH]; intros ys i L Hi; [cbn in Hi; lia|]. destruct ys as [|y ys]; [discriminate|]. destruct xs as [|x' xs]; [cbn in Hi; lia|].
    destruct ys as [|y' ys]; [discriminate|]. destruct i as [|i]; [reflexivity|]. exact (IH (y' :: ys) i ltac:(cbn in L |- *; lia) ltac:(cbn in Hi |- *; lia)).
  Qed.
  Lemma linear_value x0 y0 x1 y1 x : x0 <> x1 -> value (linear_piece junk x0 y0 x1 y1) x = line x0 y0 x1 y1 x.
  Proof. intro N. unfold linear_piece. destruct (req x1 x0) eqn:E; rtest E; [congruence|]. unfold value. cbn [eval]. unfold poly_eval. cbn [poly_loop]. unfold line. field. lra. Qed.
  Lemma linear_usable x0 y0 x1 y1 : usable (linear_piece junk x0 y0 x1 y1).
  Proof. unfold linear_piece. destruct (req x1 x0); constructor. Qed.
  Definition lp (xs ys : list R) (i : nat) (x : R) : R := value (linear_piece junk (el xs i) (el ys i) (el xs (S i)) (el ys (S i))) x.
  Lemma linear_pieces_are ks xs ys : length xs = length ys -> (2 <= length xs)%nat -> length ks = length xs -> pieces_are ks (linear_pieces junk xs ys) (lp xs ys).
  Proof.
    intros L L2 LK. pose proof (linear_pieces_length xs ys L) as LL. split; [lia|]. split; [intro E; rewrite E in LL; cbn in LL; lia|].
    intros i Hi. eexists. split; [apply linear_pieces_nth; [exact L|lia]|]. split; [apply linear_usable|]. intro x. reflexivity.
  Qed.
  Lemma line_left x0 y0 x1 y1 : line x0 y0 x1 y1 x0 = y0.
  Proof. unfold line. unfold Rdiv. rewrite (Rminus_diag_eq x0 x0 eq_refl). ring. Qed.
  Lemma line_right x0 y0 x1 y1 : x0 <> x1 -> line x0 y0 x1 y1 x1 = y1.
  Proof. intro N. unfold line. field. lra. Qed.
  Lemma line_between x0 y0 x1 y1 x : x0 < x1 -> x0 <= x <= x1 -> Rmin y0 y1 <= line x0 y0 x1 y1 x <= Rmax y0 y1.
  Proof.
    intros H X. unfold line. set (t := (x - x0) / (x1 - x0)). assert (T : 0 <= t <= 1).
    { unfold t. split; [apply Rdiv_le_0_compat; lra|]. apply (Rmult_le_reg_r (x1 - x0)); [lra|]. unfold Rdiv. rewrite Rmult_assoc, Rinv_l by lra. lra. }
    unfold Rmin, Rmax. destruct (Rle_dec y0 y1); split; nra.
  Qed.
  Lemma line_continuous x0 y0 x1 y1 x : continuous (line x0 y0 x1 y1) x.
  Proof. apply (ex_derive_continuous (line x0 y0 x1 y1)). unfold line. auto_derive. auto. Qed.

  (** *** The knots of an extrapolation *)
  Lemma replace_length xs : length (replace_ends lowest highest xs) = length xs.
  Proof. destruct xs as [|a [|b r]]; try reflexivity. unfold replace_ends. cbn [length]. rewrite app_length. cbn [length]. pose proof (app_removelast_last 0 (l := b :: r) ltac:(discriminate)) as E. apply (f_equal (@length R)) in E. rewrite app_length in E. cbn [length] in E. lia. Qed.
  Lemma replace_first xs : (2 <= length xs)%nat -> el (replace_ends lowest highest xs) 0 = lowest.
  Proof. intro H. destruct xs as [|a [|b r]]; cbn in H; try lia. reflexivity. Qed.
  Lemma replace_last xs : (2 <= length xs)%nat -> el (replace_ends lowest highest xs) (length xs - 1) = highest.
  Proof.
    intro H. rewrite <- (replace_length xs). destruct xs as [|a [|b r]]; cbn in H; try lia. unfold replace_ends, el. set (l := removelast (b :: r)). cbn [length]. rewrite app_length. cbn [length].
    replace (S (length l + 1) - 1)%nat with (S (length l)) by lia. cbn [nth]. rewrite app_nth2 by lia. rewrite Nat.sub_diag. reflexivity.
  Qed.
  Lemma replace_inner xs i : (0 < i)%nat -> (S i < length xs)%nat -> el (replace_ends lowest highest xs) i = el xs i.
  Proof.
    intros H0 H. destruct xs as [|a [|b r]]; cbn in H; try lia. unfold replace_ends, el. destruct i as [|i]; [lia|]. change (nth (S i) (a :: b :: r) 0) with (nth i (b :: r) 0). change (nth i (removelast (b :: r) ++ [highest]) 0 = nth i (b :: r) 0).
    pose proof (app_removelast_last 0 (l := b :: r) ltac:(discriminate)) as E. set (l := removelast (b :: r)) in *.
    assert (LL : length l = length r). { apply (f_equal (@length R)) in E. rewrite app_length in E. cbn [length] in E. lia. }
    rewrite app_nth1 by lia. rewrite E. rewrite app_nth1 by lia. reflexivity.
  Qed.
  Lemma replace_strict xs : (2 <= length xs)%nat -> strictly_sorted xs -> (forall x, In x xs -> lowest < x < highest) -> strictly_sorted (replace_ends lowest highest xs).
  Proof.
    intros L SR B. apply strict_el. intros i Hi. rewrite replace_length in Hi.
    assert (BI : forall i, (i < length xs)%nat -> lowest < el xs i < highest) by (intros j Hj; apply B; apply nth_In; exact Hj).
    destruct i as [|i].
    - rewrite replace_first by exact L. destruct (Nat.eq_dec (length xs) 2) as [E|N].
      + pose proof (replace_last xs L) as RL. rewrite E in RL. cbn in RL. rewrite RL. pose proof (BI 0%nat ltac:(lia)). lra.
      + rewrite (replace_inner xs 1) by lia. apply BI. lia.
    - rewrite (replace_inner xs (S i)) by lia. destruct (Nat.eq_dec (length xs) (S (S (S i)))) as [E|N].
      + replace (S (S i)) with (length xs - 1)%nat by lia. rewrite replace_last by exact L. apply BI. lia.
      + rewrite (replace_inner xs (S (S i))) by lia. apply el_strict; [exact SR|lia|lia].
  Qed.
End Linear.

(** *** Splines *)
Section SplineProofs.
  Variables (x y : nat -> R) (n : nat).
  Hypothesis X : forall i, (i < n)%nat -> x i < x (S i).
  Let h := sh x.
  Lemma h_pos i : (i < n)%nat -> 0 < h i.
  Proof. intro H. specialize (X i H). unfold h, sh. lra. Qed.
  Lemma mu_range i : (i < n)%nat -> 0 <= fst (muz x y i) < 1.
  Proof.
    induction i as [|i IH]; intro H; [cbn; lra|]. cbn [muz]. specialize (IH ltac:(lia)). destruct (muz x y i) as [mu z]. cbn [fst] in *.
    pose proof (h_pos i ltac:(lia)) as H1. pose proof (h_pos (S i) H) as H2. fold h. unfold sg. fold h. replace (x (S (S i)) - x i) with (h i + h (S i)) by (unfold h, sh; ring).
    assert (G : h (S i) < 2 * (h i + h (S i)) - h i * mu) by nra. split; [apply Rdiv_le_0_compat; lra|]. apply (Rmult_lt_reg_r (2 * (h i + h (S i)) - h i * mu)); [lra|].
    unfold Rdiv. rewrite Rmult_assoc, Rinv_l by lra. lra.
  Qed.
  Lemma g_pos i : (S i < n)%nat -> 0 < sg x i (fst (muz x y i)).
  Proof.
    intro H. pose proof (mu_range i ltac:(lia)). pose proof (h_pos i ltac:(lia)). pose proof (h_pos (S i) H). unfold sg. fold h. replace (x (S (S i)) - x i) with (h i + h (S i)) by (unfold h, sh; ring). nra.
  Qed.
  Definition rhs (i : nat) : R := 3 * (y (S (S i)) * h i - y (S i) * (x (S (S i)) - x i) + y i * h (S i)) / (h i * h (S i)).
  Lemma sc_step j : (j < n)%nat -> sc x y n j = snd (muz x y j) - fst (muz x y j) * sc x y n (S j).
  Proof. intro H. unfold sc. replace (n - j)%nat with (S (n - S j)) by lia. cbn [c_down]. replace (n - S (n - S j))%nat with j by lia. reflexivity. Qed.
  Lemma sc_last : sc x y n n = 0.
  Proof. unfold sc. rewrite Nat.sub_diag. reflexivity. Qed.
  Lemma sc_first : (0 < n)%nat -> sc x y n 0 = 0.
  Proof. intro H. rewrite sc_step by exact H. cbn. ring. Qed.
  Lemma tridiagonal i : (S i < n)%nat -> h i * sc x y n i + 2 * (h i + h (S i)) * sc x y n (S i) + h (S i) * sc x y n (S (S i)) = rhs i.
  Proof.
    intro H. rewrite (sc_step i) by lia. pose proof (g_pos i H) as G. pose proof (sc_step (S i) H) as E. cbn [muz] in E.
    destruct (muz x y i) as [mu z]. cbn [fst snd] in *. fold h in E. fold (rhs i) in E. set (g := sg x i mu) in *. set (c1 := sc x y n (S i)) in *. set (c2 := sc x y n (S (S i))) in *.
    assert (E' : g * c1 = rhs i - h i * z - h (S i) * c2). { rewrite E. field. lra. }
    assert (Eg : g = 2 * (h i + h (S i)) - h i * mu). { unfold g, sg. fold h. unfold h, sh. ring. }
    rewrite Eg in E'. lra.
  Qed.

  (** The pieces, relative to their first knot. *)
  Definition sp (i : nat) (t : R) : R := y i + sb x y n i * (t - x i) + sc x y n i * (t - x i) ^ 2 + sd x y n i * (t - x i) ^ 3.
  Definition sp1 (i : nat) (t : R) : R := sb x y n i + 2 * sc x y n i * (t - x i) + 3 * sd x y n i * (t - x i) ^ 2.
  Definition sp2 (i : nat) (t : R) : R := 2 * sc x y n i + 6 * sd x y n i * (t - x i).
  Lemma sp_value i t : value (spline_piece x y n i) t = sp i t.
  Proof. unfold value, spline_piece. cbn [eval]. unfold poly_eval. cbn [poly_loop]. unfold sp. ring. Qed.
  Lemma sp_derive i t : is_derive (sp i) t (sp1 i t).
  Proof. unfold sp. auto_derive; [auto|]. unfold sp1. unfold Rminus. ring. Qed.
  Lemma sp1_derive i t : is_derive (sp1 i) t (sp2 i t).
  Proof. unfold sp1. auto_derive; [auto|]. unfold sp2. unfold Rminus. ring. Qed.
  Lemma sp2_derive i t : is_derive (sp2 i) t (6 * sd x y n i).
  Proof. unfold sp2. auto_derive; [auto|]. ring. Qed.
  Lemma sp_left i : sp i (x i) = y i.
  Proof. unfold sp. ring. Qed.
  Lemma sp_right i : (i < n)%nat -> sp i (x (S i)) = y (S i).
  Proof.
    intro H. pose proof (h_pos i H) as P. unfold sp. replace (x (S i) - x i) with (h i) by reflexivity. unfold sb, sd. fold h. field. lra.
  Qed.
  Lemma sp1_join i : (S i < n)%nat -> sp1 i (x (S i)) = sp1 (S i) (x (S i)).
  Proof.
    intro H. pose proof (h_pos i ltac:(lia)) as P. pose proof (h_pos (S i) H) as P'. pose proof (tridiagonal i H) as T. unfold sp1. replace (x (S i) - x i) with (h i) by reflexivity.
    replace (x (S i) - x (S i)) with 0 by ring. unfold rhs in T. replace (x (S (S i)) - x i) with (h i + h (S i)) in T by (unfold h, sh; ring).
    unfold sb, sd. fold h. set (c0 := sc x y n i) in *. set (c1 := sc x y n (S i)) in *. set (c2 := sc x y n (S (S i))) in *. set (h0 := h i) in *. set (h1 := h (S i)) in *.
    set (y0 := y i) in *. set (y1 := y (S i)) in *. set (y2 := y (S (S i))) in *.
    assert (T' : (h0 * c0 + 2 * (h0 + h1) * c1 + h1 * c2) / 3 = (y2 - y1) / h1 - (y1 - y0) / h0). { rewrite T. field. lra. }
    assert (LL : (y1 - y0) / h0 - h0 * (c1 + 2 * c0) / 3 + 2 * c0 * h0 + 3 * ((c1 - c0) / (3 * h0)) * h0 ^ 2 = (y1 - y0) / h0 + (h0 * c0 + 2 * h0 * c1) / 3) by (field; lra).
    rewrite LL. lra.
  Qed.
  Lemma sp2_join i : (i < n)%nat -> sp2 i (x (S i)) = 2 * sc x y n (S i).
  Proof. intro H. pose proof (h_pos i H) as P. unfold sp2. replace (x (S i) - x i) with (h i) by reflexivity. unfold sd. fold h. field. lra. Qed.
  Lemma sp2_left i : sp2 i (x i) = 2 * sc x y n i.
  Proof. unfold sp2. ring. Qed.
End SplineProofs.

(** *** The functions returned *)
Section Results.
  Variables (lowest highest : R) (junk : list R).
  Lemma interpolate_clean xs ys type e : length xs = length ys -> (2 <= length xs)%nat -> sorted xs ->
    (forall i, (S i < length xs)%nat -> el xs i = el xs (S i) -> el ys i <> el ys (S i)) ->
    interpolate lowest highest junk xs ys type e = match type with Linear => linear_interpolation lowest highest junk xs ys e | CubicSpline => spline_interpolation lowest highest xs ys e end.
  Proof.
    intros L L2 SR D. unfold interpolate. rewrite L, Nat.eqb_refl. cbn [negb]. replace (Nat.eqb (length ys) 1) with false by (symmetry; apply Nat.eqb_neq; lia). cbn [andb].
    destruct xs as [|x0 xs]; [cbn in L2; lia|]. destruct ys as [|y0 ys]; [discriminate|]. rewrite (clean_id xs ys x0 y0); [reflexivity|cbn in L; lia|exact SR|].
    intros i Hi. apply (D i). cbn. lia.
  Qed.
  Lemma strict_distinct xs (ys : list R) : strictly_sorted xs -> forall i, (S i < length xs)%nat -> el xs i = el xs (S i) -> el ys i <> el ys (S i).
  Proof. intros SR i Hi E. pose proof (el_strict xs i (S i) SR ltac:(lia) Hi). lra. Qed.
  Definition knots (e : bool) (xs : list R) : list R := if e then replace_ends lowest highest xs else xs.
  Lemma knots_length e xs : length (knots e xs) = length xs.
  Proof. destruct e; [apply replace_length|reflexivity]. Qed.
  Lemma linear_result xs ys e : length xs = length ys -> (2 <= length xs)%nat -> sorted (knots e xs) ->
    linear_interpolation lowest highest junk xs ys e = Ok (Piece (knots e xs) (linear_pieces junk xs ys)).
  Proof.
    intros L L2 SR. unfold linear_interpolation. fold (knots e xs). apply new_piecewise_ok; [|exact SR]. rewrite linear_pieces_length by exact L. rewrite knots_length. lia.
  Qed.
  Definition sps (xs ys : list R) : nat -> R -> R := sp (el xs) (el ys) (length xs - 1).
  Lemma spline_result xs ys e : (2 <= length xs)%nat -> sorted (knots e xs) ->
    spline_interpolation lowest highest xs ys e = Ok (Piece (knots e xs) (map (spline_piece (el xs) (el ys) (length xs - 1)) (seq 0 (length xs - 1)))).
  Proof.
    intros L2 SR. unfold spline_interpolation. fold (knots e xs). apply new_piecewise_ok; [|exact SR]. rewrite map_length, seq_length. rewrite knots_length. lia.
  Qed.
  Lemma nth_error_map_seq {A} (f : nat -> A) n i : (i < n)%nat -> nth_error (map f (seq 0 n)) i = Some (f i).
  Proof. intro H. apply map_nth_error. rewrite (nth_error_nth' _ 0%nat) by (rewrite seq_length; exact H). rewrite seq_nth by exact H. reflexivity. Qed.
  Lemma index_pieces_are ks n (g : nat -> func) p : (0 < n)%nat -> length ks = S n -> (forall i, (i < n)%nat -> usable (g i) /\ forall x, value (g i) x = p i x) ->
    pieces_are ks (map g (seq 0 n)) p.
  Proof.
    intros N L H. unfold pieces_are. rewrite map_length, seq_length. split; [exact L|]. split; [intro E; apply (f_equal (@length func)) in E; rewrite map_length, seq_length in E; cbn in E; lia|].
    intros i Hi. exists (g i). split; [apply nth_error_map_seq; exact Hi|]. apply H. exact Hi.
  Qed.
  Lemma spline_pieces_are ks xs ys : (2 <= length xs)%nat -> length ks = length xs ->
    pieces_are ks (map (spline_piece (el xs) (el ys) (length xs - 1)) (seq 0 (length xs - 1))) (sps xs ys).
  Proof. intros L2 L. apply index_pieces_are; [lia|lia|]. intros i Hi. split; [constructor|]. intro t. apply sp_value. Qed.

  Lemma sps_natural xs ys : (2 <= length xs)%nat -> strictly_sorted xs -> natural_spline xs ys (sps xs ys).
  Proof.
    intros L2 SR. set (n := (length xs - 1)%nat). assert (X : forall i, (i < n)%nat -> el xs i < el xs (S i)) by (intros i Hi; apply el_strict; [exact SR|lia|unfold n in Hi; lia]).
    exists (sp1 (el xs) (el ys) n), (sp2 (el xs) (el ys) n), (fun i => 6 * sd (el xs) (el ys) n i). fold n. split; [|split; [|split; [|split]]].
    - intros i t _. split; [apply sp_derive|]. split; [apply sp1_derive|apply sp2_derive].
    - intros i Hi. split; [apply sp_left|apply sp_right; auto].
    - intros i Hi. split; [apply sp1_join; auto|]. rewrite sp2_join by (auto; lia). rewrite sp2_left. reflexivity.
    - rewrite sp2_left. rewrite sc_first by (unfold n; lia). ring.
    - assert (N : n = S (n - 1)) by (unfold n; lia). rewrite N at 3. rewrite sp2_join by (auto; lia). rewrite <- N. rewrite sc_last. ring.
  Qed.
  Lemma sps_join xs ys : (2 <= length xs)%nat -> strictly_sorted xs -> forall j, (S j < length xs - 1)%nat -> sps xs ys j (el xs (S j)) = sps xs ys (S j) (el xs (S j)).
  Proof. intros L2 SR j Hj. unfold sps. rewrite sp_left. apply sp_right; [|lia]. intros i Hi. apply el_strict; [exact SR|lia|lia]. Qed.
  Lemma lp_line xs ys i t : el xs i <> el xs (S i) -> lp junk xs ys i t = line (el xs i) (el ys i) (el xs (S i)) (el ys (S i)) t.
  Proof. intro H. apply linear_value. exact H. Qed.
  Lemma lp_join xs ys : strictly_sorted xs -> forall j, (S j < length xs - 1)%nat -> lp junk xs ys j (el xs (S j)) = lp junk xs ys (S j) (el xs (S j)).
  Proof.
    intros SR j Hj. pose proof (el_strict xs j (S j) SR ltac:(lia) ltac:(lia)). pose proof (el_strict xs (S j) (S (S j)) SR ltac:(lia) ltac:(lia)).
    rewrite !lp_line by lra. rewrite line_right, line_left by lra. reflexivity.
  Qed.
  (** The knots around position i of an extrapolated function. *)
  Lemma knots_true_inner xs i : (0 < i)%nat -> (S i < length xs)%nat -> el (knots true xs) i = el xs i.
  Proof. apply replace_inner. Qed.
  Lemma extrapolated_join xs (p : nat -> R -> R) : (2 <= length xs)%nat -> (forall j, (S j < length xs - 1)%nat -> p j (el xs (S j)) = p (S j) (el xs (S j))) ->
    forall j, (S j < length xs - 1)%nat -> p j (el (knots true xs) (S j)) = p (S j) (el (knots true xs) (S j)).
  Proof. intros L2 J j Hj. rewrite knots_true_inner by lia. apply J. exact Hj. Qed.
  Lemma knots_true_first xs : (2 <= length xs)%nat -> el (knots true xs) 0 = lowest.
  Proof. apply replace_first. Qed.
  Lemma knots_true_last xs : (2 <= length xs)%nat -> el (knots true xs) (length xs - 1) = highest.
  Proof. apply replace_last. Qed.
  Lemma extrapolated_value xs fs p : (2 <= length xs)%nat -> pieces_are (knots true xs) fs p -> strictly_sorted xs -> (forall x, In x xs -> lowest < x < highest) ->
    (forall j, (S j < length xs - 1)%nat -> p j (el xs (S j)) = p (S j) (el xs (S j))) ->
    (forall i t, (S i < length xs)%nat -> el xs i <= t <= el xs (S i) -> value (Piece (knots true xs) fs) t = p i t) /\
    (forall t, lowest <= t <= el xs 0 -> value (Piece (knots true xs) fs) t = p 0%nat t) /\
    (forall t, el xs (length xs - 1) <= t <= highest -> value (Piece (knots true xs) fs) t = p (length xs - 2)%nat t).
  Proof.
    intros L2 PA SR B J. pose proof (replace_strict lowest highest xs L2 SR B) as SK. change (replace_ends lowest highest xs) with (knots true xs) in SK.
    assert (LF : length fs = (length xs - 1)%nat) by (destruct PA as (L & _); rewrite knots_length in L; lia).
    assert (J' : forall j, (S j < length fs)%nat -> p j (el (knots true xs) (S j)) = p (S j) (el (knots true xs) (S j))) by (rewrite LF; apply extrapolated_join; auto).
    assert (BI : forall i, (i < length xs)%nat -> lowest < el xs i < highest) by (intros j Hj; apply B; apply nth_In; exact Hj).
    assert (KL : forall i, (S i < length xs)%nat -> el (knots true xs) i <= el xs i).
    { intros [|i] Hi; [rewrite (knots_true_first xs L2); apply Rlt_le, BI; lia|]. rewrite knots_true_inner by lia. lra. }
    assert (KR : forall i, (0 < i)%nat -> (i < length xs)%nat -> el xs i <= el (knots true xs) i).
    { intros i H0 Hi. destruct (Nat.eq_dec i (length xs - 1)) as [->|N]; [rewrite (knots_true_last xs L2); apply Rlt_le, BI; lia|]. rewrite knots_true_inner by lia. lra. }
    split; [|split].
    - intros i t Hi Ht. apply (pieces_closed (knots true xs) fs p i t PA SK J'); [lia|]. pose proof (KL i Hi). pose proof (KR (S i) ltac:(lia) Hi). lra.
    - intros t Ht. apply (pieces_closed (knots true xs) fs p 0 t PA SK J'); [lia|]. rewrite (knots_true_first xs L2). pose proof (KR 1%nat ltac:(lia) ltac:(lia)). pose proof (el_strict xs 0 1 SR ltac:(lia) ltac:(lia)). lra.
    - intros t Ht. apply (pieces_closed (knots true xs) fs p (length xs - 2) t PA SK J'); [lia|]. replace (S (length xs - 2)) with (length xs - 1)%nat by lia. rewrite (knots_true_last xs L2).
      pose proof (KL (length xs - 2)%nat ltac:(lia)). pose proof (el_strict xs (length xs - 2) (length xs - 1) SR ltac:(lia) ltac:(lia)). lra.
  Qed.
End Results.

(** *** simple_interpolation *)
Lemma upper_bound_inside ks x i : sorted ks -> (S i < length ks)%nat -> el ks i <= x < el ks (S i) -> upper_bound ks x = S i.
Proof.
  intros SR Hi X. unfold upper_bound. destruct (count_while_spec (fun k => rle k x) ks) as (C1 & C2 & C3). set (n := count_while _ _) in *. clearbody n.
  destruct (lt_eq_lt_dec n (S i)) as [[H|H]|H]; [|exact H|].
  - specialize (C3 _ (el_nth ks n ltac:(lia))). rtest C3. pose proof (el_sorted ks n i SR ltac:(lia) ltac:(lia)). lra.
  - specialize (C2 (S i) _ H (el_nth ks (S i) Hi)). rtest C2. lra.
Qed.
Lemma upper_bound_below ks x : (0 < length ks)%nat -> x < el ks 0 -> upper_bound ks x = 0%nat.
Proof.
  intros L X. unfold upper_bound. destruct (count_while_spec (fun k => rle k x) ks) as (C1 & C2 & C3). set (n := count_while _ _) in *. clearbody n. destruct n; [reflexivity|].
  specialize (C2 0%nat _ ltac:(lia) (el_nth ks 0 L)). rtest C2. lra.
Qed.
Lemma upper_bound_above ks x : sorted ks -> (0 < length ks)%nat -> el ks (length ks - 1) <= x -> upper_bound ks x = length ks.
Proof.
  intros SR L X. unfold upper_bound. destruct (count_while_spec (fun k => rle k x) ks) as (C1 & C2 & C3). set (n := count_while _ _) in *. clearbody n.
  destruct (Nat.eq_dec n (length ks)) as [E|N]; [exact E|]. specialize (C3 _ (el_nth ks n ltac:(lia))). rtest C3. pose proof (el_sorted ks n (length ks - 1) SR ltac:(lia) ltac:(lia)). lra.
Qed.
Lemma segment_line x x0 y0 x1 y1 : x0 <> x1 -> segment x x0 y0 x1 y1 = line x0 y0 x1 y1 x.
Proof. intro N. unfold segment. destruct (req x1 x0) eqn:E; rtest E; [congruence|]. unfold line. field. lra. Qed.
Lemma segment_at_ok x xp yp i : length xp = length yp -> (S i < length xp)%nat -> el xp i <> el xp (S i) ->
  segment_at x xp yp (S i) = Ok (line (el xp i) (el yp i) (el xp (S i)) (el yp (S i)) x).
Proof.
  intros L Hi N. unfold segment_at. replace (S i - 1)%nat with i by lia. rewrite (el_nth xp (S i)), (el_nth xp i), (el_nth yp (S i)), (el_nth yp i) by lia. cbn [of_option bind]. rewrite segment_line by exact N. reflexivity.
Qed.
(** The three ways through the function. *)
Lemma simple_unfold x xp yp e : length xp = length yp -> (2 <= length xp)%nat ->
  simple_interpolation x xp yp e =
    if Nat.eqb (upper_bound xp x) 0 then if negb e && rlt x (el xp 0) then Ok 0 else segment_at x xp yp 1
    else if Nat.eqb (upper_bound xp x) (length xp) then if negb e && rlt (el xp (length xp - 1)) x then Ok 0 else segment_at x xp yp (length xp - 1)
    else segment_at x xp yp (upper_bound xp x).
Proof.
  intros L L2. destruct xp as [|x0 r]; [cbn in L2; lia|]. unfold simple_interpolation. rewrite <- L, Nat.eqb_refl. cbn [negb]. replace (Nat.eqb (length (x0 :: r)) 1) with false by (symmetry; apply Nat.eqb_neq; lia).
  rewrite (last_el (x0 :: r) x0 ltac:(discriminate)). change (el (x0 :: r) 0) with x0. destruct (Nat.eqb (upper_bound (x0 :: r) x) (length (x0 :: r))) eqn:E; [|reflexivity]. apply Nat.eqb_eq in E. rewrite E. reflexivity.
Qed.
Lemma simple_inside x xp yp e i : length xp = length yp -> sorted xp -> (S i < length xp)%nat -> el xp i <= x < el xp (S i) ->
  simple_interpolation x xp yp e = Ok (line (el xp i) (el yp i) (el xp (S i)) (el yp (S i)) x).
Proof.
  intros L SR Hi X. rewrite simple_unfold by (auto; lia). rewrite (upper_bound_inside xp x i SR Hi X). change (Nat.eqb (S i) 0) with false. cbv iota.
  assert (N : el xp i <> el xp (S i)) by lra.
  destruct (Nat.eqb (S i) (length xp)) eqn:E; [apply Nat.eqb_eq in E; lia|]. apply segment_at_ok; auto.
Qed.
Lemma simple_end xp yp e x : length xp = length yp -> sorted xp -> (2 <= length xp)%nat -> el xp (length xp - 2) < el xp (length xp - 1) -> x = el xp (length xp - 1) \/ (e = true /\ el xp (length xp - 1) < x) ->
  simple_interpolation x xp yp e = Ok (line (el xp (length xp - 2)) (el yp (length xp - 2)) (el xp (length xp - 1)) (el yp (length xp - 1)) x).
Proof.
  intros L SR L2 D X. rewrite simple_unfold by auto. rewrite (upper_bound_above xp x SR ltac:(lia)) by (destruct X as [->|[_ X]]; lra).
  replace (Nat.eqb (length xp) 0) with false by (symmetry; apply Nat.eqb_neq; lia). rewrite Nat.eqb_refl. pose proof (segment_at_ok x xp yp (length xp - 2) L) as SE.
  replace (S (length xp - 2)) with (length xp - 1)%nat in SE by lia. rewrite SE by (try lia; lra).
  destruct (rlt (el xp (length xp - 1)) x) eqn:E; rtest E; [|rewrite andb_false_r; reflexivity]. destruct X as [->|[-> _]]; [lra|reflexivity].
Qed.
Lemma simple_below xp yp e x : length xp = length yp -> (2 <= length xp)%nat -> x < el xp 0 -> el xp 0 < el xp 1 ->
  simple_interpolation x xp yp e = Ok (if e then line (el xp 0) (el yp 0) (el xp 1) (el yp 1) x else 0).
Proof.
  intros L L2 X D. rewrite simple_unfold by auto. rewrite (upper_bound_below xp x ltac:(lia) X). change (Nat.eqb 0 0) with true. cbv iota. destruct (rlt x (el xp 0)) eqn:E; rtest E; [|lra].
  destruct e; cbn [negb andb]; [|reflexivity]. apply segment_at_ok; auto. lra.
Qed.
Lemma simple_above xp yp x : length xp = length yp -> sorted xp -> (2 <= length xp)%nat -> el xp (length xp - 1) < x -> simple_interpolation x xp yp false = Ok 0.
Proof.
  intros L SR L2 X. rewrite simple_unfold by auto. rewrite (upper_bound_above xp x SR ltac:(lia)) by lra.
  replace (Nat.eqb (length xp) 0) with false by (symmetry; apply Nat.eqb_neq; lia). rewrite Nat.eqb_refl. destruct (rlt (el xp (length xp - 1)) x) eqn:E; rtest E; [reflexivity|lra].
Qed.
