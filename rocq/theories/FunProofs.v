From Coq Require Import Reals List Arith Bool Lia Lra.
From Coquelicot Require Import Coquelicot.
From Verif Require Import Common CumulModel CumulProofs FunModel FunSpec.
Import ListNotations.
Local Open Scope R_scope.

Lemma rlt_iff a b : rlt a b = true <-> a < b.
Proof. unfold rlt. destruct (Rlt_dec a b); split; auto; discriminate. Qed.
Lemma rlt_not a b : rlt a b = false <-> b <= a.
Proof. unfold rlt. destruct (Rlt_dec a b); split; auto; try discriminate; intro; lra. Qed.
Lemma rle_iff a b : rle a b = true <-> a <= b.
Proof. unfold rle. destruct (Rle_dec a b); split; auto; discriminate. Qed.
Lemma rle_not a b : rle a b = false <-> b < a.
Proof. unfold rle. destruct (Rle_dec a b); split; auto; try discriminate; intro; lra. Qed.
Lemma req_iff a b : req a b = true <-> a = b.
Proof. unfold req. destruct (Req_EM_T a b); split; auto; discriminate. Qed.
Lemma req_not a b : req a b = false <-> a <> b.
Proof. unfold req. destruct (Req_EM_T a b); split; auto; try discriminate; intro; contradiction. Qed.
Ltac rtest E := match type of E with
  | rlt _ _ = true => apply rlt_iff in E | rlt _ _ = false => apply rlt_not in E
  | rle _ _ = true => apply rle_iff in E | rle _ _ = false => apply rle_not in E
  | req _ _ = true => apply req_iff in E | req _ _ = false => apply req_not in E end.

(** *** Induction on functions *)
Lemma func_induction (P : func -> Prop) :
  (forall c, P (Poly c)) -> (forall ks fs, (forall f, In f fs -> P f) -> P (Piece ks fs)) -> (forall h, P (Other h)) ->
  (forall f g, P f -> P g -> P (Times f g)) -> forall f, P f.
Proof.
  intros H1 H2 H3 H4. fix IH 1. intros [c|ks fs|h|f g].
  - apply H1.
  - apply H2. induction fs as [|g r IHr]; intros f Hf; [destruct Hf|]. destruct Hf as [<-|Hf]; [apply IH|apply IHr; exact Hf].
  - apply H3.
  - apply H4; apply IH.
Qed.

(** *** Polynomials *)
Lemma poly_loop_spec : forall coef x result i, poly_loop coef x result (x ^ i) = result + powers i coef x.
Proof.
  induction coef as [|c r IH]; intros x result i; cbn [poly_loop powers]; [lra|].
  replace (x ^ i * x) with (x ^ (S i)) by (cbn [pow]; ring). rewrite IH. ring.
Qed.
Lemma poly_eval_spec coef x : poly_eval coef x = powers 0 coef x.
Proof. unfold poly_eval. replace 1 with (x ^ 0) by reflexivity. rewrite poly_loop_spec. lra. Qed.
Lemma powers_derive : forall coef i x, is_derive (powers (S i) coef) x (powers i (deriv_from (S i) coef) x).
Proof.
  induction coef as [|c r IH]; intros i x; cbn [powers deriv_from].
  - apply is_derive_Reals. apply derivable_pt_lim_const.
  - apply (is_derive_plus (fun x => c * x ^ S i) (powers (S (S i)) r)).
    + auto_derive; [auto|]. replace (pred (S i)) with i by reflexivity. change (match i with O => 1 | S _ => INR i + 1 end) with (INR (S i)). ring.
    + apply IH.
Qed.
Lemma poly_derivative_spec coef x : is_derive (poly_eval coef) x (poly_eval (poly_derivative coef) x).
Proof.
  apply is_derive_ext with (powers 0 coef); [intro; symmetry; apply poly_eval_spec|]. rewrite poly_eval_spec. destruct coef as [|c r]; cbn [poly_derivative].
  - cbn [powers]. apply is_derive_Reals. apply derivable_pt_lim_const.
  - apply is_derive_ext with (fun x => c + powers 1 r x); [intro; cbn [powers pow]; rewrite Rmult_1_r; reflexivity|].
    evar_last. { apply (is_derive_plus (fun _ => c) (powers 1 r)); [apply is_derive_const|apply powers_derive]. } apply plus_zero_l.
Qed.
Lemma deriv_integ : forall coef i, deriv_from (S i) (integ_from i coef) = coef.
Proof.
  induction coef as [|c r IH]; intro i; [reflexivity|]. cbn [integ_from deriv_from]. rewrite IH. f_equal.
  replace (i + 1)%nat with (S i) by lia. field. apply not_0_INR. lia.
Qed.
Lemma poly_integral_spec coef x : is_derive (poly_eval (poly_integral coef)) x (poly_eval coef x).
Proof.
  pose proof (poly_derivative_spec (poly_integral coef) x) as H. unfold poly_integral in H at 2. cbn [poly_derivative] in H.
  rewrite deriv_integ in H. exact H.
Qed.
Lemma poly_integral_zero coef : poly_eval (poly_integral coef) 0 = 0.
Proof.
  rewrite poly_eval_spec. unfold poly_integral. cbn [powers]. assert (forall l i, powers (S i) l 0 = 0).
  { induction l as [|c r IH]; intro i; [reflexivity|]. cbn [powers pow]. rewrite IH. ring. } rewrite H. ring.
Qed.
Lemma poly_continuous coef x : continuous (poly_eval coef) x.
Proof. apply (ex_derive_continuous (poly_eval coef)). eexists. apply poly_derivative_spec. Qed.
Lemma poly_rint coef a b : is_RInt (poly_eval coef) a b (poly_eval (poly_integral coef) b - poly_eval (poly_integral coef) a).
Proof. apply (is_RInt_derive (poly_eval (poly_integral coef)) (poly_eval coef)); intros x _; [apply poly_integral_spec|apply poly_continuous]. Qed.

(** *** Knots *)
Lemma increasing_cons a b r : increasing (a :: b :: r) = true <-> a <= b /\ increasing (b :: r) = true.
Proof. cbn [increasing]. destruct (rlt b a) eqn:E; rtest E; (split; intro H; [first [discriminate H|split; [lra|exact H]]|first [apply H|destruct H; lra]]). Qed.
Lemma increasing_sorted l : increasing l = true <-> sorted l.
Proof.
  induction l as [|a r IH]; [split; [intros _ i j x y _ H; destruct i; discriminate H|reflexivity]|]. destruct r as [|b r].
  - split; [|reflexivity]. intros _ i j x y Hij Hx Hy. destruct j as [|[|j]]; [lia|discriminate Hy|discriminate Hy].
  - rewrite increasing_cons, IH. split.
    + intros [H1 H2] i j x y Hij Hx Hy. destruct j as [|j]; [lia|]. destruct i as [|i].
      * cbn in Hx. injection Hx as <-. destruct j as [|j]; [cbn in Hy; injection Hy as <-; exact H1|]. apply Rle_trans with b; [exact H1|]. apply (H2 0%nat (S j)); [lia|reflexivity|exact Hy].
      * apply (H2 i j); auto. lia.
    + intro H. split; [apply (H 0%nat 1%nat); [lia|reflexivity|reflexivity]|]. intros i j x y Hij Hx Hy. apply (H (S i) (S j)); [lia|exact Hx|exact Hy].
Qed.
Lemma sorted_le l i j a b : sorted l -> (i <= j)%nat -> nth_error l i = Some a -> nth_error l j = Some b -> a <= b.
Proof. intros H Hij Ha Hb. destruct (Nat.eq_dec i j) as [->|]; [rewrite Ha in Hb; injection Hb as <-; lra|]. apply (H i j); auto. lia. Qed.
Lemma sorted_tail a l : sorted (a :: l) -> sorted l.
Proof. intros H i j x y Hij Hx Hy. apply (H (S i) (S j)); [lia|exact Hx|exact Hy]. Qed.
Lemma strict_sorted l : strictly_sorted l -> sorted l.
Proof. intros H i j x y Hij Hx Hy. left. apply (H i j); auto. Qed.

(** *** Evaluation *)
Lemma eval_piece ks fs x : eval (Piece ks fs) x =
  bind (piece_index ks x) (fun i => match i with None => Ok 0 | Some i => match nth_error fs i with Some g => eval g x | None => UB end end).
Proof.
  cbn [eval]. destruct (piece_index ks x) as [[i|]| | |]; cbn [bind]; try reflexivity.
  revert i. induction fs as [|g r IH]; intros [|i]; cbn [nth_error]; try reflexivity. apply IH.
Qed.
(** The position of x among the knots. *)
Lemma piece_index_spec ks x k0 : sorted ks -> nth_error ks 0 = Some k0 -> (2 <= length ks)%nat ->
  (x < k0 /\ piece_index ks x = Ok None) \/
  (x = k0 /\ piece_index ks x = Ok (Some 0%nat)) \/
  (exists i a b, nth_error ks i = Some a /\ nth_error ks (S i) = Some b /\ a < x <= b /\ piece_index ks x = Ok (Some i)) \/
  (exists l, nth_error ks (length ks - 1) = Some l /\ l < x /\ piece_index ks x = Ok None).
Proof.
  intros SR H0 L. unfold piece_index. destruct ks as [|k r]; [discriminate|]. cbn in H0. injection H0 as ->.
  destruct (rlt x k0) eqn:A; rtest A; [left; auto|]. destruct (req x k0) eqn:B; rtest B; [right; left; auto|]. right. right.
  unfold lower_bound. set (ks := k0 :: r) in *. destruct (count_while_spec (fun k => rlt k x) ks) as (C1 & C2 & C3). set (n := count_while _ _) in *. clearbody n.
  assert (N0 : (1 <= n)%nat).
  { destruct n; [|lia]. specialize (C3 k0 eq_refl). rtest C3. exfalso. apply B. lra. }
  destruct (Nat.eqb n (length ks)) eqn:E.
  - apply Nat.eqb_eq in E. right. destruct (nth_ok ks (length ks - 1) ltac:(lia)) as (l & Hl). exists l. split; [exact Hl|]. split; [|reflexivity].
    specialize (C2 (length ks - 1)%nat l ltac:(lia) Hl). rtest C2. exact C2.
  - apply Nat.eqb_neq in E. left. destruct (nth_ok ks (n - 1) ltac:(lia)) as (a & Ha). destruct (nth_ok ks n ltac:(lia)) as (b & Hb).
    exists (n - 1)%nat, a, b. split; [exact Ha|]. split; [replace (S (n - 1)) with n by lia; exact Hb|]. split; [|reflexivity].
    specialize (C2 (n - 1)%nat a ltac:(lia) Ha). specialize (C3 b Hb). rtest C2. rtest C3. lra.
Qed.
Lemma eval_inside ks fs x i a b g : sorted ks -> nth_error ks i = Some a -> nth_error ks (S i) = Some b -> a < x <= b -> nth_error fs i = Some g ->
  eval (Piece ks fs) x = eval g x.
Proof.
  intros SR Ha Hb X Hg. rewrite eval_piece. assert (L : (S i < length ks)%nat) by (apply nth_error_Some; congruence). destruct (nth_ok ks 0 ltac:(lia)) as (k0 & H0).
  pose proof (sorted_le ks 0 i k0 a SR ltac:(lia) H0 Ha). destruct (piece_index_spec ks x k0 SR H0 ltac:(lia)) as [[A _]|[[A _]|[(i' & a' & b' & A1 & A2 & A3 & ->)|(l & A1 & A2 & _)]]].
  - lra.
  - lra.
  - cbn [bind]. assert (i' = i) as ->; [|rewrite Hg; reflexivity]. destruct (lt_eq_lt_dec i i') as [[H1|H1]|H1]; [|auto|].
    + pose proof (sorted_le ks (S i) i' b a' SR ltac:(lia) Hb A1). lra.
    + pose proof (sorted_le ks (S i') i b' a SR ltac:(lia) A2 Ha). lra.
  - pose proof (sorted_le ks (S i) (length ks - 1) b l SR ltac:(lia) Hb A1). lra.
Qed.
Lemma eval_first ks fs k0 g : nth_error ks 0 = Some k0 -> nth_error fs 0 = Some g -> eval (Piece ks fs) k0 = eval g k0.
Proof.
  intros H Hg. rewrite eval_piece. destruct ks as [|k r]; [discriminate|]. cbn in H. injection H as ->. cbn [piece_index].
  destruct (rlt k0 k0) eqn:A; rtest A; [lra|]. destruct (req k0 k0) eqn:B; rtest B; [|contradiction]. cbn [bind]. rewrite Hg. reflexivity.
Qed.
Lemma eval_below ks fs x k0 : nth_error ks 0 = Some k0 -> x < k0 -> eval (Piece ks fs) x = Ok 0.
Proof.
  intros H X. rewrite eval_piece. destruct ks as [|k r]; [discriminate|]. cbn in H. injection H as ->. cbn [piece_index].
  destruct (rlt x k0) eqn:A; rtest A; [reflexivity|lra].
Qed.
Lemma eval_above ks fs x l : sorted ks -> (2 <= length ks)%nat -> nth_error ks (length ks - 1) = Some l -> l < x -> eval (Piece ks fs) x = Ok 0.
Proof.
  intros SR L H X. rewrite eval_piece. destruct (nth_ok ks 0 ltac:(lia)) as (k0 & H0). pose proof (sorted_le ks 0 (length ks - 1) k0 l SR ltac:(lia) H0 H).
  destruct (piece_index_spec ks x k0 SR H0 L) as [[A ->]|[[A _]|[(i' & a' & b' & A1 & A2 & A3 & _)|(l' & A1 & A2 & ->)]]]; try reflexivity; [lra|].
  pose proof (sorted_le ks (S i') (length ks - 1) b' l SR ltac:(apply nth_lt in A2; lia) A2 H). lra.
Qed.
Lemma usable_eval f : usable f -> forall x, eval f x = Ok (value f x).
Proof.
  induction f as [c|ks fs IH|h|f g IHf IHg] using func_induction; intros U x; unfold value.
  - reflexivity.
  - inversion U as [| | |? ? L N SR UF]; subst. destruct (nth_ok ks 0 ltac:(lia)) as (k0 & H0). assert (L2 : (2 <= length ks)%nat) by (destruct fs; [congruence|cbn in L; lia]).
    rewrite eval_piece. destruct (piece_index_spec ks x k0 SR H0 L2) as [[A ->]|[[A ->]|[(i & a & b & A1 & A2 & A3 & ->)|(l' & A1 & A2 & ->)]]]; cbn [bind]; try reflexivity.
    + destruct fs as [|g r]; [congruence|]. cbn [nth_error]. rewrite (IH g); [reflexivity|left; auto|apply UF; left; auto].
    + destruct (nth_error fs i) as [g|] eqn:Hg; [|apply nth_error_None in Hg; apply nth_lt in A2; lia].
      apply nth_error_In in Hg. rewrite (IH g); [reflexivity|exact Hg|apply UF; exact Hg].
  - reflexivity.
  - inversion U as [| |? ? U1 U2|]; subst. cbn [eval]. rewrite (IHf U1), (IHg U2). reflexivity.
Qed.
Lemma value_times f g x : usable f -> usable g -> value (Times f g) x = value f x * value g x.
Proof. intros A B. unfold value at 1. cbn [eval]. rewrite (usable_eval f A), (usable_eval g B). reflexivity. Qed.

(** *** Integration *)
(** The value of the pieces away from the first knot. *)
Fixpoint pv (ks : list R) (gs : list (R -> R)) (x : R) : R :=
  match ks, gs with
  | k0 :: ((k1 :: _) as ks'), g :: gs' => if rlt k0 x && rle x k1 then g x else pv ks' gs' x
  | _, _ => 0
  end.
Lemma pv_left : forall ks gs x k0, sorted ks -> nth_error ks 0 = Some k0 -> x <= k0 -> pv ks gs x = 0.
Proof.
  induction ks as [|k ks IH]; intros gs x k0 SR H X; [reflexivity|]. cbn in H. injection H as ->. cbn [pv]. destruct ks as [|k1 ks]; [reflexivity|]. destruct gs as [|g gs]; [reflexivity|].
  destruct (rlt k0 x) eqn:A; rtest A; [lra|]. cbn [andb]. apply (IH gs x k1); [eapply sorted_tail; exact SR|reflexivity|].
  apply Rle_trans with k0; [exact X|]. apply (SR 0%nat 1%nat); [lia|reflexivity|reflexivity].
Qed.
Lemma pv_inside : forall ks gs x i a b g, sorted ks -> nth_error ks i = Some a -> nth_error ks (S i) = Some b -> a < x <= b -> nth_error gs i = Some g -> pv ks gs x = g x.
Proof.
  induction ks as [|k ks IH]; intros gs x i a b g SR Ha Hb X Hg; [destruct i; discriminate|]. destruct gs as [|g0 gs]; [destruct i; discriminate|].
  destruct ks as [|k1 ks]; [destruct i; discriminate Hb|]. cbn [pv]. destruct i as [|i].
  - cbn in Ha, Hb, Hg. injection Ha as <-. injection Hb as <-. injection Hg as <-. destruct (rlt k x) eqn:A; rtest A; [|lra]. destruct (rle x k1) eqn:B; rtest B; [reflexivity|lra].
  - cbn in Ha, Hg. pose proof (sorted_le (k :: k1 :: ks) 1 (S i) k1 a SR ltac:(lia) eq_refl Ha). destruct (rle x k1) eqn:B; rtest B; [lra|]. rewrite andb_false_r.
    apply (IH gs x i a b g); auto. eapply sorted_tail; exact SR.
Qed.
Lemma pv_right : forall ks gs x l, sorted ks -> nth_error ks (length ks - 1) = Some l -> l < x -> pv ks gs x = 0.
Proof.
  induction ks as [|k ks IH]; intros gs x l SR H X; [reflexivity|]. cbn [pv]. destruct ks as [|k1 ks]; [reflexivity|]. destruct gs as [|g gs]; [reflexivity|].
  pose proof (sorted_le (k :: k1 :: ks) 1 (length (k :: k1 :: ks) - 1) k1 l SR ltac:(cbn; lia) eq_refl H). destruct (rle x k1) eqn:B; rtest B; [lra|]. rewrite andb_false_r.
  apply (IH gs x l); [eapply sorted_tail; exact SR| |exact X]. cbn [length] in H |- *. replace (S (S (length ks)) - 1)%nat with (S (S (length ks) - 1))%nat in H by lia. exact H.
Qed.
Lemma value_pv ks fs x : usable (Piece ks fs) -> (forall k0, nth_error ks 0 = Some k0 -> x <> k0) -> value (Piece ks fs) x = pv ks (map value fs) x.
Proof.
  intros U NE. inversion U as [| | |? ? L N SR UF]; subst. destruct (nth_ok ks 0 ltac:(lia)) as (k0 & H0). specialize (NE k0 H0).
  assert (L2 : (2 <= length ks)%nat) by (destruct fs; [congruence|cbn in L; lia]). unfold value at 1.
  destruct (piece_index_spec ks x k0 SR H0 L2) as [[A _]|[[A _]|[(i & a & b & A1 & A2 & A3 & _)|(l' & A1 & A2 & _)]]].
  - rewrite (eval_below ks fs x k0 H0 A). symmetry. apply (pv_left ks _ x k0); auto. lra.
  - contradiction.
  - destruct (nth_error fs i) as [g|] eqn:Hg; [|apply nth_error_None in Hg; apply nth_lt in A2; lia].
    rewrite (eval_inside ks fs x i a b g SR A1 A2 A3 Hg). rewrite (pv_inside ks _ x i a b (value g) SR A1 A2 A3); [reflexivity|]. apply map_nth_error. exact Hg.
  - rewrite (eval_above ks fs x l' SR L2 A1 A2). symmetry. apply (pv_right ks _ x l'); auto.
Qed.

Section Go.
  Variable I : func -> R -> R -> outcome R.
  Variables min max : R.
  Fixpoint go (fs : list func) (ks : list R) (skip : nat) (result : R) {struct fs} : outcome R :=
    match fs, ks, skip with
    | _ :: fs', _ :: ks', S skip' => go fs' ks' skip' result
    | g :: fs', prev :: ((next :: _) as ks'), O =>
        if rle max prev then Ok result
        else if rlt min next then
          do v <- I g (if rlt prev min then min else prev) (if rlt max next then max else next);
          go fs' ks' O (result + v)
        else go fs' ks' O result
    | _, _, _ => Ok result
    end.
End Go.
Lemma integrate_piece ks fs x1 x2 : integrate (Piece ks fs) x1 x2 =
  if req x1 x2 then Ok 0
  else let turned := rlt x2 x1 in let min := if turned then x2 else x1 in let max := if turned then x1 else x2 in
    do result <- go integrate min max fs ks (upper_bound ks min - 1)%nat 0; Ok ((if turned then -1 else 1) * result).
Proof. reflexivity. Qed.

Definition exact_integral (f : func) : Prop := forall a b, exists v, integrate f a b = Ok v /\ is_RInt (value f) a b v.

Lemma zero_rint (h : R -> R) a b : (forall x, Rmin a b < x < Rmax a b -> h x = 0) -> is_RInt h a b 0.
Proof.
  intro H. apply is_RInt_ext with (fun _ => 0); [intros x Hx; symmetry; apply H; exact Hx|].
  evar_last; [apply (is_RInt_const a b 0)|]. unfold scal; cbn; unfold mult; cbn. ring.
Qed.

Lemma go_spec min max : min < max -> forall fs ks result, length ks = S (length fs) -> sorted ks -> (forall f, In f fs -> exact_integral f) ->
  exists v, go integrate min max fs ks 0 result = Ok (result + v) /\ is_RInt (pv ks (map value fs)) min max v.
Proof.
  intro LT. induction fs as [|g fs IH]; intros ks result L SR E.
  - exists 0. split; [cbn [go]; f_equal; ring|]. apply zero_rint. intros x _. destruct ks as [|k0 [|k1 ks]]; reflexivity.
  - destruct ks as [|prev [|next ks]]; [discriminate L|discriminate L|]. cbn [go].
    pose proof (sorted_tail _ _ SR) as SR'. assert (PN : prev <= next) by (apply (SR 0%nat 1%nat); [lia|reflexivity|reflexivity]).
    destruct (rle max prev) eqn:A; rtest A.
    + exists 0. split; [f_equal; ring|]. apply zero_rint. intros x Hx. rewrite Rmin_left, Rmax_right in Hx by lra. apply (pv_left _ _ x prev SR eq_refl). lra.
    + destruct (rlt min next) eqn:B; rtest B.
      * set (dn := if rlt prev min then min else prev). set (up := if rlt max next then max else next).
        assert (D : (dn = min /\ prev < min) \/ (dn = prev /\ min <= prev)) by (unfold dn; destruct (rlt prev min) eqn:X; rtest X; auto).
        assert (U : (up = max /\ max < next) \/ (up = next /\ next <= max)) by (unfold up; destruct (rlt max next) eqn:X; rtest X; auto). clearbody dn up.
        destruct (E g (or_introl eq_refl) dn up) as (vg & Eg & Rg). rewrite Eg. cbn [bind].
        destruct (IH (next :: ks) (result + vg) ltac:(cbn in L |- *; lia) SR' (fun f Hf => E f (or_intror Hf))) as (v' & E' & R'). rewrite E'.
        exists (vg + v'). split; [f_equal; ring|]. set (F := pv (prev :: next :: ks) (map value (g :: fs))). set (G := pv (next :: ks) (map value fs)) in *.
        assert (R1 : is_RInt F min dn 0).
        { apply zero_rint. intros x Hx. unfold F. apply (pv_left _ _ x prev SR eq_refl). destruct D as [[D1 D2]|[D1 D2]]; subst dn; rewrite Rmin_left, Rmax_right in Hx by lra; lra. }
        assert (R2 : is_RInt F dn up vg).
        { apply is_RInt_ext with (value g); [|exact Rg]. intros x Hx. rewrite Rmin_left, Rmax_right in Hx by lra. unfold F. cbn [map]. symmetry.
          apply (pv_inside _ _ x 0 prev next (value g) SR eq_refl eq_refl); [lra|reflexivity]. }
        assert (R3 : is_RInt F up max v').
        { apply is_RInt_ext with G.
          - intros x Hx. rewrite Rmin_left, Rmax_right in Hx by lra. unfold F, G. cbn [map]. cbn [pv]. destruct (rle x next) eqn:X; rtest X; [lra|]. rewrite andb_false_r. reflexivity.
          - assert (Z : is_RInt G min up 0).
            { apply zero_rint. intros x Hx. rewrite Rmin_left, Rmax_right in Hx by lra. apply (pv_left _ _ x next SR' eq_refl). lra. }
            apply is_RInt_swap in Z. evar_last; [apply (is_RInt_Chasles G up min max _ _ Z R')|]. unfold opp, plus; cbn. ring. }
        evar_last; [apply (is_RInt_Chasles F min dn max _ _ R1 (is_RInt_Chasles F dn up max _ _ R2 R3))|]. unfold plus; cbn. ring.
      * destruct (IH (next :: ks) result ltac:(cbn in L |- *; lia) SR' (fun f Hf => E f (or_intror Hf))) as (v' & E' & R'). exists v'. split; [exact E'|].
        apply is_RInt_ext with (pv (next :: ks) (map value fs)); [|exact R']. intros x Hx. rewrite Rmin_left, Rmax_right in Hx by lra.
        cbn [map pv]. destruct (rle x next) eqn:X; rtest X; [lra|]. rewrite andb_false_r. reflexivity.
Qed.
Lemma go_skip I min max : forall fs ks s result, go I min max fs ks s result = go I min max (skipn s fs) (skipn s ks) 0 result.
Proof.
  induction fs as [|g fs IH]; intros ks s result.
  - rewrite skipn_nil. reflexivity.
  - destruct s as [|s]; [reflexivity|]. cbn [skipn]. destruct ks as [|k ks]; [cbn [go skipn]; destruct (skipn s fs); reflexivity|]. cbn [go]. destruct ks; apply IH.
Qed.
Lemma pv_skip : forall s ks gs x a, sorted ks -> nth_error ks s = Some a -> a < x -> pv ks gs x = pv (skipn s ks) (skipn s gs) x.
Proof.
  induction s as [|s IH]; intros ks gs x a SR H X; [reflexivity|]. destruct ks as [|k ks]; [reflexivity|]. destruct gs as [|g gs].
  - cbn [skipn]. destruct (skipn s ks) as [|? [|? ?]]; destruct ks; reflexivity.
  - cbn [skipn]. cbn in H. destruct ks as [|k1 ks]; [destruct s; discriminate|]. cbn [pv].
    pose proof (sorted_le (k :: k1 :: ks) 1 (S s) k1 a SR ltac:(lia) eq_refl H). destruct (rle x k1) eqn:B; rtest B; [lra|]. rewrite andb_false_r.
    apply (IH (k1 :: ks) gs x a); auto. eapply sorted_tail; exact SR.
Qed.
Lemma sorted_skipn s l : sorted l -> sorted (skipn s l).
Proof. intros H i j x y Hij Hx Hy. rewrite nth_error_skipn in Hx, Hy. apply (H (s + i)%nat (s + j)%nat); auto. lia. Qed.
Lemma In_skipn {A} (l : list A) : forall s a, In a (skipn s l) -> In a l.
Proof. induction l as [|b r IH]; intros [|s] a H; cbn in *; auto. right. eapply IH. exact H. Qed.

Lemma pieces_integral min max ks fs : min < max -> length ks = S (length fs) -> sorted ks -> (forall f, In f fs -> exact_integral f) ->
  exists v, go integrate min max fs ks (upper_bound ks min - 1)%nat 0 = Ok v /\ is_RInt (pv ks (map value fs)) min max v.
Proof.
  intros LT L SR E. rewrite go_skip. unfold upper_bound. destruct (count_while_spec (fun k => rle k min) ks) as (C1 & C2 & _). set (n := count_while _ _) in *. clearbody n.
  set (s := (n - 1)%nat). destruct (go_spec min max LT (skipn s fs) (skipn s ks) 0) as (v & Ev & Rv).
  - rewrite !skipn_length. lia.
  - apply sorted_skipn. exact SR.
  - intros f Hf. apply E. eapply In_skipn. exact Hf.
  - exists v. split; [rewrite Ev; f_equal; ring|]. apply is_RInt_ext with (2 := Rv). intros x Hx. rewrite Rmin_left, Rmax_right in Hx by lra.
    rewrite <- skipn_map. destruct n as [|n']; [unfold s; reflexivity|]. destruct (nth_ok ks s ltac:(lia)) as (a & Ha). symmetry. apply (pv_skip s ks _ x a SR Ha).
    specialize (C2 s a ltac:(lia) Ha). rtest C2. lra.
Qed.

Lemma pp_usable f : polynomial_pieces f -> usable f.
Proof.
  induction f as [c|ks fs IH|h|f g IHf IHg] using func_induction; intro P; inversion P; subst; constructor; auto.
Qed.
Lemma pieces_exact f : polynomial_pieces f -> exact_integral f.
Proof.
  induction f as [c|ks fs IH|h|f g IHf IHg] using func_induction; intro P; [| |inversion P|inversion P].
  - intros a b. eexists. split; [reflexivity|]. apply poly_rint.
  - pose proof (pp_usable _ P) as U. inversion P as [|? ? L N SR PF]; subst. destruct (nth_ok ks 0 ltac:(lia)) as (k0 & H0).
    assert (X : forall min max v, min < max -> is_RInt (pv ks (map value fs)) min max v -> is_RInt (value (Piece ks fs)) min max v).
    { (* they differ at the first knot only *)
      intros min max v LT R. set (c := Rmin max (Rmax min k0)). assert (C : min <= c <= max) by (unfold c; split; [apply Rmin_glb; [lra|apply Rmax_l]|apply Rmin_l]).
      destruct (ex_RInt_Chasles_1 (pv ks (map value fs)) min c max C (ex_intro _ v R)) as (v1 & R1).
      destruct (ex_RInt_Chasles_2 (pv ks (map value fs)) min c max C (ex_intro _ v R)) as (v2 & R2).
      pose proof (is_RInt_Chasles _ _ _ _ _ _ R1 R2) as R3. assert (EV : v = plus v1 v2).
      { rewrite <- (is_RInt_unique _ _ _ _ R). rewrite <- (is_RInt_unique _ _ _ _ R3). reflexivity. }
      rewrite EV.
      assert (NE : forall x, min < x < c \/ c < x < max -> x <> k0).
      { unfold c. intros x Hx ->. destruct (Rle_dec min k0) as [M1|M1]; [rewrite Rmax_right in Hx by lra|rewrite Rmax_left in Hx by lra];
        [destruct (Rle_dec max k0) as [M2|M2]; [rewrite Rmin_left in Hx by lra|rewrite Rmin_right in Hx by lra]|rewrite Rmin_right in Hx by lra]; lra. }
      apply is_RInt_Chasles with c.
      - apply is_RInt_ext with (2 := R1). intros x Hx. rewrite Rmin_left, Rmax_right in Hx by lra. symmetry. apply value_pv; [exact U|]. intros k Hk. rewrite H0 in Hk. injection Hk as <-. apply NE. lra.
      - apply is_RInt_ext with (2 := R2). intros x Hx. rewrite Rmin_left, Rmax_right in Hx by lra. symmetry. apply value_pv; [exact U|]. intros k Hk. rewrite H0 in Hk. injection Hk as <-. apply NE. lra. }
    intros a b. rewrite integrate_piece. destruct (req a b) eqn:Q; rtest Q.
    + exists 0. split; [reflexivity|]. subst b. apply (is_RInt_point (value (Piece ks fs)) a).
    + cbv zeta. destruct (rlt b a) eqn:T; rtest T.
      * destruct (pieces_integral b a ks fs T L SR (fun f Hf => IH f Hf (PF f Hf))) as (v & Ev & Rv). rewrite Ev. cbn [bind]. eexists. split; [reflexivity|].
        evar_last; [apply is_RInt_swap; apply (X b a v T Rv)|]. unfold opp; cbn. ring.
      * assert (T' : a < b) by lra. destruct (pieces_integral a b ks fs T' L SR (fun f Hf => IH f Hf (PF f Hf))) as (v & Ev & Rv). rewrite Ev. cbn [bind]. eexists. split; [reflexivity|].
        replace (1 * v) with v by ring. apply X; auto.
Qed.
