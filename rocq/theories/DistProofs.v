(** Proofs about the distances. *)
From Coq Require Import Reals List Arith Lia Lra.
From Verif Require Import Common DistModel DistSpec.
Import ListNotations.
Local Open Scope R_scope.

Lemma skipn_item (l : list R) i : (i < length l)%nat -> skipn i l = item l i :: skipn (S i) l.
Proof. unfold item. revert i. induction l as [|a l IH]; intros [|i] H; cbn in *; try lia; [reflexivity|]. rewrite IH by lia. reflexivity. Qed.
Lemma l2_loop_eq left right : length left = length right -> forall n i acc, (i + n = length left)%nat ->
  l2_loop n i left right acc = acc + squares (skipn i left) (skipn i right).
Proof.
  intros L. induction n as [|n IH]; intros i acc H; cbn [l2_loop].
  - rewrite (skipn_all2 left), (skipn_all2 right) by lia. cbn. lra.
  - rewrite IH by lia. rewrite (skipn_item left i), (skipn_item right i) by lia. cbn [squares]. ring.
Qed.
Lemma squares_nonneg : forall l r, 0 <= squares l r.
Proof. induction l as [|a l IH]; intros [|b r]; cbn [squares]; try lra. specialize (IH r). pose proof (pow2_ge_0 (a - b)). lra. Qed.
Lemma l2_eq left right : length left = length right -> l2 (length left) left right = sqrt (squares left right).
Proof. intros L. unfold l2. rewrite l2_loop_eq by (auto; lia). cbn [skipn]. f_equal. ring. Qed.

Lemma chi2_nonneg : forall l r u, 0 <= chi2 l r u.
Proof. induction l as [|a l IH]; intros [|b r] [|s u]; cbn [chi2]; try lra. specialize (IH r u). pose proof (pow2_ge_0 ((a - b) / s)). lra. Qed.
Lemma l2u_loop_eq left right u : length left = length right -> length u = length left -> (forall s, In s u -> s <> 0) -> forall n i acc, (i + n = length left)%nat ->
  l2u_loop n i left right u (Real acc) = Real (acc + chi2 (skipn i left) (skipn i right) (skipn i u)).
Proof.
  intros L LU NZ. induction n as [|n IH]; intros i acc H; cbn [l2u_loop].
  - rewrite (skipn_all2 left), (skipn_all2 right) by lia. cbn. f_equal. lra.
  - assert (Z : item u i <> 0) by (apply NZ, nth_In; lia).
    unfold num_div. destruct (Req_EM_T (item u i * item u i) 0) as [E|_]; [apply Rmult_integral in E; tauto|]. cbn [num_add]. rewrite IH by lia.
    rewrite (skipn_item left i), (skipn_item right i), (skipn_item u i) by lia. cbn [chi2]. f_equal. field. exact Z.
Qed.
Lemma l2u_eq left right u : length left = length right -> length u = length left -> (forall s, In s u -> s <> 0) ->
  l2u (length left) left right u = Real (sqrt (chi2 left right u)).
Proof. intros L LU NZ. unfold l2u. rewrite l2u_loop_eq by (auto; lia). cbn [skipn num_sqrt]. do 2 f_equal. ring. Qed.

(** ** The metric *)
Lemma squares_zero : forall l r, length l = length r -> squares l r = 0 -> l = r.
Proof.
  induction l as [|a l IH]; intros [|b r] L E; try discriminate L; [reflexivity|]. cbn [squares] in E. pose proof (squares_nonneg l r).
  assert (0 <= (a - b) ^ 2) by apply pow2_ge_0. assert (Z : (a - b) ^ 2 = 0) by lra. assert (a - b = 0) by (apply (Rsqr_0_uniq); unfold Rsqr; lra). rewrite (IH r); [f_equal; lra|injection L; auto|lra].
Qed.
Lemma squares_refl l : squares l l = 0.
Proof. induction l as [|a l IH]; cbn [squares]; [reflexivity|]. rewrite IH. ring. Qed.
Lemma squares_sym : forall l r, squares l r = squares r l.
Proof. induction l as [|a l IH]; intros [|b r]; cbn [squares]; try reflexivity. rewrite IH. ring. Qed.

(** sum of products *)
Fixpoint dot (a b c : list R) : R :=
  match a, b, c with x :: a, y :: b, z :: c => (x - y) * (y - z) + dot a b c | _, _, _ => 0 end.
Lemma squares_dot : forall a b c, length a = length b -> length b = length c -> squares a c = squares a b + squares b c + 2 * dot a b c.
Proof. induction a as [|x a IH]; intros [|y b] [|z c] L1 L2; try discriminate L1; try discriminate L2; cbn [squares dot]; [ring|]. rewrite (IH b c) by (injection L1; injection L2; auto). ring. Qed.
Lemma cauchy : forall a b c, length a = length b -> length b = length c -> dot a b c ^ 2 <= squares a b * squares b c.
Proof.
  intros a b c L1 L2.
  assert (Q : forall t, 0 <= t ^ 2 * squares a b + 2 * t * dot a b c + squares b c).
  { intros t. revert b c L1 L2. induction a as [|x a IH]; intros [|y b] [|z c] L1 L2; try discriminate L1; try discriminate L2; cbn [squares dot]; [lra|].
    specialize (IH b c ltac:(injection L1; auto) ltac:(injection L2; auto)). pose proof (pow2_ge_0 (t * (x - y) + (y - z))). nra. }
  pose proof (squares_nonneg a b) as PA. pose proof (squares_nonneg b c) as PB.
  destruct (Req_dec (squares a b) 0) as [Z|Z].
  - destruct (Req_dec (dot a b c) 0) as [D|D]; [rewrite D; nra|]. exfalso.
    specialize (Q (- (squares b c + 1) / (2 * dot a b c))). rewrite Z in Q. replace (2 * (- (squares b c + 1) / (2 * dot a b c)) * dot a b c) with (- (squares b c + 1)) in Q by (field; exact D). nra.
  - specialize (Q (- dot a b c / squares a b)). 
    replace ((- dot a b c / squares a b) ^ 2 * squares a b + 2 * (- dot a b c / squares a b) * dot a b c + squares b c) with (squares b c - dot a b c ^ 2 / squares a b) in Q by (field; exact Z).
    assert (dot a b c ^ 2 / squares a b <= squares b c) by lra. apply (Rmult_le_compat_l (squares a b)) in H; [|exact PA].
    replace (squares a b * (dot a b c ^ 2 / squares a b)) with (dot a b c ^ 2) in H by (field; exact Z). exact H.
Qed.
Lemma triangle a b c : length a = length b -> length b = length c -> sqrt (squares a c) <= sqrt (squares a b) + sqrt (squares b c).
Proof.
  intros L1 L2. pose proof (squares_nonneg a b) as PA. pose proof (squares_nonneg b c) as PB.
  pose proof (sqrt_pos (squares a b)) as SA. pose proof (sqrt_pos (squares b c)) as SB.
  rewrite <- (sqrt_Rsqr (sqrt (squares a b) + sqrt (squares b c))) by lra. apply sqrt_le_1; [apply squares_nonneg|apply Rle_0_sqr|].
  rewrite (squares_dot a b c L1 L2). unfold Rsqr. replace ((sqrt (squares a b) + sqrt (squares b c)) * (sqrt (squares a b) + sqrt (squares b c))) with (squares a b + squares b c + 2 * (sqrt (squares a b) * sqrt (squares b c))).
  2:{ rewrite <- (sqrt_sqrt (squares a b) PA) at 1. rewrite <- (sqrt_sqrt (squares b c) PB) at 1. ring. }
  assert (dot a b c <= sqrt (squares a b) * sqrt (squares b c)); [|lra]. rewrite <- sqrt_mult by assumption.
  destruct (Rle_dec (dot a b c) 0) as [N|N]; [apply Rle_trans with 0; [exact N|apply sqrt_pos]|].
  rewrite <- (sqrt_Rsqr (dot a b c)) by lra. apply sqrt_le_1; [apply Rle_0_sqr|apply Rmult_le_pos; assumption|]. pose proof (cauchy a b c L1 L2). unfold Rsqr. lra.
Qed.

(** ** Uncertainties *)
(** The coordinates in units of the uncertainties. *)
Fixpoint scaled (l u : list R) : list R := match l, u with a :: l, s :: u => a / s :: scaled l u | _, _ => [] end.
Lemma chi2_squares : forall l r u, length l = length r -> length u = length l -> (forall s, In s u -> s <> 0) -> chi2 l r u = squares (scaled l u) (scaled r u).
Proof.
  induction l as [|a l IH]; intros [|b r] [|s u] L1 L2 NZ; try discriminate L1; try discriminate L2; cbn [chi2 scaled squares]; [reflexivity|].
  rewrite IH; [|injection L1; auto|injection L2; auto|intros t I; apply NZ; right; exact I]. f_equal. f_equal. field. apply NZ. left. reflexivity.
Qed.
Lemma scaled_length : forall l u, length u = length l -> length (scaled l u) = length l.
Proof. induction l as [|a l IH]; intros [|s u] L; try discriminate L; cbn; [reflexivity|]. rewrite IH; [reflexivity|injection L; auto]. Qed.
Lemma scaled_inj : forall l r u, length l = length r -> length u = length l -> (forall s, In s u -> s <> 0) -> scaled l u = scaled r u -> l = r.
Proof.
  induction l as [|a l IH]; intros [|b r] [|s u] L1 L2 NZ E; try discriminate L1; try discriminate L2; [reflexivity|]. cbn [scaled] in E.
  assert (Z : s <> 0) by (apply NZ; left; reflexivity). injection E as E1 E2. f_equal; [|apply (IH r u); [injection L1; auto|injection L2; auto|intros t I; apply NZ; right; exact I|exact E2]].
  apply (f_equal (fun x => x * s)) in E1. unfold Rdiv in E1. rewrite !Rmult_assoc, Rinv_l in E1 by exact Z. lra.
Qed.
Lemma chi2_scale c : c <> 0 -> forall l r u, length u = length l -> (forall s, In s u -> s <> 0) -> chi2 l r (map (Rmult c) u) = chi2 l r u / c ^ 2.
Proof.
  intros C. induction l as [|a l IH]; intros [|b r] [|s u] L2 NZ; try discriminate L2; cbn [chi2 map]; try (unfold Rdiv; ring).
  rewrite IH; [|injection L2; auto|intros t I; apply NZ; right; exact I]. assert (s <> 0) by (apply NZ; left; reflexivity). field. split; assumption.
Qed.
Lemma chi2_monotone : forall u v, Forall2 (fun s t => s <> 0 /\ Rabs s <= Rabs t) u v -> forall l r, chi2 l r v <= chi2 l r u.
Proof.
  induction 1 as [|s t u v [Z H] F IH]; intros [|a l] [|b r]; cbn [chi2]; try lra. specialize (IH l r). apply Rplus_le_compat; [|exact IH].
  assert (ZT : t <> 0) by (intros ->; rewrite Rabs_R0 in H; pose proof (Rabs_pos_lt s Z); lra).
  rewrite <- (pow2_abs ((a - b) / t)), <- (pow2_abs ((a - b) / s)). apply pow_incr. split; [apply Rabs_pos|]. unfold Rdiv. rewrite !Rabs_mult, !Rabs_inv.
  apply Rmult_le_compat_l; [apply Rabs_pos|]. apply Rinv_le_contravar; [apply Rabs_pos_lt; exact Z|exact H].
Qed.
Lemma l2u_loop_nan left right u : forall n i, l2u_loop n i left right u Nan = Nan.
Proof. induction n as [|n IH]; intros i; cbn [l2u_loop]; [reflexivity|]. cbn [num_add]. apply IH. Qed.
Lemma l2u_zero_nan left right u k : forall n i acc, (i <= k < i + n)%nat -> item u k = 0 -> item left k = item right k -> l2u_loop n i left right u acc = Nan.
Proof.
  induction n as [|n IH]; intros i acc H Z E; [lia|]. cbn [l2u_loop]. destruct (Nat.eq_dec i k) as [->|N].
  - rewrite Z, E. unfold num_div. destruct (Req_EM_T (0 * 0) 0) as [_|B]; [|exfalso; apply B; ring]. destruct (Req_EM_T _ 0) as [_|B]; [|exfalso; apply B; ring].
    replace (num_add acc Nan) with Nan by (destruct acc; reflexivity). apply l2u_loop_nan.
  - apply IH; [lia|exact Z|exact E].
Qed.
Lemma l2u_inf left right u m : (forall k, (k < m)%nat -> item u k = 0 -> item left k <> item right k) -> forall n i acc, (i + n = m)%nat -> acc <> Nan ->
  acc = Inf \/ (exists k, (i <= k < i + n)%nat /\ item u k = 0) -> l2u_loop n i left right u acc = Inf.
Proof.
  intros D. induction n as [|n IH]; intros i acc HM NA C; cbn [l2u_loop].
  - destruct C as [C|(k & H & _)]; [exact C|lia].
  - set (q := num_div _ _). assert (Q : q = Inf \/ (exists x, q = Real x) /\ item u i <> 0).
    { unfold q, num_div. destruct (Req_EM_T (item u i * item u i) 0) as [E|E].
      - left. assert (Z : item u i = 0) by (apply Rmult_integral in E; tauto). destruct (Req_EM_T _ 0) as [B|_]; [|reflexivity]. exfalso. apply (D i ltac:(lia) Z). apply Rmult_integral in B. lra.
      - right. split; [eexists; reflexivity|]. intros Z. apply E. rewrite Z. ring. }
    apply IH; [lia| |].
    + destruct acc, Q as [->|[[z ->] _]]; cbn; congruence.
    + destruct C as [->|(k & H & Z)]; [left; destruct Q as [->|[[z ->] _]]; reflexivity|].
      destruct Q as [->|[[z ->] ZI]]; [left; destruct acc; cbn; congruence|]. destruct (Nat.eq_dec k i) as [->|N]; [contradiction|]. right. exists k. split; [lia|exact Z].
Qed.
