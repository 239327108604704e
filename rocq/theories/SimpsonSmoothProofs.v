(** The error of Simpson's rule on functions that have four derivatives. *)
From Coq Require Import Reals List Arith Bool ZArith Lia Lra Psatz.
From Coquelicot Require Import Coquelicot.
From Verif Require Import Common SimpsonModel SimpsonProofs.
Import ListNotations.
Local Open Scope R_scope.

Lemma abs_both x y : Rabs x <= y -> - y <= x <= y. Proof. apply Rabs_le_between. Qed.
Section Smooth.
  Variables (f : R -> R) (a b K : R).
  Hypothesis D : forall x, a <= x <= b -> forall k, (k <= 4)%nat -> ex_derive_n f k x.
  Hypothesis B : forall x, a <= x <= b -> Rabs (Derive_n f 4 x) <= K.

  (** The cubic that touches f at x. *)
  Definition cub (x t : R) : R := f x + Derive_n f 1 x * t + Derive_n f 2 x * (t * t) / 2 + Derive_n f 3 x * (t * t * t) / 6.
  Definition cubi (x t : R) : R := f x * t + Derive_n f 1 x * (t * t) / 2 + Derive_n f 2 x * (t * t * t) / 6 + Derive_n f 3 x * (t * t * t * t) / 24.
  Lemma taylor4 x y : a <= x -> x <= y -> y <= b -> Rabs (f y - cub x (y - x)) <= K * ((y - x) ^ 4 / 24).
  Proof.
    intros A L H. destruct (Req_dec x y) as [<-|NE].
    - unfold cub. replace (x - x) with 0 by ring. replace (f x - _) with 0 by field. rewrite Rabs_R0. lra.
    - destruct (Taylor_Lagrange f 3 x y ltac:(lra)) as (z & Z & E). { intros t T k HK. apply D; [lra|exact HK]. }
      assert (E' : f y - cub x (y - x) = (y - x) ^ 4 / 24 * Derive_n f 4 z).
      { rewrite E. unfold cub. cbn [sum_f_R0]. replace (INR (fact 0)) with 1 by (cbn; ring). replace (INR (fact 1)) with 1 by (cbn; ring). replace (INR (fact 2)) with 2 by (cbn; ring). replace (INR (fact 3)) with 6 by (cbn; ring). replace (INR (fact 4)) with 24 by (cbn; ring).
        change (Derive_n f 0 x) with (f x). field. }
      rewrite E', Rabs_mult, Rmult_comm. assert (P : 0 <= (y - x) ^ 4 / 24) by (apply Rmult_le_pos; [apply pow_le; lra|lra]). rewrite (Rabs_pos_eq _ P). apply Rmult_le_compat_r; [exact P|apply B; lra].
  Qed.
  Lemma f_int u v : a <= u -> u <= v -> v <= b -> ex_RInt f u v.
  Proof.
    intros A L H. apply (ex_RInt_continuous (V := R_CompleteNormedModule)). intros z Z. rewrite Rmin_left, Rmax_right in Z by exact L.
    apply (ex_derive_continuous (V := R_NormedModule) f z). exact (D z ltac:(lra) 1%nat ltac:(lia)).
  Qed.
  Lemma cub_int x u v : is_RInt (fun y => cub x (y - x)) u v (cubi x (v - x) - cubi x (u - x)).
  Proof.
    apply (is_RInt_derive (V := R_CompleteNormedModule) (fun y => cubi x (y - x))).
    - intros y _. unfold cubi, cub. set (c0 := f x). set (c1 := Derive_n f 1 x). set (c2 := Derive_n f 2 x). set (c3 := Derive_n f 3 x). clearbody c0 c1 c2 c3. auto_derive; [exact I|]. field.
    - intros y _. apply (ex_derive_continuous (V := R_NormedModule) (fun y => cub x (y - x))). unfold cub. set (c0 := f x). set (c1 := Derive_n f 1 x). set (c2 := Derive_n f 2 x). set (c3 := Derive_n f 3 x). clearbody c0 c1 c2 c3. auto_derive. exact I.
  Qed.
  Lemma cell_int x u v : a <= x -> x <= u -> u <= v -> v <= b ->
    Rabs (RInt f u v - (cubi x (v - x) - cubi x (u - x))) <= (v - u) * (K * ((v - x) ^ 4 / 24)).
  Proof.
    intros A L1 L2 H. assert (K0 : 0 <= K) by (eapply Rle_trans; [apply Rabs_pos|apply (B x); lra]).
    pose proof (f_int u v ltac:(lra) L2 H) as I1. pose proof (cub_int x u v) as I2. rewrite <- (is_RInt_unique _ _ _ _ I2).
    assert (I3 : ex_RInt (fun y => cub x (y - x)) u v) by (eexists; exact I2).
    pose proof (RInt_minus (V := R_CompleteNormedModule) f (fun y => cub x (y - x)) u v I1 I3) as E.
    match type of E with _ = minus ?p ?q => change (minus p q) with (p - q) in E end. rewrite <- E.
    apply abs_RInt_le_const; [exact L2|apply (ex_RInt_minus (V := R_NormedModule)); assumption|].
    intros t T. change (minus (f t) (cub x (t - x))) with (f t - cub x (t - x)). eapply Rle_trans; [apply taylor4; lra|]. apply Rmult_le_compat_l; [exact K0|]. apply Rmult_le_compat_r; [lra|]. apply pow_incr. lra.
  Qed.

  Section Cells.
    Variable h : R.
    Hypothesis H0 : 0 <= h.
    (** The values at four points in a row, and the cubic through them. *)
    Lemma values x : a <= x -> x + 3 * h <= b ->
      Rabs (f (x + h) - cub x h) <= K * h ^ 4 / 24 /\ Rabs (f (x + 2 * h) - cub x (2 * h)) <= 16 * (K * h ^ 4) / 24 /\ Rabs (f (x + 3 * h) - cub x (3 * h)) <= 81 * (K * h ^ 4) / 24.
    Proof.
      intros A L. pose proof (taylor4 x (x + h) A ltac:(lra) ltac:(lra)) as T1. pose proof (taylor4 x (x + 2 * h) A ltac:(lra) ltac:(lra)) as T2. pose proof (taylor4 x (x + 3 * h) A ltac:(lra) ltac:(lra)) as T3.
      replace (x + h - x) with h in T1 by ring. replace (x + 2 * h - x) with (2 * h) in T2 by ring. replace (x + 3 * h - x) with (3 * h) in T3 by ring.
      split; [eapply Rle_trans; [exact T1|right; field]|]. split; [eapply Rle_trans; [exact T2|right; field]|eapply Rle_trans; [exact T3|right; field]].
    Qed.
    Lemma inner_cell x : a <= x -> x + 3 * h <= b ->
      Rabs (h * (- (1 / 24) * f x + 13 / 24 * f (x + h) + 13 / 24 * f (x + 2 * h) - 1 / 24 * f (x + 3 * h)) - RInt f (x + h) (x + 2 * h)) <= 12 / 10 * (K * h ^ 4) * h.
    Proof.
      intros A L. destruct (values x A L) as (V1 & V2 & V3). pose proof (cell_int x (x + h) (x + 2 * h) A ltac:(lra) ltac:(lra) ltac:(lra)) as C.
      replace (x + h - x) with h in C by ring. replace (x + 2 * h - x) with (2 * h) in C by ring. replace (x + 2 * h - (x + h)) with h in C by ring.
      set (y1 := f (x + h)) in *. set (y2 := f (x + 2 * h)) in *. set (y3 := f (x + 3 * h)) in *. set (J := RInt f (x + h) (x + 2 * h)) in *.
      assert (EX : h * (- (1 / 24) * f x + 13 / 24 * cub x h + 13 / 24 * cub x (2 * h) - 1 / 24 * cub x (3 * h)) = cubi x (2 * h) - cubi x h) by (unfold cub, cubi; field).
      replace (h * (- (1 / 24) * f x + 13 / 24 * y1 + 13 / 24 * y2 - 1 / 24 * y3) - J)
        with (h * (13 / 24 * (y1 - cub x h) + 13 / 24 * (y2 - cub x (2 * h)) - 1 / 24 * (y3 - cub x (3 * h))) - (J - (cubi x (2 * h) - cubi x h))) by (rewrite <- EX; ring).
      set (e1 := y1 - cub x h) in *. set (e2 := y2 - cub x (2 * h)) in *. set (e3 := y3 - cub x (3 * h)) in *. set (e := J - (cubi x (2 * h) - cubi x h)) in *. clearbody e1 e2 e3 e.
      replace (h * (K * ((2 * h) ^ 4 / 24))) with (16 * (K * h ^ 4) / 24 * h) in C by field. set (q := K * h ^ 4) in *. clearbody q.
      assert (E : Rabs (13 / 24 * e1 + 13 / 24 * e2 - 1 / 24 * e3) <= 302 / 576 * q) by (apply abs_both in V1, V2, V3; apply Rabs_le; lra).
      assert (Q : Rabs (h * (13 / 24 * e1 + 13 / 24 * e2 - 1 / 24 * e3)) <= h * (302 / 576 * q)) by (rewrite Rabs_mult, (Rabs_pos_eq h H0); apply Rmult_le_compat_l; assumption).
      assert (Q0 : 0 <= q * h) by (apply abs_both in V1; apply Rmult_le_pos; lra).
      apply abs_both in Q, C. apply Rabs_le. lra.
    Qed.
    Lemma first_cell x : a <= x -> x + 3 * h <= b ->
      Rabs (h * (5 / 12 * f x + 8 / 12 * f (x + h) - 1 / 12 * f (x + 2 * h)) - RInt f x (x + h) + h ^ 4 / 24 * Derive_n f 3 x) <= 1 / 8 * (K * h ^ 4) * h.
    Proof.
      intros A L. destruct (values x A L) as (V1 & V2 & _). pose proof (cell_int x x (x + h) A ltac:(lra) ltac:(lra) ltac:(lra)) as C.
      replace (x + h - x) with h in C by ring. replace (x - x) with 0 in C by ring.
      set (y1 := f (x + h)) in *. set (y2 := f (x + 2 * h)) in *. set (J := RInt f x (x + h)) in *.
      assert (EX : h * (5 / 12 * f x + 8 / 12 * cub x h - 1 / 12 * cub x (2 * h)) + h ^ 4 / 24 * Derive_n f 3 x = cubi x h - cubi x 0) by (unfold cub, cubi; field).
      replace (h * (5 / 12 * f x + 8 / 12 * y1 - 1 / 12 * y2) - J + h ^ 4 / 24 * Derive_n f 3 x)
        with (h * (8 / 12 * (y1 - cub x h) - 1 / 12 * (y2 - cub x (2 * h))) - (J - (cubi x h - cubi x 0))) by (rewrite <- EX; ring).
      set (e1 := y1 - cub x h) in *. set (e2 := y2 - cub x (2 * h)) in *. set (e := J - (cubi x h - cubi x 0)) in *. clearbody e1 e2 e.
      replace (h * (K * (h ^ 4 / 24))) with (K * h ^ 4 / 24 * h) in C by field. set (q := K * h ^ 4) in *. clearbody q.
      assert (E : Rabs (8 / 12 * e1 - 1 / 12 * e2) <= 1 / 12 * q) by (apply abs_both in V1, V2; apply Rabs_le; lra).
      assert (Q : Rabs (h * (8 / 12 * e1 - 1 / 12 * e2)) <= h * (1 / 12 * q)) by (rewrite Rabs_mult, (Rabs_pos_eq h H0); apply Rmult_le_compat_l; assumption).
      apply abs_both in Q, C. apply Rabs_le. lra.
    Qed.
    Lemma last_cell x : a <= x -> x + 2 * h <= b ->
      Rabs (h * (- (1 / 12) * f x + 8 / 12 * f (x + h) + 5 / 12 * f (x + 2 * h)) - RInt f (x + h) (x + 2 * h) - h ^ 4 / 24 * Derive_n f 3 x) <= K * h ^ 4 * h.
    Proof.
      intros A L. pose proof (taylor4 x (x + h) A ltac:(lra) ltac:(lra)) as V1. pose proof (taylor4 x (x + 2 * h) A ltac:(lra) ltac:(lra)) as V2. pose proof (cell_int x (x + h) (x + 2 * h) A ltac:(lra) ltac:(lra) ltac:(lra)) as C.
      replace (x + h - x) with h in * by ring. replace (x + 2 * h - x) with (2 * h) in * by ring. replace (x + 2 * h - (x + h)) with h in C by ring.
      set (y1 := f (x + h)) in *. set (y2 := f (x + 2 * h)) in *. set (J := RInt f (x + h) (x + 2 * h)) in *.
      assert (EX : h * (- (1 / 12) * f x + 8 / 12 * cub x h + 5 / 12 * cub x (2 * h)) - h ^ 4 / 24 * Derive_n f 3 x = cubi x (2 * h) - cubi x h) by (unfold cub, cubi; field).
      replace (h * (- (1 / 12) * f x + 8 / 12 * y1 + 5 / 12 * y2) - J - h ^ 4 / 24 * Derive_n f 3 x)
        with (h * (8 / 12 * (y1 - cub x h) + 5 / 12 * (y2 - cub x (2 * h))) - (J - (cubi x (2 * h) - cubi x h))) by (rewrite <- EX; ring).
      set (e1 := y1 - cub x h) in *. set (e2 := y2 - cub x (2 * h)) in *. set (e := J - (cubi x (2 * h) - cubi x h)) in *. clearbody e1 e2 e.
      replace (h * (K * ((2 * h) ^ 4 / 24))) with (16 * (K * h ^ 4) / 24 * h) in C by field. replace (K * ((2 * h) ^ 4 / 24)) with (16 * (K * h ^ 4) / 24) in V2 by field. replace (K * (h ^ 4 / 24)) with (K * h ^ 4 / 24) in V1 by field. set (q := K * h ^ 4) in *. clearbody q.
      assert (E : Rabs (8 / 12 * e1 + 5 / 12 * e2) <= 88 / 288 * q) by (apply abs_both in V1, V2; apply Rabs_le; lra).
      assert (Q : Rabs (h * (8 / 12 * e1 + 5 / 12 * e2)) <= h * (88 / 288 * q)) by (rewrite Rabs_mult, (Rabs_pos_eq h H0); apply Rmult_le_compat_l; assumption).
      assert (Q0 : 0 <= q * h) by (apply abs_both in V1; apply Rmult_le_pos; lra).
      apply abs_both in Q, C. apply Rabs_le. lra.
    Qed.
  End Cells.
  Lemma third x y : a <= x -> x <= y -> y <= b -> Rabs (Derive_n f 3 y - Derive_n f 3 x) <= K * (y - x).
  Proof.
    intros A L H. destruct (Req_dec x y) as [<-|NE]; [rewrite !Rminus_eq_0, Rabs_R0; lra|].
    destruct (MVT_gen (Derive_n f 3) x y (Derive_n f 4)) as (c & C & E).
    - intros t T. rewrite Rmin_left, Rmax_right in T by exact L. apply Derive_correct. exact (D t ltac:(lra) 4%nat ltac:(lia)).
    - intros t T. rewrite Rmin_left, Rmax_right in T by exact L. apply continuity_pt_filterlim. apply (ex_derive_continuous (V := R_NormedModule) (Derive_n f 3) t). exact (D t ltac:(lra) 4%nat ltac:(lia)).
    - rewrite Rmin_left, Rmax_right in C by exact L. rewrite E, Rabs_mult, (Rabs_pos_eq (y - x)) by lra. apply Rmult_le_compat_r; [lra|apply B; lra].
  Qed.
End Smooth.

Lemma sum_shift g k : forall n i, sum (fun j => g (k + j)%nat) i n = sum g (k + i) n.
Proof. induction n as [|n IH]; intros i; [reflexivity|]. cbn [sum]. rewrite IH. replace (k + S i)%nat with (S (k + i)) by lia. reflexivity. Qed.
Lemma sum_lin4 g1 g2 g3 g4 c1 c2 c3 c4 : forall n i, sum (fun j => c1 * g1 j + c2 * g2 j + c3 * g3 j - c4 * g4 j) i n = c1 * sum g1 i n + c2 * sum g2 i n + c3 * sum g3 i n - c4 * sum g4 i n.
Proof. induction n as [|n IH]; intros i; cbn [sum]; [ring|]. rewrite IH. ring. Qed.
(** The rule integrates in each cell a cubic through four points, and at the ends a parabola through three. *)
Lemma weights_cells (g : nat -> R) N : (8 <= N)%nat ->
  sum g 3 (N - 5) + 375 / 1000 * (g 0%nat + g N) + 7 / 6 * (g 1%nat + g (N - 1)%nat) + 23 / 24 * (g 2%nat + g (N - 2)%nat) =
  sum (fun j => - (1 / 24) * g j + 13 / 24 * g (1 + j)%nat + 13 / 24 * g (2 + j)%nat - 1 / 24 * g (3 + j)%nat) 0 (N - 2)
  + (5 / 12 * g 0%nat + 8 / 12 * g 1%nat - 1 / 12 * g 2%nat) + (- (1 / 12) * g (N - 2)%nat + 8 / 12 * g (N - 1)%nat + 5 / 12 * g N).
Proof.
  intros N8. rewrite (sum_lin4 g (fun j => g (1 + j)%nat) (fun j => g (2 + j)%nat) (fun j => g (3 + j)%nat)). rewrite !sum_shift. cbn [Nat.add].
  destruct N as [|[|[|[|[|n]]]]]; try lia. replace (S (S (S (S (S n)))) - 5)%nat with n by lia. replace (S (S (S (S (S n)))) - 2)%nat with (S (S (S n))) by lia. replace (S (S (S (S (S n)))) - 1)%nat with (S (S (S (S n)))) by lia.
  assert (S0 : sum g 0 (S (S (S n))) = g 0%nat + g 1%nat + g 2%nat + sum g 3 n) by (cbn [sum]; ring).
  assert (S1 : sum g 1 (S (S (S n))) = g 1%nat + g 2%nat + sum g 3 n + g (S (S (S n)))) by (rewrite (sum_last g (S (S n))); cbn [sum Nat.add]; ring).
  assert (S2 : sum g 2 (S (S (S n))) = g 2%nat + sum g 3 n + g (S (S (S n))) + g (S (S (S (S n))))) by (rewrite (sum_last g (S (S n))), (sum_last g (S n)); cbn [sum Nat.add]; ring).
  assert (S3 : sum g 3 (S (S (S n))) = sum g 3 n + g (S (S (S n))) + g (S (S (S (S n)))) + g (S (S (S (S (S n)))))) by (rewrite !sum_last; replace (3 + n)%nat with (S (S (S n))) by lia; replace (3 + S n)%nat with (S (S (S (S n)))) by lia; replace (3 + S (S n))%nat with (S (S (S (S (S n))))) by lia; ring).
  rewrite S0, S1, S2, S3. lra.
Qed.

Lemma rule_smooth f a b K N : a <= b -> (8 <= N)%nat ->
  (forall x, a <= x <= b -> forall k, (k <= 4)%nat -> ex_derive_n f k x) -> (forall x, a <= x <= b -> Rabs (Derive_n f 4 x) <= K) ->
  Rabs (rule f a b N - RInt f a b) <= 5 / 4 * K * ((b - a) / INR N) ^ 4 * (b - a).
Proof.
  intros L N8 D B. assert (IN : 8 <= INR N) by (replace 8 with (INR 8) by (cbn; ring); apply le_INR; exact N8). set (h := (b - a) / INR N).
  assert (H0 : 0 <= h) by (unfold h; apply Rmult_le_pos; [lra|left; apply Rinv_0_lt_compat; lra]). assert (EH : b - a = INR N * h) by (unfold h; field; lra).
  set (x := fun i : nat => a + INR i * h). assert (FX : forall i, F f a b N i = f (x i)) by reflexivity.
  assert (K0 : 0 <= K) by (eapply Rle_trans; [apply Rabs_pos|apply (B a); lra]). assert (Q0 : 0 <= K * h ^ 4) by (apply Rmult_le_pos; [exact K0|apply pow_le, H0]).
  unfold rule. fold h. rewrite (weights_cells (F f a b N) N N8).
  assert (XU : forall i j, (i <= j)%nat -> x i <= x j) by (intros i j I; unfold x; apply Rplus_le_compat_l, Rmult_le_compat_r; [exact H0|apply le_INR, I]).
  assert (X0 : x 0%nat = a) by (unfold x; cbn [INR]; ring). assert (XN : x N = b) by (unfold x; lra).
  assert (XS : forall i k, x (k + i)%nat = x i + INR k * h) by (intros i k; unfold x; rewrite plus_INR; ring).
  assert (CE : forall n, (n <= N - 2)%nat -> Rabs (sum (fun j => - (1 / 24) * F f a b N j + 13 / 24 * F f a b N (1 + j)%nat + 13 / 24 * F f a b N (2 + j)%nat - 1 / 24 * F f a b N (3 + j)%nat) 0 n * h - RInt f (x 1%nat) (x (1 + n)%nat)) <= INR n * (12 / 10 * (K * h ^ 4) * h)).
  { induction n as [|n IH]; intros I; [cbn [sum INR Nat.add]; rewrite RInt_point; change zero with 0; rewrite Rmult_0_l, Rminus_0_r, Rabs_R0; lra|]. rewrite sum_last, Nat.add_0_l, S_INR. specialize (IH ltac:(lia)).
    assert (PA : a <= x n) by (rewrite <- X0; apply XU; lia). assert (PB : x n + 3 * h <= b) by (rewrite <- XN; replace 3 with (INR 3) by (cbn; ring); rewrite <- XS; apply XU; lia).
    pose proof (inner_cell f a b K D B h H0 (x n) PA PB) as C.
    replace (x (1 + S n)%nat) with (x n + 2 * h) by (replace (1 + S n)%nat with (2 + n)%nat by lia; rewrite XS; cbn [INR]; ring).
    rewrite !FX, !XS. replace (INR 1) with 1 by reflexivity. replace (INR 2) with 2 by (cbn; ring). replace (INR 3) with 3 by (cbn; ring). rewrite Rmult_1_l.
    assert (J1 : ex_RInt f (x 1%nat) (x n + h)) by (apply (f_int f a b D); [rewrite <- X0; apply XU; lia|replace (x n + h) with (x (1 + n)%nat) by (rewrite XS; cbn [INR]; ring); apply XU; lia|lra]).
    assert (J2 : ex_RInt f (x n + h) (x n + 2 * h)) by (apply (f_int f a b D); lra).
    rewrite <- (RInt_Chasles (V := R_CompleteNormedModule) f _ _ _ J1 J2). match goal with |- context [Hierarchy.plus ?p ?q] => change (Hierarchy.plus p q) with (p + q) end.
    replace (x (1 + n)%nat) with (x n + h) in IH by (rewrite XS; cbn [INR]; ring).
    set (s := sum _ 0 n) in *. clearbody s. match type of IH with Rabs (_ - ?j) <= _ => set (ja := j) in * end. match type of C with Rabs (_ - ?j) <= _ => set (jb := j) in * end. clearbody ja jb.
    match type of C with Rabs (h * ?e - _) <= _ => set (c := e) in * end. 
    replace ((s + c) * h - (ja + jb)) with ((s * h - ja) + (h * c - jb)) by ring. eapply Rle_trans; [apply Rabs_triang|]. lra. }
  specialize (CE (N - 2)%nat ltac:(lia)). replace (1 + (N - 2))%nat with (N - 1)%nat in CE by lia.
  assert (P3 : x 0%nat + 3 * h <= b) by (rewrite <- XN; replace 3 with (INR 3) by (cbn; ring); rewrite <- XS; apply XU; lia).
  pose proof (first_cell f a b K D B h H0 (x 0%nat) ltac:(lra) P3) as C1.
  assert (P2 : x (N - 2)%nat + 2 * h = b) by (rewrite <- XN; replace (2 * h) with (INR 2 * h) by (cbn [INR]; ring); rewrite <- XS; f_equal; lia).
  assert (P1 : x (N - 2)%nat + h = x (N - 1)%nat) by (replace (N - 1)%nat with (1 + (N - 2))%nat by lia; rewrite XS; cbn [INR]; ring).
  assert (PA : a <= x (N - 2)%nat) by (rewrite <- X0; apply XU; lia).
  pose proof (last_cell f a b K D B h H0 (x (N - 2)%nat) PA ltac:(lra)) as C2. pose proof (third f a b K D B (x 0%nat) (x (N - 2)%nat) ltac:(lra) ltac:(apply XU; lia) ltac:(lra)) as C3.
  rewrite P1, P2 in C2. replace (x 0%nat + h) with (x 1%nat) in C1 by (unfold x; cbn [INR]; ring). replace (x 0%nat + 2 * h) with (x 2%nat) in C1 by (unfold x; cbn [INR]; ring).
  rewrite !FX. rewrite XN.
  assert (J1 : ex_RInt f a (x 1%nat)) by (apply (f_int f a b D); [lra|rewrite <- X0; apply XU; lia|rewrite <- XN; apply XU; lia]).
  assert (J2 : ex_RInt f (x 1%nat) (x (N - 1)%nat)) by (apply (f_int f a b D); [rewrite <- X0; apply XU; lia|apply XU; lia|rewrite <- XN; apply XU; lia]).
  assert (J3 : ex_RInt f (x (N - 1)%nat) b) by (apply (f_int f a b D); [rewrite <- X0; apply XU; lia|rewrite <- XN; apply XU; lia|lra]).
  assert (J12 : ex_RInt f a (x (N - 1)%nat)) by (apply (ex_RInt_Chasles (V := R_NormedModule) f a (x 1%nat)); assumption).
  rewrite <- (RInt_Chasles (V := R_CompleteNormedModule) f a (x (N - 1)%nat) b J12 J3). rewrite <- (RInt_Chasles (V := R_CompleteNormedModule) f a (x 1%nat) (x (N - 1)%nat) J1 J2).
  rewrite X0 in *. rewrite minus_INR in CE by lia. replace (INR 2) with 2 in CE by (cbn; ring).
  match goal with |- Rabs (_ - Hierarchy.plus (Hierarchy.plus ?p ?q) ?r) <= _ => set (ja := p) in *; set (jb := q) in *; set (jc := r) in *; change (Hierarchy.plus (Hierarchy.plus ja jb) jc) with (ja + jb + jc) end.
  match type of CE with Rabs (?e * h - _) <= _ => set (s := e) in * end. clearbody ja jb jc s.
  set (ca := 5 / 12 * f a + 8 / 12 * f (x 1%nat) - 1 / 12 * f (x 2%nat)) in *. set (cb := - (1 / 12) * f (x (N - 2)%nat) + 8 / 12 * f (x (N - 1)%nat) + 5 / 12 * f b) in *. set (da := Derive_n f 3 a) in *. set (db := Derive_n f 3 (x (N - 2)%nat)) in *. clearbody ca cb da db.
  assert (C4 : Rabs (h ^ 4 / 24 * (db - da)) <= K * h ^ 4 / 24 * (b - a)).
  { assert (P4 : 0 <= h ^ 4 / 24) by (apply Rmult_le_pos; [apply pow_le, H0|lra]). rewrite Rabs_mult, (Rabs_pos_eq _ P4). replace (K * h ^ 4 / 24 * (b - a)) with (h ^ 4 / 24 * (K * (b - a))) by field. apply Rmult_le_compat_l; [exact P4|]. eapply Rle_trans; [exact C3|]. apply Rmult_le_compat_l; [exact K0|lra]. }
  replace ((s + ca + cb) * h - (ja + jb + jc)) with ((s * h - jb) + (h * ca - ja + h ^ 4 / 24 * da) + (h * cb - jc - h ^ 4 / 24 * db) + h ^ 4 / 24 * (db - da)) by ring.
  replace (5 / 4 * K * h ^ 4 * (b - a)) with (5 / 4 * (K * h ^ 4) * (b - a)) by ring. set (q := K * h ^ 4) in *. clearbody q. rewrite EH in *. set (n := INR N) in *. clearbody n.
  assert (QH : 0 <= q * h) by (apply Rmult_le_pos; assumption). assert (QN : 8 * (q * h) <= q * (n * h)) by nra.
  apply abs_both in CE, C1, C2, C4. apply Rabs_le. lra.
Qed.
