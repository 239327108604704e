(** Proofs about the sampler. *)
From Coq Require Import Reals List Arith Bool ZArith Lia Lra FunctionalExtensionality.
From Verif Require Import Common CumulModel CumulProofs FunModel FunSpec FunProofs FunProofs2 FunProps InterpModel InterpSpec InterpProofs GridInterpModel GridInterpSpec GridInterpProofs GridInterpProps InvCumulModel InvCumulSpec InvCumulProofs InvCumulProps SamplerModel SamplerSpec.
Import ListNotations.
Local Open Scope R_scope.

(** ** The mass of an axis *)
Lemma sum_loop_total f : forall n i, sum_loop f i n (total f i) = total f (i + n).
Proof.
  induction n as [|n IH]; intro i; cbn [sum_loop]; [rewrite Nat.add_0_r; reflexivity|].
  change (total f i + f i) with (total f (S i)). rewrite IH. f_equal. lia.
Qed.
Lemma el_map f n i : (i < n)%nat -> el (map f (seq 0 n)) i = f i.
Proof. intro H. unfold el. rewrite (nth_indep _ 0 (f 0%nat)) by (rewrite map_length, seq_length; exact H). rewrite map_nth, seq_nth by exact H. reflexivity. Qed.
Lemma el_map_out f n i : (n <= i)%nat -> el (map f (seq 0 n)) i = 0.
Proof. intro H. unfold el. apply nth_overflow. rewrite map_length, seq_length. exact H. Qed.
Lemma skipn_el ks i : (i < length ks)%nat -> skipn i ks = el ks i :: skipn (S i) ks.
Proof.
  revert i. induction ks as [|k ks IH]; intros i H; [cbn in H; lia|]. destruct i as [|i]; [reflexivity|].
  cbn [skipn length] in *. rewrite IH by lia. reflexivity.
Qed.
Lemma trapz_step f k0 k1 ks i acc : trapz_sum f (k0 :: k1 :: ks) i acc = trapz_sum f (k1 :: ks) (S i) (acc + (f i + f (S i)) * (k1 - k0) / 2).
Proof. reflexivity. Qed.
Lemma trapz_area f ks : forall m i, (i + S m = length ks)%nat ->
  trapz_sum f (skipn i ks) i (area ks (map f (seq 0 (length ks))) i) = area ks (map f (seq 0 (length ks))) (length ks - 1).
Proof.
  induction m as [|m IH]; intros i H.
  - rewrite skipn_el by lia. rewrite skipn_all2 by lia. cbn [trapz_sum]. f_equal. lia.
  - rewrite skipn_el by lia. rewrite (skipn_el ks (S i)) by lia. rewrite trapz_step, <- (skipn_el ks (S i)) by lia.
    rewrite <- (IH (S i)) by lia. f_equal. cbn [area]. rewrite !el_map by lia. unfold Rdiv. ring.
Qed.
Lemma integral_mass a f : integral a f = mass a f.
Proof.
  destruct a as [ks|ks]; cbn [integral mass].
  - destruct ks as [|k [|k' ks]]; [reflexivity|cbn; ring|]. change (k :: k' :: ks) with (skipn 0 (k :: k' :: ks)) at 1.
    apply (trapz_area f (k :: k' :: ks) (S (length ks)) 0). reflexivity.
  - apply (sum_loop_total f (length ks) 0).
Qed.
Lemma marginal_without a v : marginal a v = without a v.
Proof. apply functional_extensionality. intro c. apply integral_mass. Qed.

Lemma total_ext f g n : (forall i, (i < n)%nat -> f i = g i) -> total f n = total g n.
Proof. induction n as [|n IH]; intro H; [reflexivity|]. cbn [total]. rewrite IH, H by (auto with arith); reflexivity. Qed.
Lemma total_comb f g s t n : total (fun i => s * f i + t * g i) n = s * total f n + t * total g n.
Proof. induction n as [|n IH]; cbn [total]; [ring|]. rewrite IH. ring. Qed.
Lemma total_nonneg f n : (forall i, (i < n)%nat -> 0 <= f i) -> 0 <= total f n.
Proof. induction n as [|n IH]; intro H; cbn [total]; [lra|]. assert (0 <= total f n) by (apply IH; intros; apply H; lia). specialize (H n ltac:(lia)). lra. Qed.
Lemma total_mono f n i : (forall i, (i < n)%nat -> 0 <= f i) -> (i <= n)%nat -> total f i <= total f n.
Proof. intros H. induction n as [|n IH]; intro L; [replace i with 0%nat by lia; lra|]. destruct (Nat.eq_dec i (S n)) as [->|N]; [lra|]. cbn [total]. specialize (IH ltac:(intros; apply H; lia) ltac:(lia)). specialize (H n ltac:(lia)). lra. Qed.
Lemma area_comb ks f g s t N n : (n < N)%nat ->
  area ks (map (fun i => s * f i + t * g i) (seq 0 N)) n = s * area ks (map f (seq 0 N)) n + t * area ks (map g (seq 0 N)) n.
Proof. induction n as [|n IH]; intro H; cbn [area]; [ring|]. rewrite IH by lia. rewrite !el_map by lia. unfold Rdiv. ring. Qed.
Lemma area_nonneg ks pdf n : strictly_sorted ks -> (n < length ks)%nat -> (forall i, 0 <= el pdf i) -> 0 <= area ks pdf n.
Proof.
  intros K. induction n as [|n IH]; intros L H; cbn [area]; [lra|]. specialize (IH ltac:(lia) H). pose proof (el_strict ks n (S n) K ltac:(lia) ltac:(lia)).
  pose proof (H n). pose proof (H (S n)). assert (0 <= (el ks (S n) - el ks n) * (el pdf n + el pdf (S n))) by (apply Rmult_le_pos; lra). lra.
Qed.
Lemma mass_ext a f g : (forall i, (i < axis_size a)%nat -> f i = g i) -> axis_size a <> 0%nat -> mass a f = mass a g.
Proof.
  intros H N. destruct a as [ks|ks]; cbn [mass axis_size] in *; [|apply total_ext; exact H].
  assert (E : map f (seq 0 (length ks)) = map g (seq 0 (length ks))) by (apply map_ext_in; intros i Hi; apply H; apply in_seq in Hi; lia).
  destruct ks as [|k [|k' ks]]; [reflexivity|apply H; cbn; lia|]. rewrite E. reflexivity.
Qed.
Lemma mass_comb a f g s t : mass a (fun i => s * f i + t * g i) = s * mass a f + t * mass a g.
Proof.
  destruct a as [ks|ks]; cbn [mass]; [|apply total_comb].
  destruct ks as [|k [|k' ks]]; [cbn; ring|reflexivity|]. apply area_comb. cbn. lia.
Qed.
Lemma mass_line a f g x0 x1 x : mass a (fun i => line x0 (f i) x1 (g i) x) = line x0 (mass a f) x1 (mass a g) x.
Proof.
  replace (fun i => line x0 (f i) x1 (g i) x) with (fun i => (1 - (x - x0) / (x1 - x0)) * f i + (x - x0) / (x1 - x0) * g i) by (apply functional_extensionality; intro i; unfold line; ring).
  rewrite mass_comb. unfold line. ring.
Qed.
Lemma mass_zero a : mass a (fun _ => 0) = 0.
Proof.
  replace (fun _ : nat => 0) with (fun i : nat => 0 * (fun _ => 1) i + 0 * (fun _ => 1) i) by (apply functional_extensionality; intro; ring).
  rewrite (mass_comb a (fun _ => 1) (fun _ => 1) 0 0). ring.
Qed.
Lemma mass_nonneg a f : good a -> (forall i, (i < axis_size a)%nat -> 0 <= f i) -> 0 <= mass a f.
Proof.
  intros [P N] H. destruct a as [ks|ks]; cbn [mass axis_size proper] in *; [|apply total_nonneg; exact H].
  destruct ks as [|k [|k' ks]]; [exfalso; apply N; reflexivity|apply H; cbn; lia|].
  apply area_nonneg; [exact P|cbn; lia|]. intro i. destruct (Nat.lt_ge_cases i (length (k :: k' :: ks))) as [L|L]; [rewrite el_map by exact L; apply H; exact L|rewrite el_map_out by exact L; lra].
Qed.

(** ** The inverse cumulative *)
Lemma partial_sums_spec f : forall n i, partial_sums (total f i) (map f (seq i n)) = map (fun j => total f (S j)) (seq i n).
Proof. induction n as [|n IH]; intro i; [reflexivity|]. cbn [seq map partial_sums]. change (total f i + f i) with (total f (S i)). rewrite IH. reflexivity. Qed.
Lemma last_map (g : nat -> R) n : last (map g (seq 0 (S n))) 0 = g n.
Proof. replace (S n) with (n + 1)%nat by lia. rewrite seq_app, map_app. cbn. apply last_last. Qed.
Lemma drawn_ext a f g p x : (forall i, (i < axis_size a)%nat -> f i = g i) -> axis_size a <> 0%nat -> drawn a f p x -> drawn a g p x.
Proof.
  intros H N. destruct a as [ks|ks]; cbn [drawn axis_size] in *.
  - destruct ks as [|k [|k' ks]]; [exfalso; apply N; reflexivity|auto|]. assert (E : map f (seq 0 (length (k :: k' :: ks))) = map g (seq 0 (length (k :: k' :: ks)))) by (apply map_ext_in; intros i Hi; apply H; apply in_seq in Hi; lia).
    rewrite E. auto.
  - intros (i & k & E & K & A & B). assert (Hi : (i < length ks)%nat) by (apply nth_error_Some; congruence). exists i, k. split; [exact E|]. split; [exact K|].
    rewrite <- (total_ext f g (length ks)) by exact H. rewrite <- (total_ext f g i), <- (total_ext f g (S i)) by (intros; apply H; lia). auto.
Qed.
Lemma inv_ok a f : good a -> (forall i, (i < axis_size a)%nat -> 0 <= f i) ->
  exists t, new_inv a (map f (seq 0 (axis_size a))) = Ok t /\ forall p, 0 <= p <= 1 -> exists x, find_inv t p = Ok x /\ drawn a f p x.
Proof.
  intros [P N] H. destruct a as [ks|ks]; cbn [new_inv axis_size proper] in *.
  - destruct ks as [|k [|k' ks]]; [exfalso; apply N; reflexivity| |].
    + destruct (C96_single k (f 0%nat) 0 ltac:(lra)) as (t & T & _). cbn [length seq map]. rewrite T. cbn [bind]. exists (Smooth t). split; [reflexivity|]. intros p Hp.
      destruct (C96_single k (f 0%nat) p Hp) as (t' & T' & F). rewrite T in T'. injection T' as <-. exists (Num k). cbn [find_inv]. rewrite F. split; reflexivity.
    + set (l := k :: k' :: ks) in *. set (pdf := map f (seq 0 (length l))).
      assert (LP : length l = length pdf) by (unfold pdf; rewrite map_length, seq_length; reflexivity).
      assert (NN : forall i, 0 <= el pdf i) by (intro i; unfold pdf; destruct (Nat.lt_ge_cases i (length l)) as [L|L]; [rewrite el_map by exact L; apply H; exact L|rewrite el_map_out by exact L; lra]).
      pose proof (strict_sorted l P) as SK. assert (L2 : (2 <= length l)%nat) by (unfold l; cbn; lia).
      destruct (C96_quantile l pdf 0 LP L2 SK NN ltac:(lra)) as (t & r & q & T & _). rewrite T. cbn [bind]. exists (Smooth t). split; [reflexivity|]. intros p Hp.
      destruct (C96_quantile l pdf p LP L2 SK NN Hp) as (t' & r' & q' & T' & F & Q & D & M). rewrite T in T'. injection T' as <-.
      exists (Num r'). cbn [find_inv]. rewrite F. split; [reflexivity|]. unfold l. cbn [drawn]. fold l. fold pdf. exists r', q'. split; [reflexivity|]. split; [exact Q|]. split; [exact D|]. split; [exact M|].
      apply (C96_range l pdf p t r' LP L2 SK NN T F).
  - eexists. split; [reflexivity|]. intros p Hp. cbn [find_inv]. replace (rlt p 0 || rlt 1 p) with false by (symmetry; apply orb_false_iff; split; apply rlt_not; lra).
    assert (PS : partial_sums 0 (map f (seq 0 (length ks))) = map (fun j => total f (S j)) (seq 0 (length ks))) by exact (partial_sums_spec f (length ks) 0). rewrite PS. clear PS.
    destruct (length ks) as [|m] eqn:EM; [congruence|]. rewrite last_map. set (sums := map _ _).
    set (T := total f (S m)). destruct (count_while_spec (below T p) sums) as (K1 & K2 & K3). set (k := count_while (below T p) sums) in *.
    assert (NS : forall i, (i < S m)%nat -> nth_error sums i = Some (total f (S i))).
    { intros i Hi. unfold sums. rewrite (nth_error_nth' _ (total f 1)) by (rewrite map_length, seq_length; exact Hi). rewrite (map_nth (fun j => total f (S j)) (seq 0 (S m)) 0%nat), seq_nth by exact Hi. reflexivity. }
    assert (LS : length sums = S m) by (unfold sums; rewrite map_length, seq_length; reflexivity).
    assert (T0 : 0 <= T) by (apply total_nonneg; exact H).
    assert (KM : (k < S m)%nat).
    { destruct (Nat.lt_ge_cases k (S m)) as [L|L]; [exact L|exfalso]. specialize (K2 m T ltac:(lia) (NS m ltac:(lia))). unfold below in K2. destruct (req T 0) eqn:E0.
      - apply rlt_iff in K2. lra.
      - apply req_not in E0. apply rlt_iff in K2. assert (T / T = 1) by (field; exact E0). lra. }
    destruct (nth_error ks k) as [kk|] eqn:EK; [|apply nth_error_None in EK; lia]. cbn [of_option bind]. exists (Key kk). split; [reflexivity|].
    cbn [drawn]. exists k, kk. split; [reflexivity|]. split; [exact EK|]. rewrite EM. fold T. specialize (K3 _ (NS k KM)). unfold below in K2, K3. destruct (req T 0) eqn:E0.
    + apply req_iff in E0. assert (SK : 0 <= total f (S k)) by (apply total_nonneg; intros; apply H; lia). split; [|rewrite E0; lra]. left. destruct k as [|k]; [reflexivity|exfalso].
      specialize (K2 0%nat _ ltac:(lia) (NS 0%nat ltac:(lia))). apply rlt_iff in K2. assert (0 <= total f 1) by (apply total_nonneg; intros; apply H; lia). lra.
    + apply req_not in E0. assert (TP : 0 < T) by lra. split.
      * destruct k as [|k]; [left; reflexivity|right]. specialize (K2 k _ ltac:(lia) (NS k ltac:(lia))). apply rlt_iff in K2.
        apply Rmult_lt_reg_r with (/ T); [apply Rinv_0_lt_compat; exact TP|]. rewrite Rmult_assoc, Rinv_r by lra. rewrite Rmult_1_r. exact K2.
      * apply rlt_not in K3. apply Rmult_le_reg_r with (/ T); [apply Rinv_0_lt_compat; exact TP|]. rewrite Rmult_assoc, Rinv_r by lra. rewrite Rmult_1_r. exact K3.
Qed.
Lemma drawn_near a f p x : good a -> drawn a f p x -> near a x.
Proof.
  intros [P N] D. destruct a as [ks|ks]; cbn [drawn proper axis_size] in *.
  - destruct ks as [|k [|k' ks]]; [exfalso; apply N; reflexivity|subst x; cbn; unfold el; cbn; assert (0 < / 10 ^ 8) by (apply Rinv_0_lt_compat, pow_lt; lra); lra|].
    set (l := k :: k' :: ks) in *. destruct D as (r & q & -> & (i & Hi & Q & _) & _ & M & LO). cbn [near]. split; [exact LO|].
    apply M; [apply (nth_error_In l (length l - 1)), el_nth; lia|]. pose proof (el_sorted l (S i) (length l - 1) (strict_sorted l P) ltac:(lia) ltac:(lia)). lra.
  - destruct D as (i & k & -> & K & _). cbn. apply (nth_error_In ks i K).
Qed.
Lemma near_suits a x : good a -> near a x -> suits a x.
Proof. intros [_ N] H. destruct a as [ks|ks], x as [r|k]; cbn in *; auto. destruct ks; [cbn in N; congruence|discriminate]. Qed.

(** ** The interpolated density *)
Lemma value_unique e grid v args y y' : Forall proper grid -> grid_value e grid v args y -> grid_value e grid v args y' -> y' = y.
Proof. intros P H H'. destruct (C94_every_call grid v e args P (value_suits _ _ _ _ _ H)) as (z & _ & U). rewrite (U _ H), (U _ H'). reflexivity. Qed.
Lemma value_nonneg e grid v args y : e = false -> grid_value e grid v args y -> (forall c, 0 <= v c) -> 0 <= y.
Proof.
  intros E G. induction G as [v|ks i k grid v args y Hk Hy IH|ks i x grid v args y1 y2 Hi C H1 IH1 H2 IH2|k x grid v args y C Hy IH|ks x grid v args E' PL X F2]; intro V.
  - apply V.
  - apply IH; auto.
  - destruct C as [C|[C _]]; [|congruence]. specialize (IH1 (fun c => V _)). specialize (IH2 (fun c => V _)). unfold line.
    destruct (Req_dec (el ks i) (el ks (S i))) as [Q|Q]; [replace (x - el ks i) with 0 by lra; unfold Rdiv; rewrite Rmult_0_l, Rmult_0_r; lra|].
    set (t := (x - el ks i) / (el ks (S i) - el ks i)). assert (T : 0 <= t <= 1).
    { unfold t. split; [apply Rmult_le_pos; [lra|left; apply Rinv_0_lt_compat; lra]|]. apply Rmult_le_reg_r with (el ks (S i) - el ks i); [lra|]. unfold Rdiv. rewrite Rmult_assoc, Rinv_l by lra. lra. }
    replace (y1 + (y2 - y1) * t) with (y1 * (1 - t) + y2 * t) by ring. assert (0 <= y1 * (1 - t)) by (apply Rmult_le_pos; lra). assert (0 <= y2 * t) by (apply Rmult_le_pos; lra). lra.
  - apply IH; auto.
  - lra.
Qed.
(** At a knot of the first axis the other axes decide. *)
Lemma value_at_knot e a grid v c args i y : Forall proper (a :: grid) -> at_knot a i c -> grid_value e grid (fun c => v (c ++ [i])) args y -> grid_value e (a :: grid) v (c :: args) y.
Proof.
  intros P K G. inversion P as [|a' g' PA PG]; subst. destruct a as [ks|ks], c as [x|k]; cbn in K, PA; try contradiction.
  - assert (HI : (i < length ks)%nat) by (apply nth_error_Some; congruence). rewrite (el_nth ks i HI) in K. injection K as <-.
    pose proof (value_suits _ _ _ _ _ G) as ST. assert (EX : forall j, exists z, grid_value e grid (fun c => v (c ++ [j])) args z) by (intro j; apply value_exists; assumption).
    destruct (Nat.eq_dec (length ks) 1) as [E1|N1].
    + destruct ks as [|k [|k' ks]]; cbn in E1; try lia. destruct i; [|cbn in HI; lia]. apply GOnly; [right; reflexivity|exact G].
    + destruct (Nat.eq_dec i (length ks - 1)) as [E|NE].
      * destruct i as [|i]; [lia|]. pose proof (el_strict ks i (S i) PA ltac:(lia) ltac:(lia)). destruct (EX i) as (z & Hz). rewrite <- (line_right (el ks i) z (el ks (S i)) y) by lra.
        apply (GCell e ks i); [lia|left; lra|exact Hz|exact G].
      * pose proof (el_strict ks i (S i) PA ltac:(lia) ltac:(lia)). destruct (EX (S i)) as (z & Hz). rewrite <- (line_left (el ks i) y (el ks (S i)) z).
        apply (GCell e ks i); [lia|left; lra|exact G|exact Hz].
  - eapply GKey; [exact K|exact G].
Qed.
(** Interpolation and integration over another axis commute. *)
Lemma value_mass e a grid args : Forall proper grid -> Forall2 suits grid args -> axis_size a <> 0%nat -> forall (v : nat -> list nat -> R) f,
  (forall i, (i < axis_size a)%nat -> grid_value e grid (v i) args (f i)) -> grid_value e grid (fun c => mass a (fun i => v i c)) args (mass a f).
Proof.
  intros P F2 NZ. revert P. induction F2 as [|b c grid args H F2 IH]; intros P v f G.
  - rewrite (mass_ext a f (fun i => v i [])); [constructor| |exact NZ]. intros i Hi. specialize (G i Hi). inversion G. reflexivity.
  - inversion P as [|b' g' PB PG]; subst. specialize (IH PG).
    assert (FIX : forall j, exists y, (forall i, (i < axis_size a)%nat -> grid_value e grid (fun c => v i (c ++ [j])) args (y i)) /\ grid_value e grid (fun c => mass a (fun i => v i (c ++ [j]))) args (mass a y)).
    { intro j. assert (E : exists y, forall i, grid_value e grid (fun c => v i (c ++ [j])) args (y i)).
      { destruct grid as [|g0 gr].
        - inversion F2; subst. exists (fun i => v i [j]). intro i. apply (GEnd e (fun c => v i (c ++ [j]))).
        - exists (fun i => match build (g0 :: gr) (rev (map axis_size (g0 :: gr))) (fun c => v i (c ++ [j])) e with Ok t => match call t args with Ok y => y | _ => 0 end | _ => 0 end).
          intro i. destruct (C94_value (g0 :: gr) (fun c => v i (c ++ [j])) e ltac:(discriminate) PG) as (t & B & C). rewrite B.
          destruct (value_exists e (g0 :: gr) args PG F2 (fun c => v i (c ++ [j]))) as (y & Hy). rewrite (C _ _ Hy). exact Hy. }
      destruct E as (y & Hy). exists y. split; [intros i _; apply Hy|]. apply (IH (fun i c => v i (c ++ [j]))). intros i _. apply Hy. }
    assert (U : forall i y, (i < axis_size a)%nat -> grid_value e (b :: grid) (v i) (c :: args) y -> f i = y) by (intros i y Hi Hy; symmetry; apply (value_unique e (b :: grid) (v i) (c :: args)); auto).
    destruct b as [ks|ks], c as [x|k]; cbn in H; try contradiction; cbn in PB.
    + assert (PL : (0 < length ks)%nat) by (destruct ks; [congruence|cbn; lia]).
      assert (OUT : e = false -> x < el ks 0 \/ el ks (length ks - 1) < x -> grid_value e (Cont ks :: grid) (fun c => mass a (fun i => v i c)) (Num x :: args) (mass a f)).
      { intros E X. rewrite (mass_ext a f (fun _ => 0)); [rewrite mass_zero; apply GOutside; auto| |exact NZ]. intros i Hi. apply U; [exact Hi|]. apply GOutside; auto. }
      assert (CELL : forall j, (S j < length ks)%nat -> el ks j <= x <= el ks (S j) \/ e = true /\ (j = 0%nat /\ x < el ks 0 \/ j = (length ks - 2)%nat /\ el ks (length ks - 1) < x) ->
        grid_value e (Cont ks :: grid) (fun c => mass a (fun i => v i c)) (Num x :: args) (mass a f)).
      { intros j Hj C. destruct (FIX j) as (y1 & Y1 & M1). destruct (FIX (S j)) as (y2 & Y2 & M2).
        rewrite (mass_ext a f (fun i => line (el ks j) (y1 i) (el ks (S j)) (y2 i) x)); [|intros i Hi; apply U; [exact Hi|]; apply (GCell e ks j); auto|exact NZ].
        rewrite mass_line. apply (GCell e ks j); auto. }
      assert (ONE : forall k, ks = [k] -> e = true \/ x = k -> grid_value e (Cont ks :: grid) (fun c => mass a (fun i => v i c)) (Num x :: args) (mass a f)).
      { intros k -> C. destruct (FIX 0%nat) as (y & Y & M). rewrite (mass_ext a f y); [apply GOnly; auto| |exact NZ]. intros i Hi. apply U; [exact Hi|]. apply GOnly; auto. }
      destruct (Nat.eq_dec (length ks) 1) as [E1|N1].
      { destruct ks as [|k [|k' ks]]; cbn in E1; try lia. destruct (Req_dec x k) as [E|NE]; [apply (ONE k); auto|]. destruct e; [apply (ONE k); auto|]. apply OUT; [reflexivity|]. unfold el; cbn. lra. }
      destruct (Rlt_dec x (el ks 0)) as [B|B]; [destruct e; [apply (CELL 0%nat); [lia|auto]|apply OUT; auto]|].
      destruct (Rlt_dec (el ks (length ks - 1)) x) as [A|A]; [destruct e; [apply (CELL (length ks - 2)%nat); [lia|auto]|apply OUT; auto]|].
      destruct (inside_cell ks x PB ltac:(lia) ltac:(lra)) as (j & Hj & XJ). apply (CELL j); auto.
    + destruct (In_nth_error _ _ H) as (j & Hj). destruct (FIX j) as (y & Y & M). rewrite (mass_ext a f y); [eapply GKey; [exact Hj|exact M]| |exact NZ]. intros i Hi. apply U; [exact Hi|]. eapply GKey; [exact Hj|apply Y; exact Hi].
Qed.

(** ** Drawing *)
Lemma knot_coords_nth a i : (i < axis_size a)%nat -> exists c, nth_error (knot_coords a) i = Some c /\ at_knot a i c.
Proof.
  intro H. destruct a as [ks|ks]; cbn [knot_coords axis_size at_knot] in *; destruct (nth_error ks i) as [k|] eqn:K; try (apply nth_error_None in K; lia).
  - exists (Num k). split; [rewrite nth_error_map, K; reflexivity|reflexivity].
  - exists (Key k). split; [rewrite nth_error_map, K; reflexivity|reflexivity].
Qed.
Lemma at_knot_coords a i c : at_knot a i c -> nth_error (knot_coords a) i = Some c /\ (i < axis_size a)%nat.
Proof.
  destruct a as [ks|ks], c as [x|k]; cbn; try contradiction; intro H; (split; [rewrite nth_error_map, H; reflexivity|apply nth_error_Some; congruence]).
Qed.
Lemma knot_coords_length a : length (knot_coords a) = axis_size a.
Proof. destruct a; cbn; apply map_length. Qed.
Lemma at_knot_suits a i c : at_knot a i c -> suits a c.
Proof. destruct a as [ks|ks], c as [x|k]; cbn; try contradiction; intro H; [destruct ks; [destruct i; discriminate|discriminate]|apply (nth_error_In _ _ H)]. Qed.

Lemma eval_pdf_map t row : forall knots (g : coord -> R), (forall c, In c knots -> call t (c :: row) = Ok (g c)) -> eval_pdf t knots row = Ok (map g knots).
Proof. induction knots as [|k r IH]; intros g H; [reflexivity|]. cbn [eval_pdf map]. rewrite (H k) by (left; reflexivity). cbn [bind]. rewrite (IH g) by (intros c Hc; apply H; right; exact Hc). reflexivity. Qed.
Lemma map_as_seq {A} (g : A -> R) (l : list A) : exists f, map g l = map f (seq 0 (length l)) /\ forall i x, nth_error l i = Some x -> f i = g x.
Proof.
  exists (fun i => match nth_error l i with Some x => g x | None => 0 end). split; [|intros i x H; rewrite H; reflexivity].
  induction l as [|x l IH]; [reflexivity|]. cbn [map length seq]. f_equal. rewrite IH, <- seq_shift, map_map. reflexivity.
Qed.
Lemma pdf_ok grid v t a row : grid <> [] -> Forall proper (a :: grid) -> build (a :: grid) (rev (map axis_size (a :: grid))) v false = Ok t -> Forall2 suits grid row -> (forall c, 0 <= v c) ->
  exists f, eval_pdf t (knot_coords a) row = Ok (map f (seq 0 (axis_size a))) /\ (forall i c, at_knot a i c -> grid_value false (a :: grid) v (c :: row) (f i)) /\ forall i, (i < axis_size a)%nat -> 0 <= f i.
Proof.
  intros N P B ST V. destruct (C94_value (a :: grid) v false ltac:(discriminate) P) as (t' & B' & C). rewrite B in B'. injection B' as <-.
  set (g := fun c => match call t (c :: row) with Ok y => y | _ => 0 end).
  assert (G : forall i c, at_knot a i c -> call t (c :: row) = Ok (g c) /\ grid_value false (a :: grid) v (c :: row) (g c)).
  { intros i c K. destruct (value_exists false (a :: grid) (c :: row) P (Forall2_cons _ _ (at_knot_suits a i c K) ST) v) as (y & Hy). unfold g. rewrite (C _ _ Hy). split; [reflexivity|exact Hy]. }
  destruct (map_as_seq g (knot_coords a)) as (f & E & F). rewrite knot_coords_length in E. exists f. split; [|split].
  - rewrite <- E. apply eval_pdf_map. intros c Hc. destruct (In_nth_error _ _ Hc) as (i & Hi). assert (Li : (i < axis_size a)%nat) by (rewrite <- knot_coords_length; apply nth_error_Some; congruence).
    destruct (knot_coords_nth a i Li) as (c' & Hc' & K). rewrite Hi in Hc'. injection Hc' as <-. apply (G i c K).
  - intros i c K. rewrite (F i c) by (apply (at_knot_coords a i c K)). apply (G i c K).
  - intros i Hi. destruct (knot_coords_nth a i Hi) as (c & Hc & K). rewrite (F i c Hc). eapply value_nonneg; [reflexivity|apply (G i c K)|exact V].
Qed.
Definition unit_numbers (rng : list R) : Prop := Forall (fun p => 0 <= p <= 1) rng.

Lemma draw_nested_ok grid v t a : grid <> [] -> Forall good (a :: grid) -> build (a :: grid) (rev (map axis_size (a :: grid))) v false = Ok t -> (forall c, 0 <= v c) ->
  forall rows rng, Forall (Forall2 suits grid) rows -> (length rows <= length rng)%nat -> unit_numbers rng ->
  exists out, draw_nested a t rows rng = Ok (out, skipn (length rows) rng) /\ length out = length rows /\
    forall j row, nth_error rows j = Some row -> exists x f, nth_error out j = Some (x :: row) /\
      (forall i c, at_knot a i c -> grid_value false (a :: grid) v (c :: row) (f i)) /\ drawn a f (nth j rng 0) x.
Proof.
  intros N GD B V. assert (P : Forall proper (a :: grid)) by (eapply Forall_impl; [|exact GD]; intros b [H _]; exact H). pose proof (Forall_inv GD) as GA.
  induction rows as [|row rows IH]; intros rng ST L U.
  - exists []. split; [reflexivity|]. split; [reflexivity|]. intros j row H. destruct j; discriminate.
  - inversion ST as [|r' rs' SR SRS]; subst. destruct rng as [|p rng]; [cbn in L; lia|]. inversion U as [|p' rng' UP UR]; subst.
    destruct (pdf_ok grid v t a row N P B SR V) as (f & EP & GV & NN). destruct (inv_ok a f GA NN) as (ti & TI & FI). destruct (FI p UP) as (x & FX & DX).
    destruct (IH rng SRS ltac:(cbn in L; lia) UR) as (out & EO & LO & HO).
    cbn [draw_nested]. rewrite EP. cbn [bind next fst snd]. rewrite TI. cbn [bind]. rewrite FX. cbn [bind]. rewrite EO. cbn [bind fst snd].
    exists ((x :: row) :: out). split; [reflexivity|]. split; [cbn; rewrite LO; reflexivity|]. intros [|j] row' H.
    + injection H as <-. exists x, f. split; [reflexivity|]. split; [exact GV|exact DX].
    + cbn [nth_error nth] in *. apply HO. exact H.
Qed.
Lemma draw_single_ok a v t : good a -> (forall i, 0 <= v i) -> new_inv a (map v (seq 0 (axis_size a))) = Ok t ->
  forall n rng, (n <= length rng)%nat -> unit_numbers rng ->
  exists out, draw_single t n rng = Ok (out, skipn n rng) /\ length out = n /\ forall j, (j < n)%nat -> exists x, nth_error out j = Some [x] /\ drawn a v (nth j rng 0) x.
Proof.
  intros G V T. destruct (inv_ok a v G ltac:(auto)) as (t' & T' & FI). rewrite T in T'. injection T' as <-.
  induction n as [|n IH]; intros rng L U; [exists []; split; [reflexivity|]; split; [reflexivity|intros; lia]|].
  destruct rng as [|p rng]; [cbn in L; lia|]. inversion U as [|p' rng' UP UR]; subst. destruct (FI p UP) as (x & FX & DX).
  destruct (IH rng ltac:(cbn in L; lia) UR) as (out & EO & LO & HO). cbn [draw_single next bind fst snd]. rewrite FX. cbn [bind]. rewrite EO. cbn [bind fst snd].
  exists ([x] :: out). split; [reflexivity|]. split; [cbn; rewrite LO; reflexivity|]. intros [|j] Hj; [exists x; split; [reflexivity|exact DX]|]. cbn [nth_error nth]. apply HO. lia.
Qed.
Lemma numbers_cons m n j rng : numbers (S m) n j rng = nth (m * n + j) rng 0 :: numbers m n j rng.
Proof.
  unfold numbers. cbn [seq map]. f_equal; [f_equal; f_equal; f_equal; lia|]. rewrite <- seq_shift, map_map. apply map_ext. intro k. f_equal. f_equal. f_equal. lia.
Qed.
Lemma nth_skipn {A} (l : list A) n j d : nth j (skipn n l) d = nth (n + j) l d.
Proof. revert l. induction n as [|n IH]; intro l; [reflexivity|]. destruct l as [|x l]; [destruct j; reflexivity|]. cbn [skipn]. apply IH. Qed.
Lemma skipn_unit n rng : unit_numbers rng -> unit_numbers (skipn n rng).
Proof. revert rng. induction n as [|n IH]; intros rng H; [exact H|]. destruct rng; [exact H|]. cbn. apply IH. inversion H; assumption. Qed.
Lemma skipn_skipn' {A} (l : list A) : forall n m, skipn m (skipn n l) = skipn (n + m) l.
Proof. induction l as [|x l IH]; intros n m; [rewrite !skipn_nil; reflexivity|]. destruct n; [reflexivity|]. cbn [skipn Nat.add]. apply IH. Qed.
Lemma without_nonneg a v : good a -> (forall c, 0 <= v c) -> forall c, 0 <= without a v c.
Proof. intros G V c. apply mass_nonneg; [exact G|]. intros. apply V. Qed.
Lemma sampled_near grid v ps row : Forall good grid -> sampled grid v ps row -> Forall2 near grid row.
Proof.
  intros G H. revert G. induction H as [a v p x D|a b rest v p ps x row f S IH GV D]; intro G; inversion G; subst.
  - constructor; [eapply drawn_near; eauto|constructor].
  - constructor; [eapply drawn_near; eauto|auto].
Qed.
Lemma new_sampler_cons a b rest shape v : new_sampler (a :: b :: rest) shape v =
  if negb (Nat.eqb (length shape) (length (a :: b :: rest))) then Throw
  else do t <- build (a :: b :: rest) shape v false; do s <- new_sampler (b :: rest) (removelast shape) (marginal a v); Ok (Nested a t s).
Proof. reflexivity. Qed.
Lemma draw_ok : forall grid v, grid <> [] -> Forall good grid -> (forall c, 0 <= v c) ->
  exists s, new_sampler grid (rev (map axis_size grid)) v = Ok s /\
    forall n rng, (length grid * n <= length rng)%nat -> unit_numbers rng ->
    exists rows, draw s n rng = Ok (rows, skipn (length grid * n) rng) /\ length rows = n /\
      forall j, (j < n)%nat -> exists row, nth_error rows j = Some row /\ sampled grid v (numbers (length grid) n j rng) row.
Proof.
  induction grid as [|a grid IH]; intros v NE G V; [congruence|]. inversion G as [|a' g' GA GG]; subst. destruct grid as [|b rest].
  - assert (E : map v (in_order_of [axis_size a]) = map (fun i => v [i]) (seq 0 (axis_size a))).
    { cbn [in_order_of]. generalize (seq 0 (axis_size a)). intro l. induction l as [|i l IHl]; [reflexivity|]. cbn [flat_map map app] in *. f_equal. exact IHl. }
    change (new_sampler [a] (rev (map axis_size [a])) v) with (do t <- new_inv a (map v (in_order_of [axis_size a])); Ok (Single t)).
    rewrite E. destruct (inv_ok a (fun i => v [i]) GA ltac:(intros; apply V)) as (t & T & _). rewrite T. cbn [bind]. exists (Single t). split; [reflexivity|]. intros n rng L U.
    cbn [draw length] in *. replace (1 * n)%nat with n in * by lia.
    destruct (draw_single_ok a (fun i => v [i]) t GA ltac:(intros; apply V) T n rng L U) as (out & EO & LO & HO). exists out. split; [exact EO|]. split; [exact LO|].
    intros j Hj. destruct (HO j Hj) as (x & HX & DX). exists [x]. split; [exact HX|]. rewrite numbers_cons. constructor. replace (0 * n + j)%nat with j by lia. exact DX.
  - set (grid := b :: rest) in *. assert (P : Forall proper (a :: grid)) by (eapply Forall_impl; [|exact G]; intros c [H _]; exact H).
    destruct (C94_value (a :: grid) v false ltac:(discriminate) P) as (t & B & _).
    destruct (IH (without a v) ltac:(discriminate) GG (without_nonneg a v GA V)) as (s & ES & DS). exists (Nested a t s). split.
    + unfold grid. rewrite new_sampler_cons. fold grid. rewrite rev_length, map_length, Nat.eqb_refl. cbn [negb]. rewrite B. cbn [bind].
      cbn [map rev]. rewrite removelast_last. rewrite marginal_without, ES. reflexivity.
    + intros n rng L U. change (length (a :: grid)) with (S (length grid)) in *. set (m := length grid) in *.
      destruct (DS n rng ltac:(lia) U) as (rows & ER & LR & HR). cbn [draw]. rewrite ER. cbn [bind fst snd].
      assert (SU : Forall (Forall2 suits grid) rows).
      { apply Forall_forall. intros row Hrow. destruct (In_nth_error _ _ Hrow) as (j & Hj). assert (Lj : (j < n)%nat) by (rewrite <- LR; apply nth_error_Some; congruence).
        destruct (HR j Lj) as (row' & Hj' & SR). rewrite Hj in Hj'. injection Hj' as <-. pose proof (sampled_near _ _ _ _ GG SR) as NR. clear - NR GG. induction NR; [constructor|]. inversion GG; subst. constructor; [apply near_suits; assumption|auto]. }
      destruct (draw_nested_ok grid v t a ltac:(discriminate) G B V rows (skipn (m * n) rng) SU ltac:(rewrite skipn_length; lia) (skipn_unit _ _ U)) as (out & EO & LO & HO).
      exists out. rewrite EO, skipn_skipn', LR. split; [do 3 f_equal; lia|]. split; [lia|]. intros j Hj. destruct (HR j Hj) as (row & Hrow & SR). destruct (HO j row Hrow) as (x & f & HX & GV & DX).
      exists (x :: row). split; [exact HX|]. rewrite numbers_cons. rewrite nth_skipn in DX. apply SMore with f; auto.
Qed.
