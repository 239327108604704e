(** Proofs about histograms: bins of constant width, statistics. *)
From Coq Require Import QArith Qround List ZArith Bool Arith Lia Lqa.
From Verif Require Import Common DblModel DblProofs HistModel HistSpec HistProofs.
Import ListNotations.
Local Open Scope nat_scope.

(** ** Bins of constant width *)

Lemma trunc_floor q : (0 <= q)%Q -> trunc q = Qfloor q.
Proof.
  destruct q as [n d]. intros H. unfold trunc, Qfloor. cbn [Qnum Qden]. apply Z.quot_div_nonneg; [|lia].
  unfold Qle in H. cbn in H. lia.
Qed.
Lemma trunc_bounds q : (0 <= q)%Q -> (inject_Z (trunc q) <= q)%Q /\ (q < inject_Z (trunc q + 1))%Q /\ (0 <= trunc q)%Z.
Proof.
  intros H. rewrite (trunc_floor q H). split; [apply Qfloor_le|]. split; [apply Qlt_floor|].
  apply (Qfloor_resp_le 0 q) in H. exact H.
Qed.

Lemma qnat_S n : (qnat (S n) == qnat n + 1)%Q.
Proof. unfold qnat. rewrite Nat2Z.inj_succ. unfold Z.succ. rewrite inject_Z_plus. reflexivity. Qed.
Lemma qnat_pos n : 1 <= n -> (0 < qnat n)%Q.
Proof. intros H. unfold qnat. change 0%Q with (inject_Z 0). rewrite <- Zlt_Qlt. lia. Qed.

Lemma step_cover n lo hi v : 1 <= n -> (lo <= v)%Q -> (v <= hi)%Q ->
  exists i a b, step_index n lo ((hi - lo) / qnat n) hi v = Ok (Z.of_nat i) /\ i < n /\
    b_bin_edges (step_binning n lo ((hi - lo) / qnat n) hi) i = Ok (a, b) /\
    (a <= v)%Q /\ ((v < b)%Q \/ (i + 1 = n /\ (v <= b)%Q)).
Proof.
  intros N L H. pose proof (qnat_pos n N) as NP. set (step := ((hi - lo) / qnat n)%Q).
  assert (ST : (step * qnat n == hi - lo)%Q) by (unfold step; field; lra).
  assert (S0 : (0 <= step)%Q). { unfold step. apply Qle_shift_div_l; [exact NP|]. lra. }
  unfold step_index. destruct (Qeq_bool v hi) eqn:E.
  - apply Qeq_bool_iff in E. exists (n - 1). do 2 eexists. split; [f_equal; lia|]. split; [lia|].
    split; [reflexivity|]. unfold step_edge. fold (qnat (n - 1)). fold (qnat (n - 1 + 1)).
    replace (n - 1 + 1) with n by lia.
    assert (Q1 : (qnat n == qnat (n - 1) + 1)%Q) by (rewrite <- qnat_S; replace (S (n - 1)) with n by lia; reflexivity).
    split; [|right; split; [lia|]].
    + assert (X : (qnat (n - 1) * step == (hi - lo) - step)%Q) by (rewrite <- ST, Q1; ring). rewrite X. lra.
    + rewrite (Qmult_comm (qnat n)), ST. lra.
  - assert (V : (v < hi)%Q). { apply Qle_lteq in H. destruct H as [H|H]; [exact H|]. apply Qeq_bool_iff in H. congruence. }
    assert (SP : (0 < step)%Q). { unfold step. apply Qlt_shift_div_l; [exact NP|]. lra. }
    destruct (Qeq_bool step 0) eqn:E0. { apply Qeq_bool_iff in E0. lra. }
    set (q := ((v - lo) / step)%Q).
    assert (QS : (q * step == v - lo)%Q) by (unfold q; field; lra).
    assert (Q0 : (0 <= q)%Q). { unfold q. apply Qle_shift_div_l; [exact SP|]. lra. }
    destruct (trunc_bounds q Q0) as (B1 & B2 & B3).
    exists (Z.to_nat (trunc q)). do 2 eexists. split; [rewrite Z2Nat.id by exact B3; reflexivity|]. split.
    { apply Nat2Z.inj_lt. rewrite Z2Nat.id by exact B3. rewrite Zlt_Qlt. apply (Qle_lt_trans _ q); [exact B1|].
      apply (Qmult_lt_r _ _ step SP). rewrite QS. fold (qnat n). rewrite (Qmult_comm (qnat n)), ST. lra. }
    split; [reflexivity|]. unfold step_edge. rewrite Nat2Z.inj_add, !Z2Nat.id by exact B3. split; [|left].
    + assert (X : (inject_Z (trunc q) * step <= q * step)%Q) by (apply Qmult_le_compat_r; [exact B1|lra]). lra.
    + assert (X : (q * step < inject_Z (trunc q + Z.of_nat 1) * step)%Q) by (apply Qmult_lt_r; [exact SP|exact B2]). lra.
Qed.

Lemma min_of_spec l : forall m, (min_of m l <= m)%Q /\ (forall x, In x l -> (min_of m l <= x)%Q) /\ In (min_of m l) (m :: l).
Proof.
  induction l as [|x r IH]; intros m; cbn [min_of].
  - split; [lra|]. split; [intros y []|left; reflexivity].
  - destruct (IH (if Qlt_b x m then x else m)) as (A & B & C).
    destruct (Qlt_b x m) eqn:E; [apply Qlt_b_iff in E|apply Qlt_b_false in E].
    + split; [lra|]. split; [intros y [<-|H]; auto|]. destruct C as [C|C]; [right; left; exact C|right; right; exact C].
    + split; [exact A|]. split; [intros y [<-|H]; [lra|auto]|]. destruct C as [C|C]; [left; exact C|right; right; exact C].
Qed.
Lemma max_of_spec l : forall m, (m <= max_of m l)%Q /\ (forall x, In x l -> (x <= max_of m l)%Q) /\ In (max_of m l) (m :: l).
Proof.
  induction l as [|x r IH]; intros m; cbn [max_of].
  - split; [lra|]. split; [intros y []|left; reflexivity].
  - destruct (IH (if Qlt_b m x then x else m)) as (A & B & C).
    destruct (Qlt_b m x) eqn:E; [apply Qlt_b_iff in E|apply Qlt_b_false in E].
    + split; [lra|]. split; [intros y [<-|H]; auto|]. destruct C as [C|C]; [right; left; exact C|right; right; exact C].
    + split; [exact A|]. split; [intros y [<-|H]; [lra|auto]|]. destruct C as [C|C]; [left; exact C|right; right; exact C].
Qed.
Lemma data_between x r v : In v (x :: r) -> (min_of x r <= v)%Q /\ (v <= max_of x r)%Q.
Proof.
  destruct (min_of_spec r x) as (A & B & _). destruct (max_of_spec r x) as (C & D & _).
  intros [<-|H]; auto.
Qed.

Lemma ceil_sqrt_spec n : n <= ceil_sqrt n * ceil_sqrt n /\ (forall k, n <= k * k -> ceil_sqrt n <= k).
Proof.
  unfold ceil_sqrt. destruct (Nat.sqrt_spec n ltac:(lia)) as [A B]. set (s := Nat.sqrt n) in *.
  destruct (Nat.eqb_spec (s * s) n) as [E|E].
  - split; [lia|]. intros k K. destruct (le_lt_dec s k); [auto|]. assert (k * k < s * s) by (apply Nat.square_lt_mono_nonneg; lia). lia.
  - split; [lia|]. intros k K. destruct (le_lt_dec (S s) k); [auto|].
    assert (k * k <= s * s) by (apply Nat.square_le_mono_nonneg; lia). lia.
Qed.

Lemma sqrt_covers data : data <> [] -> exists b, sqrt_compute data = Ok b /\
  b_count b = ceil_sqrt (length data) /\ 1 <= b_count b /\ covers b data /\ has_edges b.
Proof.
  intros N. destruct data as [|x r]; [congruence|]. eexists. split; [reflexivity|]. cbn [b_count step_binning].
  assert (P : 1 <= ceil_sqrt (length (x :: r))).
  { destruct (ceil_sqrt_spec (length (x :: r))) as [A _]. destruct (ceil_sqrt (length (x :: r))); cbn in A; lia. }
  split; [reflexivity|]. split; [exact P|]. split.
  - intros v H. destruct (data_between x r v H) as [A B].
    destruct (step_cover _ (min_of x r) (max_of x r) v P A B) as (i & lo & hi & C1 & C2 & C3 & C4 & C5).
    exists i, lo, hi. auto.
  - intros i _. eexists. reflexivity.
Qed.

Lemma ceil_div_pos a h : (0 < a)%Q -> (0 < h)%Q -> (1 <= ceil_div a h)%Z /\
  (a / h <= inject_Z (ceil_div a h))%Q /\ (inject_Z (ceil_div a h) < a / h + 1)%Q.
Proof.
  intros A H. unfold ceil_div. set (q := (- a / h)%Q).
  assert (E : (q == - (a / h))%Q) by (unfold q; field; lra).
  assert (F : (Qnum q / Zpos (Qden q))%Z = Qfloor q) by (destruct q; reflexivity). rewrite F.
  pose proof (Qfloor_le q) as L. pose proof (Qlt_floor q) as U.
  rewrite inject_Z_plus in U. change (inject_Z 1) with 1%Q in U. rewrite inject_Z_opp.
  assert (P : (0 < a / h)%Q) by (apply Qlt_shift_div_l; [exact H|lra]).
  split; [|split; lra].
  enough (Qfloor q < 0)%Z by lia. rewrite Zlt_Qlt. change (inject_Z 0) with 0%Q. lra.
Qed.

Lemma scott_covers sigma h data : data <> [] ->
  ((sigma data == 0)%Q -> forall x y, In x data -> In y data -> (x == y)%Q) ->
  (~ (sigma data == 0)%Q -> (0 < h data)%Q /\ exists x y, In x data /\ In y data /\ (x < y)%Q) ->
  exists b, scott_compute sigma h data = Ok b /\ 1 <= b_count b /\ covers b data /\ has_edges b.
Proof.
  intros N FL SP. destruct data as [|x r]; [congruence|]. unfold scott_compute. set (data := x :: r) in *.
  destruct (min_of_spec r x) as (_ & _ & IM). destruct (max_of_spec r x) as (_ & _ & IX).
  destruct (Qeq_bool (sigma data) 0) eqn:E.
  - apply Qeq_bool_iff in E. pose proof (FL E _ _ IM IX) as EQ.
    change (Qeq_bool 1 0) with false. cbv iota.
    set (lo := (min_of x r - (1 # 2))%Q). set (hi := (max_of x r + (1 # 2))%Q).
    assert (P : (0 < hi - lo)%Q) by (unfold lo, hi; lra).
    destruct (ceil_div_pos (hi - lo) 1 P ltac:(lra)) as (C1 & _ & _).
    eexists. split; [reflexivity|]. cbn [b_count step_binning]. split; [lia|]. split.
    + intros v H. destruct (data_between x r v H) as [A B].
      destruct (step_cover (Z.to_nat (ceil_div (hi - lo) 1)) lo hi v ltac:(lia)) as (i & a & b & D1 & D2 & D3 & D4 & D5);
        [unfold lo; lra|unfold hi; lra|]. exists i, a, b. auto.
    + intros i _. eexists. reflexivity.
  - assert (NE : ~ (sigma data == 0)%Q) by (intro H; apply Qeq_bool_iff in H; congruence).
    destruct (SP NE) as (HP & u & w & Hu & Hw & UW).
    destruct (Qeq_bool (h data) 0) eqn:E0. { apply Qeq_bool_iff in E0. lra. }
    set (lo := min_of x r). set (hi := max_of x r).
    destruct (data_between x r u Hu) as [U1 _]. destruct (data_between x r w Hw) as [_ W2].
    assert (P : (0 < hi - lo)%Q) by (unfold lo, hi; lra).
    destruct (ceil_div_pos (hi - lo) (h data) P HP) as (C1 & _ & _).
    eexists. split; [reflexivity|]. cbn [b_count step_binning]. split; [lia|]. split.
    + intros v H. destruct (data_between x r v H) as [A B].
      destruct (step_cover (Z.to_nat (ceil_div (hi - lo) (h data))) lo hi v ltac:(lia) A B) as (i & a & b & D1 & D2 & D3 & D4 & D5).
      exists i, a, b. auto.
    + intros i _. eexists. reflexivity.
Qed.

Lemma covers_indexed b data : covers b data -> indexed b data.
Proof. intros C v H. destruct (C v H) as (i & lo & hi & A & _). eauto. Qed.
Lemma covers_in_range b data v : covers b data -> In v data -> in_range b v = true.
Proof.
  intros C H. destruct (C v H) as (i & lo & hi & A & B & _). unfold in_range. rewrite A.
  apply andb_true_iff. split; [apply Z.leb_le|apply Z.ltb_lt]; lia.
Qed.
Lemma filter_all {A} (p : A -> bool) l : (forall x, In x l -> p x = true) -> filter p l = l.
Proof. induction l as [|a r IH]; intros H; cbn; [reflexivity|]. rewrite H by (left; reflexivity). f_equal. apply IH. intros; apply H; right; auto. Qed.
Lemma covers_total b data : covers b data -> exists h, new_hist_plain b data = Ok h /\
  (qsum (get_counts h) == qnat (length data))%Q.
Proof.
  intros C. destruct (new_hist_spec b data (repeat 1%Q (length data)) (covers_indexed _ _ C)) as (h & E & B & L & R & Lc & _ & S).
  { rewrite repeat_length. lia. }
  exists h. split; [exact E|]. rewrite get_counts_all; [|exact L|rewrite R, Lc; reflexivity].
  rewrite S, weight_plain, filter_all; [reflexivity|]. intros v H. apply (covers_in_range b data); auto.
Qed.

(** ** Statistics *)

Lemma center_ok b i : has_edges b -> i < b_count b -> exists x, b_center b i = Ok x.
Proof.
  intros H I. unfold b_center, b_bin_edges. destruct (H i ltac:(lia)) as [a ->]. destruct (H (i + 1) ltac:(lia)) as [c ->].
  cbn. eexists. reflexivity.
Qed.

Lemma moments_spec b counts n : forall i t c s, has_edges b -> length counts = b_count b -> i + n <= b_count b ->
  exists l t' c' s', moments b counts i n (t, c, s) = Ok (t', c', s') /\
    map fst l = firstn n (skipn i counts) /\
    (forall k w x, nth_error l k = Some (w, x) -> b_center b (i + k) = Ok x) /\
    (t' == t + weighted (fun x => x) l)%Q /\ (c' == c + weighted (fun _ => 1) l)%Q /\ (s' == s + weighted (fun x => x * x) l)%Q.
Proof.
  induction n as [|n IH]; intros i t c s HE L N.
  - exists [], t, c, s. split; [reflexivity|]. split; [reflexivity|]. split; [intros [|k]; discriminate|].
    unfold weighted, qsum. cbn [map fold_right]. repeat split; ring.
  - cbn [moments]. destruct (center_ok b i HE ltac:(lia)) as [x X]. rewrite X. cbn [bind].
    destruct (nth_error counts i) as [w|] eqn:W; [|apply nth_error_None in W; lia]. cbn [of_option bind].
    destruct (IH (S i) (t + w * x)%Q (c + w)%Q (s + w * x * x)%Q HE L ltac:(lia)) as (l & t' & c' & s' & E & F & G & T & C & SS).
    exists ((w, x) :: l), t', c', s'. split; [exact E|]. split.
    { cbn [map fst]. rewrite F. clear - W. revert i W. induction counts as [|a r IH]; intros [|i] W; try discriminate; cbn in W |- *.
      - injection W as <-. reflexivity.
      - apply (IH i W). }
    split.
    { intros [|k] w' x' H; cbn in H.
      - injection H as <- <-. rewrite Nat.add_0_r. exact X.
      - replace (i + S k) with (S i + k) by lia. apply (G k w' x' H). }
    unfold weighted, qsum in *. cbn [map fst snd fold_right]. rewrite T, C, SS.
    repeat split; ring.
Qed.

(** A state of the loop of the median: [a] = low_i, [b] = high_i + 1. *)
Lemma mass_S_front counts i n c : nth_error counts i = Some c -> (mass counts i (S n) == c + mass counts (S i) n)%Q.
Proof.
  intros H. unfold mass.
  assert (E : skipn i counts = c :: skipn (S i) counts).
  { revert i H. induction counts as [|a r IH]; intros [|i] H; try discriminate; cbn in H |- *.
    - injection H as <-. reflexivity.
    - apply (IH i H). }
  rewrite E. unfold qsum. cbn [firstn fold_right]. reflexivity.
Qed.
Lemma mass_S_back counts i n c : nth_error counts (i + n) = Some c -> (mass counts i (S n) == mass counts i n + c)%Q.
Proof.
  revert i. induction n as [|n IH]; intros i H.
  - rewrite Nat.add_0_r in H. rewrite (mass_S_front _ _ _ _ H). unfold mass, qsum. cbn [firstn fold_right]. ring.
  - assert (I : i < length counts). { assert (i + S n < length counts) by (apply nth_error_Some; congruence). lia. }
    destruct (nth_error counts i) as [d|] eqn:D; [|apply nth_error_None in D; lia].
    rewrite (mass_S_front _ _ (S n) _ D), (mass_S_front _ _ n _ D), IH.
    + ring.
    + rewrite <- H. f_equal. lia.
Qed.
Lemma mass_nonneg counts i n : (forall c, In c counts -> (0 <= c)%Q) -> (0 <= mass counts i n)%Q.
Proof.
  intros H. unfold mass. assert (K : forall c, In c (firstn n (skipn i counts)) -> (0 <= c)%Q).
  { intros c C. apply H. assert (In c (skipn i counts)) as C' by (rewrite <- (firstn_skipn n (skipn i counts)); apply in_or_app; auto).
    rewrite <- (firstn_skipn i counts). apply in_or_app. auto. }
  revert K. generalize (firstn n (skipn i counts)). intros l K. unfold qsum. induction l as [|a r IH]; cbn [fold_right]; [lra|].
  assert (0 <= a)%Q by (apply K; left; reflexivity). assert (0 <= fold_right Qplus 0 r)%Q by (apply IH; intros; apply K; right; auto). lra.
Qed.

Lemma balance_spec counts l r : r < length counts -> (forall c, In c counts -> (0 <= c)%Q) ->
  forall fuel a b low high, fuel = b - a -> l <= a -> a <= b -> b <= r ->
  (low == mass counts l (a - l))%Q -> (high == mass counts b (r + 1 - b))%Q ->
  (forall c, nth_error counts b = Some c -> (high - low <= c)%Q) ->
  (a = l -> (0 <= high - low)%Q) ->
  (forall c, l < a -> nth_error counts (a - 1) = Some c -> (low - high <= c)%Q) ->
  exists k low' high', balance counts fuel (Z.of_nat a) (Z.of_nat b - 1) low high = Ok (Z.of_nat k, (Z.of_nat k - 1)%Z, low', high') /\
    l <= k <= r /\ (low' == mass counts l (k - l))%Q /\ (high' == mass counts k (r + 1 - k))%Q /\
    (forall c, nth_error counts k = Some c -> (high' - low' <= c)%Q) /\
    (k = l -> (0 <= high' - low')%Q) /\
    (forall c, l < k -> nth_error counts (k - 1) = Some c -> (low' - high' <= c)%Q).
Proof.
  intros R P. induction fuel as [|fuel IH]; intros a b low high F A AB B LO HI D1 D2 D3.
  - assert (a = b) by lia. subst b. exists a, low, high. split; [reflexivity|]. split; [lia|]. auto.
  - cbn [balance]. destruct (Z.leb_spec (Z.of_nat a) (Z.of_nat b - 1)) as [_|X]; [|lia].
    destruct (Qlt_b low high) eqn:E; [apply Qlt_b_iff in E|apply Qlt_b_false in E]; unfold count_at.
    + destruct (Z.ltb_spec (Z.of_nat a) 0); [lia|]. rewrite Nat2Z.id.
      destruct (nth_error counts a) as [c|] eqn:G; [|apply nth_error_None in G; lia]. cbn [of_option bind].
      assert (C0 : (0 <= c)%Q) by (apply P; apply nth_error_In in G; exact G).
      replace (Z.of_nat a + 1)%Z with (Z.of_nat (S a)) by lia.
      apply (IH (S a) b); try lia; auto.
      * replace (S a - l) with (S (a - l)) by lia. rewrite LO, (mass_S_back _ _ _ c); [reflexivity|]. replace (l + (a - l)) with a by lia. exact G.
      * intros c' H'. specialize (D1 c' H'). lra.
      * intros c' _ H'. replace (S a - 1) with a in H' by lia. rewrite G in H'. injection H' as <-. lra.
    + destruct (Z.ltb_spec (Z.of_nat b - 1) 0); [lia|]. replace (Z.to_nat (Z.of_nat b - 1)) with (b - 1) by lia.
      destruct (nth_error counts (b - 1)) as [c|] eqn:G; [|apply nth_error_None in G; lia]. cbn [of_option bind].
      assert (C0 : (0 <= c)%Q) by (apply P; apply nth_error_In in G; exact G).
      replace (Z.of_nat b - 1 - 1)%Z with (Z.of_nat (b - 1) - 1)%Z by lia.
      apply (IH a (b - 1)); try lia; auto.
      * replace (r + 1 - (b - 1)) with (S (r + 1 - b)) by lia. rewrite HI, (mass_S_front _ _ _ c G). replace (S (b - 1)) with b by lia. ring.
      * intros c' H'. rewrite G in H'. injection H' as <-. lra.
      * intros E'. specialize (D2 E'). lra.
      * intros c' La H'. specialize (D3 c' La H'). lra.
Qed.

Lemma balance_start counts l r : l <= r -> r < length counts -> (forall c, In c counts -> (0 <= c)%Q) ->
  exists k low' high', balance counts (r + 1 - l) (Z.of_nat l) (Z.of_nat r) 0 0 = Ok (Z.of_nat k, (Z.of_nat k - 1)%Z, low', high') /\
    l <= k <= r /\ (low' == mass counts l (k - l))%Q /\ (high' == mass counts k (r + 1 - k))%Q /\
    (forall c, nth_error counts k = Some c -> (high' - low' <= c)%Q) /\
    (k = l -> (0 <= high' - low')%Q) /\
    (forall c, l < k -> nth_error counts (k - 1) = Some c -> (low' - high' <= c)%Q).
Proof.
  intros L R P. replace (r + 1 - l) with (S (r - l)) by lia. cbn [balance].
  destruct (Z.leb_spec (Z.of_nat l) (Z.of_nat r)) as [_|X]; [|lia].
  change (Qlt_b 0 0) with false. cbv iota. unfold count_at. destruct (Z.ltb_spec (Z.of_nat r) 0); [lia|]. rewrite Nat2Z.id.
  destruct (nth_error counts r) as [c|] eqn:G; [|apply nth_error_None in G; lia]. cbn [of_option bind].
  assert (C0 : (0 <= c)%Q) by (apply P; apply nth_error_In in G; exact G).
  apply (balance_spec counts l r R P); auto; try lia.
  - replace (l - l) with 0 by lia. unfold mass, qsum. reflexivity.
  - replace (r + 1 - r) with 1 by lia. rewrite (mass_S_front _ _ _ c G). unfold mass, qsum. cbn [firstn fold_right]. ring.
  - intros c' H'. rewrite G in H'. injection H' as <-. lra.
  - intros _. lra.
Qed.

Lemma weighted_one l : (weighted (fun _ => 1) l == qsum (map fst l))%Q.
Proof. unfold weighted, qsum. induction l as [|p r IH]; cbn [map fold_right]; [reflexivity|]. rewrite IH. ring. Qed.
Lemma weighted_var mu l : (weighted (fun x => (x - mu) * (x - mu)) l ==
  weighted (fun x => x * x) l - 2 * mu * weighted (fun x => x) l + mu * mu * weighted (fun _ => 1) l)%Q.
Proof. unfold weighted, qsum. induction l as [|p r IH]; cbn [map fold_right]; [ring|]. rewrite IH. ring. Qed.
Lemma weighted_le f g l : (forall p, In p l -> (0 <= fst p)%Q /\ (f (snd p) <= g (snd p))%Q) -> (weighted f l <= weighted g l)%Q.
Proof.
  unfold weighted, qsum. induction l as [|p r IH]; intros H; cbn [map fold_right]; [lra|].
  assert (IH' := IH (fun q U => H q (or_intror U))). destruct (H p (or_introl eq_refl)) as [A B].
  assert (fst p * f (snd p) <= fst p * g (snd p))%Q. { rewrite !(Qmult_comm (fst p)). apply Qmult_le_compat_r; auto. } lra.
Qed.
Lemma weighted_scal k l : (weighted (fun _ => k) l == k * weighted (fun _ => 1) l)%Q.
Proof. unfold weighted, qsum. induction l as [|p r IH]; cbn [map fold_right]; [ring|]. rewrite IH. ring. Qed.

(** What getStats returns, for a valid histogram of counts that are not negative. *)
Lemma get_stats_spec root h : valid h -> has_edges (h_binning h) -> (forall c, In c (h_counts h) -> (0 <= c)%Q) ->
  exists mean median sigma l, get_stats root h = Ok (mean, median, sigma) /\ centred h l /\
   let total := qsum (get_counts h) in
   ((total == 0)%Q -> mean = None /\ sigma = 0%Q) /\
   ((0 < total)%Q -> exists mu v, mean = Some mu /\ (mu * total == weighted (fun x => x) l)%Q /\
      (v * total == weighted (fun x => (x - mu) * (x - mu)) l)%Q /\ (0 <= v)%Q /\
      ((0 < v)%Q -> sigma = root v) /\ ((v == 0)%Q -> sigma = 0%Q)) /\
   exists k low high, (Z.to_nat (h_left h) <= k <= Z.to_nat (h_right h)) /\
     (low == mass (h_counts h) (Z.to_nat (h_left h)) (k - Z.to_nat (h_left h)))%Q /\
     (high == mass (h_counts h) k (Z.to_nat (h_right h) + 1 - k))%Q /\
     (forall c, nth_error (h_counts h) k = Some c -> (high - low <= c)%Q) /\
     (k = Z.to_nat (h_left h) -> (0 <= high - low)%Q) /\
     (forall c, Z.to_nat (h_left h) < k -> nth_error (h_counts h) (k - 1) = Some c -> (low - high <= c)%Q) /\
     ((k = 0 /\ exists x, b_center (h_binning h) 0 = Ok x /\ median = Some x) \/
      (0 < k /\ exists e f ck cp, b_bin_edges (h_binning h) k = Ok (e, f) /\
         nth_error (h_counts h) k = Some ck /\ nth_error (h_counts h) (k - 1) = Some cp /\
         let m := if Qlt_b ck cp then cp else ck in
         median = match quotient ((f - e) * (high - low)) (2 * m) with None => None | Some q => Some (e + q)%Q end)).
Proof.
  intros (A & B & C) HE P. unfold get_stats, hist_size.
  set (l0 := Z.to_nat (h_left h)). set (r0 := Z.to_nat (h_right h)).
  assert (El : h_left h = Z.of_nat l0) by (unfold l0; lia). assert (Er : h_right h = Z.of_nat r0) by (unfold r0; lia).
  assert (LR : l0 <= r0) by lia. assert (RL : r0 < length (h_counts h)) by lia.
  replace (Z.to_nat (h_right h - h_left h + 1)) with (r0 + 1 - l0) by lia.
  destruct (moments_spec (h_binning h) (h_counts h) (r0 + 1 - l0) l0 0 0 0 HE C ltac:(lia)) as (l & t & c & s & E & F & G & T & Cc & S).
  rewrite E. cbn [bind].
  destruct (balance_start (h_counts h) l0 r0 LR RL P) as (k & low & high & Eb & K & LO & HI & D1 & D2 & D3).
  rewrite El, Er, Eb. cbn [bind].
  assert (GC : get_counts h = firstn (r0 + 1 - l0) (skipn l0 (h_counts h))).
  { unfold get_counts. fold l0. f_equal. lia. }
  assert (CE : (c == qsum (get_counts h))%Q). { rewrite Cc, weighted_one, F, GC. ring. }
  assert (CN : forall p, In p l -> (0 <= fst p)%Q).
  { intros p Hp. apply P. apply (in_map fst) in Hp. rewrite F in Hp.
    assert (In (fst p) (skipn l0 (h_counts h))) as C' by (rewrite <- (firstn_skipn (r0 + 1 - l0) (skipn l0 (h_counts h))); apply in_or_app; auto).
    rewrite <- (firstn_skipn l0 (h_counts h)). apply in_or_app. auto. }
  assert (MED : exists median, median_of (h_binning h) (h_counts h) (Z.of_nat k) (Z.of_nat k - 1) low high = Ok median /\
     ((k = 0 /\ exists x, b_center (h_binning h) 0 = Ok x /\ median = Some x) \/
      (0 < k /\ exists e f ck cp, b_bin_edges (h_binning h) k = Ok (e, f) /\
         nth_error (h_counts h) k = Some ck /\ nth_error (h_counts h) (k - 1) = Some cp /\
         let m := if Qlt_b ck cp then cp else ck in
         median = match quotient ((f - e) * (high - low)) (2 * m) with None => None | Some q => Some (e + q)%Q end))).
  { unfold median_of. destruct (Z.leb_spec 0 (Z.of_nat k - 1)).
    - replace (Z.to_nat (Z.of_nat k - 1 + 1)) with k by lia.
      unfold b_bin_edges. destruct (HE k ltac:(lia)) as [e He]. destruct (HE (k + 1) ltac:(lia)) as [f Hf]. rewrite He, Hf. cbn [bind].
      unfold count_at. destruct (Z.ltb_spec (Z.of_nat k) 0); [lia|]. destruct (Z.ltb_spec (Z.of_nat k - 1) 0); [lia|].
      rewrite Nat2Z.id. replace (Z.to_nat (Z.of_nat k - 1)) with (k - 1) by lia.
      destruct (nth_error (h_counts h) k) as [ck|] eqn:G1; [|apply nth_error_None in G1; lia].
      destruct (nth_error (h_counts h) (k - 1)) as [cp|] eqn:G2; [|apply nth_error_None in G2; lia]. cbn [of_option bind].
      eexists. split; [reflexivity|]. right. split; [lia|]. exists e, f, ck, cp.
      split; [reflexivity|]. split; [reflexivity|]. split; reflexivity.
    - destruct (center_ok (h_binning h) 0 HE ltac:(lia)) as [x X]. rewrite X. cbn [bind]. eexists. split; [reflexivity|].
      left. split; [lia|]. exists x. auto. }
  destruct MED as (median & -> & MED). cbn [bind].
  eexists _, median, _, l. split; [reflexivity|]. split.
  { split; [rewrite F, GC; reflexivity|]. exact G. }
  cbv zeta. split; [|split].
  - intros Z. assert (Zc : Qeq_bool c 0 = true) by (apply Qeq_bool_iff; rewrite CE; exact Z). unfold quotient. rewrite Zc. auto.
  - intros Z. unfold quotient. destruct (Qeq_bool c 0) eqn:Q0. { apply Qeq_bool_iff in Q0. lra. }
    assert (CP : (0 < c)%Q) by lra.
    set (mu := (t / c)%Q). set (v := (s / c - mu * mu)%Q). exists mu, v. split; [reflexivity|].
    assert (M : (mu * c == t)%Q) by (unfold mu; field; lra).
    assert (V : (v * c == s - mu * t)%Q). { unfold v. rewrite <- M. field. lra. }
    assert (W : (v * c == weighted (fun x => (x - mu) * (x - mu)) l)%Q).
    { rewrite weighted_var. rewrite V. rewrite <- M at 1. rewrite T in M. rewrite Cc in M. rewrite S.
      assert (X : (weighted (fun x => x) l == mu * weighted (fun _ => 1) l)%Q) by lra. rewrite X.
      assert (X2 : (c == weighted (fun _ => 1) l)%Q) by lra. rewrite X2. ring. }
    split; [rewrite <- CE, M, T; ring|]. split; [rewrite <- CE; exact W|].
    assert (V0 : (0 <= v)%Q).
    { apply Qnot_lt_le. intro VN. assert (v * c < 0)%Q by (rewrite Qmult_comm; rewrite <- (Qmult_0_r c); apply Qmult_lt_l; auto).
      assert (0 <= weighted (fun x => (x - mu) * (x - mu)) l)%Q.
      { assert (Z0 : (weighted (fun _ => 0) l == 0)%Q) by (rewrite weighted_scal; ring). rewrite <- Z0. apply weighted_le.
        intros p Hp. split; [auto|]. destruct (Qlt_le_dec (snd p - mu) 0) as [N|N].
        - setoid_replace ((snd p - mu) * (snd p - mu))%Q with ((- (snd p - mu)) * (- (snd p - mu)))%Q by ring. apply Qmult_le_0_compat; lra.
        - apply Qmult_le_0_compat; lra. }
      lra. }
    split; [exact V0|]. split.
    + intros VP. apply Qlt_b_iff in VP. rewrite VP. reflexivity.
    + intros VZ. destruct (Qlt_b 0 v) eqn:QV; [apply Qlt_b_iff in QV; lra|reflexivity].
  - exists k, low, high. split; [lia|]. split; [exact LO|]. split; [exact HI|]. split; [exact D1|]. split; [exact D2|]. split; [exact D3|exact MED].
Qed.
