From Coq Require Import QArith List ZArith Bool Arith Lia Lqa.
From Verif Require Import Common DblModel DblProofs CumulModel CumulSpec CumulProofs ModeModel ModeSpec ModeProofs.
Import ListNotations.
Local Open Scope nat_scope.

Lemma cell_pos xs i : strictly_rising xs -> 2 <= length xs -> i < length xs -> (0 < cell xs i)%Q.
Proof.
  intros SR L H. unfold cell. destruct (Nat.eqb i 0) eqn:E0.
  - assert (val xs 0 < val xs 1)%Q by (apply strict_val; auto; lia). lra.
  - apply Nat.eqb_neq in E0. destruct (Nat.eqb i (length xs - 1)) eqn:E1.
    + assert (val xs (i - 1) < val xs i)%Q by (apply strict_val; auto; lia). lra.
    + apply Nat.eqb_neq in E1. assert (val xs (i - 1) < val xs (i + 1))%Q by (apply strict_val; auto; lia).
      unfold Qdiv. change (/ 2)%Q with (1 # 2)%Q. lra.
Qed.

(** *** Sums *)
Lemma total_ext (f g : nat -> Q) : forall l, (forall i, In i l -> (f i == g i)%Q) -> (total_of (map f l) == total_of (map g l))%Q.
Proof.
  induction l as [|a r IH]; intro H; [reflexivity|]. unfold total_of in *. cbn [map fold_right].
  rewrite (H a (or_introl eq_refl)), IH by (intros; apply H; right; assumption). reflexivity.
Qed.
Lemma total_zero (f : nat -> Q) l : (forall i, In i l -> (f i == 0)%Q) -> (total_of (map f l) == 0)%Q.
Proof.
  induction l as [|a r IH]; intro H; [reflexivity|]. unfold total_of in *. cbn [map fold_right].
  rewrite (H a (or_introl eq_refl)), IH by (intros; apply H; right; assumption). reflexivity.
Qed.
Lemma total_le (f g : nat -> Q) : forall l, (forall i, In i l -> (f i <= g i)%Q) -> (total_of (map f l) <= total_of (map g l))%Q.
Proof.
  induction l as [|a r IH]; intro H; [apply Qle_refl|]. unfold total_of in *. cbn [map fold_right].
  apply Qplus_le_compat; [apply H; left; reflexivity|apply IH; intros; apply H; right; assumption].
Qed.
Lemma total_scale (f : nat -> Q) k : forall l, (total_of (map (fun i => k * f i)%Q l) == k * total_of (map f l))%Q.
Proof. induction l as [|a r IH]; unfold total_of in *; cbn [map fold_right]; [ring|]. rewrite IH. ring. Qed.
Lemma total_member (f : nat -> Q) : forall l i, (forall i, In i l -> (0 <= f i)%Q) -> In i l -> (f i <= total_of (map f l))%Q.
Proof.
  induction l as [|a r IH]; intros i H [].
  - subst a. unfold total_of. cbn [map fold_right]. assert (0 <= total_of (map f r))%Q.
    { apply total_of_nonneg. intros p Hp. apply in_map_iff in Hp. destruct Hp as (j & <- & Hj). apply H. right. exact Hj. }
    unfold total_of in *. lra.
  - specialize (IH i (fun j Hj => H j (or_intror Hj)) H0). pose proof (H a (or_introl eq_refl)). unfold total_of in *. cbn [map fold_right]. lra.
Qed.

Lemma pdf_val xs ys i : is_pdf xs ys -> (0 <= val ys i)%Q.
Proof.
  intros (_ & _ & _ & P). destruct (lt_dec i (length ys)); [apply P, val_in; auto|]. unfold val. rewrite nth_overflow by lia. apply Qle_refl.
Qed.
Lemma cell_product xs ys i : is_pdf xs ys -> i < length xs -> (0 <= val ys i * cell xs i)%Q.
Proof.
  intros I H. apply Qmult_le_0_compat; [apply (pdf_val xs); exact I|]. destruct I as (_ & L & SR & _). apply Qlt_le_weak, cell_pos; auto; lia.
Qed.
Lemma area_nonneg xs ys lo hi : is_pdf xs ys -> hi < length xs -> (0 <= area_between xs ys lo hi)%Q.
Proof.
  intros I H. apply total_of_nonneg. intros p Hp. apply in_map_iff in Hp. destruct Hp as (i & <- & Hi). apply in_seq in Hi. apply cell_product; auto; lia.
Qed.
Lemma area_pos xs ys lo hi i : is_pdf xs ys -> hi < length xs -> lo <= i <= hi -> (0 < val ys i)%Q -> (0 < area_between xs ys lo hi)%Q.
Proof.
  intros I H B V. apply Qlt_le_trans with (val ys i * cell xs i)%Q.
  - destruct I as (_ & L & SR & _). rewrite <- (Qmult_0_l (cell xs i)). apply Qmult_lt_compat_r; [apply cell_pos; auto; lia|exact V].
  - apply (total_member (fun i => val ys i * cell xs i)%Q); [|apply in_seq; lia]. intros j Hj. apply in_seq in Hj. apply cell_product; auto; lia.
Qed.
Lemma area_zero xs ys lo hi : (forall i, lo <= i <= hi -> (val ys i == 0)%Q) -> (area_between xs ys lo hi == 0)%Q.
Proof. intro H. apply total_zero. intros i Hi. apply in_seq in Hi. rewrite (H i) by lia. ring. Qed.
Lemma moment_bounds xs ys lo hi : is_pdf xs ys -> hi < length xs ->
  (val xs lo * area_between xs ys lo hi <= moment_between xs ys lo hi <= val xs hi * area_between xs ys lo hi)%Q.
Proof.
  intros I H. unfold area_between, moment_between. rewrite <- !total_scale. pose proof I as (_ & _ & SR & _). split; apply total_le; intros i Hi; apply in_seq in Hi.
  - rewrite <- (Qmult_assoc (val xs i)). apply Qmult_le_compat_r; [apply strict_val_le; auto; lia|apply cell_product; auto; lia].
  - rewrite <- (Qmult_assoc (val xs i)). apply Qmult_le_compat_r; [apply strict_val_le; auto; lia|apply cell_product; auto; lia].
Qed.

Lemma area_split xs ys lo hi ys' : length xs = length ys -> lo <= hi -> hi < length ys -> zeroed ys lo hi ys' ->
  (pdf_area xs ys == area_between xs ys lo hi + pdf_area xs ys')%Q.
Proof.
  intros LE B H (L & V). unfold pdf_area, area_between.
  replace (length xs - 1 + 1 - 0) with (lo + ((hi + 1 - lo) + (length xs - 1 - hi))) by lia.
  rewrite !seq_app, !map_app, !total_of_app. cbn [plus].
  rewrite (total_zero (fun i => val ys' i * cell xs i)%Q (seq lo (hi + 1 - lo))).
  - rewrite (total_ext (fun i => val ys' i * cell xs i)%Q (fun i => val ys i * cell xs i)%Q (seq 0 lo)).
    + rewrite (total_ext (fun i => val ys' i * cell xs i)%Q (fun i => val ys i * cell xs i)%Q (seq (lo + (hi + 1 - lo)) (length xs - 1 - hi))); [ring|].
      intros i Hi. apply in_seq in Hi. rewrite V by lia. destruct ((lo <=? i) && (i <=? hi)) eqn:X; [|reflexivity].
      apply andb_true_iff in X. destruct X as [_ X]. apply Nat.leb_le in X. lia.
    + intros i Hi. apply in_seq in Hi. rewrite V by lia. destruct ((lo <=? i) && (i <=? hi)) eqn:X; [|reflexivity].
      apply andb_true_iff in X. destruct X as [X _]. apply Nat.leb_le in X. lia.
  - intros i Hi. apply in_seq in Hi. rewrite V by lia. replace (lo <=? i) with true by (symmetry; apply Nat.leb_le; lia).
    replace (i <=? hi) with true by (symmetry; apply Nat.leb_le; lia). cbn [andb]. ring.
Qed.

(** *** The highest modes *)
Lemma highest_ok xs merge : forall n ys, length xs = length ys -> 3 <= length xs -> exists l, highest_modes xs ys merge n = Ok l /\ length l = n.
Proof.
  induction n as [|n IH]; intros ys LE L3; [exists []; auto|]. cbn [highest_modes].
  destruct (next_mode_ok xs ys merge LE L3) as (m & ys' & lo & hi & E & LL & _). rewrite E. cbn [bind fst snd].
  destruct (IH ys' ltac:(lia) L3) as (l & E2 & L). rewrite E2. cbn [bind]. exists (m :: l). split; [reflexivity|cbn; lia].
Qed.
Lemma highest_length xs merge n ys l : length xs = length ys -> 3 <= length xs -> highest_modes xs ys merge n = Ok l -> length l = n.
Proof. intros A B E. destruct (highest_ok xs merge n ys A B) as (l' & E' & L). congruence. Qed.

Lemma highest_step xs ys merge n l : is_pdf xs ys -> highest_modes xs ys merge (S n) = Ok l ->
  exists m r ys' c lo hi, l = m :: r /\ highest ys c /\ mode_range ys merge c lo hi /\ lo <= c <= hi /\ hi < length ys /\
    describes xs ys c lo hi m /\ zeroed ys lo hi ys' /\ interpolation_around xs ys c = Ok (m_interp m) /\ highest_modes xs ys' merge n = Ok r /\ is_pdf xs ys'.
Proof.
  intros I E. cbn [highest_modes] in E. destruct (next_mode_spec xs ys merge I) as (m & ys' & c & lo & hi & EN & H1 & H2 & H3 & H4 & H5 & H6 & H7).
  rewrite EN in E. cbn [bind fst snd] in E. destruct (highest_modes xs ys' merge n) as [r| | |] eqn:ER; cbn [bind] in E; try discriminate. injection E as <-.
  exists m, r, ys', c, lo, hi. repeat (split; [assumption || reflexivity|]). eapply zeroed_pdf; eauto.
Qed.

Lemma highest_area_nonneg xs merge : forall n ys l, is_pdf xs ys -> highest_modes xs ys merge n = Ok l -> forall m, In m l -> (0 <= m_area m)%Q.
Proof.
  induction n as [|n IH]; intros ys l I E m Hm; [injection E as <-; destruct Hm|].
  destruct (highest_step _ _ _ _ _ I E) as (m0 & r & ys' & c & lo & hi & -> & _ & _ & B & B2 & (_ & D & _) & _ & _ & ER & I').
  destruct Hm as [<-|Hm]; [|eapply IH; eauto]. rewrite D. apply area_nonneg; auto. destruct I as (LE & _). lia.
Qed.
Lemma highest_areas xs merge : forall n ys l, is_pdf xs ys -> highest_modes xs ys merge n = Ok l -> (mode_areas l <= pdf_area xs ys)%Q.
Proof.
  induction n as [|n IH]; intros ys l I E.
  - injection E as <-. unfold mode_areas, total_of. cbn [map fold_right]. pose proof I as (_ & L & _). apply area_nonneg; [exact I|lia].
  - destruct (highest_step _ _ _ _ _ I E) as (m0 & r & ys' & c & lo & hi & -> & _ & _ & B & B2 & (_ & D & _) & Z & _ & ER & I').
    specialize (IH ys' r I' ER). pose proof I as (LE & _). rewrite (area_split xs ys lo hi ys') by (auto; lia).
    unfold mode_areas, total_of in *. cbn [map fold_right]. rewrite D. lra.
Qed.

(** Number of samples that are not zero. *)
Definition left_over (ys : list Q) : nat := length (filter (fun i => negb (Qeq_bool (val ys i) 0)) (seq 0 (length ys))).
Lemma filter_le {A} (f g : A -> bool) : forall l, (forall i, In i l -> f i = true -> g i = true) -> length (filter f l) <= length (filter g l).
Proof.
  induction l as [|a r IH]; intro H; [cbn; lia|]. cbn [filter]. specialize (IH (fun i Hi => H i (or_intror Hi))).
  destruct (f a) eqn:F; [rewrite (H a (or_introl eq_refl) F); cbn; lia|]. destruct (g a); cbn; lia.
Qed.
Lemma filter_lt {A} (f g : A -> bool) c : forall l, (forall i, In i l -> f i = true -> g i = true) -> In c l -> f c = false -> g c = true ->
  length (filter f l) < length (filter g l).
Proof.
  induction l as [|a r IH]; intros H HC F G; [destruct HC|]. cbn [filter]. pose proof (filter_le f g r (fun i Hi => H i (or_intror Hi))).
  destruct HC as [->|HC]; [rewrite F, G; cbn; lia|]. specialize (IH (fun i Hi => H i (or_intror Hi)) HC F G).
  destruct (f a) eqn:FA; [rewrite (H a (or_introl eq_refl) FA); cbn; lia|]. destruct (g a); cbn; lia.
Qed.
Lemma left_over_le ys : left_over ys <= length ys.
Proof. unfold left_over. rewrite <- (seq_length (length ys) 0) at 2. generalize (seq 0 (length ys)). intro l. induction l as [|a r IH]; cbn; [lia|]. destruct (negb _); cbn; lia. Qed.
Lemma left_over_zeroed ys lo hi ys' c : zeroed ys lo hi ys' -> c < length ys -> lo <= c <= hi -> ~ (val ys c == 0)%Q -> left_over ys' < left_over ys.
Proof.
  intros (L & V) HC B NZ. unfold left_over. rewrite L. apply (filter_lt _ _ c).
  - intros i Hi H. apply in_seq in Hi. rewrite V in H by lia. destruct (_ && _); [discriminate H|exact H].
  - apply in_seq. lia.
  - rewrite V by lia. replace (lo <=? c) with true by (symmetry; apply Nat.leb_le; lia). replace (c <=? hi) with true by (symmetry; apply Nat.leb_le; lia). reflexivity.
  - destruct (Qeq_bool (val ys c) 0) eqn:X; [apply Qeq_bool_iff in X; contradiction|reflexivity].
Qed.
Lemma left_over_zeroed_le ys lo hi ys' : zeroed ys lo hi ys' -> left_over ys' <= left_over ys.
Proof.
  intros (L & V). unfold left_over. rewrite L. apply filter_le. intros i Hi H. apply in_seq in Hi. rewrite V in H by lia. destruct (_ && _); [discriminate H|exact H].
Qed.
Lemma left_over_zero ys : left_over ys = 0 -> forall i, i < length ys -> (val ys i == 0)%Q.
Proof.
  intros H i Hi. destruct (Qeq_bool (val ys i) 0) eqn:X; [apply Qeq_bool_iff; exact X|exfalso].
  unfold left_over in H. apply length_zero_iff_nil in H. assert (In i []) as []. rewrite <- H. apply filter_In. split; [apply in_seq; lia|rewrite X; reflexivity].
Qed.
Lemma highest_complete xs merge : forall n ys l, is_pdf xs ys -> highest_modes xs ys merge n = Ok l -> left_over ys <= n -> (mode_areas l == pdf_area xs ys)%Q.
Proof.
  induction n as [|n IH]; intros ys l I E H.
  - injection E as <-. unfold mode_areas, total_of. cbn [map fold_right]. symmetry. pose proof I as (LE & L3 & _). apply area_zero. intros i Hi. apply left_over_zero; lia.
  - destruct (highest_step _ _ _ _ _ I E) as (m0 & r & ys' & c & lo & hi & -> & HH & MR & B & B2 & (_ & D & _) & Z & _ & ER & I').
    pose proof I as (LE & _). rewrite (area_split xs ys lo hi ys') by (auto; lia).
    assert (LO : left_over ys' <= n).
    { destruct (Qeq_bool (val ys c) 0) eqn:X.
      - apply Qeq_bool_iff in X. assert (left_over ys = 0).
        { unfold left_over. apply length_zero_iff_nil. destruct (filter _ _) as [|j t] eqn:FF; [reflexivity|exfalso].
          assert (In j (j :: t)) as HJ by (left; reflexivity). rewrite <- FF in HJ. apply filter_In in HJ. destruct HJ as [HJ1 HJ2]. apply in_seq in HJ1.
          destruct HH as (_ & HH & _). specialize (HH j ltac:(lia)). pose proof (pdf_val xs ys j I).
          assert (Qeq_bool (val ys j) 0 = true) as Y by (apply Qeq_bool_iff; lra). rewrite Y in HJ2. discriminate. }
        pose proof (left_over_zeroed_le _ _ _ _ Z). lia.
      - apply qeqb_not in X. pose proof (left_over_zeroed _ _ _ _ c Z ltac:(lia) B X). lia. }
    specialize (IH ys' r I' ER LO). unfold mode_areas, total_of in *. cbn [map fold_right]. rewrite D, IH. ring.
Qed.

(** A mode with an area has its peak at a sample with a value. *)
Lemma highest_sample xs merge : forall n ys l m, is_pdf xs ys -> highest_modes xs ys merge n = Ok l -> In m l -> (0 < m_area m)%Q ->
  exists c, c < length xs /\ m_sample m = val xs c /\ (0 < val ys c)%Q.
Proof.
  induction n as [|n IH]; intros ys l m I E Hm A; [injection E as <-; destruct Hm|].
  destruct (highest_step _ _ _ _ _ I E) as (m0 & r & ys' & c & lo & hi & -> & HH & MR & B & B2 & (D0 & D & _) & Z & _ & ER & I'). pose proof I as (LE & _).
  destruct Hm as [<-|Hm].
  - exists c. split; [lia|]. split; [exact D0|]. destruct (Qlt_le_dec 0 (val ys c)) as [|X]; [auto|exfalso].
    assert (area_between xs ys lo hi == 0)%Q; [|lra]. apply area_zero. intros i Hi. destruct HH as (_ & HH & _). specialize (HH i ltac:(lia)). pose proof (pdf_val xs ys i I). lra.
  - destruct (IH ys' r m I' ER Hm A) as (c' & C1 & C2 & C3). exists c'. split; [exact C1|]. split; [exact C2|].
    destruct Z as (_ & V). rewrite V in C3 by lia. destruct (_ && _); [lra|exact C3].
Qed.
Lemma highest_heights xs merge : forall n ys l, is_pdf xs ys -> highest_modes xs ys merge n = Ok l ->
  forall i j a b, i < j -> nth_error l i = Some a -> nth_error l j = Some b -> (0 < m_area b)%Q ->
  exists ca cb, ca < length xs /\ cb < length xs /\ ca <> cb /\ m_sample a = val xs ca /\ m_sample b = val xs cb /\ (0 < val ys cb)%Q /\ (val ys cb <= val ys ca)%Q.
Proof.
  induction n as [|n IH]; intros ys l I E i j a b Hij Ha Hb A; [injection E as <-; destruct i; discriminate|].
  destruct (highest_step _ _ _ _ _ I E) as (m0 & r & ys' & c & lo & hi & -> & HH & MR & B & B2 & (D0 & D & _) & Z & _ & ER & I'). pose proof I as (LE & _).
  destruct j as [|j]; [lia|]. cbn [nth_error] in Hb. pose proof Z as (_ & V). destruct i as [|i].
  - cbn [nth_error] in Ha. injection Ha as <-. destruct (highest_sample xs merge n ys' r b I' ER ltac:(eapply nth_error_In; exact Hb) A) as (cb & C1 & C2 & C3).
    rewrite V in C3 by lia. destruct ((lo <=? cb) && (cb <=? hi)) eqn:X; [lra|]. exists c, cb. split; [lia|]. split; [exact C1|]. split.
    + intros ->. replace (lo <=? cb) with true in X by (symmetry; apply Nat.leb_le; lia). replace (cb <=? hi) with true in X by (symmetry; apply Nat.leb_le; lia). discriminate.
    + split; [exact D0|]. split; [exact C2|]. split; [exact C3|]. apply HH. lia.
  - cbn [nth_error] in Ha. destruct (IH ys' r I' ER i j a b ltac:(lia) Ha Hb A) as (ca & cb & C1 & C2 & C3 & C4 & C5 & C6 & C7).
    exists ca, cb. repeat (split; [assumption|]). rewrite (V cb) in C6, C7 by lia. rewrite (V ca) in C7 by lia.
    destruct ((lo <=? cb) && _); [lra|]. destruct ((lo <=? ca) && _); [lra|]. split; assumption.
Qed.

Lemma describes_mean xs ys c lo hi m q : is_pdf xs ys -> hi < length xs -> describes xs ys c lo hi m -> m_mean m = Some q -> (val xs lo <= q <= val xs hi)%Q.
Proof.
  intros I H (_ & D & M & _) E. rewrite E in M. destruct M as [NZ M]. pose proof (area_nonneg xs ys lo hi I H) as N. pose proof (moment_bounds xs ys lo hi I H) as [B1 B2].
  rewrite <- M, <- D in B1, B2. rewrite <- D in N. assert (0 < m_area m)%Q by lra.
  split; apply Qmult_lt_0_le_reg_r with (m_area m); auto.
Qed.

(** *** The biggest modes *)
Lemma insert_in m : forall l size n x, In x (insert_mode m l size n) -> x = m \/ In x l.
Proof.
  induction l as [|a r IH]; intros size n x H; cbn [insert_mode] in H.
  - destruct (size <? n); [destruct H as [<-|[]]; auto|destruct H].
  - destruct (Qlt_b _ _); [destruct H as [<-|H]; auto|]. destruct H as [<-|H]; [right; left; auto|]. destruct (IH _ _ _ H); [auto|right; right; auto].
Qed.
Lemma insert_keeps m : forall l size n x, In x l -> In x (insert_mode m l size n).
Proof.
  induction l as [|a r IH]; intros size n x H; [destruct H|]. cbn [insert_mode]. destruct (Qlt_b _ _); [right; exact H|].
  destruct H as [<-|H]; [left; auto|right; auto].
Qed.
Lemma insert_new m : forall l size n, (In m (insert_mode m l size n) /\ length (insert_mode m l size n) = S (length l) /\
    (size < n \/ exists a, In a l /\ (m_area a < m_area m)%Q)) \/
  (n <= size /\ insert_mode m l size n = l /\ forall a, In a l -> (m_area m <= m_area a)%Q).
Proof.
  induction l as [|a r IH]; intros size n; cbn [insert_mode].
  - destruct (size <? n) eqn:E; [left; split; [left; auto|split; [reflexivity|left; apply Nat.ltb_lt; exact E]]|].
    right. apply Nat.ltb_ge in E. split; [exact E|]. split; [reflexivity|]. intros ? [].
  - destruct (Qlt_b (m_area a) (m_area m)) eqn:E.
    { left; split; [left; auto|split; [reflexivity|]]. right. exists a. split; [left; auto|apply Qlt_b_iff; exact E]. }
    apply qltb_not in E. destruct (IH size n) as [(H1 & H2 & H3)|(H1 & H2 & H3)].
    + left; split; [right; auto|split; [cbn [length]; rewrite H2; reflexivity|]]. destruct H3 as [H3|(b & H3 & H4)]; [auto|right; exists b; split; [right; auto|auto]].
    + right. split; [exact H1|]. split; [rewrite H2; reflexivity|]. intros b [<-|Hb]; auto.
Qed.
Lemma by_area_cons a l : by_area (a :: l) <-> (forall b, In b l -> (m_area b <= m_area a)%Q) /\ by_area l.
Proof.
  split.
  - intro H. split.
    + intros b Hb. apply In_nth_error in Hb. destruct Hb as (k & Hk). apply (H 0 (S k)); [lia|reflexivity|exact Hk].
    + intros i j x y Hij Hx Hy. apply (H (S i) (S j)); [lia|exact Hx|exact Hy].
  - intros [H1 H2] [|i] [|j] x y Hij Hx Hy; try lia.
    + cbn in Hx. injection Hx as <-. cbn in Hy. apply H1. eapply nth_error_In. exact Hy.
    + cbn in Hx, Hy. apply (H2 i j); auto. lia.
Qed.
Lemma insert_sorted m : forall l size n, by_area l -> by_area (insert_mode m l size n).
Proof.
  induction l as [|a r IH]; intros size n H; cbn [insert_mode].
  - destruct (size <? n); [|exact H]. apply by_area_cons. split; [intros b []|exact H].
  - pose proof (proj1 (by_area_cons a r) H) as [H1 H2]. destruct (Qlt_b (m_area a) (m_area m)) eqn:E.
    + apply Qlt_b_iff in E. apply by_area_cons. split; [|exact H]. intros b [<-|Hb]; [lra|]. specialize (H1 b Hb). lra.
    + apply qltb_not in E. apply by_area_cons. split; [|apply IH; exact H2]. intros b Hb. destruct (insert_in _ _ _ _ _ Hb) as [->|Hb']; [exact E|auto].
Qed.
Lemma insert_length m l size n : length l <= length (insert_mode m l size n) <= S (length l).
Proof. destruct (insert_new m l size n) as [(_ & H & _)|(_ & H & _)]; rewrite H; lia. Qed.

Lemma mode_back (l : list mode) : l <> [] -> exists b, back l = Ok b /\ In b l /\ (by_area l -> forall a, In a l -> (m_area b <= m_area a)%Q).
Proof.
  intro N. assert (L : length l - 1 < length l) by (destruct l; [congruence|cbn; lia]). destruct (nth_ok l _ L) as (b & Hb).
  exists b. split; [apply back_last; exact Hb|]. split; [eapply nth_error_In; exact Hb|]. intros SS a Ha. apply In_nth_error in Ha. destruct Ha as (i & Hi).
  pose proof (nth_lt l i a Hi). destruct (Nat.eq_dec i (length l - 1)) as [->|]; [rewrite Hb in Hi; injection Hi as <-; apply Qle_refl|].
  apply (SS i (length l - 1)); auto. lia.
Qed.

(** Without any hypothesis on the values: the loop ends. *)
Lemma biggest_loop_ok xs merge n : 1 <= n -> forall fuel ys loop total result,
  length xs = length ys -> 3 <= length xs -> 3 * n + 2 <= fuel + loop -> Nat.min loop n <= length result -> by_area result -> length result <= loop ->
  loop <= 3 * n + 1 ->
  exists l, biggest_loop fuel xs ys merge n loop total result = Ok l /\ n <= length l /\ length l <= 3 * n + 2 /\ by_area l.
Proof.
  intro N1. induction fuel as [|fuel IH]; intros ys loop total result LE L3 F LR SR LM LB; [lia|]. cbn [biggest_loop].
  destruct (next_mode_ok xs ys merge LE L3) as (m & ys' & lo & hi & E & LL & _). rewrite E. cbn [bind fst snd]. cbv zeta.
  pose proof (insert_sorted m result (length result) n SR) as SI. pose proof (insert_length m result (length result) n) as LI.
  pose proof (insert_new m result (length result) n) as NI. set (res := insert_mode m result (length result) n) in *. clearbody res.
  assert (LN : Nat.min (S loop) n <= length res) by (destruct NI as [(_ & H & _)|(H & H1 & _)]; [lia|subst res; lia]).
  destruct (n <=? length res) eqn:A.
  - apply Nat.leb_le in A. destruct (mode_back res) as (b & Eb & _); [intros ->; cbn in A; lia|]. rewrite Eb. cbn [bind].
    destruct (Qlt_b (total - m_area m) (m_area b) || (3 * n <? loop)) eqn:O.
    + exists res. split; [reflexivity|]. split; [exact A|]. split; [lia|exact SI].
    + apply orb_false_iff in O. destruct O as [_ O]. apply Nat.ltb_ge in O. apply IH; auto; lia.
  - apply Nat.leb_gt in A. apply IH; auto; lia.
Qed.

Section Biggest.
  Variables (xs ys0 : list Q) (merge : Q) (n : nat).
  Hypothesis I0 : is_pdf xs ys0.
  Hypothesis N1 : 1 <= n.

  (** The modes of the first [r] rounds are [done], and [ys] is what is left. *)
  Definition reached (r : nat) (done : list mode) (ys : list Q) : Prop :=
    is_pdf xs ys /\ forall k, highest_modes xs ys0 merge (r + k) = bind (highest_modes xs ys merge k) (fun rest => Ok (done ++ rest)).
  Definition kept (done result : list mode) : Prop :=
    (forall m, In m result -> In m done) /\
    (forall m, In m done -> In m result \/ n <= length result /\ forall a, In a result -> (m_area m <= m_area a)%Q).

  Lemma biggest_loop_spec : forall fuel ys loop total result done l,
    reached loop done ys -> kept done result -> by_area result -> (total == pdf_area xs ys)%Q -> loop <= 3 * n + 1 -> Nat.min loop n <= length result ->
    biggest_loop fuel xs ys merge n loop total result = Ok l ->
    exists r done' ys', r <= 3 * n + 2 /\ reached r done' ys' /\ kept done' l /\ by_area l /\
      (r = 3 * n + 2 \/ forall a, In a l -> (pdf_area xs ys' < m_area a)%Q).
  Proof.
    induction fuel as [|fuel IH]; intros ys loop total result done l RE KE SR T LB LM E; [discriminate|]. cbn [biggest_loop] in E.
    destruct RE as [I RE]. destruct (next_mode_spec xs ys merge I) as (m & ys' & c & lo & hi & EN & HH & MR & B & B2 & DD & Z & _).
    rewrite EN in E. cbn [bind fst snd] in E. cbv zeta in E. pose proof I as (LE & _).
    pose proof (insert_sorted m result (length result) n SR) as SI. pose proof (insert_new m result (length result) n) as NI.
    pose proof (insert_in m result (length result) n) as II. pose proof (insert_keeps m result (length result) n) as IK.
    set (res := insert_mode m result (length result) n) in *.
    assert (LR : length result <= length res) by (pose proof (insert_length m result (length result) n); unfold res; lia). clearbody res.
    assert (I' : is_pdf xs ys') by (eapply zeroed_pdf; eauto).
    assert (RE' : reached (S loop) (done ++ [m]) ys').
    { split; [exact I'|]. intro k. replace (S loop + k) with (loop + S k) by lia. rewrite RE. cbn [highest_modes]. rewrite EN. cbn [bind fst snd].
      destruct (highest_modes xs ys' merge k); cbn [bind]; try reflexivity. rewrite <- app_assoc. reflexivity. }
    assert (KE' : kept (done ++ [m]) res).
    { destruct KE as [K1 K2]. split.
      - intros x Hx. apply in_or_app. destruct (II x Hx) as [->|Hx']; [right; left; auto|left; auto].
      - intros x Hx. apply in_app_or in Hx. destruct Hx as [Hx|[<-|[]]].
        + destruct (K2 x Hx) as [Hr|[Hr1 Hr2]]; [left; auto|]. right. split; [lia|]. intros a Ha.
          destruct (II a Ha) as [->|Ha']; [|auto]. destruct NI as [(H1 & H2 & [H3|(a0 & H3 & H4)])|(H1 & H2 & H3)].
          * lia.
          * specialize (Hr2 a0 H3). lra.
          * rewrite H2 in Ha. auto.
        + destruct NI as [[H1 _]|(H1 & H2 & H3)]; [left; auto|]. right. rewrite H2. split; auto. }
    assert (T' : (total - m_area m == pdf_area xs ys')%Q).
    { rewrite T. rewrite (area_split xs ys lo hi ys') by (auto; lia). destruct DD as (_ & DD & _). rewrite DD. ring. }
    assert (LN : Nat.min (S loop) n <= length res) by (destruct NI as [(_ & H & _)|(H & H1 & _)]; [lia|subst res; lia]).
    destruct (n <=? length res) eqn:A.
    - apply Nat.leb_le in A. destruct (mode_back res) as (b & Eb & Hb & MB); [intros ->; cbn in A; lia|]. rewrite Eb in E. cbn [bind] in E.
      destruct (Qlt_b (total - m_area m) (m_area b) || (3 * n <? loop)) eqn:O.
      + injection E as <-. exists (S loop), (done ++ [m]), ys'. split; [lia|]. split; [exact RE'|]. split; [exact KE'|]. split; [exact SI|].
        apply orb_true_iff in O. destruct O as [O|O].
        * right. apply Qlt_b_iff in O. intros a Ha. specialize (MB SI a Ha). lra.
        * left. apply Nat.ltb_lt in O. lia.
      + apply orb_false_iff in O. destruct O as [_ O]. apply Nat.ltb_ge in O. eapply IH; eauto. lia.
    - apply Nat.leb_gt in A. eapply IH; eauto. lia.
  Qed.

  Lemma highest_prefix : forall k j ys l, highest_modes xs ys merge (k + j) = Ok l -> highest_modes xs ys merge k = Ok (firstn k l).
  Proof.
    induction k as [|k IH]; intros j ys l E; [reflexivity|]. cbn [plus highest_modes] in E |- *. destruct (next_mode xs ys merge) as [[m ys']| | |]; cbn [bind fst snd] in E |- *; try discriminate.
    destruct (highest_modes xs ys' merge (k + j)) as [t| | |] eqn:ET; cbn [bind] in E; try discriminate. injection E as <-. rewrite (IH j ys' t ET). reflexivity.
  Qed.

  Lemma biggest_spec fuel l : biggest_modes fuel xs ys0 merge n = Ok l ->
    exists r done, r <= 3 * n + 2 /\ highest_modes xs ys0 merge r = Ok done /\ by_area l /\
      (forall m, In m l -> In m done) /\
      (forall m, In m done -> In m l \/ forall a, In a l -> (m_area m <= m_area a)%Q) /\
      (r = 3 * n + 2 \/ forall k ms m, highest_modes xs ys0 merge k = Ok ms -> In m ms -> In m l \/ forall a, In a l -> (m_area m <= m_area a)%Q).
  Proof.
    intro E. pose proof I0 as (LE & L3 & SR & P). unfold biggest_modes in E. destruct xs as [|x0 xr] eqn:EX; [cbn in L3; lia|]. rewrite <- EX in *.
    destruct (avg_area_spec xs ys0 0 (length xs - 1) LE ltac:(lia) ltac:(lia) ltac:(lia)) as (mean & area & EA & A1 & _).
    rewrite EA in E. cbn [bind snd] in E.
    destruct (biggest_loop_spec fuel ys0 0 area [] [] l) as (r & done & ys' & R1 & (I' & R2) & (K1 & K2) & SL & X); [| | |exact A1|lia|cbn; lia|exact E|].
    - split; [exact I0|]. intro k. cbn [plus]. destruct (highest_modes xs ys0 merge k); reflexivity.
    - split; intros m [].
    - intros i j a b _ H. destruct i; discriminate H.
    - exists r, done. split; [exact R1|].
      assert (HR : highest_modes xs ys0 merge r = Ok done) by (specialize (R2 0); rewrite Nat.add_0_r in R2; rewrite R2; cbn [highest_modes bind]; rewrite app_nil_r; reflexivity).
      split; [exact HR|]. split; [exact SL|]. split; [exact K1|].
      assert (KK : forall m, In m done -> In m l \/ forall a, In a l -> (m_area m <= m_area a)%Q) by (intros m Hm; destruct (K2 m Hm) as [|[_ ?]]; auto).
      split; [exact KK|]. destruct X as [X|X]; [left; exact X|right]. intros k ms m EK Hm. destruct (le_lt_dec k r) as [Hk|Hk].
      + apply KK. replace r with (k + (r - k)) in HR by lia. rewrite (highest_prefix k (r - k) ys0 done HR) in EK. injection EK as <-.
        rewrite <- (firstn_skipn k done). apply in_or_app. left. exact Hm.
      + replace k with (r + (k - r)) in EK by lia. rewrite R2 in EK. destruct (highest_modes xs ys' merge (k - r)) as [rest| | |] eqn:ER; cbn [bind] in EK; try discriminate.
        injection EK as <-. apply in_app_or in Hm. destruct Hm as [Hm|Hm]; [auto|]. right. intros a Ha. specialize (X a Ha).
        pose proof (highest_areas xs merge _ ys' rest I' ER) as HA. pose proof (highest_area_nonneg xs merge _ ys' rest I' ER) as HN.
        assert (m_area m <= mode_areas rest)%Q; [|lra]. clear - Hm HN. induction rest as [|x t IH]; [destruct Hm|].
        unfold mode_areas, total_of in *. cbn [map fold_right]. pose proof (HN x (or_introl eq_refl)).
        assert (0 <= fold_right Qplus 0 (map m_area t))%Q.
        { apply total_of_nonneg. intros p Hp. apply in_map_iff in Hp. destruct Hp as (q & <- & Hq). apply HN. right. exact Hq. }
        destruct Hm as [<-|Hm]; [lra|]. specialize (IH Hm (fun y Hy => HN y (or_intror Hy))). lra.
  Qed.
End Biggest.

(** A test for literal pdfs. *)
Fixpoint steps_up (l : list Q) : bool := match l with a :: ((b :: _) as r) => Qlt_b a b && steps_up r | _ => true end.
Lemma steps_up_rising l : steps_up l = true -> strictly_rising l.
Proof.
  induction l as [|a r IH]; intros H i j x y Hij Hx Hy; [destruct i; discriminate|].
  assert (HR : steps_up r = true) by (destruct r; [reflexivity|cbn [steps_up] in H; apply andb_true_iff in H; apply H]).
  destruct j as [|j]; [lia|]. cbn in Hy. destruct i as [|i]; [|apply (IH HR i j); auto; lia].
  cbn in Hx. injection Hx as <-. destruct r as [|b r]; [destruct j; discriminate|]. cbn [steps_up] in H. apply andb_true_iff in H. destruct H as [H _]. apply Qlt_b_iff in H.
  destruct j as [|j]; [cbn in Hy; injection Hy as <-; exact H|]. assert (b < y)%Q by (apply (IH HR 0 (S j)); [lia|reflexivity|exact Hy]). lra.
Qed.
Definition pdf_test (xs ys : list Q) : bool := Nat.eqb (length xs) (length ys) && (3 <=? length xs) && steps_up xs && forallb (Qle_bool 0) ys.
Lemma pdf_test_ok xs ys : pdf_test xs ys = true -> is_pdf xs ys.
Proof.
  unfold pdf_test. intro H. apply andb_true_iff in H. destruct H as [H H4]. apply andb_true_iff in H. destruct H as [H H3]. apply andb_true_iff in H. destruct H as [H1 H2].
  split; [apply Nat.eqb_eq; exact H1|]. split; [apply Nat.leb_le; exact H2|]. split; [apply steps_up_rising; exact H3|].
  intros y Hy. rewrite forallb_forall in H4. apply Qle_bool_iff. apply H4. exact Hy.
Qed.
