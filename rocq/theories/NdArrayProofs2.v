From Coq Require Import List Arith NArith ZArith String Lia Bool.
From Verif Require Import Common NdArrayModel NdArraySpec NdArrayProofs.
Import ListNotations.
Local Notation length := List.length.

(** ** More about views *)
Lemma view_holds {T} (h : heap T) a shape attrs data ops v :
  built T a shape attrs -> holds h a data -> apply_views a ops = Ok v -> holds h v data.
Proof.
  intros Hb Hh Hv. destruct (views_spec 1 a ops v (built_scaled _ _ _ _ Hb) Hv) as (_ & Hc & _).
  unfold holds in *. rewrite Hc. assumption.
Qed.

Lemma view_at_ok {T} (h : heap T) a shape attrs data ops v coords :
  built T a shape attrs -> holds h a data -> length data = prod shape -> apply_views a ops = Ok v ->
  (in_range (nd_shape v) coords -> exists x, nd_at h v coords = Ok x) /\
  (~ in_range (nd_shape v) coords -> nd_at h v coords = Throw).
Proof.
  intros Hb Hh Hd Hv.
  pose proof (view_holds _ _ _ _ _ _ _ Hb Hh Hv) as Hhv.
  destruct (views_spec 1 a ops v (built_scaled _ _ _ _ Hb) Hv) as ((k0 & Hk0) & Hc & Ho).
  split; intros Hr.
  - destruct (view_bounds h a shape attrs data ops v coords Hb Hh Hd Hv Hr) as (k & Hk & Hlt).
    unfold nd_at, container_get. rewrite (proj1 (get_offset_scaled k v coords Hk) Hr). cbn [bind].
    unfold holds in Hhv. rewrite Hhv. cbn [of_option bind].
    destruct (of_option_nth _ _ Hlt) as (x & Hx). exists x. rewrite Hx. reflexivity.
  - unfold nd_at. rewrite (proj2 (get_offset_scaled k0 v coords Hk0) Hr). reflexivity.
Qed.

Lemma view_size_prod {T} a shape attrs ops v :
  built T a shape attrs -> below_2_31 (prod shape) -> shape <> [] -> apply_views a ops = Ok v ->
  below_2_31 (prod (nd_shape v)) /\ nd_size v = prod (nd_shape v) /\ nd_shape v <> [].
Proof.
  intros Hb Hp Hne Hv. destruct (built_inv _ _ _ _ Hb) as (E1 & E2 & E3 & E4 & _).
  pose proof (built_scaled _ _ _ _ Hb) as Hs.
  assert (Hz : nd_size a = prod (nd_shape a)).
  { rewrite E4, E1. apply u32_product_small. unfold below_2_31, below_2_32 in *. lia. }
  destruct (views_size 1 a ops v Hs Hv ltac:(rewrite E1; assumption) Hz) as (V1 & V2 & V3).
  split; [assumption|]. split; [assumption|]. apply V3. congruence.
Qed.

Lemma slices_scaled_1 a ops v : scaled 1 a -> Forall is_slice ops -> apply_views a ops = Ok v -> scaled 1 v.
Proof.
  intros Hs Hf. revert a Hs. induction Hf as [|op ops Ho Hf IH]; intros a Hs H; simpl in H.
  - injection H as <-. assumption.
  - destruct (apply_view a op) as [c| | |] eqn:E; try discriminate. simpl in H. apply (IH c); [|assumption].
    destruct op as [i|i]; [|contradiction]. simpl in E.
    destruct (slice_inv _ _ _ E) as (n & s & E1 & E2 & _). unfold scaled in *.
    rewrite E1, E2, update_strides_cons in Hs. simpl map in Hs. injection Hs as _ Hs. exact Hs.
Qed.

Lemma nth_error_same_ext {A} (l l' : list A) : length l = length l' ->
  (forall p, p < length l -> nth_error l p = nth_error l' p) -> l = l'.
Proof.
  revert l'. induction l as [|x l IH]; intros [|y l'] Hl H; try discriminate; [reflexivity|].
  f_equal.
  - specialize (H 0 ltac:(simpl; lia)). injection H as ->. reflexivity.
  - apply IH; [simpl in Hl; lia|]. intros p Hp. apply (H (S p)). simpl. lia.
Qed.

(** ** C14 *)
Lemma reshape_elements {T} (h : heap T) a shape attrs data ops v ns b :
  built T a shape attrs -> holds h a data -> length data = prod shape ->
  below_2_31 (prod shape) -> shape <> [] ->
  Forall is_slice ops -> apply_views a ops = Ok v ->
  prod ns = prod (nd_shape v) -> ns <> [] -> nd_reshape v ns = Ok b ->
  nd_shape b = ns /\
  exists l, nd_elements h v = Ok l /\ nd_elements h b = Ok l /\
    forall p coords, nth_error (row_major ns) p = Some coords -> nd_at h b coords = of_option (nth_error l p).
Proof.
  intros Hb Hh Hd Hp Hne Hf Hv Hns Hnne Hr.
  pose proof (view_holds _ _ _ _ _ _ _ Hb Hh Hv) as Hhv.
  destruct (view_size_prod _ _ _ _ _ Hb Hp Hne Hv) as (V1 & V2 & V3).
  pose proof (slices_scaled_1 _ _ _ (built_scaled _ _ _ _ Hb) Hf Hv) as Hk.
  unfold nd_reshape in Hr. destruct (nd_attrs v); [|discriminate].
  destruct (negb _); [discriminate|]. injection Hr as <-. split; [reflexivity|].
  set (b := mkNd _ _ _ _ _ _).
  assert (Hkb : scaled 1 b) by (unfold scaled, b; cbn [nd_shape nd_strides]; rewrite map_mul_1; reflexivity).
  assert (Hbnd : forall p, p < prod (nd_shape v) -> nd_offset v + 1 * p < length data).
  { intros p Hlt. rewrite <- row_major_length in Hlt. destruct (of_option_nth _ _ Hlt) as (c & Hc).
    apply nth_row_major in Hc. destruct Hc as (Hc & <-).
    destruct (view_bounds h a shape attrs data ops v c Hb Hh Hd Hv Hc) as (k & Hk' & HB).
    rewrite (scaled_unique 1 k v); assumption. }
  destruct (nd_elements_scaled h 1 v data Hk V3 Hhv V2) as (l & L1 & L2 & L3).
  { intros c Hc. apply Hbnd, rank_lt, Hc. }
  destruct (nd_elements_scaled h 1 b data Hkb Hnne Hhv) as (l' & M1 & M2 & M3).
  { simpl. congruence. }
  { intros c Hc. simpl nd_offset. simpl nd_shape in *. apply Hbnd. rewrite <- Hns. apply rank_lt, Hc. }
  simpl nd_shape in *. simpl nd_offset in *.
  assert (E : l' = l).
  { apply nth_error_same_ext; [congruence|]. intros p Hlt. rewrite M2 in Hlt.
    assert (Hq : p < length (row_major ns)) by (rewrite row_major_length; assumption).
    assert (Hq' : p < length (row_major (nd_shape v))) by (rewrite row_major_length; congruence).
    destruct (of_option_nth _ _ Hq) as (c & Hc). destruct (of_option_nth _ _ Hq') as (c' & Hc').
    rewrite (M3 p c Hc), (L3 p c' Hc'). reflexivity. }
  subst l'. exists l. split; [assumption|]. split; [assumption|].
  intros p c Hc. rewrite (M3 p c Hc). apply nth_row_major in Hc. destruct Hc as (Hc & <-).
  unfold nd_at, container_get. rewrite (proj1 (get_offset_scaled 1 b c Hkb) Hc). cbn [bind].
  unfold holds in Hhv. simpl nd_container. rewrite Hhv. reflexivity.
Qed.

Lemma reshape_iff {T} a shape attrs ops v ns :
  built T a shape attrs -> below_2_31 (prod shape) -> shape <> [] -> apply_views a ops = Ok v ->
  (nd_reshape v ns = Throw <->
     (nd_attrs v <> [] \/ (N.of_nat (prod ns) mod 2 ^ 32)%N <> N.of_nat (prod (nd_shape v)))) /\
  (nd_reshape v ns = Throw \/ exists b, nd_reshape v ns = Ok b).
Proof.
  intros Hb Hp Hne Hv. destruct (view_size_prod _ _ _ _ _ Hb Hp Hne Hv) as (V1 & V2 & V3).
  unfold nd_reshape. destruct (nd_attrs v) as [|x xs].
  - rewrite V2. destruct (Nat.eqb_spec (int_product ns) (prod (nd_shape v))) as [E|E]; simpl negb; cbn iota.
    + split; [|right; eexists; reflexivity]. split; [discriminate|]. intros [H|H]; [congruence|].
      apply int_product_iff in E; [|assumption]. congruence.
    + split; [|left; reflexivity]. split; [intros _|reflexivity]. right. intros H. apply E.
      apply int_product_iff; assumption.
  - split; [|left; reflexivity]. split; [|reflexivity]. intros _. left. discriminate.
Qed.

(** ** C15 *)
Definition heap_ext {T} (h h1 : heap T) : Prop :=
  forall c l, nth_error h c = Some l -> exists e, nth_error h1 c = Some (l ++ e).

Lemma container_get_ext {T} (h h1 : heap T) c p x : heap_ext h h1 ->
  container_get h c p = Ok x -> container_get h1 c p = Ok x.
Proof.
  intros He. unfold container_get. destruct (nth_error h c) as [l|] eqn:E; [|discriminate].
  destruct (He _ _ E) as (e & ->). cbn [of_option bind].
  destruct (nth_error l p) as [y|] eqn:Ey; [|discriminate]. intros H. injection H as ->.
  rewrite nth_error_app1, Ey; [reflexivity|]. apply nth_error_Some. congruence.
Qed.

Lemma iterate_ext {T} (h h1 : heap T) fuel it e l : heap_ext h h1 ->
  iterate h fuel it e = Ok l -> iterate h1 fuel it e = Ok l.
Proof.
  intros He. revert it l. induction fuel as [|fuel IH]; intros it l; cbn [iterate]; [discriminate|].
  destruct (ni_eqb it e); [trivial|]. unfold ni_get.
  destruct (container_get h _ _) as [x| | |] eqn:E; try discriminate.
  rewrite (container_get_ext _ _ _ _ _ He E). cbn [bind].
  destruct (iterate h fuel (ni_incr it) e) as [r| | |] eqn:Er; try discriminate.
  rewrite (IH _ _ Er). trivial.
Qed.

Lemma nd_elements_ext {T} (h h1 : heap T) a l : heap_ext h h1 -> nd_elements h a = Ok l -> nd_elements h1 a = Ok l.
Proof.
  intros He. unfold nd_elements. destruct (nd_begin a); try discriminate. destruct (nd_end a); try discriminate.
  cbn [bind]. apply iterate_ext. assumption.
Qed.

Lemma set_nth_app {A} (pre post : list A) y x : set_nth (pre ++ y :: post) (length pre) x = Some (pre ++ x :: post).
Proof. induction pre as [|z pre IH]; [reflexivity|]. simpl. rewrite IH. reflexivity. Qed.

Lemma copy_into_app {T} (pre z data : list T) : length z = length data ->
  copy_into (pre ++ z) (length pre) data = Ok (pre ++ data).
Proof.
  revert pre z. induction data as [|x data IH]; intros pre [|y z] H; try discriminate; [reflexivity|].
  cbn [copy_into]. rewrite set_nth_app. cbn [of_option bind].
  replace (S (length pre)) with (length (pre ++ [x])) by (rewrite app_length; simpl; lia).
  replace (pre ++ x :: z) with ((pre ++ [x]) ++ z) by (rewrite <- app_assoc; reflexivity).
  rewrite IH by (simpl in H; lia). rewrite <- app_assoc. reflexivity.
Qed.

Lemma list_nat_eqb_iff a b : list_nat_eqb a b = true <-> a = b.
Proof.
  revert b. induction a as [|x a IH]; intros [|y b]; simpl; split; try discriminate; try reflexivity.
  - rewrite andb_true_iff, Nat.eqb_eq, IH. intros (-> & ->). reflexivity.
  - intros E. injection E as -> ->. rewrite Nat.eqb_refl. apply IH. reflexivity.
Qed.

Lemma concat_core {T} (zero : T) (h : heap T) a attrs n m r data other l :
  built T a (n :: r) attrs -> holds h a data -> length data = prod (n :: r) ->
  nd_shape other = m :: r -> nd_elements h other = Ok l -> length l = prod (m :: r) ->
  below_2_32 (prod ((n + m) :: r)) ->
  exists h2 a', nd_concatenate zero h a other = Ok (h2, a') /\
    a' = mkNd (nd_container a) 0 ((n + m) :: r) (update_strides ((n + m) :: r)) attrs (nd_size a) /\
    holds h2 a' (data ++ l) /\
    (forall d, d <> nd_container a -> nth_error h2 d = nth_error h d).
Proof.
  intros Hb Hh Hd Ho Hl Hll Hs. destruct (built_inv _ _ _ _ Hb) as (E1 & E2 & E3 & E4 & E5).
  unfold nd_concatenate. rewrite E1, Ho. simpl length. rewrite Nat.eqb_refl. simpl tl. cbn [negb].
  replace (list_nat_eqb r r) with true by (symmetry; apply list_nat_eqb_iff; reflexivity). cbn [negb].
  rewrite Hh. cbn [of_option bind]. rewrite u32_product_small by assumption.
  set (sz := prod ((n + m) :: r)).
  assert (Hsz : sz = length data + length l) by (unfold sz; rewrite Hd, Hll; simpl; lia).
  assert (Hrs : resize_vector zero data sz = data ++ repeat zero (length l)).
  { unfold resize_vector. rewrite firstn_all2 by lia. f_equal. f_equal. lia. }
  rewrite Hrs.
  assert (Hcl : nd_container a < length h) by (apply nth_error_Some; unfold holds in Hh; congruence).
  destruct (set_nth_spec h (nd_container a) (data ++ repeat zero (length l)) Hcl) as (h1 & S1 & S2 & S3 & S4).
  rewrite S1. cbn [of_option bind].
  rewrite (nd_elements_ext h h1 other l); [|intros c x Hx|assumption].
  2:{ destruct (Nat.eq_dec c (nd_container a)) as [->|Hne].
      - exists (repeat zero (length l)). unfold holds in Hh. rewrite S3. congruence.
      - exists []. rewrite app_nil_r, S4; assumption. }
  cbn [bind]. rewrite S3. cbn [of_option bind].
  rewrite copy_into_app by apply repeat_length. cbn [bind].
  destruct (set_nth_spec h1 (nd_container a) (data ++ l)) as (h2 & R1 & R2 & R3 & R4); [lia|].
  rewrite R1. cbn [of_option bind]. do 2 eexists. split; [reflexivity|].
  split; [f_equal; [exact E2|rewrite E3, !update_strides_cons; reflexivity|exact E5]|].
  split; [exact R3|]. intros d Hd'. rewrite R4, S4; auto.
Qed.

Lemma rank_cons_split n m r i c : in_range ((n + m) :: r) (i :: c) ->
  (i < n -> in_range (n :: r) (i :: c)) /\ (n <= i -> in_range (m :: r) ((i - n) :: c)).
Proof. intros H. inversion H; subst. split; intros; constructor; auto; lia. Qed.

Lemma Forall2_nth_error {A B} (P : A -> B -> Prop) l l' p x : Forall2 P l l' -> nth_error l p = Some x ->
  exists y, nth_error l' p = Some y /\ P x y.
Proof.
  intros H. revert p. induction H as [|a b l l' Hab H IH]; intros [|p] E; try discriminate.
  - injection E as <-. exists b. split; [reflexivity|assumption].
  - apply IH, E.
Qed.

Lemma Forall2_len {A B} (P : A -> B -> Prop) l l' : Forall2 P l l' -> length l = length l'.
Proof. intros H. induction H; simpl; congruence. Qed.

Lemma concat_spec {T} (zero : T) (h : heap T) a attrs n m r data b sb ab datab ops other :
  built T a (n :: r) attrs -> holds h a data -> length data = prod (n :: r) ->
  built T b sb ab -> holds h b datab -> length datab = prod sb -> below_2_31 (prod sb) -> sb <> [] ->
  apply_views b ops = Ok other -> nd_shape other = m :: r ->
  below_2_32 (prod ((n + m) :: r)) ->
  exists h2 a', nd_concatenate zero h a other = Ok (h2, a') /\
    nd_shape a' = (n + m) :: r /\
    (forall i c, nd_at h2 a' (i :: c) = if i <? n then nd_at h a (i :: c) else nd_at h other (i - n :: c)) /\
    nd_size a' = nd_size a /\
    (forall d, d <> nd_container a -> nth_error h2 d = nth_error h d).
Proof.
  intros Hb Hh Hd Bb Bh Bd Bs Bn Hv Ho Hs.
  destruct (elements_spec h b sb ab datab ops other Bb Bh Bd Bs Bn Hv) as (l & Hl & HF).
  assert (Hll : length l = prod (m :: r)) by (rewrite <- Ho, <- row_major_length; symmetry; eapply Forall2_len; eassumption).
  destruct (concat_core zero h a attrs n m r data other l Hb Hh Hd Ho Hl Hll Hs) as (h2 & a' & C1 & C2 & C3 & C4).
  exists h2, a'. split; [assumption|]. split; [subst a'; reflexivity|]. split; [|split; [subst a'; reflexivity|assumption]].
  intros i c.
  assert (Hk : scaled 1 a') by (subst a'; unfold scaled; cbn [nd_shape nd_strides]; rewrite map_mul_1; reflexivity).
  destruct (get_offset_scaled 1 a' (i :: c) Hk) as (G1 & G2).
  assert (Esh : nd_shape a' = (n + m) :: r) by (subst a'; reflexivity).
  assert (Eof : nd_offset a' = 0) by (subst a'; reflexivity).
  rewrite Esh in G1, G2. rewrite Eof in G1.
  destruct (at_spec h a (n :: r) attrs data (i :: c) Hb Hh Hd) as (A1 & A2).
  destruct (view_at_ok h b sb ab datab ops other (i - n :: c) Bb Bh Bd Hv) as (O1 & O2). rewrite Ho in O1, O2.
  destruct (in_dec (list_eq_dec Nat.eq_dec) (i :: c) (row_major ((n + m) :: r))) as [Hin|Hin]; rewrite row_major_in in Hin.
  - destruct (rank_cons_split n m r i c Hin) as (R1 & R2).
    unfold nd_at at 1. rewrite G1 by assumption. cbn [bind]. unfold container_get. unfold holds in C3. rewrite C3. cbn [of_option bind].
    assert (Er : 0 + 1 * rank ((n + m) :: r) (i :: c) = i * prod r + rank r c) by (cbn [rank]; lia). rewrite Er.
    assert (Hrc : rank r c < prod r) by (apply rank_lt; inversion Hin; assumption).
    destruct (Nat.ltb_spec i n) as [Hi|Hi].
    + destruct (A1 (i * prod r + rank r c)) as (x & Hx & Hx').
      { apply nth_row_major. split; [auto|reflexivity]. }
      rewrite nth_error_app1, Hx, Hx'; [reflexivity|]. apply nth_error_Some. congruence.
    + specialize (R2 Hi).
      assert (Hnr : nth_error (row_major (nd_shape other)) ((i - n) * prod r + rank r c) = Some (i - n :: c)).
      { rewrite Ho. apply nth_row_major. split; [assumption|reflexivity]. }
      destruct (Forall2_nth_error _ _ _ _ _ HF Hnr) as (y & Hy & Hat). rewrite Hat.
      replace (i * prod r + rank r c) with (length data + ((i - n) * prod r + rank r c)).
      * rewrite nth_error_app2 by apply Nat.le_add_r. rewrite Nat.add_comm, Nat.add_sub, Hy. reflexivity.
      * rewrite Hd. cbn [prod]. rewrite Nat.add_assoc, <- Nat.mul_add_distr_r. do 2 f_equal. lia.
  - unfold nd_at at 1. rewrite G2 by assumption. cbn [bind].
    destruct (Nat.ltb_spec i n) as [Hi|Hi].
    + rewrite A2; [reflexivity|]. rewrite row_major_in. intros Hr. apply Hin. inversion Hr; subst. constructor; [lia|assumption].
    + rewrite O2; [reflexivity|]. intros Hr. apply Hin. inversion Hr; subst. constructor; [lia|assumption].
Qed.

Lemma concat_throws {T} (zero : T) (h : heap T) a other :
  length (nd_shape a) <> length (nd_shape other) \/ tl (nd_shape a) <> tl (nd_shape other) ->
  nd_concatenate zero h a other = Throw.
Proof.
  unfold nd_concatenate. intros H. destruct (Nat.eqb_spec (length (nd_shape a)) (length (nd_shape other))) as [E|E]; [|reflexivity].
  cbn [negb]. destruct H as [H|H]; [congruence|].
  destruct (list_nat_eqb _ _) eqn:E'; [|reflexivity]. apply list_nat_eqb_iff in E'. congruence.
Qed.

(** ** C16 *)
Lemma copy_built {T} (h : heap T) a shape attrs data :
  built T a shape attrs -> holds h a data -> 
  exists h' b, nd_copy h a = Ok (h', b) /\
    nd_shape b = nd_shape a /\ nd_attrs b = nd_attrs a /\ nd_size b = nd_size a /\
    nd_container b <> nd_container a /\
    (forall coords, nd_at h' b coords = nd_at h a coords) /\
    (forall coords, nd_at h' a coords = nd_at h a coords) /\
    h' = h ++ [data] /\ nd_container b = length h.
Proof.
  intros Hb Hh. destruct (built_inv _ _ _ _ Hb) as (E1 & E2 & E3 & E4 & E5).
  unfold nd_copy. unfold holds in Hh. rewrite Hh. cbn [of_option bind].
  assert (Hc : nd_container a < length h) by (apply nth_error_Some; congruence).
  do 2 eexists. split; [reflexivity|]. cbn [nd_shape nd_attrs nd_size nd_container].
  split; [reflexivity|]. split; [reflexivity|]. split; [congruence|]. split; [lia|].
  assert (Ht : forall o, container_get (h ++ [data]) (nd_container a) o = container_get h (nd_container a) o).
  { intros o. unfold container_get. rewrite nth_error_app1 by assumption. reflexivity. }
  split; [|split; [|split; reflexivity]].
  - intros coords. unfold nd_at, get_offset. cbn [nd_shape nd_offset nd_strides nd_container].
    rewrite E1, E2, E3. destruct (negb _); [reflexivity|].
    destruct (offset_loop 0 coords shape (update_strides shape)); try reflexivity. cbn [bind].
    unfold container_get. rewrite nth_error_app2, Nat.sub_diag, Hh by lia. reflexivity.
  - intros coords. unfold nd_at. destruct (get_offset a coords); try reflexivity. cbn [bind]. apply Ht.
Qed.

Lemma write_other {T} (h h' : heap T) a b c x coords :
  nd_container a <> nd_container b -> nd_write h a c x = Ok h' -> nd_at h' b coords = nd_at h b coords.
Proof.
  intros Hne. unfold nd_write. destruct (get_offset a c) as [o| | |]; try discriminate. cbn [bind]. intros Hw.
  destruct (container_set_spec _ _ _ _ _ Hw) as (l & l' & _ & _ & _ & _ & _ & _ & H & _).
  unfold nd_at. destruct (get_offset b coords) as [o'| | |]; try reflexivity. cbn [bind].
  unfold container_get. rewrite H by congruence. reflexivity.
Qed.

(** Any sequence of writes through arrays of another container. *)
Fixpoint writes {T} (h : heap T) (ws : list (ndarray * list nat * T)) : outcome (heap T) :=
  match ws with
  | [] => Ok h
  | (a, c, x) :: r => do h' <- nd_write h a c x; writes h' r
  end.

Lemma writes_other {T} (h h' : heap T) ws b coords :
  (forall a c x, In (a, c, x) ws -> nd_container a <> nd_container b) ->
  writes h ws = Ok h' -> nd_at h' b coords = nd_at h b coords.
Proof.
  revert h. induction ws as [|((a, c), x) ws IH]; intros h Hf Hw; simpl in Hw.
  - injection Hw as <-. reflexivity.
  - destruct (nd_write h a c x) as [h1| | |] eqn:E; try discriminate. cbn [bind] in Hw.
    rewrite (IH h1); [|intros; eapply Hf; right; eassumption|assumption].
    eapply write_other; [|eassumption]. eapply Hf. left. reflexivity.
Qed.

(** ** C17 *)
Lemma from_data_iff {T} (h : heap T) shape (data : list T) :
  (nd_from_data h shape data = Throw <-> (N.of_nat (length data) <> N.of_nat (prod shape) mod 2 ^ 32)%N) /\
  (nd_from_data h shape data = Throw \/ exists p, nd_from_data h shape data = Ok p) /\
  (below_2_32 (prod shape) -> (nd_from_data h shape data = Throw <-> length data <> prod shape)).
Proof.
  pose proof (u32_product_eq shape) as E.
  unfold nd_from_data. destruct (Nat.eqb_spec (u32_product shape) (length data)) as [H|H]; cbn [negb].
  - split; [split; [discriminate|congruence]|]. split; [right; eexists; reflexivity|].
    intros Hs. rewrite u32_product_small in H by assumption. split; [discriminate|congruence].
  - split; [split; [intros _ E'; apply H; apply Nat2N.inj; congruence|reflexivity]|].
    split; [left; reflexivity|]. intros Hs. rewrite u32_product_small in H by assumption.
    split; [congruence|reflexivity].
Qed.

(** ** C18 *)
Lemma unravel_loop_spec shape : Forall (fun n => 0 < n) shape -> forall index,
  exists c, unravel_loop index shape = Ok (c, index / prod shape) /\ in_range shape c /\
    rank shape c = index mod prod shape.
Proof.
  induction shape as [|n r IH]; intros Hp index.
  - exists []. cbn [unravel_loop prod rank]. rewrite Nat.div_1_r, Nat.mod_1_r. split; [reflexivity|]. split; [constructor|reflexivity].
  - inversion Hp as [|? ? Hn Hr]; subst. destruct (IH Hr index) as (c & Hc & Hin & Hrk).
    cbn [unravel_loop]. rewrite Hc. cbn [bind fst snd]. destruct (Nat.eqb_spec n 0); [lia|].
    assert (Hpr : prod r <> 0) by (clear - Hr; induction Hr; simpl; lia).
    eexists. split; [rewrite Nat.div_div by assumption; rewrite (Nat.mul_comm (prod r) n); reflexivity|].
    split; [constructor; [apply Nat.mod_upper_bound; assumption|assumption]|].
    cbn [rank prod]. rewrite Hrk. rewrite (Nat.mul_comm n (prod r)), Nat.mod_mul_r by assumption. lia.
Qed.

Lemma prod_pos shape : Forall (fun n => 0 < n) shape -> 0 < prod shape.
Proof. intros H. induction H; simpl; lia. Qed.

Lemma unravel_spec shape index : Forall (fun n => 0 < n) shape -> shape <> [] ->
  (forall c, nth_error (row_major shape) index = Some c -> unravel_index index shape = Ok c) /\
  (prod shape <= index -> unravel_index index shape = Throw).
Proof.
  intros Hp Hne. destruct (unravel_loop_spec shape Hp index) as (c & Hc & Hin & Hrk).
  pose proof (prod_pos _ Hp) as Hpp.
  unfold unravel_index. destruct shape as [|n r]; [congruence|]. rewrite Hc. cbn [bind fst snd]. split.
  - intros c' Hc'. assert (Hlt : index < prod (n :: r)) by (rewrite <- row_major_length; apply nth_error_Some; congruence).
    rewrite Nat.div_small by assumption. change (0 <? 0) with false. cbn iota.
    rewrite Nat.mod_small in Hrk by assumption. apply row_major_rank in Hin. rewrite Hrk in Hin. congruence.
  - intros Hge. assert (1 <= index / prod (n :: r)) by (apply Nat.div_le_lower_bound; lia).
    destruct (Nat.ltb_spec 0 (index / prod (n :: r))); [reflexivity|lia].
Qed.

Lemma max_element_loop_spec {T} (ltb : T -> T -> bool) (full : list T) :
  (forall x, ltb x x = false) ->
  (forall x y z, ltb x y = true -> ltb y z = true -> ltb x z = true) ->
  (forall x y z, ltb x z = true -> ltb x y = true \/ ltb y z = true) ->
  forall l i best_i best,
  (forall j, nth_error l j = nth_error full (i + j)) -> best_i < i ->
  nth_error full best_i = Some best ->
  (forall j y, j < i -> nth_error full j = Some y -> ltb best y = false) ->
  (forall j y, j < best_i -> nth_error full j = Some y -> ltb y best = true) ->
  exists m, nth_error full (max_element_loop ltb l i best_i best) = Some m /\
    (forall j y, nth_error full j = Some y -> ltb m y = false) /\
    (forall j y, j < max_element_loop ltb l i best_i best -> nth_error full j = Some y -> ltb y m = true).
Proof.
  intros Hirr Htr Hneg. induction l as [|x l IH]; intros i bi b Hl Hbi Hb Hmax Hfirst; cbn [max_element_loop].
  - exists b. split; [assumption|]. split; [|assumption]. intros j y Hy. apply (Hmax j); [|assumption].
    destruct (Nat.lt_ge_cases j i) as [H|H]; [assumption|]. specialize (Hl (j - i)).
    replace (i + (j - i)) with j in Hl by lia. rewrite Hy in Hl. destruct (j - i); discriminate.
  - assert (Hx : nth_error full i = Some x) by (specialize (Hl 0); rewrite Nat.add_0_r in Hl; rewrite <- Hl; reflexivity).
    assert (Hl' : forall j, nth_error l j = nth_error full (S i + j)).
    { intros j. specialize (Hl (S j)). simpl in Hl. rewrite Hl. f_equal. lia. }
    destruct (ltb b x) eqn:E.
    + apply IH; [assumption|lia|assumption| |].
      * intros j y Hj Hy. destruct (Nat.eq_dec j i) as [->|Hne]; [rewrite Hx in Hy; injection Hy as <-; apply Hirr|].
        destruct (ltb x y) eqn:E2; [|reflexivity]. rewrite <- (Hmax j y) by (assumption || lia).
        symmetry. apply (Htr b x y); assumption.
      * intros j y Hj Hy. destruct (Hneg b y x E) as [H|H]; [|assumption].
        rewrite (Hmax j y) in H by assumption. discriminate.
    + apply IH; try assumption; [lia|]. intros j y Hj Hy.
      destruct (Nat.eq_dec j i) as [->|Hne]; [rewrite Hx in Hy; injection Hy as <-; assumption|].
      apply (Hmax j); [lia|assumption].
Qed.

Lemma max_element_spec {T} (ltb : T -> T -> bool) (l : list T) :
  (forall x, ltb x x = false) ->
  (forall x y z, ltb x y = true -> ltb y z = true -> ltb x z = true) ->
  (forall x y z, ltb x z = true -> ltb x y = true \/ ltb y z = true) ->
  l <> [] ->
  exists m, nth_error l (max_element ltb l) = Some m /\
    (forall j y, nth_error l j = Some y -> ltb m y = false) /\
    (forall j y, j < max_element ltb l -> nth_error l j = Some y -> ltb y m = true).
Proof.
  intros H1 H2 H3 Hne. destruct l as [|x l]; [congruence|]. cbn [max_element].
  apply (max_element_loop_spec ltb (x :: l) H1 H2 H3 l 1 0 x); try assumption; try reflexivity; try lia.
  intros [|j] y Hj Hy; [|lia]. injection Hy as <-. apply H1.
Qed.

Lemma prod_0_empty shape : prod shape = 0 -> row_major shape = [].
Proof. intros H. pose proof (row_major_length shape) as E. rewrite H in E. destruct (row_major shape); [reflexivity|discriminate]. Qed.

Lemma prod_nonzero_pos shape : prod shape <> 0 -> Forall (fun n => 0 < n) shape.
Proof. induction shape as [|n r IH]; simpl; intros H; constructor; [lia|]. apply IH. lia. Qed.

Lemma argmax_spec {T} (ltb : T -> T -> bool) (h : heap T) a shape attrs data ops v :
  (forall x, ltb x x = false) ->
  (forall x y z, ltb x y = true -> ltb y z = true -> ltb x z = true) ->
  (forall x y z, ltb x z = true -> ltb x y = true \/ ltb y z = true) ->
  built T a shape attrs -> holds h a data -> length data = prod shape ->
  below_2_31 (prod shape) -> shape <> [] -> apply_views a ops = Ok v -> prod (nd_shape v) <> 0 ->
  exists p coords m, nd_argmax ltb h v = Ok coords /\ nth_error (row_major (nd_shape v)) p = Some coords /\
    nd_at h v coords = Ok m /\
    (forall c y, nd_at h v c = Ok y -> ltb m y = false) /\
    (forall q c y, q < p -> nth_error (row_major (nd_shape v)) q = Some c -> nd_at h v c = Ok y -> ltb y m = true).
Proof.
  intros H1 H2 H3 Hb Hh Hd Hp Hne Hv Hnz.
  destruct (elements_spec h a shape attrs data ops v Hb Hh Hd Hp Hne Hv) as (l & Hl & HF).
  destruct (view_size_prod _ _ _ _ _ Hb Hp Hne Hv) as (V1 & V2 & V3).
  assert (Hll : length l = prod (nd_shape v)) by (rewrite <- row_major_length; symmetry; eapply Forall2_len; eassumption).
  destruct (max_element_spec ltb l H1 H2 H3) as (m & M1 & M2 & M3); [intros ->; simpl in Hll; congruence|].
  set (p := max_element ltb l) in *.
  assert (Hpl : p < length (row_major (nd_shape v))) by (rewrite row_major_length, <- Hll; apply nth_error_Some; congruence).
  destruct (of_option_nth _ _ Hpl) as (coords & Hc).
  destruct (Forall2_nth_error _ _ _ _ _ HF Hc) as (m' & Hm' & Hat). rewrite M1 in Hm'. injection Hm' as <-.
  exists p, coords, m.
  split. { unfold nd_argmax. rewrite Hl. cbn [bind]. apply unravel_spec; [apply prod_nonzero_pos|..]; assumption. }
  split; [assumption|]. split; [assumption|]. split.
  - intros c y Hy. destruct (in_dec (list_eq_dec Nat.eq_dec) c (row_major (nd_shape v))) as [Hin|Hin].
    + apply In_nth_error in Hin. destruct Hin as (q & Hq).
      destruct (Forall2_nth_error _ _ _ _ _ HF Hq) as (y' & Hy' & Hat'). rewrite Hy in Hat'. injection Hat' as <-.
      apply (M2 q). assumption.
    + rewrite row_major_in in Hin. rewrite (proj2 (view_at_ok h a shape attrs data ops v c Hb Hh Hd Hv) Hin) in Hy. discriminate.
  - intros q c y Hq Hqc Hy. destruct (Forall2_nth_error _ _ _ _ _ HF Hqc) as (y' & Hy' & Hat').
    rewrite Hy in Hat'. injection Hat' as <-. apply (M3 q); assumption.
Qed.

Lemma argmin_spec {T} (ltb : T -> T -> bool) (h : heap T) a shape attrs data ops v :
  (forall x, ltb x x = false) ->
  (forall x y z, ltb x y = true -> ltb y z = true -> ltb x z = true) ->
  (forall x y z, ltb x z = true -> ltb x y = true \/ ltb y z = true) ->
  built T a shape attrs -> holds h a data -> length data = prod shape ->
  below_2_31 (prod shape) -> shape <> [] -> apply_views a ops = Ok v -> prod (nd_shape v) <> 0 ->
  exists p coords m, nd_argmin ltb h v = Ok coords /\ nth_error (row_major (nd_shape v)) p = Some coords /\
    nd_at h v coords = Ok m /\
    (forall c y, nd_at h v c = Ok y -> ltb y m = false) /\
    (forall q c y, q < p -> nth_error (row_major (nd_shape v)) q = Some c -> nd_at h v c = Ok y -> ltb m y = true).
Proof.
  intros H1 H2 H3. apply (argmax_spec (fun x y => ltb y x)).
  - assumption.
  - intros x y z A B. eapply H2; eassumption.
  - intros x y z A. destruct (H3 z y x A); auto.
Qed.

Lemma sum_spec {T} (zero : T) add (h : heap T) a shape attrs data ops v :
  built T a shape attrs -> holds h a data -> length data = prod shape ->
  below_2_31 (prod shape) -> shape <> [] -> apply_views a ops = Ok v ->
  exists l, Forall2 (fun c x => nd_at h v c = Ok x) (row_major (nd_shape v)) l /\
    nd_sum zero add h v = Ok (fold_left add l zero).
Proof.
  intros Hb Hh Hd Hp Hne Hv.
  destruct (elements_spec h a shape attrs data ops v Hb Hh Hd Hp Hne Hv) as (l & Hl & HF).
  exists l. split; [assumption|]. unfold nd_sum. rewrite Hl. reflexivity.
Qed.

Lemma resolve_axis_spec ndim axis :
  (resolve_axis ndim axis = Throw <-> (axis < - Z.of_nat ndim \/ Z.of_nat ndim <= axis)%Z) /\
  (forall ax, resolve_axis ndim axis = Ok ax -> ax < ndim /\
     (Z.of_nat ax = axis \/ Z.of_nat ax = axis + Z.of_nat ndim)%Z) /\
  (resolve_axis ndim axis = Throw \/ exists ax, resolve_axis ndim axis = Ok ax).
Proof.
  unfold resolve_axis.
  destruct (Z.ltb_spec axis 0).
  - destruct (Z.ltb_spec (Z.of_nat ndim + axis) 0); [split; [split; [lia|reflexivity]|split; [discriminate|left; reflexivity]]|].
    destruct (Z.leb_spec (Z.of_nat ndim) (Z.of_nat ndim + axis)); [lia|].
    split; [split; [discriminate|lia]|]. split; [|right; eexists; reflexivity]. intros ax E. injection E as <-. lia.
  - destruct (Z.ltb_spec axis 0); [lia|].
    destruct (Z.leb_spec (Z.of_nat ndim) axis); [split; [split; [lia|reflexivity]|split; [discriminate|left; reflexivity]]|].
    split; [split; [discriminate|lia]|]. split; [|right; eexists; reflexivity]. intros ax E. injection E as <-. lia.
Qed.

Lemma insert_in_range s ax i oc : ax < length s -> in_range (remove_nth ax s) oc -> i < nth ax s 0 ->
  in_range s (insert_nth ax i oc).
Proof.
  unfold remove_nth, insert_nth. revert ax oc. induction s as [|n r IH]; intros ax oc Ha Hr Hi; [simpl in Ha; lia|].
  destruct ax as [|ax]; simpl in *.
  - constructor; assumption.
  - inversion Hr as [|c ? cr ? Hc Hcr]; subst. simpl. constructor; [assumption|]. apply IH; [lia|assumption|assumption].
Qed.

Lemma sum_axis_loop_spec {T} add (h : heap T) v ax oc :
  forall todo i (acc : T), (forall j, i <= j -> j < i + todo -> exists x, nd_at h v (insert_nth ax j oc) = Ok x) ->
  exists xs, Forall2 (fun j x => nd_at h v (insert_nth ax j oc) = Ok x) (seq i todo) xs /\
    sum_axis_loop add h v ax oc todo i acc = Ok (fold_left add xs acc).
Proof.
  induction todo as [|todo IH]; intros i acc H; cbn [sum_axis_loop seq].
  - exists []. split; [constructor|reflexivity].
  - destruct (H i) as (x & Hx); [lia|lia|]. rewrite Hx. cbn [bind].
    destruct (IH (S i) (add acc x)) as (xs & H1 & H2); [intros; apply H; lia|].
    exists (x :: xs). split; [constructor; assumption|]. rewrite H2. reflexivity.
Qed.

Lemma map_outcome_spec {A B} (f : A -> outcome B) l : (forall x, In x l -> exists y, f x = Ok y) ->
  exists ys, map_outcome f l = Ok ys /\ Forall2 (fun x y => f x = Ok y) l ys.
Proof.
  induction l as [|x l IH]; intros H; cbn [map_outcome].
  - exists []. split; [reflexivity|constructor].
  - destruct (H x (or_introl eq_refl)) as (y & Hy). rewrite Hy. cbn [bind].
    destruct IH as (ys & H1 & H2); [intros; apply H; right; assumption|]. rewrite H1. cbn [bind].
    exists (y :: ys). split; [reflexivity|constructor; assumption].
Qed.

Lemma nth_error_seq k n p : p < n -> nth_error (seq k n) p = Some (k + p).
Proof.
  revert k p. induction n as [|n IH]; intros k [|p] H; try lia; simpl.
  - f_equal. lia.
  - rewrite IH by lia. f_equal. lia.
Qed.

Lemma remove_nth_length {A} (s : list A) ax : ax < length s -> length (remove_nth ax s) = length s - 1.
Proof.
  intros H. unfold remove_nth. rewrite app_length, firstn_length, skipn_length. lia.
Qed.

Lemma in_range_prod s c : in_range s c -> Forall (fun n => 0 < n) s.
Proof. intros H. induction H; constructor; [lia|assumption]. Qed.

(** Output cell by cell, for sum and trapz. *)
Lemma output_cells {B} (f : list nat -> outcome B) oshape :
  oshape <> [] -> below_2_32 (prod oshape) ->
  (forall oc, in_range oshape oc -> exists y, f oc = Ok y) ->
  exists out, map_outcome (fun i => do oc <- unravel_index i oshape; f oc) (seq 0 (u32_product oshape)) = Ok out /\
    Forall2 (fun oc y => f oc = Ok y) (row_major oshape) out.
Proof.
  intros Hne Hs Hf. rewrite u32_product_small by assumption.
  assert (Hu : forall i, i < prod oshape -> exists c, nth_error (row_major oshape) i = Some c /\ in_range oshape c /\ unravel_index i oshape = Ok c).
  { intros i Hi. rewrite <- row_major_length in Hi. destruct (of_option_nth _ _ Hi) as (c & Hc). exists c.
    split; [assumption|]. pose proof Hc as Hc'. apply nth_row_major in Hc'. destruct Hc' as (Hin & _). split; [assumption|].
    apply unravel_spec; [eapply in_range_prod; eassumption|assumption|assumption]. }
  destruct (map_outcome_spec (fun i => do oc <- unravel_index i oshape; f oc) (seq 0 (prod oshape))) as (out & H1 & H2).
  { intros i Hi. apply in_seq in Hi. destruct (Hu i) as (c & _ & Hin & E); [lia|]. rewrite E. cbn [bind]. apply Hf, Hin. }
  exists out. split; [assumption|].
  pose proof (Forall2_len _ _ _ H2) as Hl. rewrite seq_length, <- row_major_length in Hl.
  assert (G : forall p c y, nth_error (row_major oshape) p = Some c -> nth_error out p = Some y -> f c = Ok y).
  { intros p c y Hp Hy. assert (Hlt : p < prod oshape) by (rewrite <- row_major_length; apply nth_error_Some; congruence).
    destruct (Hu p Hlt) as (c' & Hc' & _ & Eu). rewrite Hp in Hc'. injection Hc' as <-.
    destruct (Forall2_nth_error _ _ _ _ _ H2 (nth_error_seq 0 _ p Hlt)) as (y' & Hy' & E). simpl in E. rewrite Eu in E. cbn [bind] in E. congruence. }
  clear - Hl G. revert out Hl G. induction (row_major oshape) as [|c cs IH]; intros [|y out] Hl G; try discriminate; constructor.
  - apply (G 0); reflexivity.
  - apply IH; [simpl in Hl; lia|]. intros p c' y' Q1 Q2. apply (G (S p)); assumption.
Qed.

Lemma sum_axis_spec {T} (zero : T) add (h : heap T) a shape attrs data ops v axis :
  built T a shape attrs -> holds h a data -> length data = prod shape ->
  below_2_31 (prod shape) -> shape <> [] -> apply_views a ops = Ok v ->
  match resolve_axis (length (nd_shape v)) axis with
  | Ok ax =>
      2 <= length (nd_shape v) -> below_2_32 (prod (remove_nth ax (nd_shape v))) ->
      exists out, nd_sum_axis zero add h v axis = Ok (remove_nth ax (nd_shape v), out) /\
        Forall2 (fun oc y => exists xs,
            Forall2 (fun j x => nd_at h v (insert_nth ax j oc) = Ok x) (seq 0 (nth ax (nd_shape v) 0)) xs /\
            y = fold_left add xs zero)
          (row_major (remove_nth ax (nd_shape v))) out
  | _ => nd_sum_axis zero add h v axis = Throw
  end.
Proof.
  intros Hb Hh Hd Hp Hne Hv.
  destruct (resolve_axis_spec (length (nd_shape v)) axis) as (_ & R2 & R3).
  unfold nd_sum_axis. destruct (resolve_axis (length (nd_shape v)) axis) as [ax| | |] eqn:Er.
  2,3,4: (destruct R3 as [R3|(? & R3)]; try discriminate; reflexivity).
  intros Hl2 Hs. destruct (R2 ax eq_refl) as (Hax & _). cbn [bind].
  destruct (Nat.eqb_spec (length (nd_shape v)) 1); [lia|].
  set (os := remove_nth ax (nd_shape v)) in *.
  assert (Hone : os <> []).
  { intros E. pose proof (remove_nth_length (nd_shape v) ax Hax) as L. fold os in L. rewrite E in L. simpl in L. lia. }
  assert (Hf : forall oc, in_range os oc -> exists xs, Forall2 (fun j x => nd_at h v (insert_nth ax j oc) = Ok x) (seq 0 (nth ax (nd_shape v) 0)) xs /\
     sum_axis_loop add h v ax oc (nth ax (nd_shape v) 0) 0 zero = Ok (fold_left add xs zero)).
  { intros oc Hoc. apply sum_axis_loop_spec. intros j _ Hj.
    apply (view_at_ok h a shape attrs data ops v _ Hb Hh Hd Hv). apply insert_in_range; assumption. }
  destruct (output_cells (fun oc => sum_axis_loop add h v ax oc (nth ax (nd_shape v) 0) 0 zero) os Hone Hs) as (out & O1 & O2).
  { intros oc Hoc. destruct (Hf oc Hoc) as (xs & _ & E). eexists. exact E. }
  rewrite O1. cbn [bind]. exists out. split; [reflexivity|].
  assert (Hin : Forall (fun oc => in_range os oc) (row_major os)) by (apply Forall_forall; intros; apply row_major_in; assumption).
  clear - O2 Hf Hin. induction O2 as [|oc y l out E O2 IH]; constructor.
  - inversion Hin; subst. destruct (Hf oc H1) as (xs & F & E'). exists xs. split; [assumption|]. congruence.
  - apply IH. inversion Hin; assumption.
Qed.

Lemma sum_axis_1d {T} (zero : T) add (h : heap T) v axis n :
  nd_shape v = [n] -> (axis = 0 \/ axis = -1)%Z ->
  nd_sum_axis zero add h v axis = do s <- nd_sum zero add h v; Ok ([1], [s]).
Proof.
  intros E Hax. unfold nd_sum_axis. rewrite E. simpl length.
  replace (resolve_axis 1 axis) with (@Ok nat 0) by (destruct Hax as [-> | ->]; reflexivity). reflexivity.
Qed.

(** Trapezoidal sums of consecutive knots and values. *)
Fixpoint trapz_terms {T K} (area : T -> T -> K -> K -> T) (ks : list K) (xs : list T) : list T :=
  match ks, xs with
  | k0 :: ((k1 :: _) as ks'), x0 :: ((x1 :: _) as xs') => area x0 x1 k0 k1 :: trapz_terms area ks' xs'
  | _, _ => []
  end.

Lemma trapz_loop_spec {T K} add (area : T -> T -> K -> K -> T) (h : heap T) v at_ :
  forall ks xs i acc, Forall2 (fun j x => nd_at h v (at_ j) = Ok x) (seq i (length ks)) xs ->
  trapz_loop add area h v at_ ks i acc = Ok (fold_left add (trapz_terms area ks xs) acc).
Proof.
  induction ks as [|k0 ks IH]; intros xs i acc H; [reflexivity|].
  destruct ks as [|k1 ks]; [inversion H as [|? ? ? ? ? H']; subst; inversion H'; reflexivity|].
  simpl seq in H. inversion H as [|? x0 ? xs1 E0 H1]; subst. inversion H1 as [|? x1 ? xs2 E1 H2]; subst.
  specialize (IH (x1 :: xs2) (S i) (add acc (area x0 x1 k0 k1)) H1).
  cbn [trapz_loop trapz_terms fold_left] in *. rewrite ?E1, ?E0. cbn [bind]. rewrite ?E1, ?E0 in *. cbn [bind] in *. exact IH.
Qed.

Lemma trapz_spec {T K} (zero : T) add (area : T -> T -> K -> K -> T) (h : heap T) a shape attrs data ops v knots axis :
  built T a shape attrs -> holds h a data -> length data = prod shape ->
  below_2_31 (prod shape) -> shape <> [] -> apply_views a ops = Ok v ->
  match resolve_axis (length (nd_shape v)) axis with
  | Ok ax =>
      (length knots <> nth ax (nd_shape v) 0 -> nd_trapz zero add area h v knots axis = Throw) /\
      (length knots = nth ax (nd_shape v) 0 -> 2 <= length (nd_shape v) ->
       below_2_32 (prod (remove_nth ax (nd_shape v))) ->
       exists out, nd_trapz zero add area h v knots axis = Ok (remove_nth ax (nd_shape v), out) /\
        Forall2 (fun oc y => exists xs,
            Forall2 (fun j x => nd_at h v (insert_nth ax j oc) = Ok x) (seq 0 (length knots)) xs /\
            y = fold_left add (trapz_terms area knots xs) zero)
          (row_major (remove_nth ax (nd_shape v))) out) /\
      (length knots = nth ax (nd_shape v) 0 -> length (nd_shape v) = 1 ->
       exists xs, Forall2 (fun j x => nd_at h v [j] = Ok x) (seq 0 (length knots)) xs /\
         nd_trapz zero add area h v knots axis
         = Ok ([1], [fold_left add (trapz_terms area knots xs) zero]))
  | _ => nd_trapz zero add area h v knots axis = Throw
  end.
Proof.
  intros Hb Hh Hd Hp Hne Hv.
  destruct (resolve_axis_spec (length (nd_shape v)) axis) as (_ & R2 & R3).
  unfold nd_trapz. destruct (resolve_axis (length (nd_shape v)) axis) as [ax| | |] eqn:Er.
  2,3,4: (destruct R3 as [R3|(? & R3)]; try discriminate; reflexivity).
  destruct (R2 ax eq_refl) as (Hax & _). cbn [bind].
  split; [intros Hk; destruct (Nat.eqb_spec (length knots) (nth ax (nd_shape v) 0)); [congruence|reflexivity]|].
  split; intros Hk; destruct (Nat.eqb_spec (length knots) (nth ax (nd_shape v) 0)) as [_|]; try congruence; cbn [negb].
  - intros Hl2 Hs. destruct (Nat.eqb_spec (length (nd_shape v)) 1); [lia|].
    set (os := remove_nth ax (nd_shape v)) in *.
    assert (Hone : os <> []).
    { intros E. pose proof (remove_nth_length (nd_shape v) ax Hax) as L. fold os in L. rewrite E in L. simpl in L. lia. }
    assert (Hf : forall oc, in_range os oc -> exists xs, Forall2 (fun j x => nd_at h v (insert_nth ax j oc) = Ok x) (seq 0 (length knots)) xs /\
       trapz_loop add area h v (fun i => insert_nth ax i oc) knots 0 zero = Ok (fold_left add (trapz_terms area knots xs) zero)).
    { intros oc Hoc.
      destruct (map_outcome_spec (fun j => nd_at h v (insert_nth ax j oc)) (seq 0 (length knots))) as (xs & _ & Hxs).
      { intros j Hj. apply in_seq in Hj. apply (view_at_ok h a shape attrs data ops v _ Hb Hh Hd Hv).
        apply insert_in_range; [assumption|assumption|lia]. }
      exists xs. split; [assumption|]. apply trapz_loop_spec. assumption. }
    destruct (output_cells (fun oc => trapz_loop add area h v (fun i => insert_nth ax i oc) knots 0 zero) os Hone Hs) as (out & O1 & O2).
    { intros oc Hoc. destruct (Hf oc Hoc) as (xs & _ & E). eexists. exact E. }
    rewrite O1. cbn [bind]. exists out. split; [reflexivity|].
    assert (Hin : Forall (fun oc => in_range os oc) (row_major os)) by (apply Forall_forall; intros; apply row_major_in; assumption).
    clear - O2 Hf Hin. induction O2 as [|oc y l out E O2 IH]; constructor.
    + inversion Hin; subst. destruct (Hf oc H1) as (xs & F & E'). exists xs. split; [assumption|]. congruence.
    + apply IH. inversion Hin; assumption.
  - intros Hl1. rewrite Hl1. cbn [Nat.eqb].
    destruct (map_outcome_spec (fun j => nd_at h v [j]) (seq 0 (length knots))) as (xs & _ & Hxs).
    { intros j Hj. apply in_seq in Hj. apply (view_at_ok h a shape attrs data ops v _ Hb Hh Hd Hv).
      assert (ax = 0) by (rewrite Hl1 in Hax; lia). subst ax.
      destruct (nd_shape v) as [|n [|? ?]] eqn:Es; try discriminate. cbn [nth] in Hk.
      constructor; [lia|constructor]. }
    exists xs. split; [assumption|].
    change (u32_product [1]) with 1. cbn [seq map_outcome].
    change (unravel_index 0 [1]) with (@Ok (list nat) [0]). cbn [bind].
    rewrite (trapz_loop_spec add area h v (fun i => [i]) knots xs 0 zero Hxs). reflexivity.
Qed.

(** Attribute names *)
Lemma attr_index_spec attrs x : match attr_index attrs x with
  | Some i => nth_error attrs i = Some x /\ (forall j, j < i -> nth_error attrs j <> Some x)
  | None => ~ In x attrs
  end.
Proof.
  induction attrs as [|y r IH]; cbn [attr_index]; [intros []|].
  destruct (String.eqb_spec y x) as [->|H].
  - split; [reflexivity|]. intros; lia.
  - destruct (attr_index r x) as [i|].
    + destruct IH as (I1 & I2). split; [assumption|]. intros [|j] Hj; simpl; [congruence|]. apply I2. lia.
    + intros [E|E]; [congruence|]. auto.
Qed.

Lemma at_attr_spec {T} (h : heap T) a coords x :
  (~ In x (nd_attrs a) -> nd_at_attr h a coords x = Throw) /\
  (forall i, nth_error (nd_attrs a) i = Some x -> (forall j, j < i -> nth_error (nd_attrs a) j <> Some x) ->
     nd_at_attr h a coords x = nd_at h a (coords ++ [i])).
Proof.
  unfold nd_at_attr, get_offset_attr. pose proof (attr_index_spec (nd_attrs a) x) as H.
  destruct (attr_index (nd_attrs a) x) as [i|].
  - destruct H as (H1 & H2). split.
    + intros Hn. exfalso. apply Hn. eapply nth_error_In. eassumption.
    + intros i' E1 E2. assert (i = i').
      { destruct (Nat.lt_trichotomy i i') as [L|[L|L]]; [|assumption|].
        - exfalso. apply (E2 i L). assumption.
        - exfalso. apply (H2 i' L). assumption. }
      subst. reflexivity.
  - split; [reflexivity|]. intros i E. exfalso. apply H. eapply nth_error_In. eassumption.
Qed.

(** Equality *)
Lemma eq_loop_spec {T} (neqb : T -> T -> bool) (h : heap T) :
  forall fuel ai ae bi be la lb, length la = length lb ->
  iterate h fuel ai ae = Ok la -> iterate h fuel bi be = Ok lb ->
  exists r, eq_loop neqb h fuel ai ae bi be = Ok r /\
    (r = true <-> Forall2 (fun x y => neqb x y = false) la lb).
Proof.
  induction fuel as [|fuel IH]; intros ai ae bi be la lb Hl Ha Hb; cbn [iterate eq_loop] in *; [discriminate|].
  destruct (ni_eqb ai ae) eqn:Ea.
  - injection Ha as <-. destruct lb; [|discriminate]. exists true. split; [reflexivity|]. split; [constructor|reflexivity].
  - destruct (ni_get h ai 0) as [x| | |]; try discriminate. cbn [bind] in Ha.
    destruct (iterate h fuel (ni_incr ai) ae) as [la'| | |] eqn:Ia; try discriminate. injection Ha as <-.
    destruct (ni_eqb bi be) eqn:Eb; [injection Hb as <-; discriminate|].
    destruct (ni_get h bi 0) as [y| | |]; try discriminate. cbn [bind] in Hb.
    destruct (iterate h fuel (ni_incr bi) be) as [lb'| | |] eqn:Ib; try discriminate. injection Hb as <-.
    cbn [orb bind]. destruct (neqb x y) eqn:En.
    + exists false. split; [reflexivity|]. split; [discriminate|]. intros H. inversion H; congruence.
    + destruct (IH _ _ _ _ la' lb' ltac:(simpl in Hl; lia) Ia Ib) as (r & R1 & R2). exists r. split; [assumption|].
      rewrite R2. split; [constructor; assumption|]. intros H; inversion H; assumption.
Qed.

Lemma nd_eq_spec {T} (neqb : T -> T -> bool) (h : heap T) a sa aa da opsa va b sb ab db opsb vb :
  built T a sa aa -> holds h a da -> length da = prod sa -> below_2_31 (prod sa) -> sa <> [] -> apply_views a opsa = Ok va ->
  built T b sb ab -> holds h b db -> length db = prod sb -> below_2_31 (prod sb) -> sb <> [] -> apply_views b opsb = Ok vb ->
  exists r, nd_eq neqb h va vb = Ok r /\
    (r = true <-> nd_shape va = nd_shape vb /\
       forall c x y, nd_at h va c = Ok x -> nd_at h vb c = Ok y -> neqb x y = false).
Proof.
  intros A1 A2 A3 A4 A5 A6 B1 B2 B3 B4 B5 B6. unfold nd_eq.
  destruct (list_nat_eqb (nd_shape va) (nd_shape vb)) eqn:E; cbn [negb].
  2:{ exists false. split; [reflexivity|]. split; [discriminate|]. intros (E' & _). apply list_nat_eqb_iff in E'. congruence. }
  apply list_nat_eqb_iff in E.
  destruct (elements_spec h a sa aa da opsa va A1 A2 A3 A4 A5 A6) as (la & La & Fa).
  destruct (elements_spec h b sb ab db opsb vb B1 B2 B3 B4 B5 B6) as (lb & Lb & Fb).
  destruct (view_size_prod _ _ _ _ _ A1 A4 A5 A6) as (_ & Za & _).
  destruct (view_size_prod _ _ _ _ _ B1 B4 B5 B6) as (_ & Zb & _).
  unfold nd_elements in La, Lb.
  destruct (nd_begin va) as [ai| | |]; try discriminate. destruct (nd_end va) as [ae| | |]; try discriminate.
  destruct (nd_begin vb) as [bi| | |]; try discriminate. destruct (nd_end vb) as [be| | |]; try discriminate.
  cbn [bind] in *. rewrite Zb, <- E, <- Za in Lb.
  pose proof (Forall2_len _ _ _ Fa) as Ma. pose proof (Forall2_len _ _ _ Fb) as Mb. rewrite <- E in Fb, Mb.
  destruct (eq_loop_spec neqb h _ _ _ _ _ la lb ltac:(congruence) La Lb) as (r & R1 & R2).
  exists r. split; [assumption|]. rewrite R2. clear R1 R2 La Lb. split.
  - intros H. split; [assumption|]. intros c x y Hx Hy.
    destruct (in_dec (list_eq_dec Nat.eq_dec) c (row_major (nd_shape va))) as [Hin|Hin].
    + apply In_nth_error in Hin. destruct Hin as (q & Hq).
      destruct (Forall2_nth_error _ _ _ _ _ Fa Hq) as (x' & X1 & X2).
      destruct (Forall2_nth_error _ _ _ _ _ Fb Hq) as (y' & Y1 & Y2).
      destruct (Forall2_nth_error _ _ _ _ _ H X1) as (y2 & Y3 & Y4). congruence.
    + rewrite row_major_in in Hin. rewrite (proj2 (view_at_ok h a sa aa da opsa va c A1 A2 A3 A6) Hin) in Hx. discriminate.
  - intros (_ & H). clear - Fa Fb H. revert lb Fb. induction Fa as [|c x cs la Hx Fa IH]; intros lb Fb; inversion Fb; subst; constructor.
    + eapply H; eassumption.
    + apply IH. assumption.
Qed.
