From Coq Require Import List Arith NArith ZArith String Lia Bool.
From Verif Require Import Common NdArrayModel NdArraySpec.
Import ListNotations.
Local Notation length := List.length.

(** ** Products *)
Lemma u32_fold l a : (a < 2 ^ 32)%N ->
  fold_left (fun acc n => (acc * N.of_nat n) mod 2 ^ 32)%N l a = ((a * N.of_nat (prod l)) mod 2 ^ 32)%N.
Proof.
  revert a. induction l as [|n l IH]; intros a Ha; cbn [fold_left prod].
  - rewrite N.mul_1_r, N.mod_small by assumption. reflexivity.
  - rewrite IH by (apply N.mod_lt; discriminate).
    rewrite N.mul_mod_idemp_l by discriminate. f_equal. lia.
Qed.

Lemma u32_product_eq l : N.of_nat (u32_product l) = (N.of_nat (prod l) mod 2 ^ 32)%N.
Proof.
  unfold u32_product. rewrite N2Nat.id, u32_fold by reflexivity. f_equal. lia.
Qed.

Lemma u32_product_small l : below_2_32 (prod l) -> u32_product l = prod l.
Proof.
  intros H. apply Nat2N.inj. rewrite u32_product_eq. apply N.mod_small, H.
Qed.

Lemma to_int_mod z : (to_int z mod 2 ^ 32 = z mod 2 ^ 32)%Z.
Proof.
  unfold to_int. rewrite Zminus_mod_idemp_l. f_equal. lia.
Qed.
Lemma to_int_range z : (- 2 ^ 31 <= to_int z < 2 ^ 31)%Z.
Proof. unfold to_int. pose proof (Z.mod_pos_bound (z + 2 ^ 31) (2 ^ 32) eq_refl). lia. Qed.
Lemma to_int_small z : (- 2 ^ 31 <= z < 2 ^ 31)%Z -> to_int z = z.
Proof. intros H. unfold to_int. rewrite Z.mod_small by lia. lia. Qed.
Lemma to_int_cong z z' : (z mod 2 ^ 32 = z' mod 2 ^ 32)%Z -> to_int z = to_int z'.
Proof.
  intros H. unfold to_int. f_equal.
  rewrite <- (Zplus_mod_idemp_l z), <- (Zplus_mod_idemp_l z'), H. reflexivity.
Qed.

Lemma int_fold l a : (- 2 ^ 31 <= a < 2 ^ 31)%Z ->
  fold_left (fun acc n => to_int (acc * Z.of_nat n)) l a = to_int (a * Z.of_nat (prod l)).
Proof.
  revert a. induction l as [|n l IH]; intros a Ha; cbn [fold_left prod].
  - rewrite Z.mul_1_r, to_int_small by assumption. reflexivity.
  - rewrite IH by apply to_int_range. apply to_int_cong.
    rewrite <- Zmult_mod_idemp_l, to_int_mod, Zmult_mod_idemp_l. f_equal. lia.
Qed.

Lemma int_product_eq l : int_product l = Z.to_nat (to_int (Z.of_nat (prod l)) mod 2 ^ 64).
Proof. unfold int_product. rewrite int_fold by lia. do 3 f_equal. lia. Qed.

Lemma int_product_small l : below_2_31 (prod l) -> int_product l = prod l.
Proof.
  unfold below_2_31. intros H. rewrite int_product_eq, to_int_small by lia.
  rewrite Z.mod_small by lia. lia.
Qed.

(** The test of reshape accepts a shape iff its number of elements agrees with
    the size modulo 2^32 (for sizes below 2^31). *)
Lemma int_product_iff l n : below_2_31 n ->
  (int_product l = n <-> (N.of_nat (prod l) mod 2 ^ 32 = N.of_nat n)%N).
Proof.
  unfold below_2_31. intros H. rewrite int_product_eq.
  pose proof (to_int_range (Z.of_nat (prod l))) as R.
  pose proof (to_int_mod (Z.of_nat (prod l))) as M.
  assert (E : Z.of_N (N.of_nat (prod l) mod 2 ^ 32) = (Z.of_nat (prod l) mod 2 ^ 32)%Z).
  { rewrite N2Z.inj_mod. rewrite nat_N_Z. reflexivity. }
  set (t := to_int (Z.of_nat (prod l))) in *.
  destruct (Z_lt_le_dec t 0) as [Hneg|Hpos].
  - assert (T64 : (t mod 2 ^ 64 = t + 2 ^ 64)%Z).
    { symmetry. apply Z.mod_unique_pos with (q := (-1)%Z); lia. }
    assert (T32 : (t mod 2 ^ 32 = t + 2 ^ 32)%Z).
    { symmetry. apply Z.mod_unique_pos with (q := (-1)%Z); lia. }
    rewrite T64. rewrite T32 in M. split; intros K.
    + exfalso. lia.
    + exfalso. apply (f_equal Z.of_N) in K. rewrite E, <- M, nat_N_Z in K. lia.
  - rewrite Z.mod_small by lia. rewrite Z.mod_small in M by lia. split; intros K.
    + apply N2Z.inj. rewrite E, <- M, nat_N_Z. lia.
    + apply (f_equal Z.of_N) in K. rewrite E, <- M, nat_N_Z in K. lia.
Qed.

(** ** Row-major ranks *)
Fixpoint rank (shape coords : list nat) : nat :=
  match shape, coords with
  | _ :: r, c :: cr => c * prod r + rank r cr
  | _, _ => 0
  end.

Lemma prod_app a b : prod (a ++ b) = prod a * prod b.
Proof. induction a; simpl; lia. Qed.

Lemma row_major_length s : length (row_major s) = prod s.
Proof.
  induction s as [|n r IH]; [reflexivity|]. cbn [row_major prod].
  generalize 0 as k. induction n as [|n IHn]; intros k; [reflexivity|].
  cbn [seq flat_map]. rewrite app_length, map_length, IH, IHn. lia.
Qed.

Lemma nth_flat_rows {A} (f : nat -> list A) (m : nat) n k i j :
  (forall x, length (f x) = m) -> i < n -> j < m ->
  nth_error (flat_map f (seq k n)) (i * m + j) = nth_error (f (k + i)) j.
Proof.
  intros Hf. revert k i. induction n as [|n IH]; intros k i Hi Hj; [lia|].
  cbn [seq flat_map]. destruct i as [|i].
  - rewrite nth_error_app1 by (rewrite Hf; simpl; lia). f_equal. f_equal. lia.
  - rewrite nth_error_app2 by (rewrite Hf; simpl; lia). rewrite Hf.
    replace (S i * m + j - m) with (i * m + j) by (simpl; lia).
    rewrite IH by lia. f_equal. f_equal. lia.
Qed.

Lemma rank_lt s c : in_range s c -> rank s c < prod s.
Proof.
  intros H. induction H as [|c n cr r Hc Hr IH]; simpl; [lia|].
  assert (c * prod r + prod r <= n * prod r).
  { replace (c * prod r + prod r) with (S c * prod r) by (simpl; lia). apply Nat.mul_le_mono_r. lia. }
  lia.
Qed.

Lemma row_major_rank s c : in_range s c -> nth_error (row_major s) (rank s c) = Some c.
Proof.
  intros H. induction H as [|c n cr r Hc Hr IH]; [reflexivity|].
  cbn [row_major rank].
  rewrite (nth_flat_rows _ (prod r)); [| |assumption|apply rank_lt; assumption].
  - simpl. apply map_nth_error, IH.
  - intros x. rewrite map_length. apply row_major_length.
Qed.

Lemma row_major_in s c : In c (row_major s) <-> in_range s c.
Proof.
  revert c. induction s as [|n r IH]; intros c; cbn [row_major].
  - split.
    + intros [<-|[]]. constructor.
    + intros H. inversion H. left. reflexivity.
  - rewrite in_flat_map. split.
    + intros (i & Hi & Hc). apply in_seq in Hi. apply in_map_iff in Hc.
      destruct Hc as (c' & <- & Hc'). constructor; [lia|]. apply IH, Hc'.
    + intros H. inversion H; subst. exists x. split; [apply in_seq; lia|].
      apply in_map, IH. assumption.
Qed.

Lemma row_major_nodup s : NoDup (row_major s).
Proof.
  (* positions are determined by the rank *)
  apply NoDup_nth_error. intros i j Hi E.
  assert (K : forall p c, nth_error (row_major s) p = Some c -> rank s c = p).
  { clear. induction s as [|n r IH]; intros p c H.
    - destruct p as [|p]; [injection H as <-; reflexivity|]. destruct p; discriminate.
    - assert (Hp : p < prod (n :: r)) by (rewrite <- row_major_length; apply nth_error_Some; congruence).
      cbn [prod] in Hp.
      assert (Hr : prod r <> 0) by (intros E; rewrite E in Hp; lia).
      pose proof (Nat.div_mod p (prod r) Hr) as D.
      pose proof (Nat.mod_upper_bound p (prod r) Hr) as D2.
      assert (p / prod r < n) by (apply Nat.div_lt_upper_bound; [assumption|lia]).
      replace p with (p / prod r * prod r + p mod prod r) in H by lia.
      cbn [row_major] in H. rewrite (nth_flat_rows _ (prod r)) in H; [|intros; rewrite map_length; apply row_major_length|assumption|assumption].
      rewrite nth_error_map in H. destruct (nth_error (row_major r) (p mod prod r)) as [c'|] eqn:Ec; [|discriminate].
      injection H as <-. cbn [rank]. rewrite (IH _ _ Ec). lia. }
  destruct (nth_error (row_major s) i) as [c|] eqn:Ei.
  - symmetry in E. apply K in Ei. apply K in E. congruence.
  - apply nth_error_None in Ei. lia.
Qed.

Lemma nth_row_major s p c : nth_error (row_major s) p = Some c <-> in_range s c /\ rank s c = p.
Proof.
  split.
  - intros H. assert (Hin : in_range s c) by (apply row_major_in; eapply nth_error_In; eassumption).
    split; [assumption|].
    assert (Hl : p < length (row_major s)) by (apply nth_error_Some; congruence).
    eapply (proj1 (NoDup_nth_error _) (row_major_nodup s)).
    + rewrite row_major_length. apply rank_lt. assumption.
    + rewrite row_major_rank by assumption. congruence.
  - intros (H & <-). apply row_major_rank, H.
Qed.

(** ** Strides *)
Lemma strides_acc_snd s : snd (strides_acc s) = prod s.
Proof.
  induction s as [|n r IH]; [reflexivity|]. simpl. destruct (strides_acc r) as [x acc]. simpl in *. lia.
Qed.

Lemma update_strides_cons n r : update_strides (n :: r) = prod r :: update_strides r.
Proof.
  unfold update_strides. simpl. pose proof (strides_acc_snd r) as H. destruct (strides_acc r). simpl in *. congruence.
Qed.

Lemma update_strides_length s : length (update_strides s) = length s.
Proof. induction s as [|n r IH]; [reflexivity|]. rewrite update_strides_cons. simpl. congruence. Qed.

Lemma update_strides_last s : s <> [] -> last (update_strides s) 0 = 1.
Proof.
  induction s as [|n r IH]; [congruence|]. intros _. rewrite update_strides_cons.
  destruct r as [|m r]; [reflexivity|]. rewrite update_strides_cons in *.
  change (last (prod r :: update_strides r) 0 = 1). apply IH. discriminate.
Qed.

Lemma update_strides_snoc s n : update_strides (s ++ [n]) = map (fun x => n * x) (update_strides s) ++ [1].
Proof.
  induction s as [|m r IH]; [reflexivity|]. simpl app. rewrite !update_strides_cons, IH, prod_app. simpl. f_equal. lia.
Qed.

(** The strides of [a] are those of its shape times a constant. *)
Definition scaled (k : nat) (a : ndarray) : Prop :=
  nd_strides a = map (fun x => k * x) (update_strides (nd_shape a)).

Lemma offset_loop_scaled k o coords shape : length coords = length shape ->
  (in_range shape coords ->
     offset_loop o coords shape (map (fun x => k * x) (update_strides shape)) = Ok (o + k * rank shape coords)) /\
  (~ in_range shape coords ->
     offset_loop o coords shape (map (fun x => k * x) (update_strides shape)) = Throw).
Proof.
  revert o coords. induction shape as [|n r IH]; intros o [|c cr] Hl; try discriminate.
  - split; [intros _; simpl; f_equal; lia|]. intros H. exfalso. apply H. constructor.
  - rewrite update_strides_cons. cbn [map offset_loop].
    injection Hl as Hl. destruct (Nat.leb_spec n c) as [Hc|Hc].
    + split; [intros H; inversion H; lia|reflexivity].
    + destruct (IH (o + c * (k * prod r)) cr Hl) as (I1 & I2). split.
      * intros H. inversion H; subst. rewrite I1 by assumption. f_equal. cbn [rank]. lia.
      * intros H. apply I2. intros H'. apply H. constructor; assumption.
Qed.

Lemma in_range_length s c : in_range s c -> length c = length s.
Proof. intros H. induction H; simpl; congruence. Qed.

Lemma get_offset_scaled k a coords : scaled k a ->
  (in_range (nd_shape a) coords ->
     get_offset a coords = Ok (nd_offset a + k * rank (nd_shape a) coords)) /\
  (~ in_range (nd_shape a) coords -> get_offset a coords = Throw).
Proof.
  intros Hs. unfold get_offset. rewrite Hs.
  destruct (Nat.eqb_spec (length coords) (length (nd_shape a))) as [E|E]; simpl.
  - apply offset_loop_scaled. assumption.
  - split; [|reflexivity]. intros H. apply in_range_length in H. congruence.
Qed.

(** ** Views *)
Definition well_strided (a : ndarray) : Prop := length (nd_strides a) = length (nd_shape a).

Lemma scaled_well k a : scaled k a -> well_strided a.
Proof. unfold scaled, well_strided. intros ->. rewrite map_length. apply update_strides_length. Qed.

Lemma offset_loop_app o c1 c2 s1 s2 t1 t2 :
  length c1 = length s1 -> length s1 = length t1 ->
  offset_loop o (c1 ++ c2) (s1 ++ s2) (t1 ++ t2)
  = bind (offset_loop o c1 s1 t1) (fun o' => offset_loop o' c2 s2 t2).
Proof.
  revert o s1 t1. induction c1 as [|c c1 IH]; intros o [|n s1] [|t t1] H1 H2; try discriminate; [reflexivity|].
  simpl. destruct (Nat.leb n c); [reflexivity|]. apply IH; simpl in *; lia.
Qed.

Lemma slice_inv a i b : nd_slice a i = Ok b -> exists n s, nd_shape a = n :: nd_shape b /\
  nd_strides a = s :: nd_strides b /\ i < n /\ nd_shape b <> [] /\ nd_offset b = nd_offset a + i * s /\
  nd_container b = nd_container a /\ nd_size b = int_product (nd_shape b).
Proof.
  unfold nd_slice. destruct (nd_shape a) as [|n [|m r]]; try discriminate.
  destruct (nd_strides a) as [|s t]; [discriminate|].
  destruct (Nat.leb_spec n i) as [H|H]; [discriminate|]. intros E. injection E as <-. simpl.
  exists n, s. do 3 (split; [first [reflexivity|assumption]|]). split; [discriminate|]. auto.
Qed.

Lemma rslice_inv a i b : nd_rslice a i = Ok b -> well_strided a -> exists n s, nd_shape a = nd_shape b ++ [n] /\
  nd_strides a = nd_strides b ++ [s] /\ i < n /\ nd_shape b <> [] /\ nd_offset b = nd_offset a + i * s /\
  nd_container b = nd_container a /\ nd_size b = int_product (nd_shape b).
Proof.
  unfold nd_rslice. intros H Hw. remember (nd_shape a) as sh eqn:Esh.
  assert (E : exists x y z, sh = x :: y :: z) by (destruct sh as [|x [|y z]]; try discriminate; eauto).
  assert (H' : match nd_strides a with
      | [] => UB
      | _ :: _ => if Nat.leb (last sh 0) i then Throw
          else Ok (mkNd (nd_container a) (nd_offset a + i * last (nd_strides a) 0)
                    (removelast sh) (removelast (nd_strides a)) (removelast (nd_attrs a))
                    (int_product (removelast sh)))
      end = Ok b) by (destruct sh as [|x [|y z]]; try discriminate; exact H).
  clear H. remember (nd_strides a) as st eqn:Est. destruct st as [|s0 st0]; [discriminate|].
  rewrite Est in *. clear Est s0 st0.
  destruct (Nat.leb_spec (last sh 0) i) as [Hi|Hi]; [discriminate|]. injection H' as <-. cbn [nd_shape nd_strides nd_offset nd_container nd_size].
  exists (last sh 0), (last (nd_strides a) 0).
  assert (Hsh : sh <> []) by (destruct E as (x & y & z & ->); discriminate).
  assert (Hst : nd_strides a <> []).
  { intros E0. unfold well_strided in Hw. rewrite E0, <- Esh in Hw. destruct sh; [congruence|discriminate]. }
  split; [apply app_removelast_last; assumption|]. split; [apply app_removelast_last; assumption|].
  split; [assumption|]. split; [|repeat split].
  destruct E as (x & y & z & ->). simpl. discriminate.
Qed.

Lemma slice_offset a i b coords : nd_slice a i = Ok b -> get_offset b coords = get_offset a (i :: coords).
Proof.
  intros H. destruct (slice_inv _ _ _ H) as (n & s & E1 & E2 & Hi & _ & E3 & _).
  unfold get_offset. rewrite E1. simpl length. cbn [Nat.eqb]. destruct (Nat.eqb (length coords) (length (nd_shape b))); simpl; [|reflexivity].
  rewrite E2. destruct (Nat.leb_spec n i); [lia|]. rewrite E3. reflexivity.
Qed.

Lemma rslice_offset a i b coords : nd_rslice a i = Ok b -> well_strided a ->
  get_offset b coords = get_offset a (coords ++ [i]).
Proof.
  intros H Hw. destruct (rslice_inv _ _ _ H Hw) as (n & s & E1 & E2 & Hi & _ & E3 & _).
  unfold well_strided in Hw. rewrite E1, E2, !app_length in Hw. simpl in Hw.
  unfold get_offset. rewrite E1, E2, !app_length. simpl length.
  destruct (Nat.eqb_spec (length coords) (length (nd_shape b))) as [E|E].
  - rewrite E, Nat.eqb_refl. simpl negb. cbn iota.
    rewrite offset_loop_app by lia. rewrite E3. clear - Hi.
    assert (G : forall o1 o2 c sh st, o2 = o1 + i * s ->
      offset_loop o2 c sh st = bind (offset_loop o1 c sh st) (fun o' => offset_loop o' [i] [n] [s])).
    { intros o1 o2 c. revert o1 o2. induction c as [|x c IH]; intros o1 o2 sh st ->.
      - simpl. destruct (Nat.leb_spec n i); [lia|reflexivity].
      - destruct sh as [|y sh]; [reflexivity|]. destruct st as [|z st]; [reflexivity|]. simpl.
        destruct (Nat.leb y x); [reflexivity|]. apply IH. lia. }
    apply G. reflexivity.
  - replace (Nat.eqb (length coords + 1) (length (nd_shape b) + 1)) with false; [reflexivity|].
    symmetry. apply Nat.eqb_neq. lia.
Qed.

Lemma view_scaled k a op b : scaled k a -> apply_view a op = Ok b -> exists k', scaled k' b.
Proof.
  unfold scaled. intros Hs H. destruct op as [i|i]; simpl in H.
  - destruct (slice_inv _ _ _ H) as (n & s & E1 & E2 & _). rewrite E1, E2, update_strides_cons in Hs.
    simpl in Hs. injection Hs as _ Hs. exists k. assumption.
  - destruct (rslice_inv _ _ _ H (scaled_well k a Hs)) as (n & s & E1 & E2 & _).
    rewrite E1, E2, update_strides_snoc, map_app in Hs. simpl in Hs.
    apply app_inj_tail in Hs. destruct Hs as (Hs & _). exists (k * n). rewrite Hs, map_map.
    apply map_ext. intros x. lia.
Qed.

Lemma view_container a op b : well_strided a -> apply_view a op = Ok b -> nd_container b = nd_container a.
Proof.
  intros Hw H. destruct op as [i|i]; simpl in H.
  - apply slice_inv in H. destruct H as (n & s & H). tauto.
  - apply rslice_inv in H; [|assumption]. destruct H as (n & s & H). tauto.
Qed.

Lemma views_spec k a ops b : scaled k a -> apply_views a ops = Ok b ->
  (exists k', scaled k' b) /\ nd_container b = nd_container a /\
  (forall coords, get_offset b coords = get_offset a (embed ops coords)).
Proof.
  revert k a. induction ops as [|op ops IH]; intros k a Hs H; simpl in H.
  - injection H as <-. split; [exists k; assumption|]. split; [reflexivity|]. reflexivity.
  - destruct (apply_view a op) as [c| | |] eqn:E; try discriminate. simpl in H.
    destruct (view_scaled _ _ _ _ Hs E) as (k' & Hs').
    destruct (IH _ _ Hs' H) as (H1 & H2 & H3). split; [assumption|].
    split; [rewrite H2; apply view_container with op; [eapply scaled_well|]; eassumption|].
    intros coords. rewrite H3. destruct op as [i|i]; simpl in *.
    + apply slice_offset. assumption.
    + apply rslice_offset; [assumption|]. eapply scaled_well. eassumption.
Qed.

(** Sizes of views. *)
Lemma prod_pos_sub n s : prod (n :: s) < prod s -> n = 0.
Proof. simpl. destruct n; [reflexivity|]. simpl. lia. Qed.

Lemma view_prod a op b : well_strided a -> apply_view a op = Ok b ->
  prod (nd_shape b) <= prod (nd_shape a) /\ nd_shape b <> [] /\ nd_size b = int_product (nd_shape b).
Proof.
  intros Hw H. destruct op as [i|i]; simpl in H.
  - destruct (slice_inv _ _ _ H) as (n & s & E1 & _ & Hi & Hn & _ & _ & Hz). rewrite E1. simpl.
    destruct n; [lia|]. simpl. split; [lia|]. split; assumption.
  - destruct (rslice_inv _ _ _ H Hw) as (n & s & E1 & _ & Hi & Hn & _ & _ & Hz). rewrite E1, prod_app. simpl.
    destruct n; [lia|]. rewrite Nat.mul_1_r. split; [|split; assumption].
    rewrite <- (Nat.mul_1_r (prod (nd_shape b))) at 1. apply Nat.mul_le_mono_l. lia.
Qed.

Lemma views_size k a ops b : scaled k a -> apply_views a ops = Ok b ->
  below_2_31 (prod (nd_shape a)) -> nd_size a = prod (nd_shape a) ->
  below_2_31 (prod (nd_shape b)) /\ nd_size b = prod (nd_shape b) /\ (nd_shape a <> [] -> nd_shape b <> []).
Proof.
  revert k a. induction ops as [|op ops IH]; intros k a Hs H Hp Hz; simpl in H.
  - injection H as <-. auto.
  - destruct (apply_view a op) as [c| | |] eqn:E; try discriminate. simpl in H.
    destruct (view_scaled _ _ _ _ Hs E) as (k' & Hs').
    destruct (view_prod _ _ _ (scaled_well _ _ Hs) E) as (P1 & P2 & P3).
    assert (Hc : below_2_31 (prod (nd_shape c))) by (unfold below_2_31 in *; lia).
    destruct (IH k' c Hs' H Hc) as (I1 & I2 & I3).
    { rewrite P3. apply int_product_small. assumption. }
    split; [assumption|]. split; [assumption|]. intros _. apply I3, P2.
Qed.

(** ** Built arrays *)
Lemma built_inv T a shape attrs : built T a shape attrs ->
  nd_shape a = shape /\ nd_offset a = 0 /\ nd_strides a = update_strides shape /\
  nd_size a = u32_product shape /\ nd_attrs a = attrs.
Proof.
  intros H. destruct H as [h zero shape h' a E|h shape data h' a E|h shape attrs data h' a E].
  - injection E as _ <-. simpl. auto.
  - unfold nd_from_data in E. destruct (negb _); [discriminate|]. injection E as _ <-. simpl. auto.
  - unfold nd_from_data_attrs, nd_from_data in E. destruct (negb _); [discriminate|]. simpl in E.
    injection E as _ <-. simpl. auto.
Qed.

Lemma map_mul_1 l : map (fun x => 1 * x) l = l.
Proof. rewrite <- (map_id l) at 2. apply map_ext. intros; lia. Qed.

Lemma built_scaled T a shape attrs : built T a shape attrs -> scaled 1 a.
Proof.
  intros H. destruct (built_inv _ _ _ _ H) as (E1 & E2 & E3 & _). unfold scaled.
  rewrite E1, E3, map_mul_1. reflexivity.
Qed.

Lemma of_option_nth {T} (l : list T) p : p < length l -> exists x, nth_error l p = Some x.
Proof. intros H. destruct (nth_error l p) eqn:E; [eauto|]. apply nth_error_None in E. lia. Qed.

(** C11 *)
Lemma at_spec {T} (h : heap T) a shape attrs data coords :
  built T a shape attrs -> holds h a data -> length data = prod shape ->
  (forall p, nth_error (row_major shape) p = Some coords ->
     exists x, nth_error data p = Some x /\ nd_at h a coords = Ok x) /\
  (~ In coords (row_major shape) -> nd_at h a coords = Throw).
Proof.
  intros Hb Hh Hd. destruct (built_inv _ _ _ _ Hb) as (E1 & E2 & E3 & _).
  destruct (get_offset_scaled 1 a coords (built_scaled _ _ _ _ Hb)) as (G1 & G2).
  rewrite E1, E2 in *. unfold nd_at, container_get. rewrite Hh. split.
  - intros p Hp. apply nth_row_major in Hp. destruct Hp as (Hr & <-).
    rewrite G1 by assumption. simpl.
    destruct (of_option_nth data (rank shape coords)) as (x & Hx); [rewrite Hd; apply rank_lt; assumption|].
    exists x. split; [assumption|]. replace (rank shape coords + 0) with (rank shape coords) by lia.
    rewrite Hx. reflexivity.
  - rewrite row_major_in. intros H. rewrite G2 by assumption. reflexivity.
Qed.

(** ** Iteration *)
Lemma ni_eqb_iff a b : ni_eqb a b = true <-> a = b.
Proof.
  unfold ni_eqb. rewrite !andb_true_iff, !Nat.eqb_eq. destruct a, b; simpl. split.
  - intros ((((-> & ->) & ->) & ->) & ->). reflexivity.
  - intros E. injection E as -> -> -> -> ->. auto.
Qed.

Lemma iterate_spec {T} (h : heap T) c data off row stride :
  nth_error h c = Some data ->
  forall n i fuel, n < fuel ->
  (forall j, i <= j -> j < i + n -> off + j * stride < length data) ->
  exists l, iterate h fuel (mkNdIter c off row stride i) (mkNdIter c off row stride (i + n)) = Ok l /\
    length l = n /\ forall j, j < n -> nth_error l j = nth_error data (off + (i + j) * stride).
Proof.
  intros Hh. induction n as [|n IH]; intros i fuel Hf Hb.
  - destruct fuel as [|fuel]; [lia|]. exists []. split; [|split; [reflexivity|intros; lia]].
    cbn [iterate]. replace (i + 0) with i by lia.
    replace (ni_eqb _ _) with true by (symmetry; apply ni_eqb_iff; reflexivity). reflexivity.
  - destruct fuel as [|fuel]; [lia|]. cbn [iterate].
    replace (ni_eqb _ _) with false.
    2:{ symmetry. apply not_true_iff_false. rewrite ni_eqb_iff. intros E. injection E as E. lia. }
    destruct (of_option_nth data (off + i * stride)) as (x & Hx); [apply Hb; lia|].
    unfold ni_get at 1, container_get. simpl ni_container. rewrite Hh. cbn [of_option bind].
    cbn [ni_offset ni_i ni_stride]. replace (i + 0) with i by lia. rewrite Hx. cbn [of_option bind].
    unfold ni_incr. cbn [ni_container ni_offset ni_row_size ni_stride ni_i].
    destruct (IH (S i) fuel) as (l & Hl & Hlen & Hn); [lia|intros; apply Hb; lia|].
    replace (i + S n) with (S i + n) by lia. rewrite Hl. simpl.
    exists (x :: l). split; [reflexivity|]. split; [simpl; congruence|].
    intros [|j] Hj; simpl.
    + rewrite <- Hx. f_equal. lia.
    + rewrite Hn by lia. f_equal. simpl. lia.
Qed.

Lemma nd_elements_scaled {T} (h : heap T) k a data :
  scaled k a -> nd_shape a <> [] -> holds h a data ->
  nd_size a = prod (nd_shape a) ->
  (forall coords, in_range (nd_shape a) coords -> nd_offset a + k * rank (nd_shape a) coords < length data) ->
  exists l, nd_elements h a = Ok l /\ length l = prod (nd_shape a) /\
    forall p coords, nth_error (row_major (nd_shape a)) p = Some coords ->
      nth_error l p = nth_error data (nd_offset a + k * p).
Proof.
  intros Hs Hn Hh Hz Hb.
  assert (Hlast : nd_strides a <> [] /\ last (nd_strides a) 0 = k).
  { rewrite Hs. split.
    - destruct (nd_shape a); [congruence|]. rewrite update_strides_cons. discriminate.
    - pose proof (update_strides_last (nd_shape a) Hn) as L.
      destruct (update_strides (nd_shape a)) as [|u us] eqn:E using rev_ind.
      + simpl in L. discriminate.
      + rewrite map_app. simpl. rewrite !last_last in *. subst u. lia. }
  destruct Hlast as (Hne & Hlast).
  unfold nd_elements, nd_begin, nd_end, nd_iter. destruct (nd_strides a) as [|s0 st]; [congruence|].
  rewrite Hlast. cbn [bind].
  destruct (iterate_spec h (nd_container a) data (nd_offset a) (int_product (nd_shape a)) k Hh
              (nd_size a) 0 (S (nd_size a))) as (l & Hl & Hlen & Hnth); [lia| |].
  - intros j _ Hj. rewrite Hz in Hj. simpl in Hj.
    assert (Hj' : j < length (row_major (nd_shape a))) by (rewrite row_major_length; assumption).
    destruct (of_option_nth _ _ Hj') as (c & Hc). apply nth_row_major in Hc. destruct Hc as (Hr & <-).
    rewrite Nat.mul_comm. apply Hb. assumption.
  - simpl in Hl. exists l. split; [assumption|]. split; [congruence|].
    intros p coords Hp. rewrite Hnth.
    + simpl. f_equal. lia.
    + rewrite Hz, <- row_major_length. apply nth_error_Some. congruence.
Qed.

(** Any view of a built array *)
Lemma view_bounds {T} (h : heap T) a shape attrs data ops v coords :
  built T a shape attrs -> holds h a data -> length data = prod shape ->
  apply_views a ops = Ok v -> in_range (nd_shape v) coords ->
  exists k, scaled k v /\ nd_offset v + k * rank (nd_shape v) coords < length data.
Proof.
  intros Hb Hh Hd Hv Hr. destruct (built_inv _ _ _ _ Hb) as (E1 & E2 & E3 & _).
  destruct (views_spec 1 a ops v (built_scaled _ _ _ _ Hb) Hv) as ((k & Hk) & Hc & Ho).
  exists k. split; [assumption|].
  destruct (get_offset_scaled k v coords Hk) as (G1 & _). specialize (G1 Hr). rewrite Ho in G1.
  destruct (get_offset_scaled 1 a (embed ops coords) (built_scaled _ _ _ _ Hb)) as (A1 & A2).
  rewrite E1, E2 in *.
  destruct (in_dec (list_eq_dec Nat.eq_dec) (embed ops coords) (row_major shape)) as [Hin|Hin];
    rewrite row_major_in in Hin.
  - rewrite A1 in G1 by assumption. injection G1 as <-. rewrite Hd. simpl. rewrite Nat.add_0_r. apply rank_lt. assumption.
  - rewrite A2 in G1 by assumption. discriminate.
Qed.

Lemma scaled_unique k k' v : scaled k v -> scaled k' v -> nd_shape v <> [] -> k = k'.
Proof.
  unfold scaled. intros H1 H2 Hn. rewrite H1 in H2. apply (f_equal (fun l => last l 0)) in H2.
  destruct (update_strides (nd_shape v)) as [|u us] eqn:E using rev_ind.
  - apply (f_equal (@List.length nat)) in E. rewrite update_strides_length in E. destruct (nd_shape v); [congruence|discriminate].
  - rewrite !map_app in H2. simpl in H2. rewrite !last_last in H2.
    pose proof (update_strides_last (nd_shape v) Hn) as L. rewrite E, last_last in L. lia.
Qed.

(** C12 *)
Lemma elements_spec {T} (h : heap T) a shape attrs data ops v :
  built T a shape attrs -> holds h a data -> length data = prod shape ->
  below_2_31 (prod shape) -> shape <> [] ->
  apply_views a ops = Ok v ->
  exists l, nd_elements h v = Ok l /\ Forall2 (fun coords x => nd_at h v coords = Ok x) (row_major (nd_shape v)) l.
Proof.
  intros Hb Hh Hd Hp Hne Hv. destruct (built_inv _ _ _ _ Hb) as (E1 & E2 & E3 & E4 & _).
  pose proof (built_scaled _ _ _ _ Hb) as Hs.
  destruct (views_spec 1 a ops v Hs Hv) as ((k & Hk) & Hc & Ho).
  assert (Hz : nd_size a = prod (nd_shape a)).
  { rewrite E4, E1. apply u32_product_small. unfold below_2_31, below_2_32 in *. lia. }
  destruct (views_size 1 a ops v Hs Hv ltac:(rewrite E1; assumption) Hz) as (V1 & V2 & V3).
  rewrite E1 in V3. specialize (V3 Hne).
  assert (Hhv : holds h v data) by (unfold holds; rewrite Hc; exact Hh).
  assert (Hbnd : forall coords, in_range (nd_shape v) coords -> nd_offset v + k * rank (nd_shape v) coords < length data).
  { intros coords Hr. destruct (view_bounds h a shape attrs data ops v coords Hb Hh Hd Hv Hr) as (k' & Hk' & HB).
    rewrite (scaled_unique k k' v); assumption. }
  destruct (nd_elements_scaled h k v data Hk V3 Hhv V2 Hbnd) as (l & Hl & Hlen & Hn).
  exists l. split; [assumption|].
  assert (G : forall p coords x, nth_error (row_major (nd_shape v)) p = Some coords -> nth_error l p = Some x ->
     nd_at h v coords = Ok x).
  { intros p coords x Hpc Hx. rewrite (Hn p coords Hpc) in Hx. apply nth_row_major in Hpc. destruct Hpc as (Hr & <-).
    unfold nd_at, container_get. rewrite (proj1 (get_offset_scaled k v coords Hk) Hr). cbn [bind].
    unfold holds in Hhv. rewrite Hhv. cbn [of_option bind]. rewrite Hx. reflexivity. }
  rewrite <- row_major_length in Hlen. clear - G Hlen. revert l Hlen G.
  induction (row_major (nd_shape v)) as [|c cs IH]; intros [|x l] Hlen G; try discriminate; constructor.
  - apply (G 0); reflexivity.
  - apply IH; [simpl in Hlen; lia|]. intros p coords y H1 H2. apply (G (S p)); assumption.
Qed.

(** C13 *)
Lemma view_at {T} (h : heap T) a shape attrs ops v coords :
  built T a shape attrs -> apply_views a ops = Ok v ->
  nd_at h v coords = nd_at h a (embed ops coords).
Proof.
  intros Hb Hv. destruct (views_spec 1 a ops v (built_scaled _ _ _ _ Hb) Hv) as (_ & Hc & Ho).
  unfold nd_at. rewrite Ho, Hc. reflexivity.
Qed.

Lemma view_write {T} (h : heap T) a shape attrs ops v coords x :
  built T a shape attrs -> apply_views a ops = Ok v ->
  nd_write h v coords x = nd_write h a (embed ops coords) x.
Proof.
  intros Hb Hv. destruct (views_spec 1 a ops v (built_scaled _ _ _ _ Hb) Hv) as (_ & Hc & Ho).
  unfold nd_write. rewrite Ho, Hc. reflexivity.
Qed.

Lemma set_nth_spec {A} (l : list A) i x : i < length l -> exists l', set_nth l i x = Some l' /\
  length l' = length l /\ nth_error l' i = Some x /\ forall j, j <> i -> nth_error l' j = nth_error l j.
Proof.
  revert i. induction l as [|y l IH]; intros [|i] H; simpl in *; try lia.
  - exists (x :: l). split; [reflexivity|]. split; [reflexivity|]. split; [reflexivity|].
    intros [|j] Hj; [congruence|reflexivity].
  - destruct (IH i) as (l' & E & H1 & H2 & H3); [lia|]. rewrite E. exists (y :: l').
    split; [reflexivity|]. split; [simpl; congruence|]. split; [assumption|].
    intros [|j] Hj; [reflexivity|]. apply H3. congruence.
Qed.

Lemma set_nth_some {A} (l : list A) i x l' : set_nth l i x = Some l' -> i < length l.
Proof.
  revert i l'. induction l as [|y l IH]; intros [|i] l' H; simpl in *; try discriminate; [lia|].
  destruct (set_nth l i x) as [r|] eqn:E; [|discriminate]. apply IH in E. lia.
Qed.

Lemma container_set_spec {T} (h h' : heap T) c pos x : container_set h c pos x = Ok h' ->
  exists l l', nth_error h c = Some l /\ nth_error h' c = Some l' /\ length l' = length l /\ pos < length l /\
    nth_error l' pos = Some x /\ (forall j, j <> pos -> nth_error l' j = nth_error l j) /\
    (forall d, d <> c -> nth_error h' d = nth_error h d) /\ length h' = length h.
Proof.
  unfold container_set. destruct (nth_error h c) as [l|] eqn:Ec; [|discriminate]. cbn [of_option bind].
  destruct (set_nth l pos x) as [l'|] eqn:El; [|discriminate]. cbn [of_option bind].
  destruct (set_nth h c l') as [h2|] eqn:Eh; [|discriminate]. intros E. injection E as <-.
  pose proof (set_nth_some _ _ _ _ El) as Hp. pose proof (set_nth_some _ _ _ _ Eh) as Hc.
  destruct (set_nth_spec l pos x Hp) as (l2 & E2 & L1 & L2 & L3). rewrite El in E2. injection E2 as <-.
  destruct (set_nth_spec h c l' Hc) as (h3 & E3 & K1 & K2 & K3). rewrite Eh in E3. injection E3 as <-.
  exists l, l'. repeat split; auto.
Qed.

Lemma write_ok {T} (h : heap T) a shape attrs data coords x :
  built T a shape attrs -> holds h a data -> length data = prod shape ->
  (In coords (row_major shape) -> exists h', nd_write h a coords x = Ok h') /\
  (~ In coords (row_major shape) -> nd_write h a coords x = Throw).
Proof.
  intros Hb Hh Hd. destruct (built_inv _ _ _ _ Hb) as (E1 & E2 & E3 & _).
  destruct (get_offset_scaled 1 a coords (built_scaled _ _ _ _ Hb)) as (G1 & G2).
  rewrite E1, E2 in *. unfold nd_write. rewrite row_major_in. split; intros H.
  - rewrite G1 by assumption. cbn [bind]. unfold container_set. rewrite Hh. cbn [of_option bind].
    pose proof (rank_lt _ _ H). destruct (set_nth_spec data (0 + 1 * rank shape coords) x) as (l' & E & _); [lia|].
    rewrite E. cbn [of_option bind].
    destruct (set_nth_spec h (nd_container a) l') as (h' & E' & _).
    { apply nth_error_Some. rewrite Hh. discriminate. }
    rewrite E'. eexists. reflexivity.
  - rewrite G2 by assumption. reflexivity.
Qed.

Lemma rank_inj s c d : in_range s c -> in_range s d -> rank s c = rank s d -> c = d.
Proof.
  intros H1 H2 E. apply row_major_rank in H1. apply row_major_rank in H2. congruence.
Qed.

Lemma write_read {T} (h h' : heap T) a shape attrs data c1 c2 x :
  built T a shape attrs -> holds h a data -> length data = prod shape ->
  nd_write h a c1 x = Ok h' ->
  (exists data', holds h' a data' /\ length data' = length data) /\
  (c1 = c2 -> nd_at h' a c2 = Ok x) /\
  (c1 <> c2 -> nd_at h' a c2 = nd_at h a c2).
Proof.
  intros Hb Hh Hd Hw. pose proof (built_scaled _ _ _ _ Hb) as Hs.
  destruct (built_inv _ _ _ _ Hb) as (E1 & E2 & E3 & _).
  unfold nd_write in Hw. destruct (get_offset a c1) as [o| | |] eqn:Eo; try discriminate. cbn [bind] in Hw.
  assert (R1 : in_range shape c1).
  { destruct (in_dec (list_eq_dec Nat.eq_dec) c1 (row_major shape)) as [Hin|Hin]; rewrite row_major_in in Hin; [assumption|].
    rewrite <- E1 in Hin. rewrite (proj2 (get_offset_scaled 1 a c1 Hs) Hin) in Eo. discriminate. }
  assert (Ho : o = rank shape c1).
  { destruct (get_offset_scaled 1 a c1 Hs) as (G & _). rewrite E1, E2 in G. rewrite G in Eo by assumption. injection Eo as <-. lia. }
  destruct (container_set_spec _ _ _ _ _ Hw) as (l & l' & H1 & H2 & H3 & H4 & H5 & H6 & H7 & H8).
  rewrite Hh in H1. injection H1 as <-.
  split; [exists l'; split; assumption|].
  unfold nd_at, container_get. rewrite Hh, H2. cbn [of_option bind].
  destruct (get_offset_scaled 1 a c2 Hs) as (G1 & G2). rewrite E1 in G1, G2. rewrite E2 in G1. split.
  - intros <-. rewrite Eo. cbn [bind]. rewrite H5. reflexivity.
  - intros Hne. destruct (in_dec (list_eq_dec Nat.eq_dec) c2 (row_major shape)) as [Hin|Hin]; rewrite row_major_in in Hin.
    + rewrite G1 by assumption. cbn [bind]. rewrite H6; [reflexivity|]. intros E. apply Hne.
      apply (rank_inj shape); [assumption|assumption|lia].
    + rewrite G2 by assumption. reflexivity.
Qed.

Lemma alias_spec {T} (h h' : heap T) a shape attrs data ops1 ops2 v1 v2 c1 c2 x :
  built T a shape attrs -> holds h a data -> length data = prod shape ->
  apply_views a ops1 = Ok v1 -> apply_views a ops2 = Ok v2 ->
  nd_write h v1 c1 x = Ok h' ->
  (embed ops1 c1 = embed ops2 c2 -> nd_at h' v2 c2 = Ok x) /\
  (embed ops1 c1 <> embed ops2 c2 -> nd_at h' v2 c2 = nd_at h v2 c2).
Proof.
  intros Hb Hh Hd Hv1 Hv2 Hw.
  rewrite (view_write h a shape attrs ops1 v1 c1 x Hb Hv1) in Hw.
  rewrite !(view_at _ a shape attrs ops2 v2 c2 Hb Hv2).
  apply (write_read h h' a shape attrs data _ _ x Hb Hh Hd Hw).
Qed.

Lemma view_well {T} a shape attrs ops v : built T a shape attrs -> apply_views a ops = Ok v -> well_strided v.
Proof.
  intros Hb Hv. destruct (views_spec 1 a ops v (built_scaled _ _ _ _ Hb) Hv) as ((k & Hk) & _).
  eapply scaled_well. eassumption.
Qed.

Lemma slice_iff a i : well_strided a ->
  (nd_slice a i = Throw <-> (length (nd_shape a) <= 1 \/ nth 0 (nd_shape a) 0 <= i)) /\
  ((exists b, nd_slice a i = Ok b) <-> (2 <= length (nd_shape a) /\ i < nth 0 (nd_shape a) 0)).
Proof.
  unfold well_strided, nd_slice. intros Hw. destruct (nd_shape a) as [|n [|m r]]; simpl.
  - split; split; try lia; try reflexivity; try (intros (b & ?); discriminate).
  - split; split; try lia; try reflexivity; try (intros (b & ?); discriminate).
  - destruct (nd_strides a) as [|s t]; [discriminate|]. destruct (Nat.leb_spec n i) as [H|H].
    + split; split; try lia; try reflexivity; try (intros (b & ?); discriminate).
    + split; split; try lia; try discriminate. intros _. eexists. reflexivity.
Qed.

Lemma rslice_iff a i : well_strided a ->
  (nd_rslice a i = Throw <-> (length (nd_shape a) <= 1 \/ last (nd_shape a) 0 <= i)) /\
  ((exists b, nd_rslice a i = Ok b) <-> (2 <= length (nd_shape a) /\ i < last (nd_shape a) 0)).
Proof.
  unfold well_strided, nd_rslice. intros Hw. destruct (nd_shape a) as [|n [|m r]].
  - simpl. split; split; try lia; try reflexivity; try (intros (b & ?); discriminate).
  - simpl length. split; split; try lia; try reflexivity; try (intros (b & ?); discriminate).
  - destruct (nd_strides a) as [|s t]; [discriminate|].
    set (z := last (n :: m :: r) 0) in *. destruct (Nat.leb_spec z i) as [H|H]; simpl length.
    + split; split; try lia; try reflexivity; try (intros (b & ?); discriminate).
    + split; split; try lia; try discriminate. intros _. eexists. reflexivity.
Qed.

Lemma slice_shape a i b : nd_slice a i = Ok b -> nd_shape b = tl (nd_shape a).
Proof. intros H. apply slice_inv in H. destruct H as (n & s & E & _). rewrite E. reflexivity. Qed.
Lemma rslice_shape a i b : nd_rslice a i = Ok b -> well_strided a -> nd_shape b = removelast (nd_shape a).
Proof.
  intros H Hw. apply rslice_inv in H; [|assumption]. destruct H as (n & s & E & _). rewrite E.
  symmetry. apply removelast_last.
Qed.
