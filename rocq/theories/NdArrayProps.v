(** NdArray: the theorems for C11 to C18. *)
From Coq Require Import List Arith NArith ZArith String Lia Bool.
From Verif Require Import Common NdArrayModel NdArraySpec NdArrayProofs NdArrayProofs2.
Import ListNotations.
Local Notation length := List.length.
Local Open Scope nat_scope.

(** A 2 x 3 array used by the examples. *)
Definition ex_h : heap nat := [[10; 11; 12; 13; 14; 15]].
Definition ex_a : ndarray := mkNd 0 0 [2; 3] [3; 1] [] 6.
Lemma ex_built : built nat ex_a [2; 3] [].
Proof. eapply (built_data nat [] [2; 3] [10; 11; 12; 13; 14; 15] _ ex_a). vm_compute. reflexivity. Qed.
Lemma ex_small : below_2_31 (prod [2; 3]). Proof. reflexivity. Qed.

(** ** C11 *)
Theorem C11_element_addressing :
  forall (T : Type) (h : heap T) a shape attrs data coords,
    built T a shape attrs -> holds h a data -> length data = prod shape ->
    (forall p, nth_error (row_major shape) p = Some coords ->
       exists x, nth_error data p = Some x /\ nd_at h a coords = Ok x) /\
    (~ In coords (row_major shape) -> nd_at h a coords = Throw).
Proof. exact @at_spec. Qed.
Print Assumptions C11_element_addressing.

(** The list of coordinates used above holds every legal coordinate vector once. *)
Theorem C11_row_major_complete :
  forall shape, NoDup (row_major shape) /\ length (row_major shape) = prod shape /\
    (forall coords, In coords (row_major shape) <->
       length coords = length shape /\
       forall k c n, nth_error coords k = Some c -> nth_error shape k = Some n -> c < n).
Proof.
  intros s. split; [apply row_major_nodup|]. split; [apply row_major_length|]. intros c. rewrite row_major_in.
  unfold in_range. split.
  - intros H. split; [eapply Forall2_len; eassumption|]. intros k x n Hx Hn.
    destruct (Forall2_nth_error _ _ _ _ _ H Hx) as (n' & Hn' & L). congruence.
  - revert c. induction s as [|m s IH]; intros [|x c] (Hl & H); try discriminate; constructor.
    + apply (H 0); reflexivity.
    + apply IH. split; [simpl in Hl; lia|]. intros k y n Hy Hn. apply (H (S k)); assumption.
Qed.
Print Assumptions C11_row_major_complete.

(** The attribute accessor. *)
Theorem C11_attribute_addressing :
  forall (T : Type) (h : heap T) a coords x,
    (~ In x (nd_attrs a) -> nd_at_attr h a coords x = Throw) /\
    (forall i, nth_error (nd_attrs a) i = Some x ->
       (forall j, j < i -> nth_error (nd_attrs a) j <> Some x) ->
       nd_at_attr h a coords x = nd_at h a (coords ++ [i])).
Proof. exact @at_attr_spec. Qed.
Print Assumptions C11_attribute_addressing.

Example C11_case :
  built nat ex_a [2; 3] [] /\ holds ex_h ex_a [10; 11; 12; 13; 14; 15] /\
  nth_error (row_major [2; 3]) 5 = Some [1; 2] /\ nd_at ex_h ex_a [1; 2] = Ok 15 /\
  nd_at ex_h ex_a [1; 3] = Throw /\ nd_at ex_h ex_a [1] = Throw.
Proof. split; [exact ex_built|]. repeat split. Qed.

(** slice() drops the first attribute name, although it is the first axis and
    not the attribute axis that disappears: names are then resolved to the wrong column. *)
Theorem C11_slice_attribute_names_refuted :
  exists (h : heap nat) a v, built nat a [2; 2] ["x"; "y"]%string /\
    nd_slice a 0 = Ok v /\ nd_at_attr h a [0] "y" = Ok 11 /\ nd_at_attr h v [] "y" = Ok 10 /\
    nd_at_attr h v [] "x" = Throw.
Proof.
  exists [[10; 11; 12; 13]], (mkNd 0 0 [2; 2] [2; 1] ["x"; "y"]%string 4). eexists.
  split. { change [2; 2] with (append_attr_shape [2] (length ["x"; "y"]%string)).
           apply (built_attrs nat [] [2] ["x"; "y"]%string [10; 11; 12; 13] [[10; 11; 12; 13]]). vm_compute. reflexivity. }
  split; [reflexivity|]. repeat split.
Qed.
Print Assumptions C11_slice_attribute_names_refuted.

(** ** C12 *)
Theorem C12_iteration_is_row_major :
  forall (T : Type) (h : heap T) a shape attrs data ops v,
    built T a shape attrs -> holds h a data -> length data = prod shape ->
    below_2_31 (prod shape) -> shape <> [] ->
    apply_views a ops = Ok v ->
    exists l, nd_elements h v = Ok l /\
      Forall2 (fun coords x => nd_at h v coords = Ok x) (row_major (nd_shape v)) l.
Proof. exact @elements_spec. Qed.
Print Assumptions C12_iteration_is_row_major.

Theorem C12_size_of_views :
  forall (T : Type) a shape attrs ops v,
    built T a shape attrs -> below_2_31 (prod shape) -> shape <> [] -> apply_views a ops = Ok v ->
    below_2_31 (prod (nd_shape v)) /\ nd_size v = prod (nd_shape v) /\ nd_shape v <> [].
Proof. exact @view_size_prod. Qed.
Print Assumptions C12_size_of_views.

Example C12_case :
  exists v, apply_views (mkNd 0 0 [2; 3; 2] [6; 2; 1] [] 12) [RSlice 1; Slice 1] = Ok v /\
    nd_elements [seq 0 12] v = Ok [7; 9; 11] /\ row_major (nd_shape v) = [[0]; [1]; [2]].
Proof. eexists. split; [reflexivity|]. split; reflexivity. Qed.

(** it++ does not move the iterator and yields the moved one, the contrary of
    the meaning of the operator. *)
Theorem C12_post_increment_refuted :
  exists a it value after, nd_begin a = Ok it /\ ni_post_incr it = (value, after) /\
    ni_get ex_h it 0 = Ok 10 /\ ni_get ex_h value 0 = Ok 11 /\ ni_get ex_h after 0 = Ok 10.
Proof. exists ex_a. do 3 eexists. split; [reflexivity|]. split; [reflexivity|]. repeat split. Qed.
Print Assumptions C12_post_increment_refuted.

(** Comparison of arrays and views. *)
Theorem C12_equality :
  forall (T : Type) (neqb : T -> T -> bool) (h : heap T) a sa aa da opsa va b sb ab db opsb vb,
    built T a sa aa -> holds h a da -> length da = prod sa -> below_2_31 (prod sa) -> sa <> [] ->
    apply_views a opsa = Ok va ->
    built T b sb ab -> holds h b db -> length db = prod sb -> below_2_31 (prod sb) -> sb <> [] ->
    apply_views b opsb = Ok vb ->
    exists r, nd_eq neqb h va vb = Ok r /\
      (r = true <-> nd_shape va = nd_shape vb /\
         forall c x y, nd_at h va c = Ok x -> nd_at h vb c = Ok y -> neqb x y = false).
Proof. exact @nd_eq_spec. Qed.
Print Assumptions C12_equality.

(** ** C13 *)
Theorem C13_views_alias_the_parent :
  forall (T : Type) (h h' : heap T) a shape attrs data ops1 ops2 v1 v2 c1 c2 x,
    built T a shape attrs -> holds h a data -> length data = prod shape ->
    apply_views a ops1 = Ok v1 -> apply_views a ops2 = Ok v2 ->
    nd_write h v1 c1 x = Ok h' ->
    (embed ops1 c1 = embed ops2 c2 -> nd_at h' v2 c2 = Ok x) /\
    (embed ops1 c1 <> embed ops2 c2 -> nd_at h' v2 c2 = nd_at h v2 c2).
Proof. exact @alias_spec. Qed.
Print Assumptions C13_views_alias_the_parent.

Theorem C13_view_reads_the_parent :
  forall (T : Type) (h : heap T) a shape attrs ops v coords,
    built T a shape attrs -> apply_views a ops = Ok v ->
    nd_at h v coords = nd_at h a (embed ops coords).
Proof. exact @view_at. Qed.
Print Assumptions C13_view_reads_the_parent.

Theorem C13_slice_outcomes :
  forall (T : Type) a shape attrs ops v i,
    built T a shape attrs -> apply_views a ops = Ok v ->
    (nd_slice v i = Throw <-> (length (nd_shape v) <= 1 \/ nth 0 (nd_shape v) 0 <= i)) /\
    ((exists b, nd_slice v i = Ok b) <-> (2 <= length (nd_shape v) /\ i < nth 0 (nd_shape v) 0)) /\
    (nd_rslice v i = Throw <-> (length (nd_shape v) <= 1 \/ last (nd_shape v) 0 <= i)) /\
    ((exists b, nd_rslice v i = Ok b) <-> (2 <= length (nd_shape v) /\ i < last (nd_shape v) 0)) /\
    (forall b, nd_slice v i = Ok b -> nd_shape b = tl (nd_shape v)) /\
    (forall b, nd_rslice v i = Ok b -> nd_shape b = removelast (nd_shape v)).
Proof.
  intros T a shape attrs ops v i Hb Hv. pose proof (view_well _ _ _ _ _ Hb Hv) as Hw.
  destruct (slice_iff v i Hw) as (A & B). destruct (rslice_iff v i Hw) as (C & D).
  repeat (split; [assumption|]). split.
  - apply slice_shape.
  - intros b Eb. eapply rslice_shape; eassumption.
Qed.
Print Assumptions C13_slice_outcomes.

Example C13_case :
  exists v1 v2 h', apply_views ex_a [Slice 1] = Ok v1 /\ apply_views ex_a [RSlice 2] = Ok v2 /\
    nd_write ex_h v1 [2] 99 = Ok h' /\ embed [Slice 1] [2] = embed [RSlice 2] [1] /\
    nd_at h' v2 [1] = Ok 99 /\ nd_at h' v2 [0] = Ok 12.
Proof. do 3 eexists. do 3 (split; [reflexivity|]). repeat split. Qed.

(** ** C14 *)
Theorem C14_reshape_keeps_the_sequence :
  forall (T : Type) (h : heap T) a shape attrs data ops v ns b,
    built T a shape attrs -> holds h a data -> length data = prod shape ->
    below_2_31 (prod shape) -> shape <> [] ->
    Forall is_slice ops -> apply_views a ops = Ok v ->
    prod ns = prod (nd_shape v) -> ns <> [] -> nd_reshape v ns = Ok b ->
    nd_shape b = ns /\
    exists l, nd_elements h v = Ok l /\ nd_elements h b = Ok l /\
      forall p coords, nth_error (row_major ns) p = Some coords ->
        nd_at h b coords = of_option (nth_error l p).
Proof. exact @reshape_elements. Qed.
Print Assumptions C14_reshape_keeps_the_sequence.

(** Which reshapes are refused: attribute names, or another number of elements modulo 2^32. *)
Theorem C14_reshape_outcomes :
  forall (T : Type) a shape attrs ops v ns,
    built T a shape attrs -> below_2_31 (prod shape) -> shape <> [] -> apply_views a ops = Ok v ->
    (nd_reshape v ns = Throw <->
       (nd_attrs v <> [] \/ (N.of_nat (prod ns) mod 2 ^ 32)%N <> N.of_nat (prod (nd_shape v)))) /\
    (nd_reshape v ns = Throw \/ exists b, nd_reshape v ns = Ok b).
Proof. exact @reshape_iff. Qed.
Print Assumptions C14_reshape_outcomes.

Example C14_case :
  exists v b, apply_views ex_a [Slice 1] = Ok v /\ nd_reshape v [3; 1] = Ok b /\
    nd_elements ex_h b = Ok [13; 14; 15] /\ nd_at ex_h b [2; 0] = Ok 15 /\ nd_reshape v [2] = Throw.
Proof. do 2 eexists. split; [reflexivity|]. split; [reflexivity|]. repeat split. Qed.

(** For a view made with rslice the strides are recomputed as if the view were contiguous. *)
Theorem C14_reshape_of_rslice_refuted :
  exists v b, built nat ex_a [2; 3] [] /\ apply_views ex_a [RSlice 0] = Ok v /\ nd_reshape v [2] = Ok b /\
    nd_elements ex_h v = Ok [10; 13] /\ nd_elements ex_h b = Ok [10; 11].
Proof. do 2 eexists. split; [exact ex_built|]. split; [reflexivity|]. split; [reflexivity|]. split; reflexivity. Qed.
Print Assumptions C14_reshape_of_rslice_refuted.

(** An empty array can be reshaped to 65536 x 65536; reading any element is then out of bounds. *)
Lemma reshape_wraps (n : nat) : N.of_nat n = 65536%N ->
  exists (h : heap nat) a b, built nat a [0] [] /\ holds h a [] /\
    nd_reshape a [n; n] = Ok b /\ nd_at h b [0; 0] = UB.
Proof.
  intros En. exists [[]], (mkNd 0 0 [0] [1] [] 0).
  assert (Hb : built nat (mkNd 0 0 [0] [1] [] 0) [0] []).
  { apply (built_data nat [] [0] [] [[]]). reflexivity. }
  assert (E : int_product [n; n] = 0).
  { apply (int_product_iff [n; n] 0); [reflexivity|].
    cbn [prod]. rewrite Nat.mul_1_r, Nat2N.inj_mul, En. reflexivity. }
  exists (mkNd 0 0 [n; n] (update_strides [n; n]) [] 0). split; [exact Hb|]. split; [reflexivity|]. split.
  - unfold nd_reshape. cbn [nd_attrs nd_size]. rewrite E. reflexivity.
  - unfold nd_at, get_offset. cbn [nd_shape length Nat.eqb negb nd_strides].
    rewrite !update_strides_cons. cbn [prod update_strides].
    destruct n as [|n]; [discriminate|]. reflexivity.
Qed.
Theorem C14_reshape_wraps_refuted :
  exists (n : nat) (h : heap nat) a b, N.of_nat n = 65536%N /\ built nat a [0] [] /\ holds h a [] /\
    nd_reshape a [n; n] = Ok b /\ nd_at h b [0; 0] = UB.
Proof.
  exists (N.to_nat 65536). pose proof (N2Nat.id 65536) as E. revert E. generalize (N.to_nat 65536). intros n E.
  destruct (reshape_wraps n E) as (h & a & b & H). exists h, a, b. split; [exact E|exact H].
Qed.
Print Assumptions C14_reshape_wraps_refuted.

(** ** C15 *)
Theorem C15_concatenate_appends :
  forall (T : Type) (zero : T) (h : heap T) a attrs n m r data b sb ab datab ops other,
    built T a (n :: r) attrs -> holds h a data -> length data = prod (n :: r) ->
    built T b sb ab -> holds h b datab -> length datab = prod sb -> below_2_31 (prod sb) -> sb <> [] ->
    apply_views b ops = Ok other -> nd_shape other = m :: r ->
    below_2_32 (prod ((n + m) :: r)) ->
    exists h2 a', nd_concatenate zero h a other = Ok (h2, a') /\
      nd_shape a' = (n + m) :: r /\
      (forall i c, nd_at h2 a' (i :: c) = if i <? n then nd_at h a (i :: c) else nd_at h other (i - n :: c)) /\
      (* size() is not updated *)
      nd_size a' = nd_size a /\
      (* no other container is touched *)
      (forall d, d <> nd_container a -> nth_error h2 d = nth_error h d).
Proof. exact @concat_spec. Qed.
Print Assumptions C15_concatenate_appends.

Theorem C15_incompatible_shapes_throw :
  forall (T : Type) (zero : T) (h : heap T) a other,
    length (nd_shape a) <> length (nd_shape other) \/ tl (nd_shape a) <> tl (nd_shape other) ->
    nd_concatenate zero h a other = Throw.
Proof. exact @concat_throws. Qed.
Print Assumptions C15_incompatible_shapes_throw.

Example C15_case :
  exists h2 a', nd_concatenate 0 (ex_h ++ [[7; 8; 9]]) ex_a (mkNd 1 0 [1; 3] [3; 1] [] 3) = Ok (h2, a') /\
    nd_shape a' = [3; 3] /\ nd_at h2 a' [2; 1] = Ok 8 /\
    (* the array appended to itself *)
    exists h3 a3, nd_concatenate 0 ex_h ex_a ex_a = Ok (h3, a3) /\ nd_at h3 a3 [3; 2] = Ok 15.
Proof. do 2 eexists. split; [reflexivity|]. split; [reflexivity|]. split; [reflexivity|].
  do 2 eexists. split; reflexivity. Qed.

(** Iteration after concatenate stops at the old number of elements. *)
Theorem C15_iteration_after_concatenate_refuted :
  exists h2 a', nd_concatenate 0 ex_h ex_a ex_a = Ok (h2, a') /\ prod (nd_shape a') = 12 /\
    nd_elements h2 a' = Ok [10; 11; 12; 13; 14; 15].
Proof. do 2 eexists. split; [reflexivity|]. split; reflexivity. Qed.
Print Assumptions C15_iteration_after_concatenate_refuted.

(** Concatenating onto a slice resizes the shared container to the size of the
    slice: the parent loses elements and the slice reads outside. *)
Theorem C15_concatenate_onto_slice_refuted :
  exists (h : heap nat) (a v : ndarray),
    built nat a [4; 1; 2] [] /\ holds h a [0; 1; 2; 3; 4; 5; 6; 7] /\ nd_slice a 3 = Ok v /\
    nd_concatenate 0 h v v = UB.
Proof.
  exists [[0; 1; 2; 3; 4; 5; 6; 7]], (mkNd 0 0 [4; 1; 2] [2; 2; 1] [] 8). eexists.
  split. { apply (built_data nat [] [4; 1; 2] [0; 1; 2; 3; 4; 5; 6; 7] [[0; 1; 2; 3; 4; 5; 6; 7]]). vm_compute. reflexivity. }
  split; [reflexivity|]. split; [reflexivity|]. reflexivity.
Qed.
Print Assumptions C15_concatenate_onto_slice_refuted.

(** ** C16 *)
Theorem C16_copy_is_equal_and_separate :
  forall (T : Type) (h : heap T) a shape attrs data,
    built T a shape attrs -> holds h a data ->
    exists h' b, nd_copy h a = Ok (h', b) /\
      nd_shape b = nd_shape a /\ nd_attrs b = nd_attrs a /\ nd_size b = nd_size a /\
      nd_container b <> nd_container a /\
      (forall coords, nd_at h' b coords = nd_at h a coords) /\
      (forall coords, nd_at h' a coords = nd_at h a coords) /\
      h' = h ++ [data] /\ nd_container b = length h.
Proof. exact @copy_built. Qed.
Print Assumptions C16_copy_is_equal_and_separate.

(** No sequence of writes through arrays or views of other containers is seen. *)
Theorem C16_writes_elsewhere_are_not_seen :
  forall (T : Type) (h h' : heap T) ws b coords,
    (forall a c x, In (a, c, x) ws -> nd_container a <> nd_container b) ->
    writes h ws = Ok h' -> nd_at h' b coords = nd_at h b coords.
Proof. exact @writes_other. Qed.
Print Assumptions C16_writes_elsewhere_are_not_seen.

Example C16_case :
  exists h' b h2, nd_copy ex_h ex_a = Ok (h', b) /\ writes h' [(b, [0; 0], 1); (b, [1; 2], 2)] = Ok h2 /\
    nd_at h2 ex_a [1; 2] = Ok 15 /\ nd_at h2 b [1; 2] = Ok 2.
Proof. do 3 eexists. split; [reflexivity|]. split; [reflexivity|]. split; reflexivity. Qed.

(** copy() of a slice copies the whole container and forgets the offset. *)
Theorem C16_copy_of_a_slice_refuted :
  exists v h' b, nd_slice ex_a 1 = Ok v /\ nd_copy ex_h v = Ok (h', b) /\
    nd_at ex_h v [0] = Ok 13 /\ nd_at h' b [0] = Ok 10.
Proof. do 3 eexists. split; [reflexivity|]. split; [reflexivity|]. split; reflexivity. Qed.
Print Assumptions C16_copy_of_a_slice_refuted.

(** ** C17 *)
Theorem C17_construction_check :
  forall (T : Type) (h : heap T) shape (data : list T),
    (nd_from_data h shape data = Throw <->
       (N.of_nat (length data) <> N.of_nat (prod shape) mod 2 ^ 32)%N) /\
    (nd_from_data h shape data = Throw \/ exists p, nd_from_data h shape data = Ok p) /\
    (below_2_32 (prod shape) -> (nd_from_data h shape data = Throw <-> length data <> prod shape)).
Proof. exact @from_data_iff. Qed.
Print Assumptions C17_construction_check.

Lemma from_data_wraps (n : nat) : N.of_nat n = 65536%N ->
  N.of_nat (prod [n; n]) = (2 ^ 32)%N /\
  exists (h' : heap nat) a, nd_from_data [] [n; n] [] = Ok (h', a) /\ holds h' a [] /\ nd_at h' a [0; 0] = UB.
Proof.
  intros En.
  assert (Ep : N.of_nat (prod [n; n]) = (2 ^ 32)%N).
  { cbn [prod]. rewrite Nat.mul_1_r, Nat2N.inj_mul, En. reflexivity. }
  split; [exact Ep|].
  destruct (from_data_iff (T := nat) [] [n; n] []) as (A & B & _).
  destruct B as [B|((h', a) & B)].
  - exfalso. apply A in B. apply B. rewrite Ep. reflexivity.
  - exists h', a. split; [assumption|].
    unfold nd_from_data in B. destruct (negb _); [discriminate|]. injection B as <- <-.
    split; [reflexivity|].
    unfold nd_at, get_offset. cbn [nd_shape nd_strides length Nat.eqb negb].
    rewrite !update_strides_cons. cbn [prod update_strides].
    destruct n as [|n]; [discriminate|]. reflexivity.
Qed.
Theorem C17_two_to_the_32_elements_refuted :
  exists (n : nat) (h' : heap nat) a,
    N.of_nat (prod [n; n]) = (2 ^ 32)%N /\
    nd_from_data [] [n; n] [] = Ok (h', a) /\ holds h' a [] /\
    nd_at h' a [0; 0] = UB.
Proof.
  exists (N.to_nat 65536). pose proof (N2Nat.id 65536) as E. revert E. generalize (N.to_nat 65536). intros n E.
  destruct (from_data_wraps n E) as (E' & h & a & H). exists h, a. split; [exact E'|exact H].
Qed.
Print Assumptions C17_two_to_the_32_elements_refuted.

Example C17_case : nd_from_data (@nil (list nat)) [2; 2] [1; 2; 3] = Throw /\
  exists p, nd_from_data (@nil (list nat)) [2; 2] [1; 2; 3; 4] = Ok p.
Proof. split; [vm_compute; reflexivity|]. eexists. vm_compute. reflexivity. Qed.

(** ** C18 *)
Theorem C18_sum :
  forall (T : Type) (zero : T) add (h : heap T) a shape attrs data ops v,
    built T a shape attrs -> holds h a data -> length data = prod shape ->
    below_2_31 (prod shape) -> shape <> [] -> apply_views a ops = Ok v ->
    exists l, Forall2 (fun c x => nd_at h v c = Ok x) (row_major (nd_shape v)) l /\
      nd_sum zero add h v = Ok (fold_left add l zero).
Proof. exact @sum_spec. Qed.
Print Assumptions C18_sum.

(** For every strict weak order: first of the greatest elements. *)
Theorem C18_argmax :
  forall (T : Type) (ltb : T -> T -> bool) (h : heap T) a shape attrs data ops v,
    (forall x, ltb x x = false) ->
    (forall x y z, ltb x y = true -> ltb y z = true -> ltb x z = true) ->
    (forall x y z, ltb x z = true -> ltb x y = true \/ ltb y z = true) ->
    built T a shape attrs -> holds h a data -> length data = prod shape ->
    below_2_31 (prod shape) -> shape <> [] -> apply_views a ops = Ok v -> prod (nd_shape v) <> 0 ->
    exists p coords m, nd_argmax ltb h v = Ok coords /\ nth_error (row_major (nd_shape v)) p = Some coords /\
      nd_at h v coords = Ok m /\
      (forall c y, nd_at h v c = Ok y -> ltb m y = false) /\
      (forall q c y, q < p -> nth_error (row_major (nd_shape v)) q = Some c -> nd_at h v c = Ok y -> ltb y m = true).
Proof. exact @argmax_spec. Qed.
Print Assumptions C18_argmax.

Theorem C18_argmin :
  forall (T : Type) (ltb : T -> T -> bool) (h : heap T) a shape attrs data ops v,
    (forall x, ltb x x = false) ->
    (forall x y z, ltb x y = true -> ltb y z = true -> ltb x z = true) ->
    (forall x y z, ltb x z = true -> ltb x y = true \/ ltb y z = true) ->
    built T a shape attrs -> holds h a data -> length data = prod shape ->
    below_2_31 (prod shape) -> shape <> [] -> apply_views a ops = Ok v -> prod (nd_shape v) <> 0 ->
    exists p coords m, nd_argmin ltb h v = Ok coords /\ nth_error (row_major (nd_shape v)) p = Some coords /\
      nd_at h v coords = Ok m /\
      (forall c y, nd_at h v c = Ok y -> ltb y m = false) /\
      (forall q c y, q < p -> nth_error (row_major (nd_shape v)) q = Some c -> nd_at h v c = Ok y -> ltb m y = true).
Proof. exact @argmin_spec. Qed.
Print Assumptions C18_argmin.

Theorem C18_unravel_index :
  forall shape index, Forall (fun n => 0 < n) shape -> shape <> [] ->
    (forall c, nth_error (row_major shape) index = Some c -> unravel_index index shape = Ok c) /\
    (prod shape <= index -> unravel_index index shape = Throw).
Proof. exact unravel_spec. Qed.
Print Assumptions C18_unravel_index.

(** Negative axes count from the end. *)
Theorem C18_axis_argument :
  forall ndim axis,
    (resolve_axis ndim axis = Throw <-> (axis < - Z.of_nat ndim \/ Z.of_nat ndim <= axis)%Z) /\
    (forall ax, resolve_axis ndim axis = Ok ax -> ax < ndim /\
       (Z.of_nat ax = axis \/ Z.of_nat ax = axis + Z.of_nat ndim)%Z) /\
    (resolve_axis ndim axis = Throw \/ exists ax, resolve_axis ndim axis = Ok ax).
Proof. exact resolve_axis_spec. Qed.
Print Assumptions C18_axis_argument.

Theorem C18_sum_along_axis :
  forall (T : Type) (zero : T) add (h : heap T) a shape attrs data ops v axis,
    built T a shape attrs -> holds h a data -> length data = prod shape ->
    below_2_31 (prod shape) -> shape <> [] -> apply_views a ops = Ok v ->
    match resolve_axis (length (nd_shape v)) axis with
    | Ok ax =>
        2 <= length (nd_shape v) -> below_2_32 (prod (remove_nth ax (nd_shape v))) ->
        exists out, nd_sum_axis zero add h v axis = Ok (remove_nth ax (nd_shape v), out) /\
          Forall2 (fun oc y => exists xs,
              Forall2 (fun j x => nd_at h v (insert_nth ax j oc) = Ok x) (seq 0 (nth ax (nd_shape v) 0)) xs /\
              y = fold_left add xs zero)
            (row_major (remove_nth ax (nd_shape v))) out
    | _ => nd_sum_axis zero add h v axis = Throw
    end.
Proof. exact @sum_axis_spec. Qed.
Print Assumptions C18_sum_along_axis.

Theorem C18_sum_along_the_only_axis :
  forall (T : Type) (zero : T) add (h : heap T) v axis n,
    nd_shape v = [n] -> (axis = 0 \/ axis = -1)%Z ->
    nd_sum_axis zero add h v axis = do s <- nd_sum zero add h v; Ok ([1], [s]).
Proof. exact @sum_axis_1d. Qed.
Print Assumptions C18_sum_along_the_only_axis.

Theorem C18_trapz :
  forall (T K : Type) (zero : T) add (area : T -> T -> K -> K -> T) (h : heap T) a shape attrs data ops v knots axis,
    built T a shape attrs -> holds h a data -> length data = prod shape ->
    below_2_31 (prod shape) -> shape <> [] -> apply_views a ops = Ok v ->
    match resolve_axis (length (nd_shape v)) axis with
    | Ok ax =>
        (length knots <> nth ax (nd_shape v) 0 -> nd_trapz zero add area h v knots axis = Throw) /\
        (length knots = nth ax (nd_shape v) 0 -> 2 <= length (nd_shape v) ->
         below_2_32 (prod (remove_nth ax (nd_shape v))) ->
         exists out, nd_trapz zero add area h v knots axis = Ok (remove_nth ax (nd_shape v), out) /\
          Forall2 (fun oc y => exists xs,
              Forall2 (fun j x => nd_at h v (insert_nth ax j oc) = Ok x) (seq 0 (length knots)) xs /\
              y = fold_left add (trapz_terms area knots xs) zero)
            (row_major (remove_nth ax (nd_shape v))) out) /\
        (length knots = nth ax (nd_shape v) 0 -> length (nd_shape v) = 1 ->
         exists xs, Forall2 (fun j x => nd_at h v [j] = Ok x) (seq 0 (length knots)) xs /\
           nd_trapz zero add area h v knots axis
           = Ok ([1], [fold_left add (trapz_terms area knots xs) zero]))
    | _ => nd_trapz zero add area h v knots axis = Throw
    end.
Proof. exact @trapz_spec. Qed.
Print Assumptions C18_trapz.

Example C18_case :
  nd_sum 0 Nat.add ex_h ex_a = Ok 75 /\ nd_argmax Nat.ltb ex_h ex_a = Ok [1; 2] /\
  nd_argmin Nat.ltb ex_h ex_a = Ok [0; 0] /\ unravel_index 4 [2; 3] = Ok [1; 1] /\
  unravel_index 6 [2; 3] = Throw /\
  nd_sum_axis 0 Nat.add ex_h ex_a (-1)%Z = Ok ([2], [33; 42]) /\
  nd_sum_axis 0 Nat.add ex_h ex_a 0%Z = Ok ([3], [23; 25; 27]) /\
  nd_sum_axis 0 Nat.add ex_h ex_a 2%Z = Throw.
Proof. repeat split; vm_compute; reflexivity. Qed.
