(** Iterators of NdArray as random access iterators. *)
From Coq Require Import List Arith ZArith Lia String.
From Verif Require Import Common NdArrayModel NdArraySpec NdArrayProofs NdArrayProofs2 NdIterModel.
Import ListNotations.
Local Notation length := List.length.

(** ** C148: random access *)

(** For all arrays and views of them with at least one dimension: the end is as many steps from
    the beginning as there are elements; [k] steps from the beginning, index [i] is the element
    [k + i] in row-major order, for reading and for writing. *)
Theorem C148_random_access :
  forall (T : Type) (h : heap T) a shape attrs ops v,
    built T a shape attrs -> below_2_31 (prod shape) -> shape <> [] -> apply_views a ops = Ok v ->
    exists first last, nd_begin v = Ok first /\ nd_end v = Ok last /\
      last = ni_plus first (length (row_major (nd_shape v))) /\
      forall k i coords, nth_error (row_major (nd_shape v)) (k + i) = Some coords ->
        ni_get h (ni_plus first k) i = nd_at h v coords /\
        forall x, ni_set h (ni_plus first k) i x = nd_write h v coords x.
Proof.
  intros T h a shape attrs ops v Hb Hp Hne Hv. destruct (built_inv _ _ _ _ Hb) as (E1 & E2 & E3 & E4 & _).
  pose proof (built_scaled _ _ _ _ Hb) as Hs.
  destruct (views_spec 1 a ops v Hs Hv) as ((k & Hk) & Hc & Ho).
  destruct (view_size_prod (T:=T) a shape attrs ops v Hb Hp Hne Hv) as (_ & Hz & V3).
  assert (Hlast : nd_strides v <> [] /\ last (nd_strides v) 0 = k).
  { rewrite Hk. split.
    - destruct (nd_shape v); [congruence|]. rewrite update_strides_cons. discriminate.
    - pose proof (update_strides_last (nd_shape v) V3) as L.
      destruct (update_strides (nd_shape v)) as [|u us] eqn:E using rev_ind.
      + simpl in L. discriminate.
      + rewrite map_app. simpl. rewrite !last_last in *. subst u. lia. }
  destruct Hlast as (Hn & Hlast). unfold nd_begin, nd_end, nd_iter. destruct (nd_strides v) as [|s0 st]; [congruence|].
  rewrite Hlast. do 2 eexists. split; [reflexivity|]. split; [reflexivity|]. split.
  - unfold ni_plus. cbn [ni_container ni_offset ni_row_size ni_stride ni_i]. rewrite row_major_length, Hz. reflexivity.
  - intros m i coords H. apply nth_row_major in H. destruct H as (Hr & R).
    unfold ni_get, ni_set, nd_at, nd_write, ni_plus. cbn [ni_container ni_offset ni_row_size ni_stride ni_i].
    rewrite (proj1 (get_offset_scaled k v coords Hk) Hr). cbn [bind]. rewrite R.
    replace (nd_offset v + (0 + m + i) * k) with (nd_offset v + k * (m + i)) by lia. split; [reflexivity | intros x; f_equal; lia].
Qed.
Print Assumptions C148_random_access.

(** Moving and comparing iterators is arithmetic on the number of steps. *)
Theorem C148_arithmetic : forall it m n,
  ni_plus it 0 = it /\ ni_incr it = ni_plus it 1 /\ ni_plus (ni_plus it m) n = ni_plus it (m + n) /\
  ni_advance it n = ni_plus it n /\
  ni_minus (ni_plus it (m + n)) n = Ok (ni_plus it m) /\ ni_retreat (ni_plus it (m + n)) n = Ok (ni_plus it m) /\
  ni_distance (ni_plus it m) (ni_plus it n) = (Z.of_nat m - Z.of_nat n)%Z /\
  (ni_eqb (ni_plus it m) (ni_plus it n) = true <-> m = n) /\
  (ni_less (ni_plus it m) (ni_plus it n) = true <-> m < n) /\
  (ni_greater (ni_plus it m) (ni_plus it n) = true <-> m > n).
Proof.
  intros [c o r s i] m n. unfold ni_plus, ni_incr, ni_advance, ni_minus, ni_retreat, ni_distance, ni_less, ni_greater.
  cbn [ni_container ni_offset ni_row_size ni_stride ni_i].
  split; [f_equal; lia|]. split; [f_equal; lia|]. split; [f_equal; lia|]. split; [reflexivity|].
  split. { destruct (Nat.ltb_spec (i + (m + n)) n); [lia|]. do 2 f_equal. lia. }
  split. { destruct (Nat.leb_spec n (i + (m + n))); [|lia]. do 2 f_equal. lia. }
  split; [lia|]. split.
  - rewrite ni_eqb_iff. split; [intros H; injection H as H; lia | intros ->; reflexivity].
  - rewrite !Nat.ltb_lt. lia.
Qed.
Print Assumptions C148_arithmetic.

(** Iterators of different views of the same array are ordered by their steps and not by the
    place of their elements: the first element of the second row is not after the second element
    of the first row. *)
Theorem C148_order_of_places_refuted :
  exists (a : ndarray) v0 v1 first0 first1,
    apply_views a [Slice 0] = Ok v0 /\ apply_views a [Slice 1] = Ok v1 /\
    nd_begin v0 = Ok first0 /\ nd_begin v1 = Ok first1 /\
    ni_get [seq 0 6] (ni_plus first0 1) 0 = Ok 1 /\ ni_get [seq 0 6] first1 0 = Ok 3 /\
    ni_less first1 (ni_plus first0 1) = true.
Proof.
  exists (mkNd 0 0 [2; 3] [3; 1] [] 6). do 4 eexists.
  do 4 (split; [reflexivity|]). repeat split.
Qed.
Print Assumptions C148_order_of_places_refuted.

Example C148_case :
  exists v first, apply_views (mkNd 0 0 [2; 3; 2] [6; 2; 1] [] 12) [RSlice 1; Slice 1] = Ok v /\ nd_begin v = Ok first /\
    row_major (nd_shape v) = [[0]; [1]; [2]] /\ ni_get [seq 0 12] (ni_plus first 1) 1 = Ok 11 /\ nd_at [seq 0 12] v [2] = Ok 11 /\
    built nat (mkNd 0 0 [2; 3; 2] [6; 2; 1] [] 12) [2; 3; 2] [].
Proof.
  do 2 eexists. do 5 (split; [reflexivity|]).
  exact (built_data nat [] [2; 3; 2] (seq 0 12) [seq 0 12] _ eq_refl).
Qed.
