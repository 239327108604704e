(** C141 to C143: npy files left behind by a program killed while it writes. *)
From Coq Require Import List Arith NArith ZArith Ascii String Bool Lia.
From Verif Require Import Common TextModel TextProofs NdArrayModel NdArraySpec NdArrayProofs NdArrayProofs2 AsciiModel
  NpyModel NpySpec NpyProofs NpyProofs2 NpyProofs3 NpyCrashModel NpyCrashSpec NpyCrashProofs NpyCrashProofs2 NpyCrashProofs3
  NpyCrashProofs4.
Import ListNotations.
Local Notation length := List.length.
Local Notation concat := (@List.concat _).
Local Open Scope nat_scope.

Definition bytes2 (n : nat) : text := [ascii_of_nat n; ascii_of_nat (n + 1)].

(** ** C141 *)

Lemma view_typed ty (h : heap text) a shape attrs data ops v l :
  built text a shape attrs -> holds h a data -> length data = prod shape -> below_2_31 (prod shape) -> shape <> [] ->
  typed ty data -> apply_views a ops = Ok v -> nd_elements h v = Ok l -> typed ty l /\ length l = prod (nd_shape v).
Proof.
  intros Hb Hh Hd Hp Hne Ht Hv El.
  destruct (elements_spec h a shape attrs data ops v Hb Hh Hd Hp Hne Hv) as (l' & El' & F).
  assert (l' = l) by congruence. subst l'.
  assert (Hhv : holds h v data).
  { destruct (views_spec 1 a ops v (built_scaled _ _ _ _ Hb) Hv) as (_ & Hc & _). unfold holds. rewrite Hc. exact Hh. }
  split; [eapply elements_typed; eassumption | rewrite <- (Forall2_len' _ _ _ F); apply row_major_length].
Qed.

(** Any view of any array is written and the program is killed after any number of bytes,
    but at least those of the magic sequence, the version and the length. Until the shape
    is complete the reader refuses the file; from then on it gives an array with the shape
    and the names, whose elements are those written, with zeros for the missing bytes. *)
Theorem C141_interrupted_write :
  forall ty (h : heap text) a shape attrs data ops v,
    built text a shape attrs -> holds h a data -> length data = prod shape -> below_2_31 (prod shape) -> shape <> [] ->
    typed ty data -> apply_views a ops = Ok v -> 0 < prod (nd_shape v) -> names_last_axis v ->
    Forall good_name (attr_texts (nd_attrs v)) ->
    exists header elements, nd_elements h v = Ok elements /\ write_npy ty h v = Ok (header ++ concat elements) /\
      (below_2_32 (length header) ->
       forall k h2, 12 <= k <= length header + length (concat elements) ->
         exists file, write_npy_killed ty h v k = Ok file /\ length file = k /\
         (k < shape_end ty (nd_shape v) (attr_texts (nd_attrs v)) -> read_npy ty h2 file = Throw) /\
         (shape_end ty (nd_shape v) (attr_texts (nd_attrs v)) <= k ->
          exists h2' w found, read_npy ty h2 file = Ok (h2', w, []) /\
            nd_shape w = nd_shape v /\ nd_attrs w = nd_attrs v /\
            nd_elements h2' w = Ok found /\ left_of ty (k - length header) elements found)).
Proof.
  intros ty h a shape attrs data ops v H1 H2 H3 H4 H5 H6 H7 H8 H9 H10.
  destruct (round_trip ty h a shape attrs data ops v H1 H2 H3 H4 H5 H6 H7 H8 H9 H10) as (hd & l & E1 & E2 & E3 & _).
  exists hd, l. split; [exact E2|]. split; [exact E1|]. intros B k h2 K.
  exists (firstn k (hd ++ concat l)). unfold write_npy_killed. rewrite E1. cbn [bind]. split; [reflexivity|].
  split; [rewrite firstn_length, app_length; lia|].
  destruct (view_size_prod a shape attrs ops v H1 H4 H5 H7) as (Bv & _ & Ns).
  assert (Tl : typed ty l /\ length l = prod (nd_shape v)) by (eapply view_typed; eassumption).
  destruct Tl as (Tl & Ll). rewrite E3 in B, K |- *.
  apply (read_cut ty (nd_shape v) (nd_attrs v) l k h2 H9 H10 Ns Tl Ll H8 Bv B). rewrite app_length. exact K.
Qed.
Print Assumptions C141_interrupted_write.

(** The first bytes are not checked: a file cut before the end of the length is read with
    indeterminate values. *)
Theorem C141_first_bytes_refuted :
  forall ty (h : heap text) a shape attrs data ops v,
    built text a shape attrs -> holds h a data -> length data = prod shape -> below_2_31 (prod shape) -> shape <> [] ->
    typed ty data -> apply_views a ops = Ok v -> 0 < prod (nd_shape v) -> names_last_axis v ->
    Forall good_name (attr_texts (nd_attrs v)) ->
    forall k h2, k < 12 -> exists file, write_npy_killed ty h v k = Ok file /\ length file = k /\ read_npy ty h2 file = UB.
Proof.
  intros ty h a shape attrs data ops v H1 H2 H3 H4 H5 H6 H7 H8 H9 H10 k h2 K.
  destruct (round_trip ty h a shape attrs data ops v H1 H2 H3 H4 H5 H6 H7 H8 H9 H10) as (hd & l & E1 & E2 & E3 & _).
  unfold write_npy_killed. rewrite E1. cbn [bind]. eexists. split; [reflexivity|]. split.
  - rewrite firstn_length, app_length, E3, header_bytes_length. lia.
  - rewrite E3. apply read_first_bytes. exact K.
Qed.
Print Assumptions C141_first_bytes_refuted.

(** Three elements of 16 bits: the header has 128 bytes, the shape ends after 66. *)
Example C141_case :
  exists h a file1 file2 h' w,
    nd_from_data_attrs [] [3] [] (map bytes2 [1; 2; 3]) = Ok (h, a) /\
    shape_end I16 [3] [] = 66 /\
    write_npy_killed I16 h a 65 = Ok file1 /\ read_npy I16 [] file1 = Throw /\
    write_npy_killed I16 h a 131 = Ok file2 /\ read_npy I16 [] file2 = Ok (h', w, []) /\
    nd_elements h' w = Ok [bytes2 1; [ascii_of_nat 2; zero_byte]; zero_element I16].
Proof. do 6 eexists. do 6 (split; [vm_compute; reflexivity|]). vm_compute. reflexivity. Qed.

(** ** C142 *)

(** A memory-mapped file is created and the program is killed at any byte of the copy of
    the header. The file is refused until the shape is complete, and is the array of zeros
    that was asked for from then on. *)
Theorem C142_interrupted_creation :
  forall ty shape attrs k file max_size,
    let full := append_attr_shape shape (length attrs) in
    shape <> [] -> 0 < prod full -> below_2_31 (prod full) -> Forall good_name (attr_texts attrs) ->
    create_mmap_killed ty shape (attr_texts attrs) k = Ok file ->
    below_2_32 (length file - prod full * item_bytes ty) -> max_size = 0 \/ length file <= max_size ->
    (k < shape_end ty full (attr_texts attrs) -> open_mmap ty file max_size = Throw) /\
    (shape_end ty full (attr_texts attrs) <= k ->
     exists m, open_mmap ty file max_size = Ok (shape, m) /\ gives m (repeat (zero_element ty) (prod full))).
Proof. intros ty shape attrs k file mx full Ns P B G E L M. apply (open_created ty shape attrs k file mx); assumption. Qed.
Print Assumptions C142_interrupted_creation.

(** Killed after the header, the file is that of the completed creation. *)
Theorem C142_after_header :
  forall ty shape attrs max_size m,
    create_mmap ty shape attrs max_size = Ok m ->
    forall k, mm_offset m <= k -> create_mmap_killed ty shape attrs k = Ok (mm_file m).
Proof.
  intros ty shape attrs mx m E k K. unfold create_mmap in E. unfold create_mmap_killed.
  destruct (write_npy_header ty _ attrs) as [hd| | |]; try discriminate. cbn [bind] in *.
  destruct (put_bytes _ 0 hd) as [f| | |] eqn:Ep; try discriminate. cbn [bind] in E. injection E as <-. cbn [mm_offset mm_file] in *.
  rewrite firstn_all2 by exact K. exact Ep.
Qed.
Print Assumptions C142_after_header.

Example C142_case :
  exists file1 file2 m,
    create_mmap_killed F64 [2] [] 30 = Ok file1 /\ open_mmap F64 file1 0 = Throw /\
    create_mmap_killed F64 [2] [] 66 = Ok file2 /\ open_mmap F64 file2 0 = Ok ([2], m) /\
    shape_end F64 [2] [] = 66 /\ mm_get m 1 = Ok (zero_element F64).
Proof. do 3 eexists. do 5 (split; [vm_compute; reflexivity|]). vm_compute. reflexivity. Qed.

(** ** C143 *)

(** A memory-mapped array is resized and the program is killed before the header is
    copied. The file opens with the old shape; the elements that are in the new size are
    unchanged, access to the others is access behind the end of the file. *)
Theorem C143_interrupted_resize :
  forall m shape attrs elements shape' file max_size,
    history m shape attrs elements -> readable shape attrs elements (mm_file m) -> shape' <> [] -> below_2_31 (prod shape') ->
    resize_killed m shape' 0 = Ok file -> max_size = 0 \/ length file <= max_size ->
    exists s m', open_mmap (mm_type m) file max_size = Ok (s, m') /\
      append_attr_shape s (length attrs) = shape /\ mm_n m' = length elements /\
      forall i x, nth_error elements i = Some x -> mm_get m' i = if i <? prod shape' then Ok x else UB.
Proof.
  intros m shape attrs elements shape' file mx H R Ns' B' E Mx. pose proof (history_inv _ _ _ _ H) as I.
  destruct (open_resized m shape attrs elements shape' file mx I R Ns' B' E Mx) as (m' & Eo & N & G).
  eexists. exists m'. split; [exact Eo|]. split; [|split; assumption].
  destruct I as (Ns & B & A & _). destruct R as (Ra & _ & Rp & _).
  assert (A2 : attrs = [] \/ (attrs <> [] /\ length attrs = last shape 0 /\ 2 <= length shape)).
  { destruct A as [->|(Na & _ & L1)]; [left; reflexivity|]. destruct Ra as [Ra|Ra]; [congruence|]. right. auto. }
  apply (shape_facts shape attrs A2 Ns Rp B).
Qed.
Print Assumptions C143_interrupted_resize.

(** So nothing is lost when the array grows. *)
Theorem C143_growth :
  forall m shape attrs elements shape' file,
    history m shape attrs elements -> readable shape attrs elements (mm_file m) -> shape' <> [] -> below_2_31 (prod shape') ->
    prod shape <= prod shape' -> resize_killed m shape' 0 = Ok file ->
    exists s m', open_mmap (mm_type m) file 0 = Ok (s, m') /\ append_attr_shape s (length attrs) = shape /\ gives m' elements.
Proof.
  intros m shape attrs elements shape' file H R Ns' B' L E.
  destruct (C143_interrupted_resize m shape attrs elements shape' file 0 H R Ns' B' E (or_introl eq_refl)) as (s & m' & Eo & Es & N & G).
  exists s, m'. split; [exact Eo|]. split; [exact Es|]. split; [exact N|]. intros i x Ex. rewrite (G i x Ex).
  pose proof (history_inv _ _ _ _ H) as I. destruct I as (_ & _ & _ & Le & _).
  assert (i < length elements) by (apply nth_error_Some; congruence).
  replace (i <? prod shape') with true; [reflexivity|]. symmetry. apply Nat.ltb_lt. lia.
Qed.
Print Assumptions C143_growth.

(** Killed after the header, the file is that of the completed resize. *)
Theorem C143_after_header :
  forall m shape' m', mm_resize m shape' = (Ok tt, m') ->
    forall k, mm_offset m <= k -> resize_killed m shape' k = Ok (mm_file m').
Proof.
  intros m shape' m' E k K. unfold mm_resize in E. unfold resize_killed.
  destruct (write_npy_header (mm_type m) shape' (mm_attrs m)) as [hd| | |]; try discriminate. cbn [bind].
  destruct (Nat.eqb_spec (length hd) (mm_offset m)) as [L|L]; cbn [negb] in *; [|discriminate].
  destruct (mm_max m <? _); [discriminate|]. rewrite firstn_all2 by lia.
  destruct (put_bytes _ 0 hd) as [f| | |]; try discriminate. injection E as <-. reflexivity.
Qed.
Print Assumptions C143_after_header.

(** Shrinking is not safe: killed before the header is copied, the file claims elements it
    does not have. *)
Theorem C143_shrink_refuted :
  exists m file m', history m [3] [] (repeat (zero_element I16) 3) /\
    resize_killed m [1] 0 = Ok file /\ open_mmap I16 file 0 = Ok ([3], m') /\ mm_get m' 1 = UB.
Proof.
  do 3 eexists. split.
  - eapply (h_create I16 [3] [] 200); [discriminate | reflexivity | vm_compute; reflexivity].
  - split; [vm_compute; reflexivity|]. split; [vm_compute; reflexivity|]. vm_compute. reflexivity.
Qed.
Print Assumptions C143_shrink_refuted.

(** Nor is the copy of the header itself: 19 elements become 20, the program is killed
    after the first digit, and the file claims 29. *)
Theorem C143_torn_header_refuted :
  exists m file m', history m [19] [] (repeat (zero_element I16) 19) /\
    resize_killed m [20] 64 = Ok file /\ open_mmap I16 file 0 = Ok ([29], m') /\ mm_get m' 28 = UB.
Proof.
  do 3 eexists. split.
  - eapply (h_create I16 [19] [] 200); [discriminate | reflexivity | vm_compute; reflexivity].
  - split; [vm_compute; reflexivity|]. split; [vm_compute; reflexivity|]. vm_compute. reflexivity.
Qed.
Print Assumptions C143_torn_header_refuted.

Example C143_case :
  exists m m1 file m', create_mmap I16 [2] [] 200 = Ok m /\ mm_set m 1 (bytes2 7) = Ok m1 /\
    resize_killed m1 [5] 0 = Ok file /\ open_mmap I16 file 0 = Ok ([2], m') /\ mm_get m' 1 = Ok (bytes2 7) /\
    length file = length (mm_file m1) + 6 /\
    history m1 [2] [] [zero_element I16; bytes2 7] /\ readable [2] [] [zero_element I16; bytes2 7] (mm_file m1).
Proof.
  assert (G : forall m m1, create_mmap I16 [2] (attr_texts []) 200 = Ok m -> mm_set m 1 (bytes2 7) = Ok m1 ->
     mm_type m = I16 -> history m1 [2] [] [zero_element I16; bytes2 7]).
  { intros m m1 E1 E2 E3. assert (H0 := h_create I16 [2] [] 200 m ltac:(discriminate) eq_refl E1).
    eapply (h_set m [2] [] [zero_element I16; zero_element I16] 1 (bytes2 7)); [exact H0 | rewrite E3; reflexivity | reflexivity | exact E2]. }
  do 4 eexists. do 6 (split; [vm_compute; reflexivity|]). split.
  - eapply G; [vm_compute; reflexivity | vm_compute; reflexivity | reflexivity].
  - split; [left; reflexivity|]. split; [constructor|]. split; [cbn; lia|].
    match goal with |- short_header ?f _ => exists (firstn 128 f) end. split; [vm_compute; reflexivity|].
    unfold below_2_32. rewrite firstn_length.
    match goal with |- (N.of_nat (Nat.min 128 ?k) < _)%N =>
      apply N.le_lt_trans with (N.of_nat 128); [pose proof (Nat.le_min_l 128 k); lia | reflexivity] end.
Qed.
