(** Memory-mapped files left by interrupted creations and resizes. *)
From Coq Require Import List Arith NArith ZArith Ascii String Bool Lia.
From Verif Require Import Common TextModel TextProofs NdArrayModel NdArraySpec NdArrayProofs NdArrayProofs2 TableModel AsciiModel
  NpyModel NpySpec NpyProofs NpyProofs2 NpyProofs3 NpyCrashModel NpyCrashSpec NpyCrashProofs NpyCrashProofs2 NpyCrashProofs3.
Import ListNotations.
Local Notation length := List.length.
Local Notation concat := (@List.concat _).
Local Open Scope nat_scope.
Local Notation zs n := (repeat zero_byte n).

Lemma find_zeros n m : n <> [] -> ~ In zero_byte n -> find_text n (zs m) = None.
Proof.
  intros Nn Nz. apply find_text_none. intros (l & r & E). destruct n as [|c n]; [congruence|]. apply Nz.
  assert (I : In c (zs m)) by (rewrite E; apply in_or_app; right; left; reflexivity).
  apply repeat_spec in I. left. exact I.
Qed.
Lemma parse_zeros n : parse_npy_dict (zs n) = Throw.
Proof.
  unfold parse_npy_dict, parse_fortran, parse_descr, find_plus.
  rewrite !find_zeros; try discriminate; try (cbn; intros I; repeat (destruct I as [I|I]; [discriminate|]); exact I).
  change (16 - 1) with 15. change (8 - 1) with 7. unfold substr. rewrite repeat_length. destruct (Nat.ltb_spec n 15); [reflexivity|].
  cbn [bind]. unfold char_at. rewrite nth_error_repeat by lia. reflexivity.
Qed.
Lemma read_early v bs m : v = 0 \/ v = 2 -> length bs = 4 ->
  read_npy_header (npy_magic ++ [ascii_of_nat v; zero_byte] ++ bs ++ zs m) = Throw.
Proof.
  intros V Lb. unfold read_npy_header.
  replace (length (npy_magic ++ [ascii_of_nat v; zero_byte] ++ bs ++ zs m) <? 6) with false
    by (symmetry; apply Nat.ltb_ge; rewrite !app_length; cbn; lia).
  rewrite (firstn_eq 6 npy_magic), (skipn_eq 6 npy_magic) by reflexivity. rewrite text_eqb_refl. cbn [negb].
  replace (length ([ascii_of_nat v; zero_byte] ++ bs ++ zs m) <? 2) with false by (symmetry; apply Nat.ltb_ge; rewrite !app_length; cbn; lia).
  rewrite (firstn_eq 2 [ascii_of_nat v; zero_byte]), (skipn_eq 2 [ascii_of_nat v; zero_byte]) by reflexivity.
  replace (30 <? le_value [ascii_of_nat v; zero_byte])%N with false by (destruct V as [-> | ->]; reflexivity).
  replace (if (le_value [ascii_of_nat v; zero_byte] mod 256 =? 1)%N then 2 else 4) with 4 by (destruct V as [-> | ->]; reflexivity).
  replace (length (bs ++ zs m) <? 4) with false by (symmetry; apply Nat.ltb_ge; rewrite app_length; lia).
  rewrite (firstn_eq 4 bs), (skipn_eq 4 bs) by exact Lb.
  set (n := N.to_nat (le_value bs)). unfold read_zeros. rewrite repeat_length, firstn_zs, <- repeat_app. rewrite parse_zeros. reflexivity.
Qed.
Lemma read_early_cut n k m : k < 12 -> 12 <= k + m ->
  read_npy_header (firstn k (npy_magic ++ npy_version ++ le_bytes 4 n) ++ zs m) = Throw.
Proof.
  intros K M. destruct (le_bytes 4 n) as [|b0 [|b1 [|b2 [|b3 [|? ?]]]]] eqn:E;
    try (apply (f_equal (@length ascii)) in E; rewrite le_bytes_length in E; discriminate).
  assert (Z : zs m = zs (12 - k) ++ zs (m - (12 - k))) by (rewrite <- repeat_app; f_equal; lia).
  rewrite Z. generalize (m - (12 - k)) as q. intros q. clear Z M m.
  destruct (Nat.lt_ge_cases k 6) as [K6|K6].
  - unfold read_npy_header.
    replace (length _ <? 6) with false by (symmetry; apply Nat.ltb_ge; rewrite !app_length, !repeat_length; lia).
    do 6 (destruct k as [|k]; [reflexivity|]). lia.
  - do 6 (destruct k as [|k]; [lia|]). clear K6.
    destruct k as [|k]; [exact (read_early 0 [zero_byte; zero_byte; zero_byte; zero_byte] q (or_introl eq_refl) eq_refl)|].
    destruct k as [|k]; [exact (read_early 2 [zero_byte; zero_byte; zero_byte; zero_byte] q (or_intror eq_refl) eq_refl)|].
    destruct k as [|k]; [exact (read_early 2 [zero_byte; zero_byte; zero_byte; zero_byte] q (or_intror eq_refl) eq_refl)|].
    destruct k as [|k]; [exact (read_early 2 [b0; zero_byte; zero_byte; zero_byte] q (or_intror eq_refl) eq_refl)|].
    destruct k as [|k]; [exact (read_early 2 [b0; b1; zero_byte; zero_byte] q (or_intror eq_refl) eq_refl)|].
    destruct k as [|k]; [exact (read_early 2 [b0; b1; b2; zero_byte] q (or_intror eq_refl) eq_refl)|]. lia.
Qed.

Lemma open_after ty shape attrs file max_size s :
  (attrs = [] \/ (attrs <> [] /\ length attrs = last shape 0 /\ 2 <= length shape)) -> shape <> [] ->
  0 < prod shape -> below_2_31 (prod shape) -> max_size = 0 \/ length file <= max_size ->
  let ws := written_shape shape (attr_texts attrs) in
  read_npy_header file = Ok (mkHeader false (Some false) (dtype_str ty) ws (attr_texts attrs) (int_product ws), s) ->
  exists mx, length file <= mx /\
    open_mmap ty file max_size = Ok (ws, mkMmap ty (length file - length s) (prod shape) mx (attr_texts attrs) file).
Proof.
  intros A Ns P B Mx ws R. destruct (shape_facts shape attrs A Ns P B) as (W1 & W2 & W3 & W4 & W5). fold ws in W1, W2, W3, W4, W5.
  exists (if Nat.eqb max_size 0 then length file else max_size). split; [destruct (Nat.eqb_spec max_size 0); lia|].
  unfold open_mmap.
  assert (Em : firstn (if Nat.eqb max_size 0 then length file else max_size) file = file).
  { apply firstn_all2. destruct (Nat.eqb_spec max_size 0); lia. }
  rewrite Em, R. cbn [bind np_dtype]. rewrite text_eqb_refl. cbn [negb np_shape np_attrs].
  unfold element_count. cbn [np_attrs np_count]. rewrite int_product_small by exact W4. rewrite W5. reflexivity.
Qed.
Lemma get_in m hd (l : list text) tail i x : typed (mm_type m) l -> mm_file m = hd ++ concat l ++ tail -> mm_offset m = length hd ->
  length (mm_file m) <= mm_max m -> nth_error l i = Some x -> mm_get m i = Ok x.
Proof.
  intros T F O M E. unfold mm_get, get_bytes. unfold typed in T. change (item_bytes (mm_type m)) with (type_size (mm_type m)) in T.
  set (size := type_size (mm_type m)) in *. assert (Li : i < length l) by (apply nth_error_Some; congruence).
  pose proof (concat_length size l T) as LC. assert (Mu : S i * size <= length l * size) by (apply Nat.mul_le_mono_r; lia).
  assert (LF : length (mm_file m) = length hd + size * length l + length tail) by (rewrite F, !app_length; lia).
  assert (Lx : length x = size) by (rewrite Forall_forall in T; apply T; eapply nth_error_In; exact E).
  replace (mm_max m <? mm_offset m + i * size + size) with false by (symmetry; apply Nat.ltb_ge; lia).
  replace (length (mm_file m) <? mm_offset m + i * size + size) with false by (symmetry; apply Nat.ltb_ge; lia).
  f_equal. rewrite F, O, <- skipn_skipn, skipn_len. rewrite skipn_app. replace (i * size - length (concat l)) with 0 by lia. cbn [skipn].
  rewrite (skipn_firstn_split l size i x T E), <- app_assoc. apply (f_equal (@Ok text)). apply firstn_eq. exact Lx.
Qed.
Lemma get_out m i : length (mm_file m) < mm_offset m + i * type_size (mm_type m) + type_size (mm_type m) -> mm_get m i = UB.
Proof.
  intros L. unfold mm_get, get_bytes. destruct (_ <? _); [reflexivity|].
  replace (length (mm_file m) <? _) with true; [reflexivity|]. symmetry. apply Nat.ltb_lt. lia.
Qed.

(** ** Creation *)
Lemma open_created ty shape attrs k f max_size :
  shape <> [] -> let full := append_attr_shape shape (length attrs) in
  0 < prod full -> below_2_31 (prod full) -> Forall good_name (attr_texts attrs) ->
  below_2_32 (length f - prod full * item_bytes ty) ->
  create_mmap_killed ty shape (attr_texts attrs) k = Ok f -> max_size = 0 \/ length f <= max_size ->
  (k < shape_end ty full (attr_texts attrs) -> open_mmap ty f max_size = Throw) /\
  (shape_end ty full (attr_texts attrs) <= k ->
   exists m, open_mmap ty f max_size = Ok (shape, m) /\ gives m (repeat (zero_element ty) (prod full))).
Proof.
  intros Ns full P B G Lf E Mx.
  assert (La : length (attr_texts attrs) = length attrs) by apply map_length.
  assert (A : attrs = [] \/ (attrs <> [] /\ length attrs = last full 0 /\ 2 <= length full)).
  { unfold full, append_attr_shape. destruct attrs as [|x r]; [left; reflexivity|]. right. cbn [length Nat.eqb].
    split; [discriminate|]. rewrite last_last, app_length. cbn [length]. split; [reflexivity|]. destruct shape; [congruence | cbn; lia]. }
  assert (A' : axis_ok full attrs).
  { destruct A as [->|(N & L & L2)]; [left; reflexivity | right]. split; [exact N|]. split; [|exact L]. intros K. rewrite K in L2. cbn in L2. lia. }
  assert (Nf : full <> []) by (intros K; unfold full, append_attr_shape in K; destruct (Nat.eqb (length attrs) 0); [congruence | apply app_eq_nil in K; destruct K; discriminate]).
  assert (Ew : written_shape full (attr_texts attrs) = shape).
  { unfold full, append_attr_shape. rewrite <- La. destruct (attr_texts attrs) as [|x r]; [reflexivity|].
    cbn [length Nat.eqb written_shape]. apply removelast_last. }
  destruct (shape_facts full attrs A Nf P B) as (W1 & W2 & W3 & W4 & W5). rewrite Ew in *.
  unfold create_mmap_killed in E. rewrite La in E. fold full in E.
  rewrite write_header_eq in E by (apply axis_texts; exact A'). cbn [bind] in E. rewrite Ew in E.
  assert (En : match attr_texts attrs with [] => int_product shape | _ :: _ => int_product shape * length attrs end = prod full).
  { rewrite int_product_small by exact W4. rewrite La in W5. exact W5. }
  rewrite En in E. set (header := header_bytes ty shape (attr_texts attrs)) in *.
  assert (Lb := header_bytes_length ty shape (attr_texts attrs)). fold header in Lb.
  set (padded := padded_dict (npy_dict ty shape (attr_texts attrs))) in *.
  set (pre := npy_magic ++ npy_version ++ le_bytes 4 (N.of_nat (length padded))).
  assert (Lpre : length pre = 12) by (unfold pre; rewrite !app_length, le_bytes_length; reflexivity).
  assert (Eh : header = pre ++ padded) by (unfold header, header_bytes, pre; fold padded; rewrite <- !app_assoc; reflexivity).
  set (k' := Nat.min k (length header)).
  assert (Ef : f = firstn k' header ++ zs (length header - k' + prod full * type_size ty)).
  { unfold put_bytes in E. rewrite repeat_length, firstn_length in E. fold k' in E. cbn [Nat.add] in E.
    replace (length header + prod full * type_size ty <? k') with false in E by (symmetry; apply Nat.ltb_ge; unfold k'; lia).
    apply ok_inj in E. subst f. cbn [firstn app]. rewrite skipn_zs.
    f_equal; [|f_equal; unfold k'; lia]. unfold k'. destruct (Nat.le_gt_cases k (length header)) as [Q|Q].
    - f_equal. lia.
    - rewrite !firstn_all2 by lia. reflexivity. }
  assert (LfE : length f = length header + prod full * type_size ty).
  { rewrite Ef, app_length, firstn_length_le, repeat_length by (unfold k'; lia). unfold k'. lia. }
  pose proof (front_length ty full (attr_texts attrs)) as FL. rewrite Ew in FL.
  assert (Lfp : length (dict_front ty shape (attr_texts attrs)) + 2 <= length padded).
  { unfold padded. destruct (padded_dict_eq (npy_dict ty shape (attr_texts attrs))) as (pad & Ep & _). rewrite Ep, dict_front_eq, !app_length. cbn. lia. }
  assert (Em : forall mx, mx = 0 \/ length f <= mx -> firstn (if Nat.eqb mx 0 then length f else mx) f = f).
  { intros mx Hm. apply firstn_all2. destruct (Nat.eqb_spec mx 0); lia. }
  destruct (Nat.lt_ge_cases k 12) as [K|K].
  - split; [|lia]. intros _. unfold open_mmap. rewrite Em by exact Mx.
    assert (Ee : f = firstn k (npy_magic ++ npy_version ++ le_bytes 4 (N.of_nat (length padded))) ++ zs (length header - k' + prod full * type_size ty)).
    { rewrite Ef at 1. f_equal. replace k' with k by (unfold k'; lia). fold pre. rewrite Eh, firstn_app. replace (k - length pre) with 0 by lia.
      cbn [firstn]. apply app_nil_r. }
    rewrite Ee, read_early_cut; [reflexivity | exact K | unfold k'; lia].
  - set (j := k' - 12). set (rest := firstn j padded ++ zs (length header - k' + prod full * type_size ty)).
    assert (Ee : f = pre ++ rest).
    { rewrite Ef at 1. unfold rest. rewrite Eh at 1. rewrite firstn_app, Lpre. rewrite firstn_all2 by (unfold k'; lia). rewrite <- app_assoc. reflexivity. }
    assert (Lj : j <= length padded) by (unfold j, k'; lia).
    assert (Rz : read_zeros (length padded) rest = firstn j padded ++ zs (length padded - j)).
    { unfold read_zeros, rest. rewrite app_length, firstn_length_le, repeat_length by exact Lj.
      replace (length padded - (j + _)) with 0 by (unfold j, k'; lia). cbn [repeat]. rewrite app_nil_r, firstn_app.
      rewrite (@firstn_all2 _ (length padded)) by (rewrite firstn_length; lia). rewrite firstn_length_le by exact Lj. f_equal.
      rewrite firstn_zs. f_equal. unfold j, k'. lia. }
    assert (Bl : (N.of_nat (length padded) < 2 ^ 32)%N) by (unfold below_2_32 in Lf; rewrite LfE in Lf; change (item_bytes ty) with (type_size ty) in Lf; lia).
    pose proof (read_filled ty shape (attr_texts attrs) j rest G W1 ltac:(apply dims_below; assumption) Bl Lj Rz) as RF. fold padded in RF.
    replace (npy_magic ++ npy_version ++ le_bytes 4 (N.of_nat (length padded)) ++ rest) with f in RF
      by (rewrite Ee; unfold pre; rewrite <- !app_assoc; reflexivity).
    split; intros S0.
    + unfold open_mmap. rewrite Em by exact Mx. rewrite RF.
      replace (j <=? length (dict_front ty shape (attr_texts attrs))) with true; [reflexivity|]. symmetry. apply Nat.leb_le. unfold j, k'. lia.
    + replace (j <=? length (dict_front ty shape (attr_texts attrs))) with false in RF by (symmetry; apply Nat.leb_gt; unfold j, k'; lia).
      assert (Er : skipn (length padded) rest = zs (prod full * type_size ty)).
      { unfold rest. rewrite skipn_past by lia. f_equal. unfold j, k'. lia. }
      rewrite Er in RF.
      destruct (open_after ty full attrs f max_size (zs (prod full * type_size ty)) A Nf P B Mx) as (mx & Lm & Eo);
        [rewrite Ew; exact RF|].
      rewrite Ew in Eo. eexists. split; [exact Eo|]. split; [cbn [mm_n]; symmetry; apply repeat_length|].
      intros i x Ex. apply (get_in _ (firstn (length header) f) (repeat (zero_element ty) (prod full)) []); cbn [mm_type mm_file mm_offset mm_max].
      * apply typed_zeros.
      * rewrite app_nil_r, concat_zeros. rewrite <- (firstn_skipn (length header) f) at 1. f_equal.
        rewrite Ef, skipn_app, skipn_all2 by (rewrite firstn_length; lia). rewrite firstn_length_le by (unfold k'; lia). cbn [app].
        rewrite skipn_zs. f_equal. unfold k'. lia.
      * rewrite repeat_length, firstn_length, LfE. lia.
      * exact Lm.
      * exact Ex.
Qed.

(** ** Resizing *)
Lemma open_resized m shape attrs elements shape' f max_size :
  inv m shape attrs elements -> readable shape attrs elements (mm_file m) -> shape' <> [] -> below_2_31 (prod shape') ->
  resize_killed m shape' 0 = Ok f -> max_size = 0 \/ length f <= max_size ->
  exists m', open_mmap (mm_type m) f max_size = Ok (written_shape shape (attr_texts attrs), m') /\
    mm_n m' = length elements /\
    forall i x, nth_error elements i = Some x -> mm_get m' i = if i <? prod shape' then Ok x else UB.
Proof.
  intros (Ns & B & A & L & T & F & O & N & At & M) (Ra & Rn & Rp & (hd & Eh & Lh)) Ns' B' E Mx.
  assert (hd = head_of (mm_type m) shape attrs) by (rewrite F in Eh; apply app_inv_tail in Eh; congruence). subst hd. clear Eh.
  set (hd := head_of (mm_type m) shape attrs) in *.
  assert (A2 : attrs = [] \/ (attrs <> [] /\ length attrs = last shape 0 /\ 2 <= length shape)).
  { destruct A as [->|(Na & _ & L1)]; [left; reflexivity|]. destruct Ra as [Ra|Ra]; [congruence|]. right. auto. }
  destruct (shape_facts shape attrs A2 Ns Rp B) as (W1 & W2 & W3 & W4 & W5).
  unfold resize_killed in E. destruct (write_npy_header (mm_type m) shape' (mm_attrs m)) as [header| | |] eqn:Ew; try discriminate.
  cbn [bind] in E. destruct (Nat.eqb_spec (length header) (mm_offset m)) as [Lo|Lo]; [|discriminate]. cbn [negb] in E.
  set (size := type_size (mm_type m)) in *.
  assert (Eu : u32_product shape' = prod shape') by (apply u32_product_small; unfold below_2_31, below_2_32 in *; lia). rewrite Eu in E.
  destruct (Nat.ltb_spec (mm_max m) (length header + size * prod shape')) as [Q|Q]; [discriminate|].
  cbn [firstn] in E. unfold put_bytes in E. cbn [length Nat.add app] in E. rewrite Nat.ltb_irrefl in E || cbn [Nat.ltb Nat.leb] in E.
  cbn [skipn firstn app] in E. apply ok_inj in E.
  rewrite Lo, O in E. pose proof (concat_length size elements T) as LC.
  assert (Ef : f = hd ++ (firstn (size * prod shape') (concat elements) ++ zs (size * prod shape' - length (concat elements)))).
  { rewrite <- E. unfold resize_file. rewrite F, firstn_app. rewrite firstn_all2 by lia. rewrite app_length, <- app_assoc. f_equal. f_equal; f_equal; lia. }
  assert (R : read_npy_header f = Ok (mkHeader false (Some false) (dtype_str (mm_type m)) (written_shape shape (attr_texts attrs)) (attr_texts attrs)
                (int_product (written_shape shape (attr_texts attrs))), skipn (length hd) f)).
  { rewrite Ef at 2. rewrite skipn_len. rewrite Ef. unfold hd, head_of. apply read_written_header; try assumption. apply dims_below; assumption. }
  destruct (open_after (mm_type m) shape attrs f max_size _ A2 Ns Rp B Mx R) as (mx & Lm & Eo).
  eexists. split; [exact Eo|]. cbn [mm_n]. split; [congruence|]. intros i x Ex.
  assert (Li : i < length elements) by (apply nth_error_Some; congruence).
  assert (LF : length f = length hd + size * prod shape').
  { rewrite Ef, !app_length, firstn_length, repeat_length. lia. }
  assert (Off : length f - length (skipn (length hd) f) = length hd) by (rewrite skipn_length; lia).
  destruct (Nat.ltb_spec i (prod shape')) as [Q2|Q2].
  - apply (get_in _ hd (firstn (prod shape') elements) (zs (size * prod shape' - length (concat elements)))); cbn [mm_type mm_file mm_offset mm_max].
    + unfold typed in *. rewrite <- (firstn_skipn (prod shape') elements) in T. apply Forall_app in T. apply T.
    + rewrite Ef. f_equal. f_equal. rewrite Nat.mul_comm. apply firstn_concat. exact T.
    + exact Off.
    + exact Lm.
    + rewrite <- (firstn_skipn (prod shape') elements), nth_error_app1 in Ex by (rewrite firstn_length; lia). exact Ex.
  - apply get_out. cbn [mm_type mm_file mm_offset]. rewrite Off, LF. fold size.
    assert (0 < size) by apply type_size_pos. assert (prod shape' * size <= i * size) by (apply Nat.mul_le_mono_r; exact Q2). lia.
Qed.

(** ** The first bytes *)
Lemma read_first_bytes ty shape attrs (tail : text) k (h : heap text) : k < 12 ->
  read_npy ty h (firstn k (header_bytes ty shape attrs ++ tail)) = UB.
Proof.
  intros K. unfold header_bytes. set (n := N.of_nat _). generalize n. clear n. intros n.
  destruct (le_bytes 4 n) as [|b0 [|b1 [|b2 [|b3 [|? ?]]]]] eqn:E;
    try (apply (f_equal (@length ascii)) in E; rewrite le_bytes_length in E; discriminate).
  unfold npy_magic, npy_version. cbn [txt app]. unfold read_npy.
  do 12 (destruct k as [|k]; [reflexivity|]). lia.
Qed.
