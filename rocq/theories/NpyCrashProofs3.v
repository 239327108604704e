(** Reading and mapping files left by interrupted writes. *)
From Coq Require Import List Arith NArith ZArith Ascii String Bool Lia.
From Verif Require Import Common TextModel TextProofs NdArrayModel NdArraySpec NdArrayProofs NdArrayProofs2 TableModel AsciiModel
  NpyModel NpySpec NpyProofs NpyProofs2 NpyProofs3 NpyCrashModel NpyCrashSpec NpyCrashProofs NpyCrashProofs2.
Import ListNotations.
Local Notation length := List.length.
Local Notation concat := (@List.concat _).
Local Open Scope nat_scope.
Local Notation zs n := (repeat zero_byte n).

Lemma parse_filled ty shape attrs j : Forall good_name attrs -> shape <> [] -> Forall below_2_64 shape ->
  let padded := padded_dict (npy_dict ty shape attrs) in
  j <= length padded ->
  parse_npy_dict (firstn j padded ++ zs (length padded - j)) =
  if j <=? length (dict_front ty shape attrs) then Throw
  else Ok (mkHeader false (Some false) (dtype_str ty) shape attrs (int_product shape)).
Proof.
  intros G N B padded Lj. destruct (padded_dict_eq (npy_dict ty shape attrs)) as (pad & E & _ & k & K & Ek).
  rewrite dict_front_eq in E. set (front := dict_front ty shape attrs) in *.
  assert (Ep : padded = front ++ ")"%char :: (txt "}" ++ pad)).
  { unfold padded. rewrite dict_front_eq. fold front. rewrite E, <- !app_assoc. reflexivity. }
  assert (Lp : length padded = length front + 2 + length pad) by (rewrite Ep, app_length; cbn; lia).
  assert (Hp : 2 <= length pad) by (rewrite Ek, app_length, repeat_length; cbn; lia).
  destruct (Nat.leb_spec j (length front)) as [L|L].
  - rewrite Ep, firstn_app. replace (j - length front) with 0 by lia. cbn [firstn]. rewrite app_nil_r.
    apply parse_cut; [exact G | exact L | fold front; rewrite <- Ep; lia].
  - rewrite Ep, firstn_app, firstn_all2 by lia. destruct (j - length front) as [|q] eqn:Eq; [lia|]. cbn [firstn].
    rewrite <- app_assoc. change (")"%char :: ?x) with (txt ")" ++ x). apply parse_front; assumption.
Qed.

Lemma read_pre n rest : (N.of_nat n < 2 ^ 32)%N ->
  read_npy_header (npy_magic ++ npy_version ++ le_bytes 4 (N.of_nat n) ++ rest) =
  do d <- parse_npy_dict (read_zeros n rest);
  if np_fortran d then Throw
  else do big <- of_option (np_big d); if big then Throw else Ok (d, skipn n rest).
Proof.
  intros L. unfold read_npy_header. set (len := le_bytes 4 (N.of_nat n)).
  assert (Ll : length len = 4) by apply le_bytes_length.
  replace (length (npy_magic ++ npy_version ++ len ++ rest) <? 6) with false
    by (symmetry; apply Nat.ltb_ge; rewrite !app_length; cbn; lia).
  rewrite (firstn_eq 6 npy_magic), (skipn_eq 6 npy_magic) by reflexivity. rewrite text_eqb_refl. cbn [negb].
  replace (length (npy_version ++ len ++ rest) <? 2) with false by (symmetry; apply Nat.ltb_ge; rewrite !app_length; cbn; lia).
  rewrite (firstn_eq 2 npy_version), (skipn_eq 2 npy_version) by reflexivity.
  change (le_value npy_version) with 2%N. change (30 <? 2)%N with false. change (2 mod 256 =? 1)%N with false. cbv iota.
  replace (length (len ++ rest) <? 4) with false by (symmetry; apply Nat.ltb_ge; rewrite app_length; lia).
  rewrite (firstn_eq 4 len), (skipn_eq 4 len) by exact Ll.
  assert (El : N.to_nat (le_value len) = n).
  { unfold len. rewrite le_value_bytes, N.mod_small by exact L. apply Nat2N.id. }
  rewrite El. reflexivity.
Qed.
(** A header of which only a part is there. *)
Lemma read_filled ty shape attrs j rest : Forall good_name attrs -> shape <> [] -> Forall below_2_64 shape ->
  let padded := padded_dict (npy_dict ty shape attrs) in
  (N.of_nat (length padded) < 2 ^ 32)%N -> j <= length padded ->
  read_zeros (length padded) rest = firstn j padded ++ zs (length padded - j) ->
  read_npy_header (npy_magic ++ npy_version ++ le_bytes 4 (N.of_nat (length padded)) ++ rest) =
  if j <=? length (dict_front ty shape attrs) then Throw
  else Ok (mkHeader false (Some false) (dtype_str ty) shape attrs (int_product shape), skipn (length padded) rest).
Proof.
  intros G N B padded Lp Lj R. rewrite read_pre by exact Lp. rewrite R. unfold padded in *. rewrite parse_filled by assumption.
  destruct (j <=? length (dict_front ty shape attrs)); reflexivity.
Qed.

(** ** Elements *)
Lemma chunks_length size n s : length (chunks size n s) = n.
Proof. revert s. induction n as [|n IH]; intros s; [reflexivity|]. cbn. rewrite IH. reflexivity. Qed.
Lemma chunks_typed size n : forall s, size * n <= length s -> Forall (fun x => length x = size) (chunks size n s).
Proof.
  induction n as [|n IH]; intros s L; cbn [chunks]; constructor.
  - apply firstn_length_le. lia.
  - apply IH. rewrite skipn_length. lia.
Qed.
Lemma skipn_skipn {A} (l : list A) : forall a b, skipn a (skipn b l) = skipn (b + a) l.
Proof.
  induction l as [|x l IH]; intros a b; [rewrite !skipn_nil; reflexivity|]. destruct b as [|b]; [reflexivity|]. apply IH.
Qed.
Lemma chunks_nth size n : forall s i, i < n -> nth_error (chunks size n s) i = Some (firstn size (skipn (i * size) s)).
Proof.
  induction n as [|n IH]; intros s i L; [lia|]. destruct i as [|i]; [reflexivity|]. cbn [chunks nth_error].
  rewrite IH by lia. f_equal. f_equal. rewrite skipn_skipn. reflexivity.
Qed.
Lemma read_zeros_length n s : length (read_zeros n s) = n.
Proof. unfold read_zeros. rewrite app_length, firstn_length, repeat_length. lia. Qed.
Lemma firstn_zs a b : firstn a (zs b) = zs (Nat.min a b).
Proof. revert b. induction a as [|a IH]; intros [|b]; cbn; try reflexivity. f_equal. apply IH. Qed.
Lemma skipn_firstn_split (l : list text) size i x : Forall (fun x => length x = size) l -> nth_error l i = Some x ->
  skipn (i * size) (concat l) = x ++ concat (skipn (S i) l).
Proof.
  intros F E. rewrite skipn_concat by exact F. rewrite (skipn_nth l i x E). reflexivity.
Qed.
Lemma left_of_chunks ty (l : list text) q : typed ty l ->
  left_of ty q l (chunks (type_size ty) (length l) (read_zeros (type_size ty * length l) (firstn q (concat l)))).
Proof.
  intros T. assert (Sz : item_bytes ty = type_size ty) by reflexivity. unfold left_of. rewrite Sz. unfold typed in T. rewrite Sz in T.
  split; [apply chunks_length|]. intros i x E.
  assert (Li : i < length l) by (apply nth_error_Some; congruence).
  rewrite chunks_nth by exact Li. f_equal. pose proof (concat_length (type_size ty) l T) as LC.
  assert (Lx : length x = type_size ty) by (rewrite Forall_forall in T; apply T; eapply nth_error_In; exact E).
  set (size := type_size ty) in *. unfold read_zeros. rewrite (@firstn_all2 _ (size * length l) (firstn q (concat l))) by (rewrite firstn_length; lia).
  assert (M : S i * size <= length l * size) by (apply Nat.mul_le_mono_r; lia).
  rewrite firstn_length, LC.
  destruct (Nat.le_gt_cases q (i * size)) as [Q|Q].
  - replace (q - i * size) with 0 by lia. cbn [firstn app]. rewrite skipn_app. rewrite skipn_all2 by (rewrite firstn_length; lia).
    rewrite firstn_length, LC. cbn [app]. rewrite skipn_zs, firstn_zs. f_equal. lia.
  - assert (K : skipn (i * size) (firstn q (concat l) ++ zs (size * length l - Nat.min q (size * length l))) =
       firstn (q - i * size) (x ++ concat (skipn (S i) l)) ++ zs (size * length l - Nat.min q (size * length l))).
    { destruct (Nat.le_gt_cases q (length (concat l))) as [Q2|Q2].
      - rewrite skipn_cut by lia. rewrite (skipn_firstn_split l size i x T E). reflexivity.
      - rewrite firstn_all2 by lia. rewrite skipn_app. replace (i * size - length (concat l)) with 0 by lia. cbn [skipn].
        rewrite (skipn_firstn_split l size i x T E). f_equal. symmetry. apply firstn_all2.
        rewrite <- (skipn_firstn_split l size i x T E), skipn_length. lia. }
    rewrite K. rewrite firstn_app. destruct (Nat.le_gt_cases (q - i * size) size) as [Q3|Q3].
    + rewrite (firstn_app (q - i * size)). replace (q - i * size - length x) with 0 by lia. cbn [firstn]. rewrite app_nil_r.
      rewrite (@firstn_all2 _ size (firstn (q - i * size) x)) by (rewrite firstn_length; lia). rewrite firstn_length, Lx. f_equal.
      rewrite firstn_zs. f_equal. lia.
    + rewrite firstn_firstn. replace (Nat.min size (q - i * size)) with (length x) by lia. rewrite firstn_len.
      replace (size - length (firstn (q - i * size) (x ++ concat (skipn (S i) l)))) with 0
        by (rewrite firstn_length, app_length; lia).
      cbn [firstn]. replace (size - (q - i * size)) with 0 by lia. cbn [repeat]. rewrite !app_nil_r. symmetry. apply firstn_all2. lia.
Qed.

(** ** Reading after the header *)
Lemma shape_facts shape (attrs : list string) :
  (attrs = [] \/ (attrs <> [] /\ length attrs = last shape 0 /\ 2 <= length shape)) -> shape <> [] ->
  0 < prod shape -> below_2_31 (prod shape) ->
  let ws := written_shape shape (attr_texts attrs) in
  ws <> [] /\ append_attr_shape ws (length attrs) = shape /\ 0 < prod ws /\ below_2_31 (prod ws) /\
  match attr_texts attrs with [] => prod ws | _ :: _ => prod ws * length (attr_texts attrs) end = prod shape.
Proof.
  intros A Ns P B ws. assert (La : length (attr_texts attrs) = length attrs) by apply map_length.
  destruct A as [-> |(Na & L1 & L2)].
  - cbn in *. unfold ws. repeat split; try assumption.
  - assert (Nt : attr_texts attrs <> []) by (destruct attrs; [congruence | discriminate]).
    assert (S2 : append_attr_shape ws (length attrs) = shape).
    { rewrite <- La in *. unfold ws. destruct (attr_texts attrs) as [|b r] eqn:E; [congruence|].
      cbn [written_shape]. apply shape_split; [discriminate | exact Ns | exact L1]. }
    assert (W : ws <> []).
    { unfold ws. destruct (attr_texts attrs) as [|b r]; [congruence|]. cbn [written_shape].
      destruct shape as [|n [|m s]]; cbn in L2; try lia. discriminate. }
    assert (Pd : prod ws * length attrs = prod shape).
    { rewrite <- S2. unfold append_attr_shape. destruct attrs as [|z r]; [congruence|]. cbn [length Nat.eqb]. rewrite prod_app. cbn [prod]. lia. }
    split; [exact W|]. split; [exact S2|]. unfold below_2_31 in *.
    split; [destruct (prod ws); lia|]. split.
    + destruct attrs as [|z r]; [congruence|]. cbn [length] in Pd. nia.
    + rewrite La. destruct (attr_texts attrs); [congruence | exact Pd].
Qed.
Lemma read_after ty shape attrs input s (h : heap text) :
  (attrs = [] \/ (attrs <> [] /\ length attrs = last shape 0 /\ 2 <= length shape)) -> shape <> [] ->
  0 < prod shape -> below_2_31 (prod shape) ->
  let ws := written_shape shape (attr_texts attrs) in
  read_npy_header input = Ok (mkHeader false (Some false) (dtype_str ty) ws (attr_texts attrs) (int_product ws), s) ->
  exists h' w, read_npy ty h input = Ok (h', w, skipn (type_size ty * prod shape) s) /\
    nd_shape w = shape /\ nd_attrs w = attrs /\
    nd_elements h' w = Ok (chunks (type_size ty) (prod shape) (read_zeros (type_size ty * prod shape) s)).
Proof.
  intros A Ns P B ws R. destruct (shape_facts shape attrs A Ns P B) as (W1 & W2 & W3 & W4 & W5). fold ws in W1, W2, W3, W4, W5.
  unfold read_npy. rewrite R. cbn [bind np_dtype]. rewrite text_eqb_refl. cbn [negb].
  assert (En : element_count (mkHeader false (Some false) (dtype_str ty) ws (attr_texts attrs) (int_product ws)) = prod shape).
  { unfold element_count. cbn [np_attrs np_count]. rewrite int_product_small by exact W4. exact W5. }
  rewrite En. replace (prod shape =? 0) with false by (symmetry; apply Nat.eqb_neq; lia). cbn [np_shape np_attrs].
  rewrite attr_strings_texts. set (l := chunks _ _ _).
  destruct (from_data_built h ws attrs l) as (h' & w & E1 & E2 & E3 & E4 & E5).
  - rewrite W2. unfold below_2_31, below_2_32 in *. lia.
  - rewrite W2. apply chunks_length.
  - rewrite W2 in E2, E4. exists h', w. rewrite E1. cbn [bind]. split; [reflexivity|]. split; [exact E4|]. split; [exact E5|].
    apply (built_elements h' w shape attrs l); try assumption. apply chunks_length.
Qed.

(** ** Files of writeNpy cut short *)
Lemma file_dict_eq ty shape attrs : npy_dict ty (written_shape shape attrs) attrs = file_dict ty shape attrs.
Proof.
  unfold file_dict, npy_dict, type_description, npy_shape_text, written_shape.
  assert (T : dtype_str ty = file_type ty) by (destruct ty; reflexivity). rewrite T.
  destruct attrs as [|a r]; rewrite <- !app_assoc; reflexivity.
Qed.
Lemma front_length ty shape attrs : length (dict_front ty (written_shape shape attrs) attrs) + 13 = shape_end ty shape attrs.
Proof. unfold shape_end. rewrite <- file_dict_eq, dict_front_eq, !app_length. cbn. lia. Qed.
Lemma read_cut ty shape attrs (l : list text) k (h : heap text) :
  (attrs = [] \/ (attrs <> [] /\ length attrs = last shape 0 /\ 2 <= length shape)) ->
  Forall good_name (attr_texts attrs) -> shape <> [] ->
  typed ty l -> length l = prod shape -> 0 < prod shape -> below_2_31 (prod shape) ->
  let header := header_bytes ty (written_shape shape (attr_texts attrs)) (attr_texts attrs) in
  below_2_32 (length header) -> 12 <= k <= length (header ++ concat l) ->
  (k < shape_end ty shape (attr_texts attrs) -> read_npy ty h (firstn k (header ++ concat l)) = Throw) /\
  (shape_end ty shape (attr_texts attrs) <= k ->
   exists h' w found, read_npy ty h (firstn k (header ++ concat l)) = Ok (h', w, []) /\
     nd_shape w = shape /\ nd_attrs w = attrs /\ nd_elements h' w = Ok found /\
     left_of ty (k - length header) l found).
Proof.
  intros A G Ns T L P B header Lh K.
  destruct (shape_facts shape attrs A Ns P B) as (W1 & W2 & W3 & W4 & W5).
  set (ws := written_shape shape (attr_texts attrs)) in *.
  pose proof (front_length ty shape (attr_texts attrs)) as FL. fold ws in FL.
  assert (Lb := header_bytes_length ty ws (attr_texts attrs)). fold header in Lb.
  set (padded := padded_dict (npy_dict ty ws (attr_texts attrs))) in *.
  set (pre := npy_magic ++ npy_version ++ le_bytes 4 (N.of_nat (length padded))).
  assert (Lpre : length pre = 12) by (unfold pre; rewrite !app_length, le_bytes_length; reflexivity).
  assert (Eh : header = pre ++ padded) by (unfold header, header_bytes, pre; fold padded; rewrite <- !app_assoc; reflexivity).
  assert (Ek : firstn k (header ++ concat l) = pre ++ firstn (k - 12) (padded ++ concat l)).
  { rewrite Eh, <- app_assoc, firstn_app, Lpre. rewrite firstn_all2 by lia. reflexivity. }
  assert (Bl : (N.of_nat (length padded) < 2 ^ 32)%N) by (unfold below_2_32 in Lh; lia).
  assert (Bs : Forall below_2_64 ws) by (apply dims_below; assumption).
  set (rest := firstn (k - 12) (padded ++ concat l)) in *.
  assert (Lr : length rest = k - 12) by (unfold rest; apply firstn_length_le; rewrite app_length in *; lia).
  set (j := Nat.min (k - 12) (length padded)).
  assert (Rz : read_zeros (length padded) rest = firstn j padded ++ zs (length padded - j)).
  { unfold read_zeros. rewrite Lr. f_equal.
    - unfold rest. rewrite firstn_firstn. replace (Nat.min (length padded) (k - 12)) with j by (unfold j; lia).
      rewrite firstn_app. replace (j - length padded) with 0 by (unfold j; lia). cbn [firstn]. apply app_nil_r.
    - f_equal. unfold j. lia. }
  pose proof (read_filled ty ws (attr_texts attrs) j rest G W1 Bs Bl ltac:(unfold j, padded; lia) Rz) as RF.
  fold padded in RF. replace (npy_magic ++ npy_version ++ le_bytes 4 (N.of_nat (length padded)) ++ rest) with (pre ++ rest) in RF
    by (unfold pre; rewrite <- !app_assoc; reflexivity).
  rewrite Ek.
  assert (Lfp : length (dict_front ty ws (attr_texts attrs)) + 2 <= length padded).
  { unfold padded. destruct (padded_dict_eq (npy_dict ty ws (attr_texts attrs))) as (pad & E & _). rewrite E, dict_front_eq, !app_length. cbn. lia. }
  split; intros S0.
  - unfold read_npy. rewrite RF. replace (j <=? length (dict_front ty ws (attr_texts attrs))) with true; [reflexivity|].
    symmetry. apply Nat.leb_le. unfold j. lia.
  - replace (j <=? length (dict_front ty ws (attr_texts attrs))) with false in RF by (symmetry; apply Nat.leb_gt; unfold j; lia).
    destruct (read_after ty shape attrs (pre ++ rest) _ h A Ns P B RF) as (h' & w & E1 & E2 & E3 & E4).
    assert (Sk : skipn (length padded) rest = firstn (k - length header) (concat l)).
    { unfold rest. rewrite skipn_firstn_comm, skipn_len. f_equal. lia. }
    rewrite Sk in E1, E4. rewrite skipn_all2 in E1 by (rewrite firstn_length, (concat_length (type_size ty) l T), L; lia).
    exists h', w. eexists. split; [exact E1|]. split; [exact E2|]. split; [exact E3|]. split; [exact E4|].
    rewrite <- L. apply left_of_chunks. exact T.
Qed.
