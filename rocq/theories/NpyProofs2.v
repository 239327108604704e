(** Proofs about reading and writing npy files. *)
From Coq Require Import List Arith NArith ZArith Ascii String Bool Lia.
From Verif Require Import Common TextModel TextProofs NdArrayModel NdArraySpec NdArrayProofs NdArrayProofs2 TableModel AsciiModel AsciiProofs
  NpyModel NpySpec NpyProofs.
Import ListNotations.
Local Notation length := List.length.
Local Notation concat := (@List.concat _).
Local Open Scope nat_scope.

(** ** The texts of the types *)
Definition plain (c : ascii) : Prop := c <> quote /\ c <> "]"%char /\ c <> "s"%char /\ c <> "o"%char.
Lemma dtype_nonempty ty : dtype_str ty <> [].
Proof. destruct ty; discriminate. Qed.
Lemma dtype_no_quote ty : ~ In quote (dtype_str ty).
Proof. destruct ty; cbn; intros I; repeat (destruct I as [I|I]; [discriminate|]); exact I. Qed.
Lemma dtype_no_bracket ty : ~ In "]"%char (dtype_str ty).
Proof. destruct ty; cbn; intros I; repeat (destruct I as [I|I]; [discriminate|]); exact I. Qed.
Lemma dtype_find_shape ty : find_text (txt "shape") (endian_marker ++ dtype_str ty) = None.
Proof. destruct ty; reflexivity. Qed.
Lemma dtype_find_fortran ty : find_text (txt "fortran_order") (endian_marker ++ dtype_str ty) = None.
Proof. destruct ty; reflexivity. Qed.
Lemma dtype_inj a b : dtype_str a = dtype_str b -> a = b.
Proof. destruct a, b; intros E; try reflexivity; discriminate E. Qed.

(** ** The dictionary written *)
Lemma dims_join shape : shape <> [] ->
  concat (map (fun s => digits (Z.of_nat s) ++ txt ",") shape) = join_text (txt ",") (dim_texts shape) ++ txt ",".
Proof.
  intros N. induction shape as [|n shape IH]; [congruence|]. destruct shape as [|m shape].
  - cbn [map List.concat dim_texts join_text]. rewrite app_nil_r. reflexivity.
  - cbn [map List.concat] in *. rewrite IH by discriminate.
    unfold dim_texts. cbn [map]. rewrite join_text_cons, <- !app_assoc. reflexivity.
Qed.
Definition dict_descr_text (t : text) (attrs : list text) : text := type_description t attrs ++ txt ", ".
Definition dict_shape_text (shape : list nat) : text := concat (map (fun s => digits (Z.of_nat s) ++ txt ",") shape).
Lemma npy_dict_text ty shape attrs pad :
  npy_dict ty shape attrs ++ pad =
  dict_text (dict_descr_text (dtype_str ty) attrs) (txt "False") (dict_shape_text shape) (txt "}" ++ pad).
Proof.
  unfold npy_dict, dict_text, npy_shape_text, dict_descr_text, dict_shape_text.
  change (txt "{" ++ txt "'descr': " ++ ?x) with (txt "{'descr': " ++ x).
  change (txt ", 'fortran_order': False, 'shape': ") with
    (txt ", " ++ quote :: txt "fortran_order" ++ txt "': " ++ txt "False" ++ txt ", 'shape': ").
  change (txt ", 'shape': (") with (txt ", 'shape': " ++ txt "(").
  rewrite <- !app_assoc. cbn [app]. rewrite <- !app_assoc. reflexivity.
Qed.
Lemma no_quote_lit n : (forallb (fun c => negb (Ascii.eqb c quote)) n) = true -> ~ In quote n.
Proof.
  intros F I. rewrite forallb_forall in F. apply F in I. rewrite ascii_eqb_refl in I. discriminate.
Qed.
Lemma skips_written n ty attrs : ~ In quote n -> n <> [] ->
  find_text n (txt ": ") = None -> find_text n (txt ", ") = None ->
  find_text n (txt ": [(") = None -> find_text n (txt "), (") = None -> find_text n (txt "), ], ") = None ->
  find_text n (endian_marker ++ dtype_str ty) = None ->
  Forall (fun a => find_text n a = None) attrs ->
  skips n (txt ": " ++ dict_descr_text (dtype_str ty) attrs).
Proof.
  intros. unfold dict_descr_text. destruct attrs as [|a attrs].
  - cbn [type_description]. replace (([quote] ++ endian_marker ++ dtype_str ty ++ [quote]) ++ txt ", ") with
      (quote :: (endian_marker ++ dtype_str ty) ++ txt "', ").
    + apply skips_single; assumption.
    + rewrite <- !app_assoc. reflexivity.
  - cbn [type_description]. fold (field (dtype_str ty)).
    replace ((txt "[" ++ concat (map (fun attr => txt "('" ++ attr ++ txt "', '" ++ endian_marker ++ dtype_str ty ++ txt "'), ") (a :: attrs)) ++ txt "]") ++ txt ", ")
      with (txt "[" ++ concat (map (field (dtype_str ty)) (a :: attrs)) ++ txt "], ").
    + apply skips_fields; try assumption. discriminate.
    + rewrite <- !app_assoc. reflexivity.
Qed.
Lemma parse_written_descr ty attrs B S T : Forall good_name attrs ->
  parse_descr (dict_text (dict_descr_text (dtype_str ty) attrs) B S T) = Ok (Some false, dtype_str ty, attrs).
Proof.
  intros G. unfold dict_descr_text. destruct attrs as [|a attrs].
  - cbn [type_description]. replace (([quote] ++ endian_marker ++ dtype_str ty ++ [quote]) ++ txt ", ") with
      (quote :: ("<"%char :: dtype_str ty) ++ txt "', ").
    + rewrite parse_descr_single; [reflexivity|].
      intros [E|I]; [discriminate | exact (dtype_no_quote ty I)].
    + rewrite <- !app_assoc. reflexivity.
  - cbn [type_description].
    replace ((txt "[" ++ concat (map (fun attr => txt "('" ++ attr ++ txt "', '" ++ endian_marker ++ dtype_str ty ++ txt "'), ") (a :: attrs)) ++ txt "]") ++ txt ", ")
      with (txt "[" ++ concat (map (field (dtype_str ty)) (a :: attrs)) ++ txt "], ").
    + apply parse_descr_fields; try discriminate.
      * apply dtype_nonempty.
      * apply dtype_no_quote.
      * apply dtype_no_bracket.
      * eapply Forall_impl; [|exact G]. intros b (H1 & H2 & _). split; assumption.
    + rewrite <- !app_assoc. reflexivity.
Qed.
Lemma parse_written ty shape attrs pad : Forall good_name attrs -> shape <> [] -> Forall below_2_64 shape ->
  parse_npy_dict (npy_dict ty shape attrs ++ pad) =
  Ok (mkHeader false (Some false) (dtype_str ty) shape attrs (int_product shape)).
Proof.
  intros G N B. rewrite npy_dict_text. unfold parse_npy_dict.
  rewrite parse_fortran_spec.
  2:{ apply skips_written; try reflexivity; try discriminate; [apply no_quote_lit; reflexivity | apply dtype_find_fortran|].
      eapply Forall_impl; [|exact G]. intros a (_ & _ & _ & H). apply find_text_none. exact H. }
  2:{ cbn. lia. }
  cbn [bind]. rewrite parse_written_descr by exact G. cbn [bind].
  rewrite parse_shape_spec.
  - unfold dict_shape_text. rewrite dims_join by exact N.
    assert (K : join_text (txt ",") (dim_texts shape) ++ txt "," <> []) by (intros E; apply app_eq_nil in E; destruct E; discriminate).
    destruct (join_text (txt ",") (dim_texts shape) ++ txt ",") as [|c s] eqn:E; [congruence|]. rewrite <- E.
    change (txt ",") with [","%char] at 2 4. rewrite last_last, removelast_last. 
    change (Ascii.eqb "," ",") with true. cbv iota.
    rewrite string_to_sizes_spec; [reflexivity | discriminate | | exact N | exact B].
    constructor; [reflexivity | constructor].
  - apply skips_written; try reflexivity; try discriminate; [apply no_quote_lit; reflexivity | apply dtype_find_shape|].
    eapply Forall_impl; [|exact G]. intros a (_ & _ & H & _). apply find_text_none. exact H.
  - apply no_quote_lit. reflexivity.
  - reflexivity.
  - unfold dict_shape_text. rewrite dims_join by exact N. intros I. apply in_app_or in I. destruct I as [I|I].
    + revert I. apply join_digits_no_char; [reflexivity | | apply dim_tokens].
      cbn. intros [E|[]]. discriminate.
    + cbn in I. destruct I as [E|[]]. discriminate.
Qed.

(** ** Headers *)
Lemma padded_dict_eq dict : exists pad, padded_dict dict = dict ++ pad /\
  (12 + length (padded_dict dict)) mod 64 = 0 /\ exists k, 1 <= k <= 64 /\ pad = repeat " "%char k ++ [newline].
Proof.
  unfold padded_dict. set (t := 6 + 2 + 4 + length dict + 1).
  exists (repeat " "%char (64 - t mod 64) ++ [newline]). split; [reflexivity|].
  pose proof (Nat.mod_upper_bound t 64 ltac:(lia)) as M. split.
  - rewrite !app_length, repeat_length. cbn [length].
    replace (12 + (length dict + (64 - t mod 64 + 1))) with (t + (64 - t mod 64)) by (unfold t; lia).
    rewrite (Nat.div_mod_eq t 64) at 1.
    replace (64 * (t / 64) + t mod 64 + (64 - t mod 64)) with ((t / 64 + 1) * 64) by lia.
    apply Nat.mod_mul. lia.
  - exists (64 - t mod 64). split; [lia | reflexivity].
Qed.
Definition header_bytes (ty : npy_type) (shape : list nat) (attrs : list text) : text :=
  let header := padded_dict (npy_dict ty shape attrs) in
  npy_magic ++ npy_version ++ le_bytes 4 (N.of_nat (length header)) ++ header.
Lemma header_bytes_length ty shape attrs :
  length (header_bytes ty shape attrs) = 12 + length (padded_dict (npy_dict ty shape attrs)).
Proof. unfold header_bytes. rewrite !app_length, le_bytes_length. reflexivity. Qed.
(** The shape in the header. *)
Definition written_shape (shape : list nat) (attrs : list text) : list nat :=
  match attrs with [] => shape | _ :: _ => removelast shape end.
Lemma write_header_eq ty shape attrs :
  attrs = [] \/ (attrs <> [] /\ shape <> [] /\ length attrs = last shape 0) ->
  write_npy_header ty shape attrs = Ok (header_bytes ty (written_shape shape attrs) attrs).
Proof.
  intros H. unfold write_npy_header. destruct attrs as [|a attrs]; [reflexivity|].
  destruct H as [H|(_ & Ns & L)]; [discriminate|]. destruct shape as [|n shape]; [congruence|].
  rewrite L, Nat.eqb_refl. reflexivity.
Qed.
Lemma ok_inj {A} (a b : A) : Ok a = Ok b -> a = b.
Proof. intros E. injection E. auto. Qed.
Lemma write_header_inv ty shape attrs header : write_npy_header ty shape attrs = Ok header ->
  header = header_bytes ty (written_shape shape attrs) attrs /\
  (attrs = [] \/ (attrs <> [] /\ shape <> [] /\ length attrs = last shape 0)).
Proof.
  unfold write_npy_header. destruct attrs as [|a attrs].
  - intros E. apply ok_inj in E. split; [symmetry; exact E | left; reflexivity].
  - destruct shape as [|n shape]; [discriminate|].
    destruct (Nat.eqb_spec (length (a :: attrs)) (last (n :: shape) 0)) as [L|L]; [|discriminate].
    intros E. apply ok_inj in E. split; [symmetry; exact E|]. right. split; [discriminate|]. split; [discriminate | exact L].
Qed.

Lemma firstn_eq {A} n (a b : list A) : length a = n -> firstn n (a ++ b) = a.
Proof. intros <-. apply firstn_len. Qed.
Lemma skipn_eq {A} n (a b : list A) : length a = n -> skipn n (a ++ b) = b.
Proof. intros <-. apply skipn_len. Qed.
(** ** Reading a file with a given version *)
Lemma read_header_gen v w header data d :
  (v = 1 /\ w = 2 \/ v = 2 /\ w = 4) ->
  (N.of_nat (length header) < 256 ^ N.of_nat w)%N ->
  parse_npy_dict header = Ok d ->
  read_npy_header (npy_magic ++ [ascii_of_nat v; ascii_of_nat 0] ++ le_bytes w (N.of_nat (length header)) ++ header ++ data) =
  if np_fortran d then Throw
  else do big <- of_option (np_big d); if big then Throw else Ok (d, data).
Proof.
  intros V L P. unfold read_npy_header.
  set (len := le_bytes w (N.of_nat (length header))).
  replace (length (npy_magic ++ [ascii_of_nat v; ascii_of_nat 0] ++ len ++ header ++ data) <? 6) with false
    by (symmetry; apply Nat.ltb_ge; rewrite !app_length; cbn; lia).
  rewrite (firstn_eq 6 npy_magic), (skipn_eq 6 npy_magic) by reflexivity. rewrite text_eqb_refl. cbn [negb].
  replace (length ([ascii_of_nat v; ascii_of_nat 0] ++ len ++ header ++ data) <? 2) with false
    by (symmetry; apply Nat.ltb_ge; rewrite !app_length; cbn; lia).
  rewrite (firstn_eq 2 [ascii_of_nat v; ascii_of_nat 0]), (skipn_eq 2 [ascii_of_nat v; ascii_of_nat 0]) by reflexivity.
  assert (Ev : le_value [ascii_of_nat v; ascii_of_nat 0] = N.of_nat v) by (destruct V as [(-> & _)|(-> & _)]; reflexivity).
  rewrite Ev. replace (30 <? N.of_nat v)%N with false by (destruct V as [(-> & _)|(-> & _)]; reflexivity).
  replace (if (N.of_nat v mod 256 =? 1)%N then 2 else 4) with w by (destruct V as [(-> & ->)|(-> & ->)]; reflexivity).
  assert (Lw : length len = w) by apply le_bytes_length.
  replace (length (len ++ header ++ data) <? w) with false
    by (symmetry; apply Nat.ltb_ge; rewrite app_length; lia).
  rewrite (firstn_eq w len), (skipn_eq w len) by exact Lw.
  assert (El : N.to_nat (le_value len) = length header).
  { unfold len. rewrite le_value_bytes, N.mod_small by exact L. apply Nat2N.id. }
  rewrite El. unfold read_zeros. rewrite firstn_len, skipn_len.
  replace (length header - length (header ++ data)) with 0 by (rewrite app_length; lia).
  cbn [repeat]. rewrite app_nil_r, P. reflexivity.
Qed.
Lemma read_written_header ty shape attrs data :
  Forall good_name attrs -> shape <> [] -> Forall below_2_64 shape ->
  below_2_32 (length (header_bytes ty shape attrs)) ->
  read_npy_header (header_bytes ty shape attrs ++ data) =
  Ok (mkHeader false (Some false) (dtype_str ty) shape attrs (int_product shape), data).
Proof.
  intros G N B L. rewrite header_bytes_length in L. unfold header_bytes.
  destruct (padded_dict_eq (npy_dict ty shape attrs)) as (pad & E & _).
  rewrite <- !app_assoc. change npy_version with [ascii_of_nat 2; ascii_of_nat 0].
  rewrite (read_header_gen 2 4 _ data (mkHeader false (Some false) (dtype_str ty) shape attrs (int_product shape))).
  - reflexivity.
  - right. split; reflexivity.
  - unfold below_2_32 in L. change (256 ^ N.of_nat 4)%N with (2 ^ 32)%N. lia.
  - rewrite E. apply parse_written; assumption.
Qed.

(** ** Data *)
Lemma chunks_concat size (l : list text) : Forall (fun x => length x = size) l ->
  chunks size (length l) (concat l) = l.
Proof.
  intros F. induction F as [|x l H F IH]; [reflexivity|].
  cbn [length chunks List.concat]. rewrite <- H at 1. rewrite firstn_len. rewrite <- H at 2. rewrite skipn_len.
  rewrite IH. reflexivity.
Qed.
Lemma concat_length size (l : list text) : Forall (fun x : text => length x = size) l -> length (concat l) = size * length l.
Proof.
  intros F. induction F as [|x l H F IH]; [cbn; lia|].
  cbn [List.concat length]. rewrite app_length, IH, H. lia.
Qed.
Lemma read_data size (l : list text) rest : Forall (fun x => length x = size) l ->
  chunks size (length l) (read_zeros (size * length l) (concat l ++ rest)) = l /\
  skipn (size * length l) (concat l ++ rest) = rest.
Proof.
  intros F. pose proof (concat_length size l F) as L. rewrite <- L. unfold read_zeros.
  rewrite firstn_len, skipn_len. replace (length (concat l) - length (concat l ++ rest)) with 0 by (rewrite app_length; lia).
  cbn [repeat]. rewrite app_nil_r, chunks_concat by exact F. split; reflexivity.
Qed.

(** ** Shapes *)
Lemma prod_app a b : prod (a ++ b) = prod a * prod b.
Proof. induction a as [|x a IH]; cbn [app prod]; [lia|]. rewrite IH. lia. Qed.
Lemma dims_below shape : 0 < prod shape -> below_2_31 (prod shape) -> Forall below_2_64 shape.
Proof.
  intros P B. apply Forall_forall. intros n I. apply in_split in I. destruct I as (a & b & ->).
  rewrite prod_app in *. cbn [prod] in *. unfold below_2_31 in B. unfold below_2_64.
  assert (n <= prod a * (n * prod b)).
  { destruct (prod a) as [|p]; [lia|]. destruct (prod b) as [|q]; [lia|]. nia. }
  lia.
Qed.
Lemma shape_split shape attrs : attrs <> [] -> shape <> [] -> length attrs = last shape 0 ->
  append_attr_shape (removelast shape) (length (attrs : list text)) = shape.
Proof.
  intros Na Ns L. unfold append_attr_shape. destruct attrs as [|a attrs]; [congruence|]. cbn [length Nat.eqb] in *.
  rewrite L. symmetry. apply app_removelast_last. exact Ns.
Qed.

(** ** Round trip *)
Lemma attr_strings_texts l : attr_strings (attr_texts l) = l.
Proof.
  unfold attr_strings, attr_texts. induction l as [|x l IH]; [reflexivity|]. cbn [map].
  rewrite IH, string_of_list_ascii_of_string. reflexivity.
Qed.
Lemma from_data_built (h : heap text) shape attrs data :
  below_2_32 (prod (append_attr_shape shape (length attrs))) ->
  length data = prod (append_attr_shape shape (length attrs)) ->
  exists h' w, nd_from_data_attrs h shape attrs data = Ok (h', w) /\
    built text w (append_attr_shape shape (length attrs)) attrs /\ holds h' w data /\
    nd_shape w = append_attr_shape shape (length attrs) /\ nd_attrs w = attrs.
Proof.
  intros B L. unfold nd_from_data_attrs, nd_from_data. rewrite u32_product_small by exact B. rewrite L, Nat.eqb_refl.
  cbn [negb bind]. do 2 eexists. split; [reflexivity|].
  split. { eapply (built_attrs text h shape attrs data). unfold nd_from_data_attrs, nd_from_data.
           rewrite u32_product_small by exact B. rewrite L, Nat.eqb_refl. reflexivity. }
  split; [|split; reflexivity]. unfold holds. cbn [nd_container]. rewrite nth_error_app2 by lia.
  rewrite Nat.sub_diag. reflexivity.
Qed.
(** A file with the header of an array and its elements is read back. *)
Lemma read_back ty shape attrs (l : list text) rest (h : heap text) :
  (attrs = [] \/ (attrs <> [] /\ length attrs = last shape 0 /\ 2 <= length shape)) ->
  Forall good_name (attr_texts attrs) -> shape <> [] ->
  typed ty l -> length l = prod shape -> 0 < prod shape -> below_2_31 (prod shape) ->
  let header := header_bytes ty (written_shape shape (attr_texts attrs)) (attr_texts attrs) in
  below_2_32 (length header) ->
  exists h' w, read_npy ty h (header ++ concat l ++ rest) = Ok (h', w, rest) /\
    built text w shape attrs /\ holds h' w l /\ nd_shape w = shape /\ nd_attrs w = attrs.
Proof.
  intros A G Ns F L P B header Lh.
  assert (La : length (attr_texts attrs) = length attrs) by apply map_length.
  assert (S1 : written_shape shape (attr_texts attrs) <> [] /\
    append_attr_shape (written_shape shape (attr_texts attrs)) (length attrs) = shape).
  { destruct A as [->|(Na & L1 & L2)].
    - split; [exact Ns | reflexivity].
    - rewrite <- La in *. destruct (attr_texts attrs) as [|b r] eqn:E; [destruct attrs; [congruence | discriminate]|].
      cbn [written_shape]. split.
      + destruct shape as [|n [|m s]]; cbn in L2; try lia. discriminate.
      + apply shape_split; [discriminate | exact Ns | exact L1]. }
  destruct S1 as (S1 & S2).
  assert (Pd : prod (written_shape shape (attr_texts attrs)) * (if Nat.eqb (length attrs) 0 then 1 else length attrs) = prod shape).
  { rewrite <- S2 at 2. unfold append_attr_shape. destruct (Nat.eqb (length attrs) 0); [lia|].
    rewrite prod_app. cbn [prod]. lia. }
  assert (Bw : 0 < prod (written_shape shape (attr_texts attrs)) /\ below_2_31 (prod (written_shape shape (attr_texts attrs)))).
  { unfold below_2_31 in *. destruct (Nat.eqb (length attrs) 0) eqn:E; [lia|]. apply Nat.eqb_neq in E.
    destruct (prod (written_shape shape (attr_texts attrs))); [lia|]. split; [lia|]. nia. }
  unfold read_npy. unfold header.
  rewrite read_written_header by (try assumption; apply dims_below; apply Bw). cbn [bind np_dtype].
  rewrite text_eqb_refl. cbn [negb].
  assert (En : element_count (mkHeader false (Some false) (dtype_str ty) (written_shape shape (attr_texts attrs)) (attr_texts attrs)
                 (int_product (written_shape shape (attr_texts attrs)))) = length l).
  { unfold element_count. cbn [np_attrs np_count]. rewrite int_product_small by apply Bw. rewrite L, <- Pd, <- La.
    destruct (attr_texts attrs); cbn [length Nat.eqb]; lia. }
  rewrite En. replace (length l =? 0) with false by (symmetry; apply Nat.eqb_neq; lia).
  destruct (read_data (type_size ty) l rest F) as (R1 & R2). rewrite R1, R2. cbn [np_shape np_attrs].
  rewrite attr_strings_texts.
  destruct (from_data_built h (written_shape shape (attr_texts attrs)) attrs l) as (h' & w & E1 & E2 & E3 & E4 & E5).
  - rewrite S2. unfold below_2_31, below_2_32 in *. lia.
  - rewrite S2. exact L.
  - rewrite S2 in E2, E4. exists h', w. rewrite E1. cbn [bind]. repeat split; assumption.
Qed.
Lemma nd_at_outside {T} (h : heap T) k v coords : scaled k v -> ~ In coords (row_major (nd_shape v)) -> nd_at h v coords = Throw.
Proof.
  intros Sk N. unfold nd_at. rewrite row_major_in in N.
  rewrite (proj2 (get_offset_scaled k v coords Sk) N). reflexivity.
Qed.
Lemma nd_eq_of_data (h1 h2 : heap text) v w shape attrs ops a sa aa da l :
  built text a sa aa -> holds h1 a da -> length da = prod sa -> below_2_31 (prod sa) -> sa <> [] ->
  apply_views a ops = Ok v -> nd_shape v = shape -> shape <> [] -> below_2_31 (prod shape) ->
  nd_elements h1 v = Ok l -> length l = prod shape ->
  Forall2 (fun coords x => nd_at h1 v coords = Ok x) (row_major shape) l ->
  built text w shape attrs -> holds h2 w l -> nd_shape w = shape -> nd_attrs w = nd_attrs v ->
  same_array h1 v h2 w.
Proof.
  intros Hb Hh Hd Hp Hne Hv Sv Ns Bs El Ll F Wb Wh Ws Wa.
  assert (At : forall coords, nd_at h1 v coords = nd_at h2 w coords).
  { intros coords. destruct (at_spec h2 w shape attrs l coords Wb Wh Ll) as (A1 & A2).
    destruct (in_dec (list_eq_dec Nat.eq_dec) coords (row_major shape)) as [I|I].
    - apply In_nth_error in I. destruct I as (p & Ep). destruct (A1 p Ep) as (x & Ex & Ax). rewrite Ax.
      clear - F Ep Ex. revert p Ep Ex. induction F as [|c y cs l H F IH]; intros [|p] Ep Ex; try discriminate.
      + cbn in *. injection Ep as <-. injection Ex as <-. exact H.
      + apply (IH p); assumption.
    - rewrite A2 by exact I. pose proof (built_scaled _ _ _ _ Hb) as Hs.
      destruct (views_spec 1 a ops v Hs Hv) as ((k & Hk) & _). apply (nd_at_outside h1 k); [exact Hk|].
      rewrite Sv. exact I. }
  split; [congruence|]. split; [congruence|]. split; [exact At|].
  destruct (elements_spec h2 w shape attrs l [] w Wb Wh Ll Bs Ns eq_refl) as (l2 & E2 & F2).
  rewrite El, E2. f_equal. rewrite Ws in F2. clear - F F2 At. revert l2 F2.
  induction F as [|c x cs l H F IH]; intros l2 F2; inversion F2; subst; [reflexivity|].
  f_equal; [|apply IH; assumption]. rewrite At in H. congruence.
Qed.
Lemma Forall2_len' {A B} (P : A -> B -> Prop) l1 l2 : Forall2 P l1 l2 -> length l1 = length l2.
Proof. induction 1; cbn; congruence. Qed.
Lemma elements_typed {T} (h : heap T) (P : T -> Prop) v l data cs :
  Forall2 (fun coords x => nd_at h v coords = Ok x) cs l -> holds h v data -> Forall P data -> Forall P l.
Proof.
  intros F Hh G. induction F as [|c x cs l H F IH]; constructor; [|exact IH].
  unfold nd_at, container_get in H. destruct (get_offset v c) as [o| | |]; try discriminate. cbn [bind] in H.
  unfold holds in Hh. rewrite Hh in H. cbn [of_option bind] in H. destruct (nth_error data o) eqn:E; [|discriminate].
  injection H as <-. rewrite Forall_forall in G. apply G. eapply nth_error_In. exact E.
Qed.
Lemma round_trip ty (h : heap text) a shape attrs data ops v :
  built text a shape attrs -> holds h a data -> length data = prod shape -> below_2_31 (prod shape) -> shape <> [] ->
  typed ty data -> apply_views a ops = Ok v -> 0 < prod (nd_shape v) -> names_last_axis v ->
  Forall good_name (attr_texts (nd_attrs v)) ->
  exists header l, write_npy ty h v = Ok (header ++ concat l) /\ nd_elements h v = Ok l /\
    header = header_bytes ty (written_shape (nd_shape v) (attr_texts (nd_attrs v))) (attr_texts (nd_attrs v)) /\
    (below_2_32 (length header) ->
     forall h2 rest, exists h2' w, read_npy ty h2 (header ++ concat l ++ rest) = Ok (h2', w, rest) /\ same_array h v h2' w).
Proof.
  intros Hb Hh Hd Hp Hne Ht Hv Pv Nv G.
  destruct (elements_spec h a shape attrs data ops v Hb Hh Hd Hp Hne Hv) as (l & El & F).
  destruct (view_size_prod a shape attrs ops v Hb Hp Hne Hv) as (B & Sz & Ns).
  assert (Hhv : holds h v data).
  { destruct (views_spec 1 a ops v (built_scaled _ _ _ _ Hb) Hv) as (_ & Hc & _). unfold holds. rewrite Hc. exact Hh. }
  assert (Lv : length l = prod (nd_shape v)) by (rewrite <- (Forall2_len' _ _ _ F); apply row_major_length).
  assert (Tl : typed ty l) by (eapply elements_typed; eassumption).
  assert (A : attr_texts (nd_attrs v) = [] \/ (attr_texts (nd_attrs v) <> [] /\ nd_shape v <> [] /\ length (attr_texts (nd_attrs v)) = last (nd_shape v) 0)).
  { unfold attr_texts. rewrite map_length. destruct Nv as [->|(N1 & N2 & N3)]; [left; reflexivity|].
    right. split; [destruct (nd_attrs v); [congruence | discriminate]|]. split; [exact Ns | exact N2]. }
  eexists. exists l. split.
  { unfold write_npy. rewrite write_header_eq by exact A. cbn [bind]. rewrite El. reflexivity. }
  split; [exact El|]. split; [reflexivity|]. intros Lh h2 rest.
  destruct (read_back ty (nd_shape v) (nd_attrs v) l rest h2) as (h' & w & R & Wb & Wh & Ws & Wa); try assumption.
  exists h', w. split; [exact R|].
  apply (nd_eq_of_data h h' v w (nd_shape v) (nd_attrs v) ops a shape attrs data l); try assumption. reflexivity.
Qed.
