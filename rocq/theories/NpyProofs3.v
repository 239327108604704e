(** Proofs about numpy files and memory-mapped files. *)
From Coq Require Import List Arith NArith ZArith Ascii String Bool Lia.
From Verif Require Import Common TextModel TextProofs NdArrayModel NdArraySpec NdArrayProofs NdArrayProofs2 TableModel AsciiModel AsciiProofs
  NpyModel NpySpec NpyProofs NpyProofs2.
Import ListNotations.
Local Notation length := List.length.
Local Notation concat := (@List.concat _).
Local Open Scope nat_scope.

(** ** numpy.save *)
Definition tuple_inside (shape : list nat) : text :=
  match shape with [n] => digits (Z.of_nat n) ++ txt "," | _ => join_text (txt ", ") (dim_texts shape) end.
Lemma tuple_items_join shape : tuple_items shape = join_text (txt ", ") (dim_texts shape).
Proof.
  induction shape as [|n shape IH]; [reflexivity|]. destruct shape as [|m shape]; [reflexivity|].
  unfold dim_texts in *. cbn [map] in *. rewrite join_text_cons, <- IH. reflexivity.
Qed.
Lemma python_tuple_inside shape : python_tuple shape = txt "(" ++ tuple_inside shape ++ txt ")".
Proof.
  unfold python_tuple, tuple_inside. destruct shape as [|n [|m shape]]; [reflexivity| |].
  - rewrite <- app_assoc. reflexivity.
  - rewrite tuple_items_join. reflexivity.
Qed.
Lemma numpy_dict_text c type fortran shape pad :
  numpy_dict [c] type fortran shape ++ pad =
  dict_text (quote :: (c :: type) ++ txt "', ") (if fortran then txt "True" else txt "False") (tuple_inside shape) (txt ", }" ++ pad).
Proof.
  unfold numpy_dict, dict_text. rewrite python_tuple_inside.
  change (txt "{'descr': '") with (txt "{'descr': " ++ [quote]).
  change (txt "', 'fortran_order': ") with (txt "', " ++ quote :: txt "fortran_order" ++ txt "': ").
  change (txt ", 'shape': (") with (txt ", 'shape': " ++ txt "(").
  repeat (rewrite <- app_assoc; cbn [app]). reflexivity.
Qed.
Lemma tuple_inside_sizes shape : shape <> [] -> Forall below_2_64 shape ->
  match tuple_inside shape with
  | [] => UB
  | _ :: _ => string_to_sizes (if Ascii.eqb (last (tuple_inside shape) zero_byte) "," then removelast (tuple_inside shape) else tuple_inside shape)
  end = Ok shape.
Proof.
  intros N B.
  assert (K : tuple_inside shape <> []).
  { destruct shape as [|n [|m shape]]; [congruence| |].
    - cbn. intros E. apply app_eq_nil in E. destruct E; discriminate.
    - unfold tuple_inside, dim_texts. cbn [map]. rewrite join_text_cons. intros E. apply app_eq_nil in E.
      destruct E as (E & _). exact (digits_nonempty _ E). }
  destruct (tuple_inside shape) as [|c0 s0] eqn:E0; [congruence|]. rewrite <- E0. clear K E0 c0 s0.
  destruct shape as [|n [|m shape]]; [congruence| |].
  - cbn [tuple_inside]. change (txt ",") with [","%char]. rewrite last_last, removelast_last.
    change (Ascii.eqb "," ",") with true. cbv iota.
    change (digits (Z.of_nat n)) with (join_text (txt ",") (dim_texts [n])).
    apply string_to_sizes_spec; [discriminate | constructor; [reflexivity | constructor] | exact N | exact B].
  - unfold tuple_inside.
    destruct (last_snoc_join (txt ", ") (dim_texts (n :: m :: shape)) ltac:(discriminate) (dim_tokens _)) as (s & c & E & D).
    replace (Ascii.eqb (last (join_text (txt ", ") (dim_texts (n :: m :: shape))) zero_byte) ",") with false.
    2:{ rewrite E, last_last. symmetry. apply ascii_eqb_neq. apply digit_not; [exact D | reflexivity]. }
    apply string_to_sizes_spec; [discriminate | | exact N | exact B].
    constructor; [reflexivity|]. constructor; [reflexivity | constructor].
Qed.
Lemma tuple_inside_no_paren shape : ~ In ")"%char (tuple_inside shape).
Proof.
  assert (G : forall l, ~ In ")"%char (join_text (txt ", ") (dim_texts l))).
  { intros l. apply join_digits_no_char; [reflexivity | | apply dim_tokens].
    cbn. intros [E|[E|[]]]; discriminate. }
  destruct shape as [|n [|m shape]]; [intros [] | | apply G].
  cbn [tuple_inside]. intros I. apply in_app_or in I. destruct I as [I|I].
  - exact (G [n] I).
  - cbn in I. destruct I as [E|[]]. discriminate.
Qed.
(** Types of the description: no quote and no keyword. *)
Definition plain_type (c : ascii) (type : text) : Prop :=
  ~ In quote (c :: type) /\ find_text (txt "fortran_order") (c :: type) = None /\ find_text (txt "shape") (c :: type) = None.
Lemma parse_numpy c type (fortran : bool) shape pad : plain_type c type ->
  shape <> [] -> Forall below_2_64 shape ->
  parse_npy_dict (numpy_dict [c] type fortran shape ++ pad) =
  Ok (mkHeader fortran (Some (Ascii.eqb c ">")) type shape [] (int_product shape)).
Proof.
  intros (Pq & Pf & Ps) N B. rewrite numpy_dict_text. unfold parse_npy_dict. rewrite parse_fortran_spec.
  2:{ apply skips_single; try reflexivity; try discriminate; [apply no_quote_lit; reflexivity | exact Pf]. }
  2:{ destruct fortran; cbn; lia. }
  cbn [bind]. rewrite parse_descr_single by exact Pq. cbn [bind].
  rewrite parse_shape_spec.
  - rewrite tuple_inside_sizes by assumption. cbn [bind fst snd]. destruct fortran; reflexivity.
  - apply skips_single; try reflexivity; try discriminate; [apply no_quote_lit; reflexivity | exact Ps].
  - apply no_quote_lit. destruct fortran; reflexivity.
  - destruct fortran; reflexivity.
  - apply tuple_inside_no_paren.
Qed.
Lemma read_numpy_header c type fortran shape pad data : plain_type c type ->
  shape <> [] -> Forall below_2_64 shape ->
  (N.of_nat (length (numpy_dict [c] type fortran shape ++ pad)) < 2 ^ 16)%N ->
  read_npy_header (numpy_file (numpy_dict [c] type fortran shape) pad data) =
  if fortran || Ascii.eqb c ">" then Throw
  else Ok (mkHeader false (Some false) type shape [] (int_product shape), data).
Proof.
  intros P N B L. unfold numpy_file.
  rewrite (app_assoc (numpy_dict [c] type fortran shape) pad data).
  rewrite (read_header_gen 1 2 _ data (mkHeader fortran (Some (Ascii.eqb c ">")) type shape [] (int_product shape))).
  - cbn [np_fortran np_big of_option bind]. destruct fortran; [reflexivity|]. destruct (Ascii.eqb c ">"); reflexivity.
  - left. split; reflexivity.
  - exact L.
  - apply parse_numpy; assumption.
Qed.
Lemma dtype_plain c ty : c = "<"%char \/ c = ">"%char \/ c = "|"%char -> plain_type c (dtype_str ty).
Proof.
  intros C. unfold plain_type. split; [|split].
  - intros [E|I]; [|exact (dtype_no_quote ty I)]. destruct C as [C|[C|C]]; rewrite C in E; discriminate.
  - destruct C as [C|[C|C]]; rewrite C; destruct ty; reflexivity.
  - destruct C as [C|[C|C]]; rewrite C; destruct ty; reflexivity.
Qed.
Lemma read_numpy ty (h : heap text) shape (l : list text) pad rest :
  shape <> [] -> 0 < prod shape -> below_2_31 (prod shape) -> length l = prod shape -> typed ty l ->
  (N.of_nat (length (numpy_dict (txt "<") (dtype_str ty) false shape ++ pad)) < 2 ^ 16)%N ->
  exists h' w, read_npy ty h (numpy_file (numpy_dict (txt "<") (dtype_str ty) false shape) pad (concat l ++ rest)) = Ok (h', w, rest) /\
    built text w shape [] /\ holds h' w l /\ nd_shape w = shape /\ nd_attrs w = [].
Proof.
  intros N P B L F Lh. unfold read_npy. change (txt "<") with ["<"%char] in *.
  rewrite read_numpy_header; [|apply dtype_plain; left; reflexivity | exact N | apply dims_below; assumption | exact Lh].
  cbn [orb]. change (Ascii.eqb "<" ">") with false. cbn [bind np_dtype]. rewrite text_eqb_refl. cbn [negb].
  assert (En : element_count (mkHeader false (Some false) (dtype_str ty) shape [] (int_product shape)) = length l).
  { unfold element_count. cbn [np_attrs np_count]. rewrite int_product_small by exact B. congruence. }
  rewrite En. replace (length l =? 0) with false by (symmetry; apply Nat.eqb_neq; lia).
  destruct (read_data (type_size ty) l rest F) as (R1 & R2). rewrite R1, R2. cbn [np_shape np_attrs].
  destruct (from_data_built h shape [] l) as (h' & w & E1 & E2 & E3 & E4 & E5).
  - unfold append_attr_shape. cbn [length Nat.eqb]. unfold below_2_31, below_2_32 in *. lia.
  - exact L.
  - exists h', w. change (attr_strings []) with (@nil string). rewrite E1. cbn [bind]. repeat split; assumption.
Qed.

(** ** Memory-mapped files *)
Lemma type_size_pos ty : 0 < type_size ty.
Proof. destruct ty; cbn; lia. Qed.
Lemma built_elements (h : heap text) w shape attrs l :
  built text w shape attrs -> holds h w l -> length l = prod shape -> below_2_31 (prod shape) -> shape <> [] ->
  nd_elements h w = Ok l.
Proof.
  intros Wb Wh Ll Bs Ns. destruct (elements_spec h w shape attrs l [] w Wb Wh Ll Bs Ns eq_refl) as (l2 & E2 & F2).
  rewrite E2. f_equal. destruct (built_inv _ _ _ _ Wb) as (Ws & _). rewrite Ws in F2.
  assert (G : forall p c x, nth_error (row_major shape) p = Some c -> nth_error l p = Some x -> nd_at h w c = Ok x).
  { intros p c x Ep Ex. destruct (at_spec h w shape attrs l c Wb Wh Ll) as (A1 & _). destruct (A1 p Ep) as (y & Ey & Ay). congruence. }
  assert (Lr : length (row_major shape) = length l) by (rewrite row_major_length; congruence).
  clear - F2 G Lr. revert l Lr G. induction F2 as [|c x cs l2 H F IH]; intros [|y l] Lr G; try discriminate; [reflexivity|].
  f_equal.
  - pose proof (G 0 c y eq_refl eq_refl) as K. congruence.
  - apply IH; [cbn in Lr; lia|]. intros p c' x' H1 H2. apply (G (S p)); assumption.
Qed.
Lemma built_attrs_axis {T} a shape attrs : built T a shape attrs ->
  nd_shape a = shape /\ nd_attrs a = attrs /\ (attrs = [] \/ (attrs <> [] /\ shape <> [] /\ length attrs = last shape 0)).
Proof.
  intros Hb. destruct (built_inv _ _ _ _ Hb) as (E1 & _). split; [exact E1|].
  destruct Hb as [h z s h' a E|h s d h' a E|h s at_ d h' a E].
  - unfold nd_new in E. injection E as _ <-. split; [reflexivity | left; reflexivity].
  - unfold nd_from_data in E. destruct (negb _); [discriminate|]. injection E as _ <-. split; [reflexivity | left; reflexivity].
  - unfold nd_from_data_attrs in E. destruct (nd_from_data _ _ _) as [[h1 a1]| | |]; try discriminate. cbn [bind] in E.
    injection E as _ <-. split; [reflexivity|]. destruct at_ as [|x r]; [left; reflexivity|]. right.
    unfold append_attr_shape. cbn [length Nat.eqb]. split; [discriminate|]. split.
    + intros E. apply app_eq_nil in E. destruct E; discriminate.
    + rewrite last_last. reflexivity.
Qed.
Definition head_of (ty : npy_type) (shape : list nat) (attrs : list string) : text :=
  header_bytes ty (written_shape shape (attr_texts attrs)) (attr_texts attrs).
Definition axis_ok (shape : list nat) (attrs : list string) : Prop :=
  attrs = [] \/ (attrs <> [] /\ shape <> [] /\ length attrs = last shape 0).
Lemma axis_texts shape attrs : axis_ok shape attrs ->
  attr_texts attrs = [] \/ (attr_texts attrs <> [] /\ shape <> [] /\ length (attr_texts attrs) = last shape 0).
Proof.
  unfold attr_texts. rewrite map_length. intros [->|(N & M & L)]; [left; reflexivity|]. right.
  split; [destruct attrs; [congruence | discriminate]|]. split; assumption.
Qed.
Lemma file_of_iff ty shape attrs elements file : shape <> [] -> below_2_31 (prod shape) ->
  (file_of ty shape attrs elements file <->
   axis_ok shape attrs /\ length elements = prod shape /\ typed ty elements /\ file = head_of ty shape attrs ++ concat elements).
Proof.
  intros N B. split.
  - intros (h & a & Hb & Hh & L & T & W). destruct (built_attrs_axis a shape attrs Hb) as (E1 & E2 & E3).
    split; [exact E3|]. split; [exact L|]. split; [exact T|].
    unfold write_npy in W. rewrite E1, E2, write_header_eq in W by (apply axis_texts; exact E3). cbn [bind] in W.
    rewrite (built_elements h a shape attrs elements) in W by assumption. cbn [bind] in W.
    apply ok_inj in W. symmetry. exact W.
  - intros (A & L & T & ->).
    assert (Es : exists s, append_attr_shape s (length attrs) = shape).
    { destruct A as [->|(Na & _ & La)]; [exists shape; reflexivity|]. exists (removelast shape).
      assert (K := shape_split shape (attr_texts attrs)). unfold attr_texts in K. rewrite map_length in K.
      apply K; [destruct attrs; [congruence | discriminate] | exact N | exact La]. }
    destruct Es as (s & Es).
    destruct (from_data_built [] s attrs elements) as (h & a & _ & Hb & Hh & Ws & Wa).
    + rewrite Es. unfold below_2_31, below_2_32 in *. lia.
    + rewrite Es. exact L.
    + rewrite Es in *. exists h, a. split; [exact Hb|]. split; [exact Hh|]. split; [exact L|]. split; [exact T|].
      unfold write_npy. rewrite Ws, Wa, write_header_eq by (apply axis_texts; exact A). cbn [bind].
      rewrite (built_elements h a shape attrs elements) by assumption. reflexivity.
Qed.

Definition inv (m : mmap) (shape : list nat) (attrs : list string) (elements : list text) : Prop :=
  shape <> [] /\ below_2_31 (prod shape) /\ axis_ok shape attrs /\ length elements = prod shape /\
  typed (mm_type m) elements /\ mm_file m = head_of (mm_type m) shape attrs ++ concat elements /\
  mm_offset m = length (head_of (mm_type m) shape attrs) /\ mm_n m = length elements /\
  mm_attrs m = attr_texts attrs /\ length (mm_file m) <= mm_max m.
Lemma skipn_concat (size : nat) (l : list text) i : Forall (fun x => length x = size) l ->
  skipn (i * size) (concat l) = concat (skipn i l).
Proof.
  intros F. revert i. induction F as [|x l H F IH]; intros i.
  - cbn. rewrite skipn_nil. destruct i; reflexivity.
  - destruct i as [|i]; [reflexivity|]. cbn [List.concat skipn Nat.mul].
    rewrite <- H at 1. rewrite skipn_app. rewrite skipn_all2 by lia.
    replace (length x + i * size - length x) with (i * size) by lia. apply IH.
Qed.
Lemma firstn_concat (size : nat) (l : list text) i : Forall (fun x => length x = size) l ->
  firstn (i * size) (concat l) = concat (firstn i l).
Proof.
  intros F. revert i. induction F as [|x l H F IH]; intros i.
  - cbn. rewrite firstn_nil. destruct i; reflexivity.
  - destruct i as [|i]; [reflexivity|]. cbn [List.concat firstn Nat.mul].
    rewrite <- H at 1. rewrite firstn_app. rewrite firstn_all2 by lia.
    replace (length x + i * size - length x) with (i * size) by lia. rewrite IH. reflexivity.
Qed.
Lemma skipn_nth {A} (l : list A) i x : nth_error l i = Some x -> skipn i l = x :: skipn (S i) l.
Proof. revert i. induction l as [|y l IH]; intros [|i] E; try discriminate; [injection E as ->; reflexivity|]. apply IH. exact E. Qed.
Lemma inv_get m shape attrs elements i : inv m shape attrs elements ->
  mm_get m i = of_option (nth_error elements i).
Proof.
  intros (Ns & B & A & L & T & F & O & N & At & M). unfold mm_get, get_bytes.
  pose proof (concat_length (type_size (mm_type m)) elements T) as Lc.
  assert (Lf : length (mm_file m) = mm_offset m + type_size (mm_type m) * length elements)
    by (rewrite F, app_length, Lc, O; reflexivity).
  pose proof (type_size_pos (mm_type m)) as P.
  destruct (nth_error elements i) as [x|] eqn:E.
  - assert (I : i < length elements) by (apply nth_error_Some; congruence).
    assert (K : i * type_size (mm_type m) + type_size (mm_type m) <= type_size (mm_type m) * length elements) by nia.
    replace (mm_max m <? mm_offset m + i * type_size (mm_type m) + type_size (mm_type m)) with false by (symmetry; apply Nat.ltb_ge; lia).
    replace (length (mm_file m) <? mm_offset m + i * type_size (mm_type m) + type_size (mm_type m)) with false by (symmetry; apply Nat.ltb_ge; lia).
    cbn [of_option]. f_equal. rewrite F, O, skipn_app, skipn_all2 by lia. cbn [app].
    match goal with |- context [skipn ?k (concat elements)] => replace k with (i * type_size (mm_type m)) by lia end.
    rewrite skipn_concat by exact T. rewrite (skipn_nth _ _ _ E). cbn [List.concat].
    apply (f_equal (@Ok text)). apply firstn_eq. unfold typed in T. rewrite Forall_forall in T. apply T. eapply nth_error_In. exact E.
  - apply nth_error_None in E.
    assert (K : type_size (mm_type m) * length elements < i * type_size (mm_type m) + type_size (mm_type m)) by nia.
    destruct (mm_max m <? mm_offset m + i * type_size (mm_type m) + type_size (mm_type m)); [reflexivity|].
    replace (length (mm_file m) <? mm_offset m + i * type_size (mm_type m) + type_size (mm_type m)) with true by (symmetry; apply Nat.ltb_lt; lia).
    reflexivity.
Qed.
Lemma set_nth_split {A} (l : list A) i x l' : set_nth l i x = Some l' ->
  i < length l /\ l' = firstn i l ++ x :: skipn (S i) l.
Proof.
  revert i l'. induction l as [|y l IH]; intros [|i] l' E; cbn in E; try discriminate.
  - injection E as <-. split; [cbn; lia | reflexivity].
  - destruct (set_nth l i x) as [r|] eqn:E2; [|discriminate]. injection E as <-. destruct (IH i r E2) as (I & ->).
    split; [cbn; lia | reflexivity].
Qed.
Lemma inv_set m shape attrs elements i x elements' :
  inv m shape attrs elements -> length x = type_size (mm_type m) -> set_nth elements i x = Some elements' ->
  exists m', mm_set m i x = Ok m' /\ inv m' shape attrs elements' /\ mm_type m' = mm_type m.
Proof.
  intros (Ns & B & A & L & T & F & O & N & At & M) Lx E. destruct (set_nth_split _ _ _ _ E) as (I & El).
  pose proof (concat_length (type_size (mm_type m)) elements T) as Lc.
  assert (Lf : length (mm_file m) = mm_offset m + type_size (mm_type m) * length elements)
    by (rewrite F, app_length, Lc, O; reflexivity).
  assert (K : i * type_size (mm_type m) + type_size (mm_type m) <= type_size (mm_type m) * length elements) by nia.
  unfold mm_set, put_bytes. rewrite Lx.
  replace (mm_max m <? mm_offset m + i * type_size (mm_type m) + type_size (mm_type m)) with false by (symmetry; apply Nat.ltb_ge; lia).
  replace (length (mm_file m) <? mm_offset m + i * type_size (mm_type m) + type_size (mm_type m)) with false by (symmetry; apply Nat.ltb_ge; lia).
  cbn [bind]. eexists. split; [reflexivity|]. split; [|reflexivity].
  assert (T' : typed (mm_type m) elements').
  { rewrite El. unfold typed in *. apply Forall_app. split; [|constructor].
    - apply Forall_forall. intros y Iy. rewrite Forall_forall in T. apply T. rewrite <- (firstn_skipn i). apply in_or_app. left. exact Iy.
    - exact Lx.
    - apply Forall_forall. intros y Iy. rewrite Forall_forall in T. apply T. rewrite <- (firstn_skipn (S i)). apply in_or_app. right. exact Iy. }
  assert (L' : length elements' = length elements).
  { rewrite El, app_length. cbn [length]. rewrite firstn_length, skipn_length. lia. }
  assert (Ff : firstn (mm_offset m + i * type_size (mm_type m)) (mm_file m) ++ x ++ skipn (mm_offset m + i * type_size (mm_type m) + type_size (mm_type m)) (mm_file m) =
    head_of (mm_type m) shape attrs ++ concat elements').
  { rewrite F, O, firstn_app, firstn_all2 by lia.
    match goal with |- context [firstn ?k (concat elements)] => replace k with (i * type_size (mm_type m)) by lia end.
    rewrite firstn_concat by exact T. rewrite skipn_app, skipn_all2 by lia.
    match goal with |- context [skipn ?k (concat elements)] => replace k with (S i * type_size (mm_type m)) by lia end.
    rewrite skipn_concat by exact T. rewrite El, concat_app. cbn [List.concat app]. rewrite <- !app_assoc. reflexivity. }
  unfold inv, with_file. cbn [mm_type mm_file mm_offset mm_n mm_attrs mm_max].
  rewrite Ff. split; [exact Ns|]. split; [exact B|]. split; [exact A|]. split; [lia|]. split; [exact T'|].
  split; [reflexivity|]. split; [exact O|]. split; [lia|]. split; [exact At|].
  rewrite app_length, (concat_length (type_size (mm_type m)) elements' T'), L'. lia.
Qed.
Lemma concat_zeros ty n : concat (repeat (zero_element ty) n) = repeat zero_byte (type_size ty * n).
Proof.
  induction n as [|n IH]; [rewrite Nat.mul_0_r; reflexivity|]. cbn [repeat List.concat]. rewrite IH. unfold zero_element.
  rewrite <- repeat_app. f_equal. change (item_bytes ty) with (type_size ty). lia.
Qed.
Lemma typed_zeros ty n : typed ty (repeat (zero_element ty) n).
Proof. apply Forall_forall. intros x I. apply repeat_spec in I. subst x. apply repeat_length. Qed.
Lemma resize_typed ty l n : typed ty l -> typed ty (resize_vector (zero_element ty) l n).
Proof.
  intros T. unfold resize_vector, typed. apply Forall_app. split; [|apply typed_zeros].
  apply Forall_forall. intros y Iy. unfold typed in T. rewrite Forall_forall in T. apply T. rewrite <- (firstn_skipn n). apply in_or_app. left. exact Iy.
Qed.
Lemma resize_length {T} (z : T) l n : length (resize_vector z l n) = n.
Proof. unfold resize_vector. rewrite app_length, firstn_length, repeat_length. lia. Qed.
Lemma resize_concat ty l n : typed ty l ->
  concat (resize_vector (zero_element ty) l n) = resize_file (concat l) (type_size ty * n).
Proof.
  intros T. unfold resize_vector, resize_file. rewrite concat_app, concat_zeros.
  rewrite (Nat.mul_comm (type_size ty) n), firstn_concat by exact T. f_equal. f_equal.
  rewrite (concat_length (type_size ty) l T). rewrite Nat.mul_sub_distr_l. lia.
Qed.
Lemma inv_resize m shape attrs elements shape' :
  inv m shape attrs elements -> shape' <> [] -> below_2_31 (prod shape') -> axis_ok shape' attrs ->
  length (head_of (mm_type m) shape' attrs) = mm_offset m ->
  mm_offset m + type_size (mm_type m) * prod shape' <= mm_max m ->
  exists m', mm_resize m shape' = (Ok tt, m') /\
    inv m' shape' attrs (resize_vector (zero_element (mm_type m)) elements (prod shape')) /\ mm_type m' = mm_type m.
Proof.
  intros (Ns & B & A & L & T & F & O & N & At & M) Ns' B' A' Lh Mx.
  unfold mm_resize. rewrite At, write_header_eq by (apply axis_texts; exact A'). fold (head_of (mm_type m) shape' attrs).
  rewrite Lh, Nat.eqb_refl. cbn [negb]. rewrite u32_product_small by (unfold below_2_31, below_2_32 in *; lia).
  replace (mm_max m <? mm_offset m + type_size (mm_type m) * prod shape') with false by (symmetry; apply Nat.ltb_ge; exact Mx).
  pose proof (concat_length (type_size (mm_type m)) elements T) as Lc.
  assert (Lr : length (resize_file (mm_file m) (mm_offset m + type_size (mm_type m) * prod shape')) = mm_offset m + type_size (mm_type m) * prod shape').
  { unfold resize_file. rewrite app_length, firstn_length, repeat_length. lia. }
  unfold put_bytes. rewrite Lr, Lh. cbn [Nat.add].
  replace (mm_offset m + type_size (mm_type m) * prod shape' <? mm_offset m) with false by (symmetry; apply Nat.ltb_ge; lia).
  cbn [firstn app]. eexists. split; [reflexivity|]. split; [|reflexivity].
  assert (Ff : skipn (mm_offset m) (resize_file (mm_file m) (mm_offset m + type_size (mm_type m) * prod shape')) =
    concat (resize_vector (zero_element (mm_type m)) elements (prod shape'))).
  { rewrite resize_concat by exact T. unfold resize_file. rewrite F, firstn_app, <- O.
    rewrite firstn_all2 by lia. rewrite <- app_assoc, (skipn_eq (mm_offset m)) by (symmetry; exact O).
    f_equal; [f_equal; lia|]. f_equal. rewrite app_length, <- O. lia. }
  unfold inv, with_file, with_n. cbn [mm_type mm_file mm_offset mm_n mm_attrs mm_max].
  rewrite Ff. split; [exact Ns'|]. split; [exact B'|]. split; [exact A'|]. split; [apply resize_length|].
  split; [apply resize_typed; exact T|]. split; [reflexivity|]. split; [symmetry; exact Lh|].
  split; [symmetry; apply resize_length|]. split; [exact At|].
  rewrite app_length, (concat_length (type_size (mm_type m))) by (apply resize_typed; exact T).
  rewrite resize_length. lia.
Qed.
Lemma header_throws ty shape attrs : attrs <> [] -> shape <> [] -> length attrs <> last shape 0 ->
  write_npy_header ty shape attrs = Throw.
Proof.
  intros Na Ns L. unfold write_npy_header. destruct attrs as [|a r]; [congruence|]. destruct shape as [|n s]; [congruence|].
  replace (length (a :: r) =? last (n :: s) 0) with false by (symmetry; apply Nat.eqb_neq; exact L). reflexivity.
Qed.
(** The outcome of resize. *)
Lemma resize_cases m shape attrs elements shape' :
  inv m shape attrs elements -> shape' <> [] -> below_2_31 (prod shape') ->
  (axis_ok shape' attrs /\ length (head_of (mm_type m) shape' attrs) = mm_offset m /\
   mm_offset m + type_size (mm_type m) * prod shape' <= mm_max m) \/
  exists m', mm_resize m shape' = (Throw, m').
Proof.
  intros (Ns & B & A & L & T & F & O & N & At & M) Ns' B'. unfold mm_resize. rewrite At.
  assert (D : axis_ok shape' attrs \/ (attrs <> [] /\ length attrs <> last shape' 0)).
  { unfold axis_ok. destruct attrs as [|x r]; [left; left; reflexivity|].
    destruct (Nat.eq_dec (length (x :: r)) (last shape' 0)) as [E|E].
    - left. right. split; [discriminate|]. split; assumption.
    - right. split; [discriminate | exact E]. }
  destruct D as [D|(D1 & D2)].
  - rewrite write_header_eq by (apply axis_texts; exact D). fold (head_of (mm_type m) shape' attrs).
    destruct (Nat.eqb_spec (length (head_of (mm_type m) shape' attrs)) (mm_offset m)) as [E|E].
    + cbn [negb]. rewrite u32_product_small by (unfold below_2_31, below_2_32 in *; lia). rewrite E.
      destruct (Nat.ltb_spec (mm_max m) (mm_offset m + type_size (mm_type m) * prod shape')) as [K|K].
      * right. eexists. reflexivity.
      * left. split; [exact D|]. split; [reflexivity | exact K].
    + right. eexists. reflexivity.
  - right. rewrite header_throws.
    + eexists. reflexivity.
    + destruct attrs; [congruence | discriminate].
    + exact Ns'.
    + unfold attr_texts. rewrite map_length. exact D2.
Qed.
Lemma inv_create ty shape attrs max_size m :
  shape <> [] -> below_2_31 (prod (append_attr_shape shape (length attrs))) ->
  create_mmap ty shape (attr_texts attrs) max_size = Ok m ->
  inv m (append_attr_shape shape (length attrs)) attrs (repeat (zero_element ty) (prod (append_attr_shape shape (length attrs)))) /\
  mm_type m = ty.
Proof.
  intros Ns B. set (full := append_attr_shape shape (length attrs)) in *.
  assert (A : axis_ok full attrs).
  { unfold axis_ok, full, append_attr_shape. destruct attrs as [|x r]; [left; reflexivity|]. right.
    cbn [length Nat.eqb]. split; [discriminate|]. split; [|rewrite last_last; reflexivity].
    intros E. apply app_eq_nil in E. destruct E; discriminate. }
  assert (Nf : full <> []).
  { unfold full, append_attr_shape. destruct (Nat.eqb (length attrs) 0); [exact Ns|]. intros E. apply app_eq_nil in E. destruct E; discriminate. }
  assert (La : length (attr_texts attrs) = length attrs) by apply map_length.
  unfold create_mmap. rewrite La. fold full. rewrite write_header_eq by (apply axis_texts; exact A). fold (head_of ty full attrs).
  cbn [bind].
  assert (En : match attr_texts attrs with [] => int_product shape | _ :: _ => int_product shape * length attrs end = prod full).
  { rewrite <- La. unfold full, append_attr_shape in *. rewrite <- La in *. destruct (attr_texts attrs) as [|x r].
    - cbn [length Nat.eqb] in *. apply int_product_small. exact B.
    - cbn [length Nat.eqb] in *. rewrite prod_app in *. cbn [prod] in *. rewrite int_product_small; [lia|].
      unfold below_2_31 in *. nia. }
  rewrite En. unfold put_bytes. rewrite repeat_length. cbn [Nat.add].
  replace (length (head_of ty full attrs) + prod full * type_size ty <? length (head_of ty full attrs)) with false
    by (symmetry; apply Nat.ltb_ge; lia).
  cbn [firstn app bind]. intros E. apply ok_inj in E. subst m. split; [|reflexivity].
  assert (Ff : skipn (length (head_of ty full attrs)) (repeat zero_byte (length (head_of ty full attrs) + prod full * type_size ty)) =
    concat (repeat (zero_element ty) (prod full))).
  { rewrite repeat_app, skipn_eq by apply repeat_length. rewrite concat_zeros. f_equal. lia. }
  unfold inv. cbn [mm_type mm_file mm_offset mm_n mm_attrs mm_max]. rewrite Ff.
  split; [exact Nf|]. split; [exact B|]. split; [exact A|]. split; [apply repeat_length|]. split; [apply typed_zeros|].
  split; [reflexivity|]. split; [reflexivity|]. split; [symmetry; apply repeat_length|]. split; [reflexivity|].
  rewrite app_length, (concat_length (type_size ty)) by apply typed_zeros. rewrite repeat_length.
  destruct (Nat.leb_spec (length (head_of ty full attrs) + prod full * type_size ty) max_size); lia.
Qed.
Lemma open_ok ty shape attrs elements file max_size :
  file_of ty shape attrs elements file -> shape <> [] -> below_2_31 (prod shape) ->
  readable shape attrs elements file -> max_size = 0 \/ length file <= max_size ->
  exists m, open_mmap ty file max_size = Ok (written_shape shape (attr_texts attrs), m) /\
    inv m shape attrs elements /\ mm_type m = ty /\ mm_file m = file.
Proof.
  intros Fo Ns B (Ra & Rn & Rp & Rs) Mx. apply (file_of_iff ty shape attrs elements file Ns B) in Fo.
  destruct Fo as (A & L & T & Ef). destruct Rs as (hd & Eh & Lh).
  assert (hd = head_of ty shape attrs).
  { rewrite Ef in Eh. apply app_inv_tail in Eh. congruence. }
  subst hd. clear Eh.
  assert (Em : firstn (if Nat.eqb max_size 0 then length file else max_size) file = file).
  { apply firstn_all2. destruct (Nat.eqb_spec max_size 0); lia. }
  assert (La : length (attr_texts attrs) = length attrs) by apply map_length.
  assert (W : written_shape shape (attr_texts attrs) <> [] /\ 0 < prod (written_shape shape (attr_texts attrs)) /\
     below_2_31 (prod (written_shape shape (attr_texts attrs))) /\
     prod (written_shape shape (attr_texts attrs)) * (if Nat.eqb (length attrs) 0 then 1 else length attrs) = prod shape).
  { destruct A as [->|(Na & _ & L1)].
    - cbn [attr_texts map written_shape length Nat.eqb]. rewrite Nat.mul_1_r. split; [exact Ns|]. split; [exact Rp|]. split; [exact B | reflexivity].
    - assert (L2 : 2 <= length shape) by (destruct Ra as [Ra|Ra]; [congruence | exact Ra]).
      assert (Es : prod (removelast shape) * length attrs = prod shape).
      { rewrite (app_removelast_last 0 Ns) at 2. rewrite prod_app, <- L1. cbn [prod]. lia. }
      destruct attrs as [|x r]; [congruence|]. cbn [attr_texts map written_shape]. cbn [length Nat.eqb] in *.
      split; [destruct shape as [|n [|k s]]; cbn in L2; try lia; discriminate|].
      unfold below_2_31 in *. split; [nia|]. split; [nia | exact Es]. }
  destruct W as (W1 & W2 & W3 & W4).
  unfold open_mmap. rewrite Em.
  replace (read_npy_header file) with (read_npy_header (head_of ty shape attrs ++ concat elements)) by (rewrite Ef; reflexivity).
  unfold head_of at 1. rewrite read_written_header by (try assumption; apply dims_below; assumption). cbn [bind np_dtype].
  rewrite text_eqb_refl. cbn [negb np_shape np_attrs].
  eexists. split; [reflexivity|]. split; [|split; reflexivity].
  assert (En : element_count (mkHeader false (Some false) (dtype_str ty) (written_shape shape (attr_texts attrs)) (attr_texts attrs)
                 (int_product (written_shape shape (attr_texts attrs)))) = length elements).
  { unfold element_count. cbn [np_attrs np_count]. rewrite int_product_small by exact W3. rewrite L, <- W4, <- La.
    destruct (attr_texts attrs); cbn [length Nat.eqb]; lia. }
  unfold inv. cbn [mm_type mm_file mm_offset mm_n mm_attrs mm_max]. rewrite En.
  split; [exact Ns|]. split; [exact B|]. split; [exact A|]. split; [exact L|]. split; [exact T|]. split; [exact Ef|].
  split; [rewrite Ef, app_length; lia|]. split; [reflexivity|]. split; [reflexivity|].
  destruct (Nat.eqb_spec max_size 0); lia.
Qed.
Lemma history_inv m shape attrs elements : history m shape attrs elements -> inv m shape attrs elements.
Proof.
  intros H. induction H as [ty shape attrs mx m Ns B E|ty shape attrs el file mx s' m Fo Ns B R Mx E|
    m shape attrs el i x m' el' H IH Lx S1 E|m shape attrs el shape' m' H IH Ns B E].
  - apply (inv_create ty shape attrs mx m Ns B E).
  - destruct (open_ok ty shape attrs el file mx Fo Ns B R Mx) as (m2 & E2 & I & _).
    rewrite E2 in E. injection E as _ <-. exact I.
  - destruct (inv_set m shape attrs el i x el' IH Lx S1) as (m2 & E2 & I & _).
    rewrite E2 in E. injection E as <-. exact I.
  - destruct (resize_cases m shape attrs el shape' IH Ns B) as [(A & Lh & Mx)|(m2 & E2)].
    + destruct (inv_resize m shape attrs el shape' IH Ns B A Lh Mx) as (m2 & E2 & I & _).
      rewrite E2 in E. injection E as <-. exact I.
    + rewrite E2 in E. discriminate.
Qed.
Lemma inv_represents m shape attrs elements : inv m shape attrs elements -> represents m shape attrs elements.
Proof.
  intros I. pose proof (fun i => inv_get m shape attrs elements i I) as G.
  destruct I as (Ns & B & A & L & T & F & O & N & At & M).
  split; [|split; [exact At|]; split; [exact N | exact G]].
  apply file_of_iff; [exact Ns | exact B|]. repeat (split; [assumption|]). exact F.
Qed.
Lemma copy_spec m shape attrs (elements data : list text) k pos old :
  inv m shape attrs elements -> typed (mm_type m) data ->
  elements = old ++ k -> length k = length data -> pos = length old ->
  exists m', mm_copy m pos data = Ok m' /\ inv m' shape attrs (old ++ data) /\ mm_type m' = mm_type m.
Proof.
  revert m elements k pos old. induction data as [|x data IH]; intros m el k pos old I T E Lk P.
  - destruct k; [|discriminate]. exists m. rewrite E in I. split; [reflexivity|]. split; [exact I | reflexivity].
  - destruct k as [|y k]; [discriminate|]. inversion T as [|? ? Tx T']; subst.
    assert (S1 : set_nth (old ++ y :: k) (length old) x = Some (old ++ x :: k)).
    { clear. induction old as [|z old IH]; [reflexivity|]. cbn [app length set_nth]. rewrite IH. reflexivity. }
    destruct (inv_set m shape attrs _ _ x _ I Tx S1) as (m1 & E1 & I1 & Ty1).
    cbn [mm_copy]. rewrite E1. cbn [bind].
    destruct (IH m1 _ k (S (length old)) (old ++ [x]) I1) as (m2 & E2 & I2 & Ty2).
    + rewrite Ty1. exact T'.
    + rewrite <- app_assoc. reflexivity.
    + cbn in Lk. lia.
    + rewrite app_length. cbn. lia.
    + exists m2. split; [exact E2|]. rewrite <- app_assoc in I2. split; [exact I2 | congruence].
Qed.
