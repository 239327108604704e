(** C19, C20, C97 and C98: npy files and memory-mapped arrays. *)
From Coq Require Import List Arith NArith ZArith Ascii String Bool Lia.
From Verif Require Import Common TextModel TextProofs NdArrayModel NdArraySpec NdArrayProofs NdArrayProofs2 AsciiModel
  NpyModel NpySpec NpyProofs NpyProofs2 NpyProofs3.
Import ListNotations.
Local Notation length := List.length.
Local Notation concat := (@List.concat _).
Local Open Scope nat_scope.

(** ** C19 *)

(** Any view of any array can be written, and what is read back has its shape,
    names and elements; the stream is left behind the last element, whatever
    follows. The element bytes are arbitrary. *)
Theorem C19_round_trip :
  forall ty (h : heap text) a shape attrs data ops v,
    built text a shape attrs -> holds h a data -> length data = prod shape -> below_2_31 (prod shape) -> shape <> [] ->
    typed ty data -> apply_views a ops = Ok v -> 0 < prod (nd_shape v) -> names_last_axis v ->
    Forall good_name (attr_texts (nd_attrs v)) ->
    exists header elements, nd_elements h v = Ok elements /\ write_npy ty h v = Ok (header ++ concat elements) /\
      (below_2_32 (length header) ->
       forall h2 rest, exists h2' w,
         read_npy ty h2 (header ++ concat elements ++ rest) = Ok (h2', w, rest) /\ same_array h v h2' w).
Proof.
  intros ty h a shape attrs data ops v H1 H2 H3 H4 H5 H6 H7 H8 H9 H10.
  destruct (round_trip ty h a shape attrs data ops v H1 H2 H3 H4 H5 H6 H7 H8 H9 H10) as (hd & l & E1 & E2 & _ & E3).
  exists hd, l. split; [exact E2|]. split; [exact E1 | exact E3].
Qed.
Print Assumptions C19_round_trip.

(** A file read as another type is refused. *)
Theorem C19_other_type :
  forall ty ty' (h : heap text) a shape attrs data ops v,
    built text a shape attrs -> holds h a data -> length data = prod shape -> below_2_31 (prod shape) -> shape <> [] ->
    typed ty data -> apply_views a ops = Ok v -> 0 < prod (nd_shape v) -> names_last_axis v ->
    Forall good_name (attr_texts (nd_attrs v)) -> ty' <> ty ->
    exists header elements, nd_elements h v = Ok elements /\ write_npy ty h v = Ok (header ++ concat elements) /\
      (below_2_32 (length header) -> forall h2 rest, read_npy ty' h2 (header ++ rest) = Throw).
Proof.
  intros ty ty' h a shape attrs data ops v H1 H2 H3 H4 H5 H6 H7 H8 H9 H10 D.
  destruct (round_trip ty h a shape attrs data ops v H1 H2 H3 H4 H5 H6 H7 H8 H9 H10) as (hd & l & E1 & E2 & E3 & _).
  exists hd, l. split; [exact E2|]. split; [exact E1|]. intros B h2 rest.
  destruct (view_size_prod a shape attrs ops v H1 H4 H5 H7) as (Bv & _).
  unfold read_npy. rewrite E3 in *. rewrite read_written_header; [| exact H10 | | | exact B].
  - cbn [bind np_dtype]. replace (text_eqb (dtype_str ty) (dtype_str ty')) with false; [reflexivity|].
    symmetry. apply not_true_is_false. intros K. apply text_eqb_iff in K. apply dtype_inj in K. congruence.
  - destruct H9 as [-> |(Na & _ & L)].
    + destruct (view_size_prod a shape attrs ops v H1 H4 H5 H7) as (_ & _ & Ns). exact Ns.
    + destruct (nd_attrs v); [congruence|]. cbn. destruct (nd_shape v) as [|x [|y r]]; cbn in L; try lia. discriminate.
  - destruct H9 as [-> |(Na & La & L)].
    + cbn. apply dims_below; assumption.
    + assert (Ns : nd_shape v <> []) by (intros K; rewrite K in L; cbn in L; lia).
      destruct (nd_attrs v) as [|z r]; [congruence|]. cbn [attr_texts map written_shape].
      rewrite (app_removelast_last 0 Ns), prod_app, <- La in H8, Bv. cbn [prod] in H8, Bv.
      assert (G : forall x y, 0 < x * (y * 1) -> below_2_31 (x * (y * 1)) -> 0 < x /\ below_2_31 x).
      { clear. intros x y P Q. unfold below_2_31 in *. destruct y; [lia|]. destruct x; [lia|]. split; [lia|].
        assert (S x <= S x * (S y * 1)) by nia. lia. }
      destruct (G _ _ H8 Bv) as (G1 & G2). apply dims_below; assumption.
Qed.
Print Assumptions C19_other_type.

(** Names that do not match the last axis are refused by the writer. *)
Theorem C19_mismatching_names :
  forall ty (h : heap text) v, nd_attrs v <> [] -> nd_shape v <> [] -> length (nd_attrs v) <> last (nd_shape v) 0 ->
    write_npy ty h v = Throw.
Proof.
  intros ty h v Na Ns L. unfold write_npy. rewrite header_throws; [reflexivity | | exact Ns |].
  - destruct (nd_attrs v); [congruence | discriminate].
  - unfold attr_texts. rewrite map_length. exact L.
Qed.
Print Assumptions C19_mismatching_names.

Definition bytes2 (n : nat) : text := [ascii_of_nat n; ascii_of_nat (n + 1)].
(** Six 16-bit elements with the names x and y. *)
Example C19_case :
  exists h a file h' w,
    nd_from_data_attrs [] [3] ["x"; "y"]%string (map bytes2 [1; 2; 3; 4; 5; 6]) = Ok (h, a) /\
    names_last_axis a /\ Forall good_name (attr_texts (nd_attrs a)) /\
    write_npy I16 h a = Ok file /\ read_npy I16 [] (file ++ txt "more") = Ok (h', w, txt "more") /\
    nd_at h' w [2; 0] = Ok (bytes2 5) /\ nd_shape w = [3; 2] /\ nd_attrs w = ["x"; "y"]%string.
Proof.
  do 5 eexists. split; [vm_compute; reflexivity|]. split.
  { right. cbn. split; [discriminate|]. split; [reflexivity | lia]. }
  split.
  { constructor; [|constructor; [|constructor]].
    all: split; [cbn; intros [E|[]]; discriminate|]; split; [cbn; intros [E|[]]; discriminate|].
    all: split; intros (l & r & E); destruct l as [|? [|? l]]; discriminate. }
  split; [vm_compute; reflexivity|]. split; [vm_compute; reflexivity|]. vm_compute. repeat split.
Qed.

(** A file cut short is read without an error: the missing bytes are zeros. *)
Theorem C19_truncated_refuted :
  exists (h : heap text) a file h' w,
    nd_from_data_attrs [] [2] [] [bytes2 1; bytes2 2] = Ok (h, a) /\ write_npy I16 h a = Ok file /\
    read_npy I16 [] (firstn (length file - 2) file) = Ok (h', w, []) /\
    nd_at h a [1] = Ok (bytes2 2) /\ nd_at h' w [1] = Ok [zero_byte; zero_byte].
Proof. do 5 eexists. do 3 (split; [vm_compute; reflexivity|]). split; [vm_compute; reflexivity|]. vm_compute. reflexivity. Qed.
Print Assumptions C19_truncated_refuted.

(** An array whose only axis is that of the names: the shape () is written, and
    reading it takes back() of an empty string. *)
Theorem C19_only_names_refuted :
  exists (h : heap text) a file,
    nd_from_data_attrs [] [] ["x"; "y"]%string [bytes2 1; bytes2 2] = Ok (h, a) /\ nd_shape a = [2] /\
    write_npy I16 h a = Ok file /\ read_npy I16 [] file = UB.
Proof. do 3 eexists. split; [vm_compute; reflexivity|]. split; [reflexivity|]. split; [vm_compute; reflexivity|]. vm_compute. reflexivity. Qed.
Print Assumptions C19_only_names_refuted.

(** Names with a quote, a bracket or a keyword of the header. *)
Theorem C19_names_refuted :
  (exists (h : heap text) a file h' w,
    nd_from_data_attrs [] [1] ["it's"; "y"]%string [bytes2 1; bytes2 2] = Ok (h, a) /\
    write_npy I16 h a = Ok file /\ read_npy I16 [] file = Ok (h', w, bytes2 2) /\ nd_shape a = [1; 2] /\
    nd_attrs w = ["y"]%string /\ nd_shape w = [1; 1]) /\
  (exists (h : heap text) a file h' w,
    nd_from_data_attrs [] [1] ["x"; "flux[0]"; "y"]%string [bytes2 1; bytes2 2; bytes2 3] = Ok (h, a) /\
    write_npy I16 h a = Ok file /\ read_npy I16 [] file = Ok (h', w, bytes2 2 ++ bytes2 3) /\ nd_shape a = [1; 3] /\
    nd_attrs w = ["x"]%string /\ nd_shape w = [1; 1]) /\
  (exists (h : heap text) a file,
    nd_from_data_attrs [] [1] ["shape"; "y"]%string [bytes2 1; bytes2 2] = Ok (h, a) /\
    write_npy I16 h a = Ok file /\ read_npy I16 [] file = Throw).
Proof.
  split; [|split].
  - do 5 eexists. do 3 (split; [vm_compute; reflexivity|]). repeat split.
  - do 5 eexists. do 3 (split; [vm_compute; reflexivity|]). repeat split.
  - do 3 eexists. split; [vm_compute; reflexivity|]. split; [vm_compute; reflexivity|]. vm_compute. reflexivity.
Qed.
Print Assumptions C19_names_refuted.

(** An array without elements: the reader takes the address of the first
    element of an empty vector. *)
Theorem C19_empty_refuted :
  exists (h : heap text) a file,
    nd_from_data_attrs [] [0; 3] [] [] = Ok (h, a) /\ write_npy F64 h a = Ok file /\ read_npy F64 [] file = UB.
Proof. do 3 eexists. split; [vm_compute; reflexivity|]. split; [vm_compute; reflexivity|]. vm_compute. reflexivity. Qed.
Print Assumptions C19_empty_refuted.

(** ** C20 *)
Theorem C20_aligned :
  forall ty (h : heap text) v file, write_npy ty h v = Ok file ->
    exists length_field dict elements, nd_elements h v = Ok elements /\
      file = npy_magic ++ npy_version ++ length_field ++ dict ++ concat elements /\
      length length_field = 4 /\ (below_2_32 (length dict) -> le_value length_field = N.of_nat (length dict)) /\
      (6 + 2 + 4 + length dict) mod 64 = 0 /\ last dict zero_byte = newline.
Proof.
  intros ty h v file E. unfold write_npy in E.
  destruct (write_npy_header ty (nd_shape v) (attr_texts (nd_attrs v))) as [hd| | |] eqn:Eh; try discriminate. cbn [bind] in E.
  destruct (nd_elements h v) as [l| | |] eqn:El; try discriminate. cbn [bind] in E. apply ok_inj in E. subst file.
  destruct (write_header_inv _ _ _ _ Eh) as (-> & _). unfold header_bytes.
  set (dict := npy_dict ty (written_shape (nd_shape v) (attr_texts (nd_attrs v))) (attr_texts (nd_attrs v))).
  destruct (padded_dict_eq dict) as (pad & P1 & P2 & k & P3 & P4).
  exists (le_bytes 4 (N.of_nat (length (padded_dict dict)))), (padded_dict dict), l.
  split; [reflexivity|]. split; [rewrite <- !app_assoc; reflexivity|]. split; [apply le_bytes_length|]. split.
  - intros B. rewrite le_value_bytes. apply N.mod_small. exact B.
  - split; [exact P2|]. rewrite P1, P4, app_assoc, last_last. reflexivity.
Qed.
Print Assumptions C20_aligned.

(** The text of the header, which other programs read: the type, the order and the shape,
    then blanks and a newline. *)
Theorem C20_text :
  forall ty (h : heap text) v file, write_npy ty h v = Ok file ->
    exists before blanks elements, nd_elements h v = Ok elements /\ length before = 12 /\
      file = before ++ file_dict ty (nd_shape v) (attr_texts (nd_attrs v)) ++ repeat " "%char blanks ++ [newline] ++ concat elements.
Proof.
  intros ty h v file E. unfold write_npy in E.
  destruct (write_npy_header ty (nd_shape v) (attr_texts (nd_attrs v))) as [hd| | |] eqn:Eh; try discriminate. cbn [bind] in E.
  destruct (nd_elements h v) as [l| | |] eqn:El; try discriminate. cbn [bind] in E. apply ok_inj in E. subst file.
  destruct (write_header_inv _ _ _ _ Eh) as (-> & _). unfold header_bytes.
  set (dict := npy_dict ty (written_shape (nd_shape v) (attr_texts (nd_attrs v))) (attr_texts (nd_attrs v))).
  assert (D : dict = file_dict ty (nd_shape v) (attr_texts (nd_attrs v))).
  { unfold dict, file_dict, npy_dict, type_description, npy_shape_text, written_shape.
    assert (T : dtype_str ty = file_type ty) by (destruct ty; reflexivity). rewrite T.
    destruct (attr_texts (nd_attrs v)) as [|a r]; rewrite <- !app_assoc; reflexivity. }
  destruct (padded_dict_eq dict) as (pad & P1 & P2 & k & P3 & P4).
  exists (npy_magic ++ npy_version ++ le_bytes 4 (N.of_nat (length (padded_dict dict)))), k, l.
  split; [reflexivity|]. split; [rewrite !app_length, le_bytes_length; reflexivity|].
  rewrite P1 at 2. rewrite P4, D, <- !app_assoc. reflexivity.
Qed.
Print Assumptions C20_text.
Example C20_text_case : file_dict I16 [3; 2] [txt "x"; txt "y"]
  = txt "{'descr': [('x', '<i2'), ('y', '<i2'), ], 'fortran_order': False, 'shape': (3,)}".
Proof. reflexivity. Qed.

(** A header that is aligned without padding gets 64 bytes more. *)
Theorem C20_minimal_refuted :
  exists (h : heap text) a file,
    nd_from_data_attrs [] [1] [string_of_list_ascii (repeat "x"%char 51)] [[zero_byte]] = Ok (h, a) /\ write_npy U8 h a = Ok file /\
    length file = 192 + 1 /\ skipn 127 (firstn 192 file) = repeat " "%char 64 ++ [newline].
Proof. do 3 eexists. do 3 (split; [vm_compute; reflexivity|]). vm_compute. reflexivity. Qed.
Print Assumptions C20_minimal_refuted.
Example C20_case :
  exists (h : heap text) a file,
    nd_from_data_attrs [] [2] [] [bytes2 1; bytes2 2] = Ok (h, a) /\ write_npy I16 h a = Ok file /\ length file = 128 + 4.
Proof. do 3 eexists. do 2 (split; [vm_compute; reflexivity|]). vm_compute. reflexivity. Qed.

(** ** C97 *)

(** Arrays saved by numpy in C order, little endian, of the types of more than one byte. *)
Theorem C97_numpy_files :
  forall ty (h : heap text) shape elements padding rest,
    item_bytes ty <> 1 ->
    shape <> [] -> 0 < prod shape -> below_2_31 (prod shape) -> length elements = prod shape -> typed ty elements ->
    (N.of_nat (length (numpy_dict (txt "<") (numpy_type ty) false shape ++ padding)) < 2 ^ 16)%N ->
    exists h' w,
      read_npy ty h (numpy_file (numpy_dict (txt "<") (numpy_type ty) false shape) padding (concat elements ++ rest)) = Ok (h', w, rest) /\
      nd_shape w = shape /\ nd_attrs w = [] /\ nd_elements h' w = Ok elements /\
      (forall p coords x, nth_error (row_major shape) p = Some coords -> nth_error elements p = Some x -> nd_at h' w coords = Ok x).
Proof.
  intros ty h shape l pad rest N1 N P B L T Lh.
  assert (NT : numpy_type ty = dtype_str ty) by (destruct ty; first [reflexivity | exfalso; apply N1; reflexivity]). rewrite NT in *.
  destruct (read_numpy ty h shape l pad rest N P B L T Lh) as (h' & w & E & Hb & Hh & Ws & Wa).
  exists h', w. split; [exact E|]. split; [exact Ws|]. split; [exact Wa|]. split; [eapply built_elements; eassumption|].
  intros p c x Ep Ex. destruct (at_spec h' w shape [] l c Hb Hh L) as (A1 & _). destruct (A1 p Ep) as (y & Ey & Ay). congruence.
Qed.
Print Assumptions C97_numpy_files.

(** Fortran order, big endian and other types are refused, whatever the data. *)
Theorem C97_refused :
  forall ty ty' (order : ascii) fortran (h : heap text) shape padding data,
    shape <> [] -> 0 < prod shape -> below_2_31 (prod shape) ->
    order = "<"%char \/ order = ">"%char \/ order = "|"%char ->
    (N.of_nat (length (numpy_dict [order] (numpy_type ty) fortran shape ++ padding)) < 2 ^ 16)%N ->
    fortran = true \/ order = ">"%char \/ ty' <> ty \/ item_bytes ty = 1 ->
    read_npy ty' h (numpy_file (numpy_dict [order] (numpy_type ty) fortran shape) padding data) = Throw.
Proof.
  intros ty ty' order fortran h shape pad data N P B O L C. unfold read_npy.
  rewrite read_numpy_header; [| | exact N | apply dims_below; assumption | exact L].
  2:{ unfold plain_type. split; [|split].
      - intros [E|I].
        + destruct O as [O|[O|O]]; rewrite O in E; discriminate.
        + destruct ty; cbn in I; destruct I as [I|[I|[]]]; discriminate.
      - destruct O as [O|[O|O]]; rewrite O; destruct ty; reflexivity.
      - destruct O as [O|[O|O]]; rewrite O; destruct ty; reflexivity. }
  destruct fortran; [reflexivity|]. cbn [orb]. destruct (Ascii.eqb_spec order ">") as [E|E]; [reflexivity|].
  destruct C as [C|[C|C]]; [discriminate | congruence|]. cbn [bind np_dtype].
  replace (text_eqb (numpy_type ty) (dtype_str ty')) with false; [reflexivity|].
  symmetry. destruct ty, ty'; try reflexivity; exfalso; destruct C as [C|C]; try (apply C; reflexivity); discriminate C.
Qed.
Print Assumptions C97_refused.

Example C97_case :
  exists h' w, read_npy F32 [] (numpy_file (numpy_dict (txt "<") (txt "f4") false [2; 1])
      (repeat " "%char 10 ++ [newline]) (txt "abcdefgh")) = Ok (h', w, []) /\
    nd_shape w = [2; 1] /\ nd_at h' w [1; 0] = Ok (txt "efgh") /\
    numpy_dict (txt "<") (txt "f4") false [5] = txt "{'descr': '<f4', 'fortran_order': False, 'shape': (5,), }".
Proof. do 2 eexists. split; [vm_compute; reflexivity|]. repeat split. Qed.

(** numpy names the types of one byte |i1 and |u1; the library expects b and B,
    so numpy's files of 8-bit integers are refused. *)
Theorem C97_bytes_refuted :
  read_npy I8 [] (numpy_file (numpy_dict (txt "|") (txt "i1") false [2]) [newline] (txt "ab")) = Throw /\
  read_npy U8 [] (numpy_file (numpy_dict (txt "|") (txt "u1") false [2]) [newline] (txt "ab")) = Throw.
Proof. split; [vm_compute; reflexivity|]. vm_compute. reflexivity. Qed.
Print Assumptions C97_bytes_refuted.

(** numpy's file of a single value, of shape (). *)
Theorem C97_scalar_refuted :
  read_npy F32 [] (numpy_file (numpy_dict (txt "<") (txt "f4") false []) [newline] (txt "abcd")) = UB.
Proof. vm_compute. reflexivity. Qed.
Print Assumptions C97_scalar_refuted.

(** A negative length, which no array has, is taken modulo 2^64: this file, whose
    shape is (2 - 2^64,), is read as an array of two elements. *)
Theorem C97_negative_length_refuted :
  exists h a, read_npy I16 [] (numpy_file (txt "{'descr': '<i2', 'fortran_order': False, 'shape': (-18446744073709551614,), }") [newline] (txt "abcd")) = Ok (h, a, []) /\
    nd_shape a = [2] /\ nd_elements h a = Ok [txt "ab"; txt "cd"].
Proof. do 2 eexists. split; [vm_compute; reflexivity|]. split; [vm_compute; reflexivity|]. vm_compute. reflexivity. Qed.
Print Assumptions C97_negative_length_refuted.

(** A file that ends inside the magic sequence is judged from indeterminate
    bytes; any other start is refused. *)
Theorem C97_not_npy :
  forall ty h input, 6 <= length input -> firstn 6 input <> npy_magic -> read_npy ty h input = Throw.
Proof.
  intros ty h input L D. unfold read_npy, read_npy_header.
  replace (length input <? 6) with false by (symmetry; apply Nat.ltb_ge; exact L).
  replace (text_eqb (firstn 6 input) npy_magic) with false; [reflexivity|].
  symmetry. apply not_true_is_false. intros K. apply text_eqb_iff in K. congruence.
Qed.
Print Assumptions C97_not_npy.

(** ** C98 *)

(** At any time the file is what writeNpy writes for an array with the current
    shape, the names and the elements of the history, and the container gives
    these elements (and nothing beyond them). *)
Theorem C98_file_follows :
  forall m shape attrs elements, history m shape attrs elements -> represents m shape attrs elements.
Proof. intros m s a e H. apply inv_represents, history_inv, H. Qed.
Print Assumptions C98_file_follows.

(** Creation succeeds, and every element can be assigned. *)
Theorem C98_create :
  forall ty shape attrs max_size, shape <> [] ->
    exists m, create_mmap ty shape (attr_texts attrs) max_size = Ok m /\ mm_type m = ty /\
      length (mm_file m) <= mm_max m /\ max_size <= mm_max m.
Proof.
  intros ty shape attrs mx Ns. unfold create_mmap.
  assert (La : length (attr_texts attrs) = length attrs) by apply map_length. rewrite La.
  rewrite write_header_eq.
  2:{ apply axis_texts. unfold axis_ok, append_attr_shape. destruct attrs as [|x r]; [left; reflexivity|]. right.
      cbn [length Nat.eqb]. split; [discriminate|]. split; [|rewrite last_last; reflexivity].
      intros E. apply app_eq_nil in E. destruct E; discriminate. }
  cbn [bind]. set (hd := header_bytes _ _ _). set (n := match attr_texts attrs with [] => _ | _ => _ end).
  unfold put_bytes. rewrite repeat_length. cbn [Nat.add].
  replace (length hd + n * type_size ty <? length hd) with false by (symmetry; apply Nat.ltb_ge; lia).
  cbn [bind firstn app]. eexists. split; [reflexivity|]. split; [reflexivity|]. cbn [mm_file mm_max].
  rewrite app_length, skipn_length, repeat_length.
  destruct (Nat.leb_spec (length hd + n * type_size ty) mx); lia.
Qed.
Print Assumptions C98_create.
Theorem C98_assign :
  forall m shape attrs elements i x, history m shape attrs elements -> i < length elements -> length x = item_bytes (mm_type m) ->
    exists m' elements', set_nth elements i x = Some elements' /\ mm_set m i x = Ok m' /\ history m' shape attrs elements'.
Proof.
  intros m s a e i x H I L.
  assert (K : exists e', set_nth e i x = Some e').
  { clear - I. revert i I. induction e as [|y e IH]; intros i I; [cbn in I; lia|]. destruct i as [|i]; [eexists; reflexivity|].
    cbn in I. destruct (IH i ltac:(lia)) as (e' & E). cbn [set_nth]. rewrite E. eexists. reflexivity. }
  destruct K as (e' & K). destruct (inv_set m s a e i x e' (history_inv _ _ _ _ H) L K) as (m' & E & _).
  exists m', e'. split; [exact K|]. split; [exact E|]. eapply h_set; eassumption.
Qed.
Print Assumptions C98_assign.

(** The array can be resized exactly if the file of the new shape has a header
    of the same length and fits in the size given at creation; otherwise an
    exception is thrown. *)
Theorem C98_resize :
  forall m shape attrs elements shape',
    history m shape attrs elements -> shape' <> [] -> below_2_31 (prod shape') ->
    ((exists m', mm_resize m shape' = (Ok tt, m')) <->
     exists file',
       file_of (mm_type m) shape' attrs (resize_vector (zero_element (mm_type m)) elements (prod shape')) file' /\
       length file' <= mm_max m /\
       length file' + item_bytes (mm_type m) * prod shape = length (mm_file m) + item_bytes (mm_type m) * prod shape') /\
    ((exists m', mm_resize m shape' = (Ok tt, m')) \/ (exists m', mm_resize m shape' = (Throw, m'))).
Proof.
  intros m s a e s' H Ns B. pose proof (history_inv _ _ _ _ H) as I.
  assert (T : typed (mm_type m) (resize_vector (zero_element (mm_type m)) e (prod s'))) by (apply resize_typed; apply I).
  pose proof (resize_length (zero_element (mm_type m)) e (prod s')) as Lr.
  assert (Lc := concat_length (type_size (mm_type m)) _ T). rewrite Lr in Lc.
  assert (Lf : length (mm_file m) = mm_offset m + type_size (mm_type m) * prod s).
  { destruct I as (_ & _ & _ & Le & Te & F & O & _). rewrite F, app_length, (concat_length _ _ Te), Le, O. reflexivity. }
  assert (D := resize_cases m s a e s' I Ns B). split; [split|].
  - intros (m' & E). destruct D as [(A & Lh & Mx)|(m2 & E2)]; [|rewrite E2 in E; discriminate].
    exists (head_of (mm_type m) s' a ++ concat (resize_vector (zero_element (mm_type m)) e (prod s'))).
    split; [apply file_of_iff; [exact Ns | exact B |]; repeat (split; [assumption|]); reflexivity|].
    change (item_bytes (mm_type m)) with (type_size (mm_type m)). rewrite app_length, Lc. split; lia.
  - intros (f & Fo & Mx & Ef). change (item_bytes (mm_type m)) with (type_size (mm_type m)) in Ef. apply (file_of_iff (mm_type m) s' a _ f Ns B) in Fo. destruct Fo as (A & _ & _ & ->).
    rewrite app_length, Lc in Mx, Ef.
    destruct (inv_resize m s a e s' I Ns B A) as (m' & E & _); [lia | lia | exists m'; exact E].
  - destruct D as [(A & Lh & Mx)|D]; [|right; exact D]. left.
    destruct (inv_resize m s a e s' I Ns B A Lh Mx) as (m' & E & _). exists m'. exact E.
Qed.
Print Assumptions C98_resize.

(** A failing resize changes neither the file nor the elements. *)
Theorem C98_failed_resize :
  forall m shape' m', mm_resize m shape' = (Throw, m') ->
    mm_file m' = mm_file m /\ mm_attrs m' = mm_attrs m /\ mm_max m' = mm_max m /\ forall i, mm_get m' i = mm_get m i.
Proof.
  intros m s' m' E. unfold mm_resize in E.
  destruct (write_npy_header (mm_type m) s' (mm_attrs m)) as [hd| | |]; try discriminate.
  - destruct (negb _); [injection E as <-; repeat split|]. destruct (Nat.ltb _ _); [injection E as <-; repeat split|].
    destruct (put_bytes _ _ _) as [f| | |]; try discriminate. injection E as <-. repeat split.
  - injection E as <-. repeat split.
Qed.
Print Assumptions C98_failed_resize.

(** Appending: resize, then copy. *)
Theorem C98_append :
  forall m shape attrs elements shape' data m1,
    history m shape attrs elements -> typed (mm_type m) data -> shape' <> [] -> below_2_31 (prod shape') ->
    prod shape' = length elements + length data -> mm_resize m shape' = (Ok tt, m1) ->
    exists m', mm_append m shape' data = Ok m' /\ represents m' shape' attrs (elements ++ data).
Proof.
  intros m s a e s' data m1 H T Ns B P E. unfold mm_append. rewrite E.
  assert (I1 := history_inv _ _ _ _ (h_resize m s a e s' m1 H Ns B E)).
  assert (Ty : mm_type m1 = mm_type m).
  { clear - E. unfold mm_resize in E. destruct (write_npy_header _ _ _) as [hd| | |]; try discriminate.
    destruct (negb _); [discriminate|]. destruct (Nat.ltb _ _); [discriminate|].
    destruct (put_bytes _ _ _) as [f| | |]; try discriminate. injection E as <-. reflexivity. }
  assert (N : mm_n m = length e) by apply (history_inv _ _ _ _ H). rewrite N.
  destruct (copy_spec m1 s' a _ data (repeat (zero_element (mm_type m)) (length data)) (length e) e I1) as (m' & E' & I' & _).
  - rewrite Ty. exact T.
  - unfold resize_vector. rewrite P, firstn_all2 by lia. do 2 f_equal. lia.
  - apply repeat_length.
  - reflexivity.
  - exists m'. split; [exact E' | apply inv_represents; exact I'].
Qed.
Print Assumptions C98_append.

(** Opening a file written by writeNpy, or one made by the operations above. *)
Theorem C98_open :
  forall ty shape attrs elements file max_size,
    file_of ty shape attrs elements file -> shape <> [] -> below_2_31 (prod shape) ->
    readable shape attrs elements file -> max_size = 0 \/ length file <= max_size ->
    exists shape' m, open_mmap ty file max_size = Ok (shape', m) /\ append_attr_shape shape' (length attrs) = shape /\
      represents m shape attrs elements /\ mm_file m = file.
Proof.
  intros ty s a e f mx Fo Ns B R Mx. destruct (open_ok ty s a e f mx Fo Ns B R Mx) as (m & E & I & _ & Ef).
  exists (written_shape s (attr_texts a)), m. split; [exact E|]. split.
  - destruct I as (_ & _ & A & _). destruct A as [->|(Na & _ & La)]; [reflexivity|].
    destruct a as [|x r]; [congruence|]. cbn [attr_texts map written_shape].
    assert (K := shape_split s (attr_texts (x :: r))). unfold attr_texts in K. rewrite map_length in K.
    apply K; [discriminate | exact Ns | exact La].
  - split; [apply inv_represents; exact I | exact Ef].
Qed.
Print Assumptions C98_open.
Theorem C98_reopen :
  forall m shape attrs elements, history m shape attrs elements -> readable shape attrs elements (mm_file m) ->
    exists shape' m', open_mmap (mm_type m) (mm_file m) 0 = Ok (shape', m') /\ represents m' shape attrs elements.
Proof.
  intros m s a e H R. pose proof (history_inv _ _ _ _ H) as I.
  destruct (C98_open (mm_type m) s a e (mm_file m) 0) as (s' & m' & E & _ & Re & _).
  - apply (C98_file_follows _ _ _ _ H).
  - apply I.
  - apply I.
  - exact R.
  - left. reflexivity.
  - exists s', m'. split; assumption.
Qed.
Print Assumptions C98_reopen.

Example C98_case :
  exists m m1 m2,
    create_mmap I16 [2; 1] [] 200 = Ok m /\ mm_set m 1 (bytes2 7) = Ok m1 /\ mm_resize m1 [3; 1] = (Ok tt, m2) /\
    history m2 [3; 1] [] [zero_element I16; bytes2 7; zero_element I16] /\
    readable [3; 1] [] [zero_element I16; bytes2 7; zero_element I16] (mm_file m2) /\
    (exists m3, mm_resize m2 [40; 1] = (Throw, m3)) /\ (exists m3, mm_resize m2 [2; 2] = (Ok tt, m3)).
Proof.
  assert (G : forall m m1 m2, create_mmap I16 [2; 1] (attr_texts []) 200 = Ok m -> mm_set m 1 (bytes2 7) = Ok m1 ->
     mm_resize m1 [3; 1] = (Ok tt, m2) -> mm_type m = I16 -> mm_type m1 = I16 ->
     history m2 [3; 1] [] [zero_element I16; bytes2 7; zero_element I16]).
  { intros m m1 m2 E1 E2 E3 T T1.
    assert (H0 := h_create I16 [2; 1] [] 200 m ltac:(discriminate) eq_refl E1).
    assert (H1 : history m1 [2; 1] [] [zero_element I16; bytes2 7]).
    { eapply (h_set m [2; 1] [] [zero_element I16; zero_element I16] 1 (bytes2 7)); [exact H0 | rewrite T; reflexivity | | exact E2]. reflexivity. }
    assert (H2 := h_resize m1 [2; 1] [] _ [3; 1] m2 H1 ltac:(discriminate) eq_refl E3). rewrite T1 in H2. exact H2. }
  eexists. eexists. eexists. split; [vm_compute; reflexivity|]. split; [vm_compute; reflexivity|].
  split; [vm_compute; reflexivity|]. split; [|split; [|split; eexists; vm_compute; reflexivity]].
  - eapply G; [vm_compute; reflexivity | vm_compute; reflexivity | vm_compute; reflexivity | reflexivity | reflexivity].
  - split; [left; reflexivity|]. split; [constructor|]. split; [cbn; lia|].
    match goal with |- short_header ?f _ => exists (firstn 128 f) end. split; [vm_compute; reflexivity|].
    unfold below_2_32. rewrite firstn_length.
    match goal with |- (N.of_nat (Nat.min 128 ?k) < _)%N =>
      apply N.le_lt_trans with (N.of_nat 128); [pose proof (Nat.le_min_l 128 k); lia | reflexivity] end.
Qed.

(** After a failing resize the size of the container has changed although the
    file and the array have not. *)
Theorem C98_size_after_failure_refuted :
  exists m m', history m [2; 1] [] [zero_element I16; zero_element I16] /\ mm_resize m [99; 1] = (Throw, m') /\
    mm_n m = 2 /\ mm_n m' = 99 /\ mm_file m' = mm_file m.
Proof.
  eexists. eexists. split.
  - eapply (h_create I16 [2; 1] [] 200); [discriminate | reflexivity | vm_compute; reflexivity].
  - split; [vm_compute; reflexivity|]. repeat split.
Qed.
Print Assumptions C98_size_after_failure_refuted.

(** The header cannot grow: a shape with a longer text can be refused although
    the file would fit. *)
Definition long_name : list string := [string_of_list_ascii (repeat "x"%char 50)].
Theorem C98_longer_header_refuted :
  exists m m', history m [1; 1] long_name [zero_element I8] /\ mm_max m = 1000 /\
    mm_resize m [9; 1] = (Ok tt, m') /\ mm_resize m [10; 1] = (Throw, m) /\ length (mm_file m) = 128 + 1.
Proof.
  eexists. eexists. split.
  - eapply (h_create I8 [1] long_name 1000); [discriminate | reflexivity | vm_compute; reflexivity].
  - split; [reflexivity|]. split; [vm_compute; reflexivity|]. split; [vm_compute; reflexivity|]. vm_compute. reflexivity.
Qed.
Print Assumptions C98_longer_header_refuted.
