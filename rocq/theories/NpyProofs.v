(** Proofs about the npy headers. *)
From Coq Require Import List Arith NArith ZArith Ascii String Bool Lia.
From Verif Require Import Common TextModel TextProofs NdArrayModel NdArraySpec NdArrayProofs TableModel AsciiModel AsciiProofs
  NpyModel NpySpec.
Import ListNotations.
Local Notation length := List.length.
Local Notation concat := (@List.concat _).
Local Open Scope nat_scope.

(** ** Little-endian numbers *)
Lemma le_value_bytes k : forall n, le_value (le_bytes k n) = (n mod 256 ^ N.of_nat k)%N.
Proof.
  induction k as [|k IH]; intros n.
  - cbn. symmetry. apply N.mod_1_r.
  - cbn [le_bytes le_value]. rewrite IH, N_ascii_embedding by (apply N.mod_lt; lia).
    rewrite Nat2N.inj_succ, N.pow_succ_r'. rewrite N.mod_mul_r by (try apply N.pow_nonzero; lia). reflexivity.
Qed.
Lemma le_bytes_length k : forall n, length (le_bytes k n) = k.
Proof. induction k; intros n; cbn; congruence. Qed.

(** ** Positions *)
Lemma skipn_len {A} (a b : list A) : skipn (length a) (a ++ b) = b.
Proof. induction a; cbn; auto. Qed.
Lemma firstn_len {A} (a b : list A) : firstn (length a) (a ++ b) = a.
Proof. induction a; cbn; congruence. Qed.
Lemma find_char_app c a b : ~ In c a -> find_char c (a ++ c :: b) = Some (length a).
Proof.
  induction a as [|x a IH]; intros N.
  - cbn. rewrite ascii_eqb_refl. reflexivity.
  - cbn [app find_char]. rewrite (proj2 (ascii_eqb_neq x c)) by (intros ->; apply N; left; reflexivity).
    rewrite IH by (intros I; apply N; right; exact I). reflexivity.
Qed.
(** The text between a position and the next occurrence of a character. *)
Lemma substr_between c P a b : ~ In c a ->
  substr (P ++ a ++ c :: b) (length P) (find_char_from c (P ++ a ++ c :: b) (length P)) = Ok a.
Proof.
  intros N. unfold find_char_from, substr. rewrite app_length.
  replace (length P + length (a ++ c :: b) <? length P) with false by (symmetry; apply Nat.ltb_ge; lia).
  rewrite skipn_len, find_char_app by exact N. cbn [option_map].
  replace (length P + length a - length P) with (length a) by lia. rewrite firstn_len. reflexivity.
Qed.

(** ** Searching a text around quotes *)
Lemma starts_with_quote n : forall s r, ~ In quote n -> starts_with (s ++ quote :: r) n = starts_with s n.
Proof.
  induction n as [|x n IH]; intros s r N; [destruct s; reflexivity|].
  destruct s as [|y s].
  - cbn. rewrite (proj2 (ascii_eqb_neq x quote)) by (intros ->; apply N; left; reflexivity). reflexivity.
  - cbn. destruct (Ascii.eqb x y); [|reflexivity]. apply IH. intros I. apply N. right. exact I.
Qed.
(** A text with no occurrence of [n], before a quote. *)
Definition skips (n A : text) : Prop :=
  forall r, find_text n (A ++ quote :: r) = option_map (fun k => length A + S k) (find_text n r).
Lemma find_text_unfold n s : find_text n s =
  if starts_with s n then Some 0 else match s with [] => None | _ :: r => option_map S (find_text n r) end.
Proof. destruct s; reflexivity. Qed.
Lemma skips_base n A : ~ In quote n -> n <> [] -> find_text n A = None -> skips n A.
Proof.
  intros N E F r. induction A as [|c A IH].
  - cbn [app]. rewrite find_text_unfold.
    destruct n as [|x n]; [congruence|]. cbn [starts_with].
    rewrite (proj2 (ascii_eqb_neq x quote)) by (intros ->; apply N; left; reflexivity). cbn.
    destruct (find_text (x :: n) r); reflexivity.
  - rewrite find_text_unfold in F. destruct (starts_with (c :: A) n) eqn:S1; [discriminate|].
    assert (F' : find_text n A = None) by (destruct (find_text n A); [discriminate | reflexivity]).
    rewrite find_text_unfold. rewrite starts_with_quote by exact N. rewrite S1. cbn [app].
    rewrite (IH F'). destruct (find_text n r); cbn; f_equal; lia.
Qed.
Lemma skips_app n A B : skips n A -> skips n B -> skips n (A ++ quote :: B).
Proof.
  intros HA HB r. rewrite <- app_assoc. cbn [app]. rewrite HA, HB. rewrite app_length. cbn [length].
  destruct (find_text n r); cbn; f_equal; lia.
Qed.
Lemma skips_found n A r : skips n A -> find_text n (A ++ quote :: n ++ r) = Some (length A + 1).
Proof.
  intros H. rewrite H. rewrite find_text_unfold.
  replace (starts_with (n ++ r) n) with true by (symmetry; apply starts_with_iff; exists r; reflexivity).
  reflexivity.
Qed.
Lemma find_text_none n s : ~ contains n s -> find_text n s = None.
Proof.
  intros N. induction s as [|c s IH].
  - rewrite find_text_unfold. destruct (starts_with [] n) eqn:E; [|reflexivity].
    exfalso. apply N. apply starts_with_iff in E. destruct E as (r & E). exists [], r. exact E.
  - rewrite find_text_unfold. destruct (starts_with (c :: s) n) eqn:E.
    + exfalso. apply N. apply starts_with_iff in E. destruct E as (r & E). exists [], r. exact E.
    + rewrite IH; [reflexivity|]. intros (l & r & E2). apply N. exists (c :: l), r. rewrite E2. reflexivity.
Qed.

(** ** Fields *)
Lemma expect_app p s : expect p (p ++ s) = Some s.
Proof.
  unfold expect. replace (starts_with (p ++ s) p) with true
    by (symmetry; apply starts_with_iff; exists s; reflexivity).
  rewrite skipn_len. reflexivity.
Qed.
Lemma until_quote_app a r : ~ In quote a -> until_quote (a ++ quote :: r) = (a, quote :: r).
Proof.
  induction a as [|c a IH]; intros N; [reflexivity|].
  cbn [app until_quote]. rewrite (proj2 (ascii_eqb_neq c quote)) by (intros ->; apply N; left; reflexivity).
  rewrite IH by (intros I; apply N; right; exact I). reflexivity.
Qed.
Definition field (t a : text) : text := txt "('" ++ a ++ txt "', '" ++ endian_marker ++ t ++ txt "'), ".
Lemma match_field_app a t r : ~ In quote a -> ~ In quote t ->
  match_field (field t a ++ r) = Some (a, endian_marker ++ t, txt ", " ++ r).
Proof.
  intros Na Nt. unfold match_field, field. rewrite <- !app_assoc, expect_app.
  change (txt "', '") with (quote :: txt ", '"). rewrite <- app_comm_cons, until_quote_app by exact Na.
  change (quote :: txt ", '" ++ ?x) with (txt "'," ++ (txt " '" ++ x)).
  match goal with |- context [expect (txt "',") ?x] =>
    change x with (txt "'," ++ (txt " '" ++ endian_marker ++ t ++ txt "'), " ++ r)) end.
  rewrite expect_app.
  match goal with |- context [drop_while is_space ?x] =>
    change (drop_while is_space x) with (txt "'" ++ endian_marker ++ t ++ txt "'), " ++ r) end.
  rewrite expect_app. change (txt "'), ") with (quote :: txt "), "). rewrite <- app_comm_cons.
  rewrite (app_assoc endian_marker), until_quote_app.
  - match goal with |- context [expect (txt "')") ?x] =>
      change x with (txt "')" ++ (txt ", " ++ r)) end.
    rewrite expect_app. reflexivity.
  - intros [E|I]; [discriminate | contradiction].
Qed.
Lemma search_fields_spec t attrs : ~ In quote t -> Forall (fun a => ~ In quote a) attrs ->
  forall fuel, length (concat (map (field t) attrs)) <= fuel ->
  search_fields fuel (concat (map (field t) attrs)) = map (fun a => (a, endian_marker ++ t)) attrs.
Proof.
  intros Nt F. induction F as [|a attrs Na F IH]; intros fuel L.
  - destruct fuel; reflexivity.
  - cbn [map List.concat] in *. rewrite app_length in L.
    assert (L1 : 3 <= length (field t a)) by (unfold field; rewrite !app_length; cbn; lia).
    destruct fuel as [|[|[|fuel]]]; [lia..|].
    cbn [search_fields]. rewrite match_field_app by assumption.
    f_equal. change (txt ", " ++ ?x) with (","%char :: " "%char :: x).
    cbn [app txt list_ascii_of_string].
    replace (match_field ("," :: " " :: concat (map (field t) attrs))%char) with (@None (text * text * text)) by reflexivity.
    replace (match_field (" " :: concat (map (field t) attrs))%char) with (@None (text * text * text)) by reflexivity.
    apply IH. lia.
Qed.
Lemma single_value_marked t : single_value (endian_marker ++ t) = Ok (false, t).
Proof. reflexivity. Qed.
Lemma field_loop_uniform t attrs : t <> [] -> forall acc b,
  field_loop (map (fun a => (a, endian_marker ++ t)) attrs) t (Some b) acc =
  match attrs with [] => Ok (Some b, t, acc) | _ :: _ => if b then Throw else Ok (Some b, t, acc ++ attrs) end.
Proof.
  intros Nt. induction attrs as [|a attrs IH]; intros acc b; [reflexivity|].
  cbn [map field_loop]. rewrite single_value_marked. cbn [bind snd fst].
  destruct t as [|c t]; [congruence|]. cbn [of_option bind].
  rewrite text_eqb_refl. cbn [negb orb].
  destruct b; [reflexivity|]. cbn [Bool.eqb negb]. rewrite IH.
  destruct attrs; [reflexivity|]. rewrite <- app_assoc. reflexivity.
Qed.
Lemma field_loop_spec t attrs : t <> [] -> attrs <> [] ->
  field_loop (map (fun a => (a, endian_marker ++ t)) attrs) [] None [] = Ok (Some false, t, attrs).
Proof.
  intros Nt Na. destruct attrs as [|a attrs]; [congruence|].
  cbn [map field_loop]. rewrite single_value_marked. cbn [bind snd fst app].
  rewrite (field_loop_uniform t attrs Nt [a] false). destruct attrs; reflexivity.
Qed.

(** ** Shapes *)
Definition token (t : text) : Prop := t <> [] /\ Forall is_digit t.
Lemma digit_not_sep c : is_digit c -> is_separator c = false.
Proof.
  intros D. unfold is_separator.
  rewrite (proj2 (ascii_eqb_neq c ",")) by (apply digit_not; [exact D | reflexivity]).
  rewrite (proj2 (ascii_eqb_neq c " ")) by (apply digit_not; [exact D | reflexivity]). reflexivity.
Qed.
Lemma digit_not_space c : is_digit c -> is_space c = false.
Proof.
  intros (d & D). unfold digit_val in D. unfold is_space.
  destruct (Nat.leb_spec 48 (byte c)); [|discriminate].
  replace (byte c =? 32) with false by (symmetry; apply Nat.eqb_neq; lia).
  replace (byte c <=? 13) with false by (symmetry; apply Nat.leb_gt; lia).
  rewrite andb_false_r. reflexivity.
Qed.
Lemma split_compress_token t r : Forall is_digit t ->
  split_compress is_separator (t ++ r) =
  match split_compress is_separator r with [] => [t] | h :: l => (t ++ h) :: l end.
Proof.
  intros F. induction F as [|c t D F IH].
  - cbn [app]. destruct (split_compress is_separator r) eqn:E; [|reflexivity].
    exfalso. revert E. clear. destruct r as [|c r]; [discriminate|]. cbn [split_compress].
    revert c. induction r as [|d r IH]; intros c.
    + cbn [split_compress]. destruct (is_separator c); discriminate.
    + destruct (is_separator c).
      * destruct (is_separator d) eqn:E; [|discriminate]. intros H. apply (IH d). rewrite E. rewrite <- H.
        cbn [split_compress]. rewrite E. reflexivity.
      * destruct (split_compress is_separator (d :: r)); discriminate.
  - cbn [app split_compress]. rewrite (digit_not_sep c D), IH.
    destruct (split_compress is_separator r); reflexivity.
Qed.
Lemma split_compress_seps w : Forall (fun c => is_separator c = true) w -> w <> [] ->
  forall c r, is_separator c = false ->
  split_compress is_separator (w ++ c :: r) = [] :: split_compress is_separator (c :: r).
Proof.
  intros F N c r E. induction F as [|x w Hx F IH]; [congruence|].
  destruct w as [|y w].
  - cbn [app]. change (split_compress is_separator (x :: c :: r)) with
      (if is_separator x then if is_separator c then split_compress is_separator (c :: r)
        else [] :: split_compress is_separator (c :: r) else
        match split_compress is_separator (c :: r) with [] => [[x]] | h :: t => (x :: h) :: t end).
    rewrite Hx, E. reflexivity.
  - rewrite <- IH by discriminate. inversion F; subst.
    change ((x :: y :: w) ++ c :: r) with (x :: y :: (w ++ c :: r)).
    change (split_compress is_separator (x :: y :: w ++ c :: r)) with
      (if is_separator x then if is_separator y then split_compress is_separator (y :: w ++ c :: r)
        else [] :: split_compress is_separator (y :: w ++ c :: r) else
        match split_compress is_separator (y :: w ++ c :: r) with [] => [[x]] | h :: t => (x :: h) :: t end).
    rewrite Hx, H1. reflexivity.
Qed.
(** Tokens joined by a separator text. *)
Fixpoint join_text (w : text) (l : list text) : text :=
  match l with [] => [] | [x] => x | x :: r => x ++ w ++ join_text w r end.
Lemma join_text_cons w x y r : join_text w (x :: y :: r) = x ++ w ++ join_text w (y :: r).
Proof. reflexivity. Qed.
Lemma join_text_head w x r : x <> [] -> exists c s, join_text w (x :: r) = c :: s /\ hd_error x = Some c.
Proof.
  intros N. destruct x as [|c x]; [congruence|]. destruct r as [|y r].
  - exists c, x. split; reflexivity.
  - rewrite join_text_cons. exists c. eexists. split; reflexivity.
Qed.
Lemma split_compress_join w l : w <> [] -> Forall (fun c => is_separator c = true) w ->
  l <> [] -> Forall token l -> split_compress is_separator (join_text w l) = l.
Proof.
  intros Nw Fw Nl F. induction F as [|x l [Nx Dx] F IH]; [congruence|].
  destruct l as [|y l].
  - cbn [join_text]. rewrite <- (app_nil_r x), split_compress_token by exact Dx. reflexivity.
  - rewrite join_text_cons, split_compress_token by exact Dx.
    inversion F as [|? ? [Ny Dy] _]; subst.
    destruct (join_text_head w y l Ny) as (c & s & E & E2).
    assert (Hc : is_separator c = false).
    { apply digit_not_sep. destruct y as [|c' y]; [discriminate|]. injection E2 as ->. inversion Dy; assumption. }
    unfold text in *. rewrite E, split_compress_seps by assumption. rewrite <- E, IH by discriminate.
    rewrite app_nil_r. reflexivity.
Qed.
Lemma drop_while_head p c s : p c = false -> drop_while p (c :: s) = c :: s.
Proof. intros E. cbn. rewrite E. reflexivity. Qed.
Lemma last_snoc_join w l : l <> [] -> Forall token l -> exists s c, join_text w l = s ++ [c] /\ is_digit c.
Proof.
  intros N F. induction F as [|x l [Nx Dx] F IH]; [congruence|].
  destruct l as [|y l].
  - cbn [join_text]. destruct (exists_last Nx) as (s & c & E). exists s, c. split; [exact E|].
    rewrite Forall_forall in Dx. apply Dx. rewrite E. apply in_or_app. right. left. reflexivity.
  - rewrite join_text_cons. destruct (IH ltac:(discriminate)) as (s & c & E & D).
    exists (x ++ w ++ s), c. rewrite E, <- !app_assoc. split; [reflexivity | exact D].
Qed.
Lemma trim_join w l : l <> [] -> Forall token l -> trim (join_text w l) = join_text w l.
Proof.
  intros N F. unfold trim.
  assert (E1 : drop_while is_space (join_text w l) = join_text w l).
  { destruct l as [|x l]; [congruence|]. inversion F as [|? ? [Nx Dx] _]; subst.
    destruct (join_text_head w x l Nx) as (c & s & E & E2). unfold text in *. rewrite E. apply drop_while_head.
    apply digit_not_space. destruct x as [|c' x]; [discriminate|]. injection E2 as ->. inversion Dx; assumption. }
  rewrite E1. destruct (last_snoc_join w l N F) as (s & c & E & D). rewrite E, rev_app_distr. cbn [rev app].
  rewrite drop_while_head by (apply digit_not_space; exact D).
  change (c :: rev s) with (rev [c] ++ rev s). rewrite <- rev_app_distr, rev_involutive. reflexivity.
Qed.
Definition below_2_64 (n : nat) : Prop := (Z.of_nat n < 2 ^ 64)%Z.
Lemma size_text_digits n : below_2_64 n -> size_text (digits (Z.of_nat n)) = Ok n.
Proof.
  intros B. unfold size_text.
  pose proof (digits_nonempty (Z.of_nat n)) as N. pose proof (digits_digits (Z.of_nat n) ltac:(lia)) as D.
  pose proof (unsigned_digits (Z.of_nat n) ltac:(lia)) as U.
  destruct (digits (Z.of_nat n)) as [|c r]; [congruence|]. inversion D as [|? ? Dc _]; subst.
  rewrite (proj2 (ascii_eqb_neq c "-")) by (apply digit_not; [exact Dc | reflexivity]).
  rewrite (proj2 (ascii_eqb_neq c "+")) by (apply digit_not; [exact Dc | reflexivity]).
  rewrite U. unfold below_2_64 in B. rewrite (proj2 (Z.ltb_lt _ _) B). rewrite Nat2Z.id. reflexivity.
Qed.
Definition dim_texts (shape : list nat) : list text := map (fun n => digits (Z.of_nat n)) shape.
Lemma dim_tokens shape : Forall token (dim_texts shape).
Proof.
  unfold dim_texts. apply Forall_forall. intros t I. apply in_map_iff in I. destruct I as (n & <- & _).
  split; [apply digits_nonempty | apply digits_digits; lia].
Qed.
Lemma string_to_sizes_spec w shape : w <> [] -> Forall (fun c => is_separator c = true) w ->
  shape <> [] -> Forall below_2_64 shape ->
  string_to_sizes (join_text w (dim_texts shape)) = Ok shape.
Proof.
  intros Nw Fw Ns B. unfold string_to_sizes.
  assert (Nd : dim_texts shape <> []) by (destruct shape; [congruence | discriminate]).
  rewrite trim_join by (try apply dim_tokens; exact Nd).
  rewrite split_compress_join by (try apply dim_tokens; assumption).
  clear - B. induction B as [|n shape Bn B IH]; [reflexivity|].
  cbn [dim_texts map map_outcome]. rewrite size_text_digits by exact Bn. cbn [bind].
  unfold dim_texts in IH. rewrite IH. reflexivity.
Qed.
Lemma join_digits_no_char w c l : digit_val c = None -> ~ In c w -> Forall token l -> ~ In c (join_text w l).
Proof.
  intros N Nw F I. induction F as [|x l [Nx Dx] F IH]; [contradiction|].
  assert (K : ~ In c x).
  { intros J. rewrite Forall_forall in Dx. apply Dx in J. destruct J as (d & E). congruence. }
  destruct l as [|y l]; [contradiction|]. rewrite join_text_cons in I.
  apply in_app_or in I. destruct I as [I|I]; [contradiction|].
  apply in_app_or in I. destruct I as [I|I]; [contradiction|]. apply IH. exact I.
Qed.

(** ** The dictionary *)
(** [D] is a description followed by a comma and a space, up to the quote of the
    next key. *)
Definition dict_text (D : text) (B : text) (S T : text) : text :=
  (txt "{'descr': " ++ D) ++ quote :: txt "fortran_order" ++ txt "': " ++ B ++ txt ", 'shape': (" ++ S ++ txt ")" ++ T.
Lemma skips_descr n D : ~ In quote n -> n <> [] -> find_text n (txt "{") = None -> find_text n (txt "descr") = None ->
  skips n (txt ": " ++ D) -> skips n (txt "{'descr': " ++ D).
Proof.
  intros Nq Nn E1 E2 H.
  change (txt "{'descr': " ++ D) with (txt "{" ++ quote :: (txt "descr" ++ quote :: (txt ": " ++ D))).
  apply skips_app; [apply skips_base; assumption|]. apply skips_app; [apply skips_base; assumption | exact H].
Qed.
Lemma parse_fortran_spec D B S T : skips (txt "fortran_order") (txt ": " ++ D) -> 4 <= length B ->
  parse_fortran (dict_text D B S T) = Ok (text_eqb (firstn 4 B) (txt "True")).
Proof.
  intros H L. unfold parse_fortran, find_plus, dict_text.
  rewrite skips_found.
  2:{ apply skips_descr; try reflexivity; [|discriminate|exact H].
      cbn. intros I. repeat (destruct I as [I|I]; [discriminate|]). exact I. }
  set (P := txt "{'descr': " ++ D).
  assert (E : P ++ quote :: txt "fortran_order" ++ txt "': " ++ B ++ txt ", 'shape': (" ++ S ++ txt ")" ++ T =
    (P ++ quote :: txt "fortran_order" ++ txt "': ") ++ B ++ txt ", 'shape': (" ++ S ++ txt ")" ++ T).
  { rewrite <- !app_assoc. cbn [app]. reflexivity. }
  rewrite E. assert (L2 : length P + 1 + 16 = length (P ++ quote :: txt "fortran_order" ++ txt "': ")).
  { rewrite app_length. cbn. lia. }
  rewrite L2. set (Q := P ++ quote :: txt "fortran_order" ++ txt "': ").
  unfold substr. rewrite app_length.
  replace (length Q + length (B ++ txt ", 'shape': (" ++ S ++ txt ")" ++ T) <? length Q) with false
    by (symmetry; apply Nat.ltb_ge; lia).
  rewrite skipn_len. replace (length Q + 4 - length Q) with 4 by lia. cbn [bind].
  rewrite firstn_app. replace (4 - length B) with 0 by lia. cbn [firstn]. rewrite app_nil_r. reflexivity.
Qed.
Lemma parse_shape_spec D B S T : skips (txt "shape") (txt ": " ++ D) -> ~ In quote B ->
  find_text (txt "shape") (txt ": " ++ B ++ txt ", ") = None -> ~ In ")"%char S ->
  parse_shape (dict_text D B S T) =
  match S with
  | [] => UB
  | _ :: _ => string_to_sizes (if Ascii.eqb (last S zero_byte) "," then removelast S else S)
  end.
Proof.
  intros H NB FB NS. unfold parse_shape, find_plus.
  set (P := (txt "{'descr': " ++ D) ++ quote :: (txt "fortran_order" ++ quote :: (txt ": " ++ B ++ txt ", "))).
  assert (E : dict_text D B S T = P ++ quote :: txt "shape" ++ (txt "': (" ++ S ++ txt ")" ++ T)).
  { unfold dict_text, P. change (txt "': ") with (quote :: txt ": "). change (txt ", 'shape': (") with (txt ", " ++ quote :: txt "shape" ++ txt "': (").
    rewrite <- !app_assoc. cbn [app]. rewrite <- !app_assoc. cbn [app]. rewrite <- !app_assoc. reflexivity. }
  rewrite E, skips_found.
  2:{ unfold P. assert (NQ : ~ In quote (txt "shape")).
      { cbn. intros I. repeat (destruct I as [I|I]; [discriminate|]). exact I. }
      apply skips_app; [apply skips_descr; try reflexivity; [exact NQ | discriminate | exact H]|].
      apply skips_app; apply skips_base; try reflexivity; try exact NQ; try discriminate. exact FB. }
  assert (L : length P + 1 + 9 = length (P ++ quote :: txt "shape" ++ txt "': (")).
  { rewrite app_length. cbn. lia. }
  rewrite L. replace (P ++ quote :: txt "shape" ++ txt "': (" ++ S ++ txt ")" ++ T) with
    ((P ++ quote :: txt "shape" ++ txt "': (") ++ S ++ ")"%char :: T).
  2:{ rewrite <- !app_assoc. cbn [app]. rewrite <- !app_assoc. reflexivity. }
  rewrite substr_between by exact NS. reflexivity.
Qed.
Lemma dict_descr D B S T : exists r, dict_text D B S T = txt "{'descr': " ++ D ++ r /\ exists q, r = quote :: q.
Proof. unfold dict_text. rewrite <- app_assoc. eexists. split; [reflexivity|]. eexists. reflexivity. Qed.
Lemma find_descr r : find_plus (txt "descr") (txt "{'descr': " ++ r) 8 = 10.
Proof. reflexivity. Qed.
Lemma parse_descr_single t c B S T : ~ In quote (c :: t) ->
  parse_descr (dict_text (quote :: (c :: t) ++ txt "', ") B S T) = Ok (Some (Ascii.eqb c ">"), t, []).
Proof.
  intros N. destruct (dict_descr (quote :: (c :: t) ++ txt "', ") B S T) as (r & -> & _).
  unfold parse_descr. rewrite find_descr. cbn [char_at txt list_ascii_of_string app nth_error bind].
  change (Ascii.eqb quote quote) with true. cbv iota.
  match goal with |- context [substr ?x (10 + 1) _] =>
    change x with (txt "{'descr': '" ++ (c :: t) ++ quote :: (txt ", " ++ r)) || 
    replace x with (txt "{'descr': '" ++ (c :: t) ++ quote :: (txt ", " ++ r)) by (rewrite <- !app_comm_cons, <- app_assoc; reflexivity) end.
  change (10 + 1) with (length (txt "{'descr': '")). rewrite substr_between by exact N. reflexivity.
Qed.
Lemma parse_descr_fields t attrs B S T : t <> [] -> attrs <> [] -> ~ In quote t -> ~ In "]"%char t ->
  Forall (fun a => ~ In quote a /\ ~ In "]"%char a) attrs ->
  parse_descr (dict_text (txt "[" ++ concat (map (field t) attrs) ++ txt "], ") B S T) = Ok (Some false, t, attrs).
Proof.
  intros Nt Na Nq Nb F. destruct (dict_descr (txt "[" ++ concat (map (field t) attrs) ++ txt "], ") B S T) as (r & -> & _).
  unfold parse_descr. rewrite find_descr. cbn [char_at txt list_ascii_of_string app nth_error bind].
  change (Ascii.eqb "[" quote) with false. change (Ascii.eqb "[" "[") with true. cbv iota.
  match goal with |- context [substr ?x (10 + 1) _] =>
    replace x with (txt "{'descr': [" ++ concat (map (field t) attrs) ++ "]"%char :: (txt ", " ++ r))
      by (cbn [txt list_ascii_of_string app]; rewrite <- !app_assoc; reflexivity) end.
  change (10 + 1) with (length (txt "{'descr': [")). rewrite substr_between.
  - cbn [bind]. rewrite search_fields_spec; [apply field_loop_spec; assumption | exact Nq | | apply le_n].
    eapply Forall_impl; [|exact F]. intros a (H & _). exact H.
  - intros I. apply in_concat in I. destruct I as (x & Ix & I). apply in_map_iff in Ix. destruct Ix as (a & <- & Ia).
    rewrite Forall_forall in F. destruct (F a Ia) as (_ & Hb). unfold field in I.
    repeat (apply in_app_or in I; destruct I as [I|I]);
      try contradiction; cbn in I; repeat (destruct I as [I|I]; [discriminate|]); exact I.
Qed.
(** The descriptions do not hide the keywords. *)
Lemma skips_single n u : ~ In quote n -> n <> [] -> find_text n (txt ": ") = None -> find_text n u = None ->
  find_text n (txt ", ") = None -> skips n (txt ": " ++ quote :: u ++ txt "', ").
Proof.
  intros Nq Nn E1 E2 E3. change (txt "', ") with (quote :: txt ", ").
  apply skips_app; [apply skips_base; assumption|]. apply skips_app; apply skips_base; assumption.
Qed.
Lemma skips_fields n t attrs : ~ In quote n -> n <> [] ->
  find_text n (txt ": [(") = None -> find_text n (txt "), (") = None -> find_text n (txt "), ], ") = None ->
  find_text n (txt ", ") = None -> find_text n (endian_marker ++ t) = None ->
  attrs <> [] -> Forall (fun a => find_text n a = None) attrs ->
  skips n (txt ": " ++ txt "[" ++ concat (map (field t) attrs) ++ txt "], ").
Proof.
  intros Nq Nn E1 E2 E3 E4 E5 Na F.
  assert (G : forall p, find_text n p = None -> forall attrs, attrs <> [] -> Forall (fun a => find_text n a = None) attrs ->
     forall q, p = q ++ txt "(" -> skips n (q ++ concat (map (field t) attrs) ++ txt "], ")).
  { intros p Ep l Nl Fl. revert p Ep Nl. induction Fl as [|a l Ha Fl IH]; intros p Ep Nl q Eq; [congruence|].
    cbn [map List.concat]. unfold field at 1.
    change (txt "('") with (txt "(" ++ [quote]). change (txt "', '") with (quote :: txt ", " ++ [quote]).
    assert (X : q ++ ((((txt "(" ++ [quote]) ++ a ++ (quote :: txt ", " ++ [quote]) ++ endian_marker ++ t ++ txt "'), ") ++
              concat (map (field t) l)) ++ txt "], ") =
      p ++ quote :: (a ++ quote :: (txt ", " ++ quote :: ((endian_marker ++ t) ++ quote :: (txt "), " ++ concat (map (field t) l) ++ txt "], "))))).
    { rewrite Eq, <- !app_assoc. cbn [app]. rewrite <- !app_assoc. reflexivity. }
    rewrite X. apply skips_app; [apply skips_base; assumption|].
    apply skips_app; [apply skips_base; assumption|]. apply skips_app; [apply skips_base; assumption|].
    apply skips_app; [apply skips_base; assumption|].
    destruct l as [|b l].
    - apply skips_base; assumption.
    - apply (IH (txt "), (")); [exact E2 | discriminate | reflexivity]. }
  change (txt ": " ++ txt "[" ++ concat (map (field t) attrs) ++ txt "], ") with (txt ": [" ++ concat (map (field t) attrs) ++ txt "], ").
  apply (G (txt ": [(") E1 attrs Na F). reflexivity.
Qed.
