(** Dictionaries of npy files cut short and filled with zeros are refused. *)
From Coq Require Import List Arith NArith ZArith Ascii String Bool Lia.
From Verif Require Import Common TextModel TextProofs NdArrayModel NdArraySpec NdArrayProofs NdArrayProofs2 TableModel AsciiModel
  NpyModel NpySpec NpyProofs NpyProofs2 NpyProofs3 NpyCrashProofs.
Import ListNotations.
Local Notation length := List.length.
Local Notation concat := (@List.concat _).
Local Open Scope nat_scope.
Local Notation zs n := (repeat zero_byte n).

(** The dictionary up to its last two characters. *)
Definition body_start (D : text) : text :=
  (txt "{'descr': " ++ D) ++ quote :: (txt "fortran_order" ++ quote :: (txt ": " ++ txt "False" ++ txt ", ")).
Definition body (D Sh : text) : text := body_start D ++ quote :: txt "shape" ++ txt "': (" ++ Sh.
Lemma body_dict D Sh T : dict_text D (txt "False") Sh T = body D Sh ++ txt ")" ++ T.
Proof.
  unfold dict_text, body, body_start. change (txt "': ") with (quote :: txt ": ").
  change (txt ", 'shape': (") with (txt ", " ++ quote :: txt "shape" ++ txt "': (").
  repeat (rewrite <- ?app_assoc; cbn [app]). reflexivity.
Qed.
Lemma body_shape D Sh : skips (txt "shape") (txt ": " ++ D) ->
  find_text (txt "shape") (body D Sh) = Some (length (body_start D) + 1).
Proof.
  intros H. unfold body. apply skips_found. unfold body_start.
  assert (NQ : ~ In quote (txt "shape")) by (apply no_quote_lit; reflexivity).
  apply skips_app; [apply skips_descr; try reflexivity; [exact NQ | discriminate | exact H]|].
  apply skips_app; apply skips_base; try reflexivity; try exact NQ; try discriminate.
Qed.
Lemma body_length D Sh : length (body D Sh) = length (body_start D) + 10 + length Sh.
Proof. unfold body. rewrite app_length. cbn. lia. Qed.
Lemma start_length D : 30 <= length (body_start D).
Proof. unfold body_start. rewrite !app_length. cbn. lia. Qed.

Lemma skipn_cut {A} (X : list A) j q r : j <= length X -> q <= j ->
  skipn q (firstn j X ++ r) = firstn (j - q) (skipn q X) ++ r.
Proof.
  intros L Q. rewrite skipn_app, firstn_length_le by exact L. replace (q - j) with 0 by lia. cbn [skipn]. f_equal.
  rewrite skipn_firstn_comm. reflexivity.
Qed.
Lemma skipn_zs q m : skipn q (zs m) = zs (m - q).
Proof.
  revert q. induction m as [|m IH]; intros [|q]; cbn [repeat skipn Nat.sub]; try reflexivity. apply IH.
Qed.
Lemma skipn_past (X : text) j q m : j <= length X -> j <= q -> skipn q (firstn j X ++ zs m) = zs (m - (q - j)).
Proof.
  intros L Q. rewrite skipn_app, firstn_length_le by exact L. rewrite skipn_all2 by (rewrite firstn_length_le; lia).
  cbn [app]. apply skipn_zs.
Qed.
Lemma find_char_none c s : ~ In c s -> find_char c s = None.
Proof.
  induction s as [|x s IH]; intros N; [reflexivity|]. cbn [find_char].
  destruct (Ascii.eqb x c) eqn:E; [apply Ascii.eqb_eq in E; exfalso; apply N; left; exact E|].
  rewrite IH; [reflexivity|]. intros I. apply N. right. exact I.
Qed.
Lemma in_firstn {A} (c : A) k s : In c (firstn k s) -> In c s.
Proof. intros I. rewrite <- (firstn_skipn k s). apply in_or_app. left. exact I. Qed.

(** The shape of a dictionary that ends before its closing parenthesis. *)
Lemma cut_shape D Sh j m : skips (txt "shape") (txt ": " ++ D) -> ~ In ")"%char Sh ->
  j <= length (body D Sh) -> length (body D Sh) + 1 <= j + m ->
  parse_shape (firstn j (body D Sh) ++ zs m) = Throw.
Proof.
  intros Sk NS Lj Lm. unfold parse_shape, find_plus. pose proof (start_length D) as L0. pose proof (body_length D Sh) as LB.
  rewrite (find_cut (txt "shape") (body D Sh) _ j m ltac:(discriminate) ltac:(cbn; intros I; repeat (destruct I as [I|I]; [discriminate|]); exact I) (body_shape D Sh Sk) Lj).
  set (p := length (body_start D) + 1). set (Y := firstn j (body D Sh) ++ zs m).
  assert (LY : length Y = j + m) by (unfold Y; rewrite app_length, firstn_length_le, repeat_length; lia).
  change (length (txt "shape")) with 5.
  destruct (Nat.leb_spec (p + 5) j) as [L|L].
  - (* the key is there *)
    assert (K : exists s, skipn (p + 9) Y = s ++ zs (Nat.max 1 (m - (p + 9 - j))) /\ ~ In ")"%char s).
    { unfold Y. destruct (Nat.le_gt_cases (p + 9) j) as [Q|Q].
      - rewrite skipn_cut by lia. replace (Nat.max 1 (m - (p + 9 - j))) with m by (unfold p in *; lia).
        eexists. split; [reflexivity|]. intros I. apply in_firstn in I. apply NS.
        unfold body in I. replace (p + 9) with (length (body_start D ++ quote :: txt "shape" ++ txt "': (")) in I
          by (rewrite app_length; unfold p; cbn; lia).
        replace (body_start D ++ quote :: txt "shape" ++ txt "': (" ++ Sh) with ((body_start D ++ quote :: txt "shape" ++ txt "': (") ++ Sh) in I
          by (rewrite <- !app_assoc; cbn [app]; rewrite <- ?app_assoc; reflexivity).
        rewrite skipn_len in I. exact I.
      - rewrite skipn_past by lia. exists []. split; [cbn [app]; f_equal; unfold p in *; lia | intros []]. }
    destruct K as (s & K & Ns).
    assert (Ny : ~ In ")"%char (skipn (p + 9) Y)).
    { rewrite K. intros I. apply in_app_or in I. destruct I as [I|I]; [exact (Ns I)|]. apply repeat_spec in I. discriminate. }
    assert (Fn : find_char_from ")" Y (p + 9) = None).
    { unfold find_char_from. destruct (length Y <? p + 9); [reflexivity|]. rewrite find_char_none by exact Ny. reflexivity. }
    rewrite Fn. unfold substr. destruct (Nat.ltb_spec (length Y) (p + 9)) as [Q|Q]; [reflexivity|]. cbn [bind].
    rewrite K. destruct (Nat.max 1 (m - (p + 9 - j))) as [|k] eqn:Ek; [lia|].
    assert (Iz : In zero_byte (s ++ zs (S k))) by (apply in_or_app; right; left; reflexivity).
    assert (Lz : last (s ++ zs (S k)) zero_byte = zero_byte).
    { replace (zs (S k)) with (zs k ++ [zero_byte]) by (rewrite <- repeat_cons; reflexivity). rewrite app_assoc. apply last_last. }
    destruct (s ++ zs (S k)) as [|c t] eqn:Ec; [destruct Iz|]. rewrite <- Ec in *. rewrite Lz.
    change (Ascii.eqb zero_byte ",") with false. cbv iota. apply (sizes_strange zero_byte); [exact Iz | apply strange_zero].
  - (* the key is not there *)
    change (9 - 1) with 8. assert (K : exists c r, skipn 8 Y = c :: r /\ strange c /\ c <> ")"%char /\ c <> ","%char).
    { unfold Y. destruct (Nat.le_gt_cases j 8) as [Q|Q].
      - rewrite skipn_past by lia. destruct (m - (8 - j)) as [|k] eqn:Ek; [lia|].
        eexists. eexists. split; [reflexivity|]. split; [apply strange_zero|]. split; discriminate.
      - rewrite skipn_cut by lia. assert (B8 : exists r, skipn 8 (body D Sh) = ":"%char :: r) by (unfold body, body_start; eexists; reflexivity).
        destruct B8 as (r & ->). destruct (j - 8) as [|k] eqn:Ek; [lia|]. cbn [firstn app].
        eexists. eexists. split; [reflexivity|]. split; [apply strange_colon|]. split; discriminate. }
    destruct K as (c & r & K & Sc & Np & Nc).
    unfold substr, find_char_from. replace (length Y <? 8) with false by (symmetry; apply Nat.ltb_ge; lia). rewrite K.
    cbn [find_char]. destruct (Ascii.eqb c ")") eqn:E; [apply Ascii.eqb_eq in E; congruence|].
    assert (G : forall t, match c :: t with
       | [] => UB
       | _ :: _ => string_to_sizes (if Ascii.eqb (last (c :: t) zero_byte) "," then removelast (c :: t) else c :: t)
       end = Throw).
    { intros t. apply (sizes_strange c); [|exact Sc]. destruct t as [|d t].
      - cbn [last]. destruct (Ascii.eqb c ",") eqn:E2; [apply Ascii.eqb_eq in E2; congruence | left; reflexivity].
      - destruct (Ascii.eqb (last (c :: d :: t) zero_byte) ","); left; reflexivity. }
    destruct (find_char ")" r) as [q|]; cbn [option_map bind].
    + replace (8 + S q - 8) with (S q) by lia. cbn [firstn]. apply G.
    + apply G.
Qed.

(** The description of such a dictionary does not lead to undefined behaviour. *)
Lemma cut_descr D Sh j m : occurs qqp (body D Sh) = false ->
  (exists c r, D = quote :: c :: r /\ c <> quote) \/ (exists r, D = "["%char :: r) ->
  j <= length (body D Sh) -> length (body D Sh) + 1 <= j + m ->
  defined (parse_descr (firstn j (body D Sh) ++ zs m)).
Proof.
  intros NO HD Lj Lm. pose proof (start_length D) as L0. pose proof (body_length D Sh) as LB. unfold parse_descr, find_plus.
  assert (Fd : find_text (txt "descr") (body D Sh) = Some 2) by reflexivity.
  rewrite (find_cut (txt "descr") (body D Sh) 2 j m ltac:(discriminate) ltac:(cbn; intros I; repeat (destruct I as [I|I]; [discriminate|]); exact I) Fd Lj).
  set (Y := firstn j (body D Sh) ++ zs m).
  assert (LY : length Y = j + m) by (unfold Y; rewrite app_length, firstn_length_le, repeat_length; lia).
  assert (At : forall q, j <= q -> q < j + m -> char_at Y q = Ok zero_byte).
  { intros q Q1 Q2. unfold char_at, Y. rewrite nth_error_app2 by (rewrite firstn_length_le; lia).
    rewrite firstn_length_le by exact Lj. rewrite nth_error_repeat by lia. reflexivity. }
  change (length (txt "descr")) with 5. destruct (Nat.leb_spec (2 + 5) j) as [L|L].
  2:{ change (8 - 1) with 7. rewrite At by lia. right. reflexivity. }
  change (2 + 8) with 10. destruct (Nat.le_gt_cases j 10) as [Q|Q]; [rewrite At by lia; right; reflexivity|].
  assert (E10 : exists d r, D = d :: r /\ char_at Y 10 = Ok d).
  { assert (Hd : exists d r, D = d :: r) by (destruct HD as [(c & r & -> & _)|(r & ->)]; eauto).
    destruct Hd as (d & r & ->). exists d, r. split; [reflexivity|].
    unfold char_at, Y. rewrite nth_error_app1 by (rewrite firstn_length_le; lia).
    assert (E : nth_error (firstn j (body (d :: r) Sh)) 10 = nth_error (body (d :: r) Sh) 10).
    { rewrite <- (firstn_skipn j (body (d :: r) Sh)) at 2. rewrite nth_error_app1; [reflexivity|]. rewrite firstn_length_le; lia. }
    rewrite E. reflexivity. }
  destruct E10 as (d & r & ED & ->). cbn [bind].
  destruct HD as [(c & r' & HD & Nq)|(r' & HD)]; rewrite HD in ED; injection ED as <- <-.
  - change (Ascii.eqb quote quote) with true. cbv iota.
    assert (K : exists x t, skipn 11 Y = x :: t /\ x <> quote).
    { unfold Y. destruct (Nat.le_gt_cases j 11) as [Q2|Q2].
      - rewrite skipn_past by lia. destruct (m - (11 - j)) as [|k] eqn:Ek; [lia|]. do 2 eexists. split; [reflexivity | discriminate].
      - rewrite skipn_cut by lia. rewrite HD. assert (B : exists t, skipn 11 (body (quote :: c :: r') Sh) = c :: t) by (eexists; reflexivity).
        destruct B as (t & ->). destruct (j - 11) as [|k] eqn:Ek; [lia|]. do 2 eexists. split; [reflexivity | exact Nq]. }
    destruct K as (x & t & K & Nx). change (10 + 1) with 11. unfold substr, find_char_from.
    replace (length Y <? 11) with false by (symmetry; apply Nat.ltb_ge; lia). rewrite K. cbn [find_char].
    destruct (Ascii.eqb x quote) eqn:E; [apply Ascii.eqb_eq in E; congruence|].
    left. destruct (find_char quote t) as [q|]; cbn [option_map bind].
    + replace (11 + S q - 11) with (S q) by lia. cbn [firstn single_value bind]. eexists. reflexivity.
    + cbn [single_value bind]. eexists. reflexivity.
  - change (Ascii.eqb "[" quote) with false. change (Ascii.eqb "[" "[") with true. cbv iota.
    unfold substr. destruct (length Y <? 10 + 1); [right; reflexivity|]. cbn [bind].
    assert (OY : occurs qqp Y = false).
    { apply occurs_cut; [discriminate| |exact NO]. cbn. intros I. repeat (destruct I as [I|I]; [discriminate|]). exact I. }
    apply field_loop_defined; [|left; reflexivity].
    destruct (find_char_from "]" Y (10 + 1)) as [e|]; apply fields_nonempty.
    + apply occurs_sub; [discriminate | exact OY].
    + replace (skipn (10 + 1) Y) with (firstn (length Y) (skipn (10 + 1) Y)) by (apply firstn_all2; rewrite skipn_length; lia).
      apply occurs_sub; [discriminate | exact OY].
Qed.

(** ** Written dictionaries *)
Lemma occurs_fields t attrs r : ~ In quote t -> Forall (fun a => ~ In quote a) attrs ->
  occurs qqp r = false -> occurs qqp (concat (map (field t) attrs) ++ r) = false.
Proof.
  intros Nt F Hr. induction F as [|a attrs Na F IH]; [exact Hr|]. cbn [map List.concat]. unfold field at 1.
  set (R := concat (map (field t) attrs) ++ r) in *.
  match goal with |- occurs qqp ?x = false =>
    replace x with ("("%char :: quote :: a ++ quote :: (txt ", ") ++ quote :: "<"%char :: t ++ quote :: ")"%char :: txt ", " ++ R) end.
  2:{ unfold R. cbn [txt list_ascii_of_string app]. rewrite <- !app_assoc. cbn [app]. rewrite <- !app_assoc. reflexivity. }
  assert (E1 : occurs qqp (quote :: ")"%char :: txt ", " ++ R) = false).
  { rewrite occurs_q by discriminate. change (")"%char :: txt ", " ++ R) with (txt "), " ++ R).
    rewrite occurs_nq by (apply no_quote_lit; reflexivity). exact IH. }
  assert (E2 : occurs qqp (quote :: (txt ", ") ++ quote :: "<"%char :: t ++ quote :: ")"%char :: txt ", " ++ R) = false).
  { change (txt ", " ++ ?x) with (","%char :: " "%char :: x) at 1. rewrite occurs_q by discriminate.
    change (","%char :: " "%char :: ?x) with (txt ", " ++ x). rewrite occurs_nq by (apply no_quote_lit; reflexivity).
    rewrite occurs_q by discriminate. change ("<"%char :: ?x) with (txt "<" ++ x).
    rewrite occurs_nq by (apply no_quote_lit; reflexivity). rewrite occurs_nq by exact Nt. exact E1. }
  change ("("%char :: ?x) with (txt "(" ++ x). rewrite occurs_nq by (apply no_quote_lit; reflexivity).
  destruct a as [|c a].
  - cbn [app]. change (txt ", " ++ ?x) with (","%char :: " "%char :: x) at 1. rewrite occurs_qq by discriminate. exact E2.
  - cbn [app]. rewrite occurs_q by (intros E; apply Na; left; exact E).
    change (c :: a ++ ?x) with ((c :: a) ++ x). rewrite occurs_nq by exact Na. exact E2.
Qed.
Lemma dims_no_char c shape : digit_val c = None -> c <> ","%char -> ~ In c (dict_shape_text shape).
Proof.
  intros Hd Hc I. unfold dict_shape_text in I. apply in_concat in I. destruct I as (x & Ix & I).
  apply in_map_iff in Ix. destruct Ix as (n & <- & _). apply in_app_or in I. destruct I as [I|I].
  - pose proof (dim_tokens [n]) as T. inversion T as [|? ? (_ & Tn) _]. subst. rewrite Forall_forall in Tn.
    apply Tn in I. destruct I as (d & E). congruence.
  - destruct I as [E|[]]. congruence.
Qed.
Lemma occurs_tail shape : occurs qqp (quote :: (txt "fortran_order" ++ quote :: (txt ": " ++ txt "False" ++ txt ", ")) ++
   quote :: txt "shape" ++ txt "': (" ++ dict_shape_text shape) = false.
Proof.
  replace (quote :: (txt "fortran_order" ++ quote :: (txt ": " ++ txt "False" ++ txt ", ")) ++
     quote :: txt "shape" ++ txt "': (" ++ dict_shape_text shape)
    with (txt "'fortran_order': False, 'shape': (" ++ dict_shape_text shape).
  2:{ change (txt "'fortran_order': False, 'shape': (") with
        (quote :: (txt "fortran_order" ++ quote :: (txt ": " ++ txt "False" ++ txt ", ")) ++ quote :: txt "shape" ++ txt "': (").
      rewrite <- !app_comm_cons. reflexivity. }
  assert (K : occurs qqp (dict_shape_text shape) = false).
  { rewrite <- (app_nil_r (dict_shape_text shape)). rewrite occurs_nq; [reflexivity|]. apply dims_no_char; [reflexivity | discriminate]. }
  change (txt "'fortran_order': False, 'shape': (") with
    (quote :: "f"%char :: txt "ortran_order" ++ quote :: ":"%char :: txt " False, " ++ quote :: "s"%char :: txt "hape" ++ quote :: ":"%char :: txt " (").
  cbn [app txt list_ascii_of_string]. rewrite occurs_q by discriminate.
  repeat (first [ rewrite occurs_q by discriminate
    | match goal with |- occurs qqp (?c :: ?r) = false => change (c :: r) with ([c] ++ r); rewrite (occurs_nq [c]) by (apply no_quote_lit; reflexivity) end ]).
  exact K.
Qed.
Lemma written_occurs ty attrs shape : Forall good_name attrs ->
  occurs qqp (body (dict_descr_text (dtype_str ty) attrs) (dict_shape_text shape)) = false.
Proof.
  intros G. unfold body, body_start, dict_descr_text.
  pose proof (occurs_tail shape) as T. set (R := quote :: (txt "fortran_order" ++ quote :: (txt ": " ++ txt "False" ++ txt ", ")) ++
   quote :: txt "shape" ++ txt "': (" ++ dict_shape_text shape) in T.
  destruct attrs as [|a attrs].
  - cbn [type_description].
    match goal with |- occurs qqp ?x = false =>
      replace x with ("{"%char :: quote :: "d"%char :: txt "escr" ++ quote :: ":"%char :: " "%char :: quote :: "<"%char :: dtype_str ty ++ quote :: ","%char :: " "%char :: R) end.
    2:{ unfold R. cbn [txt list_ascii_of_string app]. rewrite <- !app_assoc. cbn [app]. rewrite <- ?app_assoc. cbn [app]. rewrite <- ?app_assoc. cbn [app]. rewrite <- ?app_assoc. cbn [app].
        reflexivity. }
    change ("{"%char :: ?x) with (txt "{" ++ x). rewrite occurs_nq by (apply no_quote_lit; reflexivity). rewrite occurs_q by discriminate.
    change ("d"%char :: txt "escr" ++ ?x) with (txt "descr" ++ x). rewrite occurs_nq by (apply no_quote_lit; reflexivity).
    rewrite occurs_q by discriminate. change (":"%char :: " "%char :: ?x) with (txt ": " ++ x).
    rewrite occurs_nq by (apply no_quote_lit; reflexivity). rewrite occurs_q by discriminate.
    change ("<"%char :: ?x) with (txt "<" ++ x). rewrite occurs_nq by (apply no_quote_lit; reflexivity).
    rewrite occurs_nq by apply dtype_no_quote. rewrite occurs_q by discriminate.
    change (","%char :: " "%char :: ?x) with (txt ", " ++ x). rewrite occurs_nq by (apply no_quote_lit; reflexivity). exact T.
  - cbn [type_description].
    match goal with |- occurs qqp ?x = false =>
      replace x with ("{"%char :: quote :: "d"%char :: txt "escr" ++ quote :: ":"%char :: txt " [" ++ concat (map (field (dtype_str ty)) (a :: attrs)) ++ txt "], " ++ R) end.
    2:{ unfold R. cbn [txt list_ascii_of_string app]. rewrite <- !app_assoc. cbn [app]. rewrite <- ?app_assoc. cbn [app]. rewrite <- ?app_assoc. cbn [app].
        reflexivity. }
    change ("{"%char :: ?x) with (txt "{" ++ x). rewrite occurs_nq by (apply no_quote_lit; reflexivity). rewrite occurs_q by discriminate.
    change ("d"%char :: txt "escr" ++ ?x) with (txt "descr" ++ x). rewrite occurs_nq by (apply no_quote_lit; reflexivity).
    rewrite occurs_q by discriminate. change (":"%char :: txt " [" ++ ?x) with (txt ": [" ++ x).
    rewrite occurs_nq by (apply no_quote_lit; reflexivity). apply occurs_fields.
    + apply dtype_no_quote.
    + eapply Forall_impl; [|exact G]. intros b (H & _). exact H.
    + rewrite occurs_nq by (apply no_quote_lit; reflexivity). exact T.
Qed.
Definition dict_front (ty : npy_type) (shape : list nat) (attrs : list text) : text :=
  body (dict_descr_text (dtype_str ty) attrs) (dict_shape_text shape).
Lemma dict_front_eq ty shape attrs : npy_dict ty shape attrs = dict_front ty shape attrs ++ txt ")" ++ txt "}".
Proof.
  rewrite <- (app_nil_r (npy_dict ty shape attrs)), npy_dict_text, body_dict. reflexivity.
Qed.
Lemma descr_head ty attrs : (exists c r, dict_descr_text (dtype_str ty) attrs = quote :: c :: r /\ c <> quote) \/
  (exists r, dict_descr_text (dtype_str ty) attrs = "["%char :: r).
Proof.
  unfold dict_descr_text. destruct attrs as [|a attrs].
  - left. do 2 eexists. split; [reflexivity | discriminate].
  - right. eexists. reflexivity.
Qed.
(** A dictionary cut before its closing parenthesis is refused. *)
Lemma parse_cut ty shape attrs j m : Forall good_name attrs -> j <= length (dict_front ty shape attrs) ->
  length (dict_front ty shape attrs) + 1 <= j + m ->
  parse_npy_dict (firstn j (dict_front ty shape attrs) ++ zs m) = Throw.
Proof.
  intros G Lj Lm. unfold parse_npy_dict, dict_front in *.
  set (D := dict_descr_text (dtype_str ty) attrs) in *. set (Sh := dict_shape_text shape) in *.
  destruct (fortran_defined (firstn j (body D Sh) ++ zs m)) as [(b & ->)| ->]; [|reflexivity]. cbn [bind].
  destruct (cut_descr D Sh j m (written_occurs ty attrs shape G) (descr_head ty attrs) Lj Lm) as [(d & ->)| ->]; [|reflexivity].
  cbn [bind]. rewrite cut_shape; [reflexivity | | apply dims_no_char; [reflexivity | discriminate] | exact Lj | exact Lm].
  apply skips_written; try reflexivity; try discriminate; [apply no_quote_lit; reflexivity | apply dtype_find_shape|].
  eapply Forall_impl; [|exact G]. intros a (_ & _ & H & _). apply find_text_none. exact H.
Qed.
(** With the parenthesis it is as good as complete. *)
Lemma parse_front ty shape attrs T : Forall good_name attrs -> shape <> [] -> Forall below_2_64 shape ->
  parse_npy_dict (dict_front ty shape attrs ++ txt ")" ++ T) =
  Ok (mkHeader false (Some false) (dtype_str ty) shape attrs (int_product shape)).
Proof.
  intros G N B. pose proof (parse_written ty shape attrs [] G N B) as P. rewrite npy_dict_text in P.
  unfold dict_front. rewrite <- body_dict. rewrite <- P. unfold parse_npy_dict.
  assert (H1 : skips (txt "fortran_order") (txt ": " ++ dict_descr_text (dtype_str ty) attrs)).
  { apply skips_written; try reflexivity; try discriminate; [apply no_quote_lit; reflexivity | apply dtype_find_fortran|].
    eapply Forall_impl; [|exact G]. intros a (_ & _ & _ & H). apply find_text_none. exact H. }
  assert (H2 : skips (txt "shape") (txt ": " ++ dict_descr_text (dtype_str ty) attrs)).
  { apply skips_written; try reflexivity; try discriminate; [apply no_quote_lit; reflexivity | apply dtype_find_shape|].
    eapply Forall_impl; [|exact G]. intros a (_ & _ & H & _). apply find_text_none. exact H. }
  rewrite !parse_fortran_spec by (try exact H1; cbn; lia). cbn [bind].
  rewrite !parse_written_descr by exact G. cbn [bind].
  rewrite !parse_shape_spec; try reflexivity; try exact H2; try (apply no_quote_lit; reflexivity);
    apply dims_no_char; try reflexivity; discriminate.
Qed.
