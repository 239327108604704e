(** Proofs about FITS tables. *)
From Coq Require Import QArith ZArith List Arith Ascii String Bool Lia.
From Verif Require Import Common TextModel TextProofs DblModel TableModel TableSpec TableProofs AsciiModel AsciiSpec AsciiProofs
  FitsModel FitsSpec.
Import ListNotations.
Local Open Scope nat_scope.
Local Notation length := List.length.

(** ** Formats *)
Lemma leading_digits_app s c : Forall is_digit s -> forall acc, digit_val c = None ->
  leading_digits acc (s ++ [c]) = leading_digits acc s.
Proof.
  intros F. induction F as [|x s (d & D) F IH]; intros acc N.
  - cbn. rewrite N. reflexivity.
  - cbn [app leading_digits]. rewrite D. apply IH. exact N.
Qed.
Lemma leading_all s : Forall is_digit s -> forall acc, all_digits acc s = Some (leading_digits acc s).
Proof.
  intros F. induction F as [|x s (d & D) F IH]; intros acc; [reflexivity|].
  cbn [all_digits leading_digits]. rewrite D. apply IH.
Qed.
Lemma leading_num n : leading_digits 0 (num n) = Z.of_nat n.
Proof.
  unfold num. pose proof (unsigned_digits (Z.of_nat n) ltac:(lia)) as U.
  pose proof (digits_digits (Z.of_nat n) ltac:(lia)) as D. pose proof (digits_nonempty (Z.of_nat n)) as N.
  unfold unsigned_text in U. destruct (digits (Z.of_nat n)) as [|c r] eqn:E; [congruence|]. rewrite <- E in *.
  rewrite (leading_all _ D) in U. congruence.
Qed.
Lemma format_num n c : (Z.of_nat n <= int32_max)%Z -> format_parts (num n ++ [c]) = Ok (Z.of_nat n, c).
Proof.
  intros B. unfold format_parts.
  pose proof (digits_digits (Z.of_nat n) ltac:(lia)) as D. pose proof (digits_nonempty (Z.of_nat n)) as N. fold (num n) in *.
  pose proof (leading_num n) as E.
  destruct (num n ++ [c]) as [|c0 r] eqn:E0; [destruct (num n); discriminate|].
  assert (H : is_digit c0).
  { destruct (num n) as [|x y]; [congruence|]. cbn in E0. injection E0 as <- _. inversion D; assumption. }
  destruct H as (d & ->). rewrite <- E0, removelast_last, last_last. unfold stoi_digits. rewrite E.
  replace (Z.ltb int32_max (Z.of_nat n)) with false by (symmetry; apply Z.ltb_ge; exact B). reflexivity.
Qed.
Definition letter (ty : ctype) : ascii :=
  match ty with
  | TBool | TVBool => "L"%char | TInt | TVInt | TNInt => "J"%char | TLong | TVLong | TNLong => "K"%char
  | TFloat | TVFloat | TNFloat => "E"%char | TDouble | TVDouble | TNDouble => "D"%char | TString => "A"%char
  end.
Definition is_single (ty : ctype) : bool :=
  match ty with TBool | TInt | TLong | TFloat | TDouble => true | _ => false end.
Definition is_vector (ty : ctype) : bool :=
  match ty with TVInt | TVLong | TVFloat | TVDouble => true | _ => false end.
Definition is_array (ty : ctype) : bool :=
  match ty with TNInt | TNLong | TNFloat | TNDouble => true | _ => false end.
Definition lay_size (lay : layout) : nat :=
  match lay with Single => 1 | Chars n | Vector n => n | Array sh => Z.to_nat (z_product sh) end.
Definition lay_format (ty : ctype) (lay : layout) : text :=
  match lay with Single => [letter ty] | _ => num (lay_size lay) ++ [letter ty] end.
Definition lay_dim (lay : layout) : text :=
  match lay with Array sh => txt "(" ++ join ","%char (map digits (rev sh)) ++ txt ")" | _ => [] end.
Definition lay_shape (lay : layout) : list Z := match lay with Array sh => sh | _ => [] end.
Definition lay_kind (ty : ctype) (lay : layout) : Prop :=
  match lay with
  | Single => is_single ty = true
  | Chars _ => ty = TString
  | Vector _ => is_vector ty = true
  | Array _ => is_array ty = true
  end.
Lemma has_kind lay c : has_layout lay c -> lay_kind (type_of c) lay.
Proof. destruct lay, c; cbn; try contradiction; reflexivity. Qed.
Lemma lay_parts ty lay : good_layout lay -> lay_kind ty lay ->
  format_parts (lay_format ty lay) = Ok (Z.of_nat (lay_size lay), letter ty).
Proof.
  intros G K. destruct lay as [|w|n|sh].
  - cbn in K. destruct ty; try discriminate; reflexivity.
  - apply format_num. apply G.
  - apply format_num. apply G.
  - apply format_num. cbn [lay_size]. destruct G as (_ & G). rewrite Z2Nat.id by lia. apply G.
Qed.
Lemma tdim_size_digits z : (0 <= z < 2 ^ 64)%Z -> tdim_size (digits z) = Ok z.
Proof.
  intros B. unfold tdim_size. replace (digits z) with (int_text z).
  - rewrite signed_int_text. replace (Z.ltb (Z.abs z) (2 ^ 64)) with true by (symmetry; apply Z.ltb_lt; lia).
    rewrite Z.mod_small by lia. reflexivity.
  - unfold int_text. replace (Z.ltb z 0) with false by (symmetry; apply Z.ltb_ge; lia). reflexivity.
Qed.
Lemma digit_not_comma z : (0 <= z)%Z -> digits z <> [] /\ ~ In ","%char (digits z).
Proof.
  intros B. split; [apply digits_nonempty|]. intros I. pose proof (digits_digits z B) as D.
  rewrite Forall_forall in D. destruct (D _ I) as (d & E). discriminate.
Qed.
Lemma parse_dim sh : sh <> [] -> Forall (fun z => 0 <= z < 2 ^ 64)%Z sh ->
  parse_tdim (txt "(" ++ join ","%char (map digits (rev sh)) ++ txt ")") = Ok sh.
Proof.
  intros N F. unfold parse_tdim. change (txt "(") with ["("%char]. change (txt ")") with [")"%char]. cbn [app].
  change (Ascii.eqb "(" "(") with true. cbn [andb].
  rewrite app_comm_cons, last_last. change (Ascii.eqb ")" ")") with true. cbv iota.
  rewrite removelast_last.
  assert (F' : Forall (fun z => 0 <= z < 2 ^ 64)%Z (rev sh)) by (apply Forall_rev; exact F).
  change (join ","%char (map digits (rev sh))) with (join_comma (map digits (rev sh))). rewrite (comma_tokens_join (map digits (rev sh))).
  - assert (E : map_o tdim_size (map digits (rev sh)) = Ok (map (fun z => z) (rev sh))).
    { apply map_o_map. eapply Forall_impl; [|exact F']. intros z B. apply tdim_size_digits. exact B. }
    rewrite E, map_id. cbn [bind]. rewrite rev_involutive. reflexivity.
  - intros E. apply map_eq_nil in E. apply N. rewrite <- (rev_involutive sh), E. reflexivity.
  - apply Forall_forall. intros t I. apply in_map_iff in I. destruct I as (z & <- & I).
    rewrite Forall_forall in F'. apply digit_not_comma. apply F'. exact I.
Qed.
Lemma array_nonempty sh : (2 <= z_product sh)%Z -> sh <> [].
Proof. intros H ->. cbn in H. lia. Qed.
Lemma lay_parse lay : good_layout lay -> parse_tdim (lay_dim lay) = Ok (lay_shape lay).
Proof.
  intros G. destruct lay as [|w|n|sh]; try reflexivity. destruct G as (F & P).
  apply parse_dim; [apply array_nonempty; apply P | exact F].
Qed.
Lemma lay_type ty lay : good_layout lay -> lay_kind ty lay ->
  binary_type (lay_format ty lay) (lay_shape lay) = Ok ty.
Proof.
  intros G K. unfold binary_type. rewrite lay_parts by assumption. cbn [bind fst snd].
  destruct lay as [|w|n|sh].
  - cbn [lay_shape lay_size]. change (Z.of_nat 1 =? 1)%Z with true. cbv iota. cbn in K. destruct ty; try discriminate; reflexivity.
  - cbn [lay_shape lay_size]. destruct G as (G & _). replace (Z.of_nat w =? 1)%Z with false by (symmetry; apply Z.eqb_neq; lia).
    cbn in K. rewrite K. reflexivity.
  - cbn [lay_shape lay_size]. destruct G as (G & _). replace (Z.of_nat n =? 1)%Z with false by (symmetry; apply Z.eqb_neq; lia).
    cbn in K. destruct ty; try discriminate; reflexivity.
  - cbn [lay_shape]. destruct G as (_ & G). pose proof (array_nonempty sh ltac:(lia)) as N. destruct sh; [congruence|].
    cbn in K. destruct ty; try discriminate; reflexivity.
Qed.

(** ** One entry *)
Definition lay_many (lay : layout) : bool := match lay with Vector _ | Array _ => true | _ => false end.
Lemma strip_id s : (forall r, s <> r ++ [" "%char]) -> strip_blanks s = s.
Proof.
  intros H. unfold strip_blanks. destruct (rev s) as [|c r] eqn:E.
  - cbn. rewrite <- (rev_involutive s), E. reflexivity.
  - cbn [drop_blanks]. destruct (Ascii.eqb_spec c sp) as [Ec|Ec].
    + exfalso. apply (H (rev r)). rewrite <- (rev_involutive s), E. cbn. rewrite Ec. reflexivity.
    + rewrite <- E. apply rev_involutive.
Qed.
Lemma ints_map l : ints (map VInt l) = Ok l.
Proof. induction l as [|z l IH]; [reflexivity|]. cbn. rewrite IH. reflexivity. Qed.
Lemma reals_map l : reals (map VReal l) = Ok l.
Proof. induction l as [|z l IH]; [reflexivity|]. cbn. rewrite IH. reflexivity. Qed.
Lemma entry_ok lay c : good_layout lay -> has_layout lay c ->
  exists r, entry (type_of c) (lay_many lay) c = Ok r /\
    (forall col, fc_format col = lay_format (type_of c) lay ->
       exists r', store col r = Ok (mkCol (fc_name col) (fc_format col) (fc_unit col) (fc_desc col) (fc_tdim col) (fc_data col ++ [r'])) /\
         read_entry (type_of c) (lay_shape lay) r' = Ok c).
Proof.
  intros G H. pose proof (has_kind lay c H) as K.
  assert (P := lay_parts (type_of c) lay G K).
  assert (A : forall {X} (mk : list Z -> list X -> cell) sh (l : list X), good_layout (Array sh) -> Z.of_nat (length l) = z_product sh ->
     array_cell mk sh l = Ok (mk sh l)).
  { intros X mk sh l (_ & B) E. unfold array_cell. rewrite Z.mod_small; [rewrite E, Z.eqb_refl; reflexivity|].
    unfold int32_max in B. lia. }
  assert (Q : forall col l, fc_format col = lay_format (type_of c) lay -> length l = lay_size lay ->
     store col (RVals l) = Ok (mkCol (fc_name col) (fc_format col) (fc_unit col) (fc_desc col) (fc_tdim col) (fc_data col ++ [RVals l]))).
  { intros col l E L. unfold store. rewrite E, P. cbn [bind fst]. rewrite Nat2Z.id, L, Nat.eqb_refl. reflexivity. }
  destruct lay as [|w|n|sh].
  - destruct c; cbn in H; try contradiction; eexists; (split; [reflexivity|]); intros col E;
      eexists; (split; [apply Q; [exact E | reflexivity] | reflexivity]).
  - destruct c; cbn in H; try contradiction. destruct H as (L & B). eexists. split; [reflexivity|]. intros col E.
    exists (RText s). split; [|reflexivity]. unfold store. rewrite E, P. cbn [bind fst lay_size]. rewrite Nat2Z.id.
    unfold fits_text. rewrite firstn_all2 by lia. rewrite strip_id by exact B. reflexivity.
  - destruct c; cbn in H; try contradiction; eexists; (split; [reflexivity|]); intros col E;
      (eexists; split; [apply Q; [exact E | rewrite map_length; exact H]|]);
      cbn [read_entry type_of]; rewrite ?ints_map, ?reals_map; reflexivity.
  - destruct c; cbn in H; try contradiction; destruct H as (-> & L); eexists; (split; [reflexivity|]); intros col E;
      (eexists; split; [apply Q; [exact E | rewrite map_length; cbn [lay_size]; rewrite <- L; symmetry; apply Nat2Z.id]|]);
      cbn [read_entry type_of lay_shape]; rewrite ?ints_map, ?reals_map; cbn [bind]; apply A; assumption.
Qed.

(** ** One column *)
Lemma map_o_const {A B} (f : A -> outcome B) (b : B) l : Forall (fun x => f x = Ok b) l -> map_o f l = Ok (repeat b (length l)).
Proof. intros F. induction F as [|x l H F IH]; [reflexivity|]. cbn. rewrite H, IH. reflexivity. Qed.
Lemma z_list_eqb_refl l : z_list_eqb l l = true.
Proof. induction l as [|x l IH]; [reflexivity|]. cbn. rewrite Z.eqb_refl. exact IH. Qed.
Lemma fold_max l w : In w l -> Forall (fun x => x <= w) l -> fold_right Nat.max 0 l = w.
Proof.
  intros I F. assert (U : fold_right Nat.max 0 l <= w).
  { clear I. induction F as [|x l H F IH]; cbn; lia. }
  assert (V : w <= fold_right Nat.max 0 l).
  { clear U F. induction l as [|x l IH]; [destruct I|]. cbn. destruct I as [-> |I]; [lia | specialize (IH I); lia]. }
  lia.
Qed.
Lemma map_o_texts cells w : Forall (has_layout (Chars w)) cells ->
  exists l, map_o (fun c => match c with CString s => Ok (length s) | _ => Throw end) cells = Ok l /\
    Forall (fun x => x <= w) l /\ (forall s, In (CString s) cells -> In (length s) l).
Proof.
  intros F. induction F as [|c cells H F (l & E & B & M)].
  - exists []. split; [reflexivity|]. split; [constructor | intros s []].
  - destruct c; cbn in H; try contradiction. exists (length s :: l). cbn. rewrite E. cbn. split; [reflexivity|].
    split; [constructor; [apply H | exact B]|]. intros s' [E'|I]; [injection E' as <-; left; reflexivity | right; apply M; exact I].
Qed.
Lemma format_ok ty lay cells : cells <> [] -> good_layout lay ->
  Forall (fun c => type_of c = ty /\ has_layout lay c) cells ->
  (match lay with Chars w => exists s, In (CString s) cells /\ length s = w | _ => True end) ->
  binary_format ty cells = Ok (lay_format ty lay) /\ tdim ty cells = Ok (lay_dim lay) /\
  match cells with c :: _ => is_many ty c = Ok (lay_many lay) | [] => True end.
Proof.
  intros N G F W. destruct cells as [|c0 cells]; [congruence|].
  inversion F as [|? ? (T0 & H0) F']; subst. pose proof (has_kind lay c0 H0) as K.
  destruct lay as [|w|n|sh].
  - destruct c0; cbn in H0; try contradiction; (split; [reflexivity|]); split; reflexivity.
  - destruct c0; cbn in H0; try contradiction. cbn [type_of binary_format tdim lay_dim is_many lay_many].
    split; [|split; reflexivity]. unfold max_width.
    destruct (map_o_texts (CString s :: cells) w) as (l & E & B & M).
    { eapply Forall_impl; [|exact F]. intros c (_ & H). exact H. }
    rewrite E. cbn [bind]. destruct W as (s1 & I1 & L1). rewrite (fold_max l w); [reflexivity | | exact B].
    rewrite <- L1. apply M. exact I1.
  - assert (V : map_o (vec_length (type_of c0)) (c0 :: cells) = Ok (repeat n (length (c0 :: cells)))).
    { apply map_o_const. eapply Forall_impl; [|exact F]. intros c (T & H). rewrite <- T.
      destruct c; cbn in H; try contradiction; cbn; rewrite H; reflexivity. }
    assert (S1 : vector_size (type_of c0) (c0 :: cells) = Ok n).
    { unfold vector_size. rewrite V. cbn [bind length repeat]. rewrite (proj2 (forallb_forall _ _)); [reflexivity|].
      intros x I. apply Nat.eqb_eq. destruct I as [I|I]; [exact I | symmetry; eapply repeat_spec; exact I]. }
    assert (M1 : vec_length (type_of c0) c0 = Ok n).
    { clear - H0. destruct c0; cbn in H0; try contradiction; cbn; rewrite H0; reflexivity. }
    destruct G as (G & _).
    assert (L1 : Nat.ltb 1 n = true) by (apply Nat.ltb_lt; lia).
    destruct c0; cbn in H0; try contradiction; cbn [type_of binary_format tdim lay_dim is_many lay_many] in *;
      rewrite S1, M1; cbn [bind]; rewrite L1; (split; [reflexivity|]); split; reflexivity.
  - assert (V : map_o (array_of (type_of c0)) (c0 :: cells) = Ok (repeat (sh, lay_size (Array sh)) (length (c0 :: cells)))).
    { apply map_o_const. eapply Forall_impl; [|exact F]. intros c (T & H). rewrite <- T. cbn [lay_size].
      destruct c; cbn in H; try contradiction; destruct H as (-> & L); cbn; rewrite <- L, Nat2Z.id; reflexivity. }
    assert (S1 : array_size (type_of c0) (c0 :: cells) = Ok (lay_size (Array sh))).
    { unfold array_size. rewrite V. cbn [bind length repeat]. rewrite (proj2 (forallb_forall _ _)); [reflexivity|].
      intros x I. destruct I as [<- |I]; [apply z_list_eqb_refl|]. apply repeat_spec in I. subst x. apply z_list_eqb_refl. }
    assert (M1 : array_of (type_of c0) c0 = Ok (sh, lay_size (Array sh))).
    { clear - H0. destruct c0; cbn in H0; try contradiction; destruct H0 as (-> & L); cbn; rewrite <- L, Nat2Z.id; reflexivity. }
    destruct G as (_ & G).
    assert (L1 : Nat.ltb 1 (lay_size (Array sh)) = true) by (apply Nat.ltb_lt; cbn; lia).
    assert (P1 : Z.eqb (z_product sh) 1 = false) by (apply Z.eqb_neq; lia).
    destruct c0; cbn in H0; try contradiction; cbn [type_of binary_format tdim is_many lay_many] in *;
      rewrite S1, M1; cbn [bind fst snd]; rewrite L1, P1; (split; [reflexivity|]); split; reflexivity.
Qed.
(** A column of the file that holds these cells. *)
Definition col_ok (d : coldesc) (lay : layout) (cells : list cell) (col : fcol) : Prop :=
  fc_name col = cd_name d /\ fc_unit col = cd_unit d /\ fc_desc col = cd_desc d /\
  fc_format col = lay_format (cd_type d) lay /\ fc_tdim col = lay_dim lay /\
  Forall2 (fun c r => read_entry (cd_type d) (lay_shape lay) r = Ok c) cells (fc_data col).
Lemma store_entries d lay cells : good_layout lay -> Forall (fun c => type_of c = cd_type d /\ has_layout lay c) cells ->
  forall old col, col_ok d lay old col ->
  exists l col', map_o (entry (cd_type d) (lay_many lay)) cells = Ok l /\ store_all col l = Ok col' /\ col_ok d lay (old ++ cells) col'.
Proof.
  intros G F. induction F as [|c cells (T & H) F IH]; intros old col O.
  - exists [], col. rewrite app_nil_r. split; [reflexivity|]. split; [reflexivity | exact O].
  - destruct O as (O1 & O2 & O3 & O4 & O5 & O6).
    destruct (entry_ok lay c G H) as (r & E & S1). rewrite T in E, S1. destruct (S1 col O4) as (r' & E' & R).
    destruct (IH (old ++ [c]) (mkCol (fc_name col) (fc_format col) (fc_unit col) (fc_desc col) (fc_tdim col) (fc_data col ++ [r'])))
      as (l & col' & L1 & L2 & L3).
    { unfold col_ok. cbn [fc_name fc_unit fc_desc fc_format fc_tdim fc_data]. repeat (split; [assumption|]).
      apply Forall2_app; [exact O6 | constructor; [exact R | constructor]]. }
    exists (r :: l), col'. cbn [map_o]. rewrite E. cbn [bind]. rewrite L1. cbn [bind store_all]. rewrite E'. cbn [bind].
    split; [reflexivity|]. split; [exact L2|]. rewrite <- app_assoc in L3. exact L3.
Qed.
Lemma populate_ok d lay cells old col : cells <> [] -> good_layout lay ->
  Forall (fun c => type_of c = cd_type d /\ has_layout lay c) cells -> col_ok d lay old col ->
  exists col', populate (cd_type d) cells col = Ok col' /\ col_ok d lay (old ++ cells) col'.
Proof.
  intros N G F O. destruct (store_entries d lay cells G F old col O) as (l & col' & L1 & L2 & L3).
  exists col'. split; [|exact L3]. unfold populate. destruct cells as [|c0 cells]; [congruence|].
  assert (M : is_many (cd_type d) c0 = Ok (lay_many lay)).
  { inversion F as [|? ? (T & H) _]; subst. rewrite <- T. clear - H G.
    destruct lay as [|w|n|sh]; destruct c0; cbn in H; try contradiction;
      cbn [is_many vec_length array_of type_of lay_many bind fst snd]; try reflexivity.
    1,2,3,4: rewrite H; f_equal; apply Nat.ltb_lt; destruct G; lia.
    all: destruct H as (_ & L); f_equal; apply Nat.ltb_lt; destruct G as (_ & G); lia. }
  rewrite M. cbn [bind]. rewrite L1. cbn [bind]. exact L2.
Qed.

(** ** Tables *)
Definition fits_info_rows (i : colinfo) (t : table) : Prop :=
  t_rows t <> [] /\ Forall (fun r => fits (r_values r) i) (t_rows t).
Lemma nth_type i values k d : fits values i -> nth_error i k = Some d ->
  exists c, nth_error values k = Some c /\ type_of c = cd_type d.
Proof.
  intros (T & _) E. assert (L : nth_error (map cd_type i) k = Some (cd_type d)) by (rewrite nth_error_map, E; reflexivity).
  rewrite <- T, nth_error_map in L. destruct (nth_error values k) as [c|]; [|discriminate]. injection L as L. exists c. split; [reflexivity | exact L].
Qed.
Lemma column_cells_ok i t k d : fits_info_rows i t -> nth_error i k = Some d ->
  column_cells t k = Ok (column k t) /\ column k t <> [] /\ Forall (fun c => type_of c = cd_type d) (column k t).
Proof.
  intros (N & F) E. unfold column_cells, column. split; [|split].
  - replace (t_rows t) with (map (fun r : row => r) (t_rows t)) at 1 by apply map_id.
    apply map_o_map. eapply Forall_impl; [|exact F]. intros r Fr.
    destruct (nth_type i (r_values r) k d Fr E) as (c & Ec & _). apply row_at_ok.
    rewrite Ec. f_equal. symmetry. apply nth_error_nth. exact Ec.
  - destruct (t_rows t); [congruence | discriminate].
  - apply Forall_forall. intros c I. apply in_map_iff in I. destruct I as (r & <- & I).
    rewrite Forall_forall in F. destruct (nth_type i (r_values r) k d (F r I) E) as (c & Ec & T).
    rewrite (nth_error_nth _ _ _ Ec). exact T.
Qed.
(** The layouts of the columns, by position. *)
Fixpoint cols_ok (k : nat) (info : list coldesc) (lays : list layout) (cells : nat -> list cell) (h : hdu) : Prop :=
  match info, lays, h with
  | [], [], [] => True
  | d :: ir, l :: lr, c :: hr => col_ok d l (cells k) c /\ cols_ok (S k) ir lr cells hr
  | _, _, _ => False
  end.
Fixpoint lays_ok (k : nat) (info : list coldesc) (lays : list layout) (t0 : table) (all : list table) : Prop :=
  match info, lays with
  | [], [] => True
  | d :: ir, l :: lr =>
      (good_layout l /\ Forall (fun c => type_of c = cd_type d /\ has_layout l c) (flat_map (column k) all) /\
       match l with Chars w => exists s, In (CString s) (column k t0) /\ length s = w | _ => True end) /\
      lays_ok (S k) ir lr t0 all
  | _, _ => False
  end.
Lemma forall_column {P : cell -> Prop} k all t : Forall P (flat_map (column k) all) -> In t all -> Forall P (column k t).
Proof.
  intros F I. apply Forall_forall. intros c Ic. rewrite Forall_forall in F. apply F. apply in_flat_map. exists t. split; assumption.
Qed.
Lemma new_columns_ok full t all (H : fits_info_rows full t) (I : In t all) :
  forall info k lays, (forall j d, nth_error info j = Some d -> nth_error full (k + j) = Some d) ->
    lays_ok k info lays t all ->
    exists h, new_columns t k info = Ok h /\ cols_ok k info lays (fun _ => []) h.
Proof.
  induction info as [|d info IH]; intros k [|l lays] Sub LO; cbn in LO; try contradiction.
  - exists []. split; [reflexivity | exact LO].
  - destruct LO as ((G & F & W) & LO).
    assert (E : nth_error full k = Some d) by (rewrite <- (Nat.add_0_r k); apply Sub; reflexivity).
    destruct (column_cells_ok full t k d H E) as (C1 & C2 & C3).
    destruct (format_ok (cd_type d) l (column k t) C2 G (forall_column k all t F I) W) as (B1 & B2 & _).
    destruct (IH (S k) lays) as (h & E1 & E2); [|exact LO|].
    { intros j d' Ed. rewrite Nat.add_succ_comm. apply Sub. exact Ed. }
    cbn [new_columns]. rewrite C1. cbn [bind]. rewrite B1. cbn [bind]. rewrite B2. cbn [bind]. rewrite E1. cbn [bind].
    eexists. split; [reflexivity|]. cbn [cols_ok]. split; [|exact E2].
    unfold col_ok. cbn. repeat (split; [reflexivity|]). constructor.
Qed.
Lemma append_columns_ok full t t0 all (H : fits_info_rows full t) (I : In t all) :
  forall info0 info k lays h old,
    (forall j d, nth_error info j = Some d -> nth_error full (k + j) = Some d) ->
    map cd_type info = map cd_type info0 ->
    lays_ok k info0 lays t0 all -> cols_ok k info0 lays old h ->
    exists h', append_columns t k info h = Ok h' /\ cols_ok k info0 lays (fun j => old j ++ column j t) h'.
Proof.
  induction info0 as [|d0 info0 IH]; intros [|d info] k [|l lays] h old Sub T LO CO; cbn in LO, T; try contradiction; try discriminate.
  - destruct h; [|contradiction]. exists []. split; [reflexivity | exact CO].
  - injection T as T1 T2. destruct LO as ((G & F & W) & LO). destruct h as [|c h]; [contradiction|]. cbn [cols_ok] in CO.
    destruct CO as (CO1 & CO2).
    assert (E : nth_error full k = Some d) by (rewrite <- (Nat.add_0_r k); apply Sub; reflexivity).
    destruct (column_cells_ok full t k d H E) as (C1 & C2 & C3).
    destruct (populate_ok d0 l (column k t) (old k) c C2 G (forall_column k all t F I) CO1) as (c' & P1 & P2).
    destruct (IH info (S k) lays h old) as (h' & E1 & E2); [|exact T2 | exact LO | exact CO2 |].
    { intros j d' Ed. rewrite Nat.add_succ_comm. apply Sub. exact Ed. }
    cbn [append_columns]. rewrite C1. cbn [bind]. rewrite T1, P1. cbn [bind]. rewrite E1. cbn [bind].
    eexists. split; [reflexivity|]. cbn [cols_ok]. split; assumption.
Qed.
Lemma cols_ok_ext k info lays f g h : (forall j, f j = g j) -> cols_ok k info lays f h -> cols_ok k info lays g h.
Proof.
  intros E. revert k lays h. induction info as [|d info IH]; intros k [|l lays] [|c h] H; cbn in *; try contradiction; [exact H|].
  rewrite <- E. destruct H as (A & B). split; [exact A | apply IH; exact B].
Qed.
Lemma add_all_fits t0 all lays ts : lays_ok 0 (t_info t0) lays t0 all ->
  Forall (fun t => fits_info_rows (t_info t) t /\ columns_of (t_info t) = columns_of (t_info t0) /\ In t all) ts ->
  forall old w, fw_info w = Some (t_info t0) -> cols_ok 0 (t_info t0) lays old (fw_hdu w) ->
    exists w', fw_add_all w ts = Ok w' /\ fw_info w' = Some (t_info t0) /\
      cols_ok 0 (t_info t0) lays (fun k => old k ++ flat_map (column k) ts) (fw_hdu w').
Proof.
  intros LO F. induction F as [|t ts (Ft & Ct & It) F IH]; intros old w Wi Wc.
  - exists w. split; [reflexivity|]. split; [exact Wi|]. eapply cols_ok_ext; [|exact Wc]. intros j. cbn. symmetry. apply app_nil_r.
  - cbn [fw_add_all]. unfold fw_add. rewrite Wi.
    assert (E : info_eqb (t_info t0) (t_info t) = true) by (apply info_eqb_iff; symmetry; exact Ct).
    rewrite E. cbn [negb].
    destruct (append_columns_ok (t_info t) t t0 all Ft It (t_info t0) (t_info t) 0 lays (fw_hdu w) old) as (h' & E1 & E2).
    + intros j d Ed. exact Ed.
    + apply (f_equal (map (fun p => snd (fst p)))) in Ct. unfold columns_of in Ct. rewrite !map_map in Ct. exact Ct.
    + exact LO.
    + exact Wc.
    + rewrite E1. cbn [bind].
      destruct (IH (fun k => old k ++ column k t) (mkFw (Some (t_info t0)) h') eq_refl E2) as (w' & A & B & C).
      exists w'. split; [exact A|]. split; [exact B|]. eapply cols_ok_ext; [|exact C]. intros j. cbn. rewrite <- app_assoc. reflexivity.
Qed.

(** ** Reading *)
Lemma detect_ok i lays cells h k : Forall (fun d => new_desc (cd_name d) (cd_type d) (cd_unit d) (cd_desc d) = Ok d) i ->
  Forall good_layout lays -> (forall j d l, nth_error i j = Some d -> nth_error lays j = Some l -> lay_kind (cd_type d) l) ->
  forall k', cols_ok k i lays cells h -> detect_columns k' h = Ok i.
Proof.
  intros F. revert lays h k. induction F as [|d i Hd F IH]; intros [|l lays] [|c h] k G K k' CO; cbn in CO; try contradiction; [reflexivity|].
  destruct CO as ((C1 & C2 & C3 & C4 & C5 & _) & CO). inversion G as [|? ? Gl Gr]; subst.
  cbn [detect_columns]. rewrite C5, lay_parse by exact Gl. cbn [bind]. rewrite C4, lay_type; [| exact Gl | apply (K 0 d l); reflexivity].
  cbn [bind]. rewrite C1, C2, C3.
  assert (Nn : cd_name d <> []) by (apply new_desc_ok in Hd; apply Hd).
  destruct (cd_name d) as [|n0 n1] eqn:En; [congruence|]. rewrite Hd. cbn [bind].
  rewrite (IH lays h (S k) Gr); [cbn [bind]; reflexivity | | exact CO].
  intros j d' l' E1 E2. apply (K (S j)); assumption.
Qed.
Lemma Forall2_length {A B} (R : A -> B -> Prop) l m : Forall2 R l m -> length l = length m.
Proof. intros F. induction F; cbn; congruence. Qed.
Lemma Forall2_skipn {A B} (R : A -> B -> Prop) n l m : Forall2 R l m -> Forall2 R (skipn n l) (skipn n m).
Proof. intros F. revert n. induction F as [|x y l m H F IH]; intros [|n]; cbn; try constructor; auto. Qed.
Lemma Forall2_firstn {A B} (R : A -> B -> Prop) n l m : Forall2 R l m -> Forall2 R (firstn n l) (firstn n m).
Proof. intros F. revert n. induction F as [|x y l m H F IH]; intros [|n]; cbn; try constructor; auto. Qed.
Lemma map_o_flip {A B} (f : B -> outcome A) l m : Forall2 (fun c r => f r = Ok c) l m -> map_o f m = Ok l.
Proof. intros F. apply map_o_ok. induction F; constructor; auto. Qed.
Lemma read_columns_ok lays cells first n : Forall good_layout lays -> forall i h k, cols_ok k i lays cells h ->
  exists data, read_columns i h first n = Ok data /\
    length data = length i /\ forall j, j < length i -> nth_error data j = Some (firstn n (skipn first (cells (k + j)))).
Proof.
  intros G. induction G as [|l lays Gl G IH]; intros [|d i] [|c h] k CO; cbn in CO; try contradiction.
  - exists []. split; [reflexivity|]. split; [reflexivity | intros j H; cbn in H; lia].
  - destruct CO as ((_ & _ & _ & _ & C5 & C6) & CO). destruct (IH i h (S k) CO) as (data & E & L & Nth).
    cbn [read_columns]. unfold read_column. rewrite C5, lay_parse by exact Gl. cbn [bind].
    rewrite (map_o_flip _ (firstn n (skipn first (cells k)))).
    + cbn [bind]. rewrite E. cbn [bind]. eexists. split; [reflexivity|]. split; [cbn; lia|].
      intros [|j] H; [rewrite Nat.add_0_r; reflexivity|]. cbn [nth_error]. rewrite <- Nat.add_succ_comm. apply Nth. cbn in H. lia.
    + apply Forall2_firstn, Forall2_skipn. exact C6.
Qed.

(** ** Rows *)
Lemma Forall2_nth {A B} (R : A -> B -> Prop) l m : length l = length m ->
  (forall j a b, nth_error l j = Some a -> nth_error m j = Some b -> R a b) -> Forall2 R l m.
Proof.
  revert m. induction l as [|a l IH]; intros [|b m] L H; try discriminate; [constructor|].
  constructor; [apply (H 0); reflexivity | apply IH; [cbn in L; lia|]]. intros j x y E1 E2. apply (H (S j)); assumption.
Qed.
Definition cell0 : cell := CBool false.
Definition holds (i : colinfo) (vals : list (list cell)) (h : hdu) : Prop :=
  new_info i = Ok i /\ fits_info h = Ok i /\ vals <> [] /\ Forall (fun v => fits v i) vals /\
  exists lays, Forall good_layout lays /\ cols_ok 0 i lays (fun k => map (fun v => nth k v cell0) vals) h.
Lemma holds_rows_count i vals h : holds i vals h -> hdu_rows h = length vals.
Proof.
  intros (I & _ & _ & _ & lays & _ & C). apply new_info_ok in I. destruct I as (_ & N & _).
  destruct i as [|d i]; [congruence|]. destruct lays as [|l lays]; [contradiction|]. destruct h as [|c h]; [contradiction|].
  destruct C as ((_ & _ & _ & _ & _ & F) & _). apply Forall2_length in F. rewrite map_length in F. symmetry. exact F.
Qed.
Lemma nth_error_firstn {A} (l : list A) n k : k < n -> nth_error (firstn n l) k = nth_error l k.
Proof.
  revert n k. induction l as [|x l IH]; intros [|n] [|k] H; try lia; try reflexivity. cbn. apply IH. lia.
Qed.
Lemma nth_error_skipn {A} (l : list A) n k : nth_error (skipn n l) k = nth_error l (n + k).
Proof. revert n. induction l as [|x l IH]; intros [|n]; try reflexivity; [destruct k; reflexivity|]. cbn. apply IH. Qed.
Lemma fits_length v i : fits v i -> length v = length i.
Proof. intros (E & _). apply (f_equal (@length _)) in E. rewrite !map_length in E. exact E. Qed.
Lemma make_row_ok i vals data n m : length data = length i ->
  (forall j, j < length i -> nth_error data j = Some (firstn m (skipn n (map (fun v => nth j v cell0) vals)))) ->
  forall k v, k < m -> nth_error vals (n + k) = Some v -> fits v i -> make_row i data k = Ok (mkRow v i).
Proof.
  intros L H k v Hk Ev Fv. unfold make_row.
  assert (E : map_o (fun col => of_option (nth_error col k)) data = Ok v).
  { apply map_o_ok. apply Forall2_nth; [rewrite L; symmetry; apply fits_length; exact Fv|].
    intros j a b Ea Eb. assert (J : j < length i) by (rewrite <- L; apply nth_error_Some; congruence).
    rewrite (H j J) in Ea. injection Ea as <-. rewrite nth_error_firstn by exact Hk.
    rewrite nth_error_skipn, nth_error_map, Ev. cbn. rewrite (nth_error_nth _ _ _ Eb). reflexivity. }
  rewrite E. cbn [bind]. apply new_row_ok. split; [reflexivity | exact Fv].
Qed.
Lemma map_o_rows (f : nat -> outcome row) (g : list cell -> row) l : forall s,
  (forall k v, nth_error l k = Some v -> f (s + k) = Ok (g v)) -> map_o f (seq s (length l)) = Ok (map g l).
Proof.
  induction l as [|v l IH]; intros s H; [reflexivity|]. cbn [length seq map_o map].
  rewrite <- (Nat.add_0_r s) at 1. rewrite (H 0 v eq_refl). cbn [bind]. rewrite (IH (S s)); [reflexivity|].
  intros k v' E. rewrite Nat.add_succ_comm. apply H. exact E.
Qed.
(** The rows n .. n + m - 1. *)
Definition slice {A} (n m : nat) (l : list A) : list A := firstn m (skipn n l).
Lemma slice_length {A} n m (l : list A) : n + m <= length l -> length (slice n m l) = m.
Proof. intros H. unfold slice. rewrite firstn_length, skipn_length. lia. Qed.
Lemma read_slice i vals h r n rows :
  holds i vals h -> fr_hdu r = h -> (fr_info r = None \/ fr_info r = Some i) -> fr_current r = (Z.of_nat n + 1)%Z ->
  n < length vals -> (rows = (-1)%Z \/ (0 < rows)%Z) ->
  let m := if Z.eqb rows (-1) then length vals - n else Nat.min (Z.to_nat rows) (length vals - n) in
  fr_read r rows = Ok (mkTable (map (fun v => mkRow v i) (slice n m vals)) i, mkFr (Some i) (Z.of_nat (n + m) + 1) h).
Proof.
  intros Hh Eh Ei Ec Hn Hr m. pose proof (holds_rows_count i vals h Hh) as Ht.
  destruct Hh as (I & Fi & Nv & F & lays & G & C).
  assert (Ri : fr_read_info r = Ok (i, mkFr (Some i) (fr_current r) h)).
  { unfold fr_read_info. destruct Ei as [Ei|Ei]; rewrite Ei.
    - rewrite Eh, Fi. reflexivity.
    - destruct r as [a b c]. cbn in *. subst. reflexivity. }
  unfold fr_read. rewrite Ri. cbn [bind]. unfold fr_total. cbn [fr_hdu fr_current]. rewrite Ht, Ec.
  replace (Z.ltb (Z.of_nat (length vals)) (Z.of_nat n + 1)) with false by (symmetry; apply Z.ltb_ge; lia).
  replace (Z.of_nat (length vals) - (Z.of_nat n + 1) + 1)%Z with (Z.of_nat (length vals - n)) by lia.
  set (q := Z.min _ _). assert (Q : q = Z.of_nat m).
  { subst q m. destruct (Z.eqb_spec rows (-1)); lia. }
  assert (M : 0 < m <= length vals - n).
  { subst m. destruct (Z.eqb_spec rows (-1)); lia. }
  rewrite Q. replace (Z.ltb (Z.of_nat m) 0) with false by (symmetry; apply Z.ltb_ge; lia).
  replace (Z.ltb (Z.of_nat n + 1) 1) with false by (symmetry; apply Z.ltb_ge; lia). cbn [orb].
  replace (Z.to_nat (Z.of_nat n + 1 - 1)) with n by lia. rewrite Nat2Z.id.
  destruct (read_columns_ok lays _ n m G i h 0 C) as (data & E & L & Nth). rewrite E. cbn [bind].
  assert (SL : length (slice n m vals) = m) by (apply slice_length; lia).
  rewrite <- SL at 1. rewrite (map_o_rows _ (fun v => mkRow v i)).
  - cbn [bind]. set (rs := map _ _). assert (T : new_table rs = Ok (mkTable rs i)).
    { apply new_table_ok. destruct (slice n m vals) as [|v0 vr] eqn:Es; [cbn in SL; lia|]. subst rs.
      exists (mkRow v0 i), (map (fun v => mkRow v i) vr). split; [reflexivity|]. split; [reflexivity|].
      intros r0 Ir. apply in_map_iff in Ir. destruct Ir as (v & <- & _). reflexivity. }
    rewrite T. cbn [bind]. unfold move. cbn [fr_info fr_current fr_hdu]. do 3 f_equal. lia.
  - intros k v Ev. cbn [Nat.add]. assert (Hk : k < m) by (rewrite <- SL; apply nth_error_Some; congruence).
    unfold slice in Ev. rewrite nth_error_firstn, nth_error_skipn in Ev by exact Hk.
    apply (make_row_ok i vals data n m L); [| exact Hk | exact Ev |].
    + intros j J. apply (Nth j J).
    + rewrite Forall_forall in F. apply F. eapply nth_error_In. exact Ev.
Qed.

(** ** A file *)
Lemma all_values_column ts k : map (fun v => nth k v cell0) (all_values ts) = flat_map (column k) ts.
Proof.
  unfold all_values. rewrite map_map. induction ts as [|t ts IH]; [reflexivity|]. cbn [flat_map]. rewrite map_app, IH. reflexivity.
Qed.
Lemma built_fits t : built_table t -> fits_info_rows (t_info t) t.
Proof.
  intros (_ & _ & T & R). apply new_table_ok in T. destruct T as (r0 & rest & E & Et & C).
  assert (Ei : t_info t = r_info r0) by (rewrite Et; reflexivity). split; [rewrite E; discriminate|].
  apply Forall_forall. intros r Ir. rewrite Forall_forall in R. specialize (R r Ir). apply new_row_ok in R.
  destruct R as (_ & (R1 & R2)). split; [|exact R2]. rewrite R1, Ei. specialize (C r Ir).
  apply (f_equal (map (fun p => snd (fst p)))) in C. unfold columns_of in C. rewrite !map_map in C. exact C.
Qed.
Lemma same_types a b : columns_of a = columns_of b -> map cd_type a = map cd_type b.
Proof. intros C. apply (f_equal (map (fun p => snd (fst p)))) in C. unfold columns_of in C. rewrite !map_map in C. exact C. Qed.
Lemma lays_from_binary t0 ts full :
  Forall (fun t => fits_info_rows (t_info t) t /\ columns_of (t_info t) = columns_of full) (t0 :: ts) ->
  forall info k, (forall j d, nth_error info j = Some d -> nth_error full (k + j) = Some d) ->
  (forall j, k <= j < k + length info ->
    exists lay, good_layout lay /\ Forall (has_layout lay) (flat_map (column j) (t0 :: ts)) /\
      match lay with Chars w => exists s, In (CString s) (column j t0) /\ length s = w | _ => True end) ->
  exists lays, lays_ok k info lays t0 (t0 :: ts) /\ Forall good_layout lays /\
    (forall j d l, nth_error info j = Some d -> nth_error lays j = Some l -> lay_kind (cd_type d) l).
Proof.
  intros F. induction info as [|d info IH]; intros k Sub H.
  - exists []. split; [exact Logic.I|]. split; [constructor|]. intros [|j] d l E; discriminate.
  - destruct (H k) as (lay & G & Hl & W); [cbn; lia|].
    destruct (IH (S k)) as (lays & A & B & C).
    + intros j d' E. rewrite Nat.add_succ_comm. apply Sub. exact E.
    + intros j J. apply H. cbn [length]. lia.
    + assert (E : nth_error full k = Some d) by (rewrite <- (Nat.add_0_r k); apply Sub; reflexivity).
      assert (T : Forall (fun c => type_of c = cd_type d /\ has_layout lay c) (flat_map (column k) (t0 :: ts))).
      { apply Forall_forall. intros c Ic. rewrite Forall_forall in Hl. split; [|apply Hl; exact Ic].
        apply in_flat_map in Ic. destruct Ic as (t & It & Ic). rewrite Forall_forall in F. destruct (F t It) as (Ft & Ct).
        apply same_types in Ct.
        assert (Ed : exists d', nth_error (t_info t) k = Some d' /\ cd_type d' = cd_type d).
        { assert (X : nth_error (map cd_type (t_info t)) k = Some (cd_type d)) by (rewrite Ct, nth_error_map, E; reflexivity).
          rewrite nth_error_map in X. destruct (nth_error (t_info t) k) as [d'|]; [|discriminate]. injection X as X. exists d'. split; [reflexivity | exact X]. }
        destruct Ed as (d' & Ed & <-). destruct (column_cells_ok (t_info t) t k d' Ft Ed) as (_ & _ & X).
        rewrite Forall_forall in X. apply X. exact Ic. }
      exists (lay :: lays). cbn [lays_ok]. split; [split; [|exact A]|].
      * split; [exact G|]. split; [exact T | exact W].
      * split; [constructor; assumption|]. intros [|j] d' l' E1 E2; [|apply (C j); assumption].
        injection E1 as <-. injection E2 as <-.
        destruct (column_cells_ok full t0 k d) as (_ & Ne & _); [| exact E |].
        { inversion F as [|? ? (Ft0 & Ct0) _]; subst. destruct Ft0 as (X1 & X2). split; [exact X1|].
          apply same_types in Ct0. eapply Forall_impl; [|exact X2]. intros r (Y1 & Y2). split; [congruence | exact Y2]. }
        destruct (column k t0) as [|c0 cr] eqn:Ec; [congruence|].
        assert (In c0 (flat_map (column k) (t0 :: ts))) by (cbn [flat_map]; rewrite Ec; left; reflexivity).
        rewrite Forall_forall in T. destruct (T c0 H0) as (<- & Hc). apply has_kind. exact Hc.
Qed.
Lemma file_holds t0 ts :
  Forall built_table (t0 :: ts) -> Forall (fun t => columns_of (t_info t) = columns_of (t_info t0)) ts -> fits_binary t0 ts ->
  exists w, fw_add_all new_fwriter (t0 :: ts) = Ok w /\ holds (t_info t0) (all_values (t0 :: ts)) (fw_hdu w).
Proof.
  intros B C FB.
  assert (F : Forall (fun t => fits_info_rows (t_info t) t /\ columns_of (t_info t) = columns_of (t_info t0)) (t0 :: ts)).
  { apply Forall_forall. intros t It. rewrite Forall_forall in B. split; [apply built_fits; apply B; exact It|].
    destruct It as [<- |It]; [reflexivity|]. rewrite Forall_forall in C. apply C. exact It. }
  destruct (lays_from_binary t0 ts (t_info t0) F (t_info t0) 0) as (lays & LO & G & K).
  { intros j d E. exact E. }
  { intros j J. apply FB. lia. }
  inversion B as [|? ? B0 Br]; subst. inversion F as [|? ? (F0 & _) Fr]; subst.
  destruct (new_columns_ok (t_info t0) t0 (t0 :: ts) F0 (or_introl eq_refl) (t_info t0) 0 lays) as (h & E1 & E2).
  { intros j d E. exact E. }
  { exact LO. }
  destruct (append_columns_ok (t_info t0) t0 t0 (t0 :: ts) F0 (or_introl eq_refl) (t_info t0) (t_info t0) 0 lays h (fun _ => []))
    as (h' & E3 & E4); [intros j d E; exact E | reflexivity | exact LO | exact E2 |].
  cbn [fw_add_all]. unfold fw_add at 1. cbn [new_fwriter fw_info]. rewrite E1. cbn [bind]. rewrite E3. cbn [bind].
  destruct (add_all_fits t0 (t0 :: ts) lays ts LO) with (old := fun k => [] ++ column k t0) (w := mkFw (Some (t_info t0)) h')
    as (w' & A1 & A2 & A3); [| reflexivity | exact E4 |].
  { apply Forall_forall. intros t It. rewrite Forall_forall in Fr. destruct (Fr t It) as (X & Y).
    split; [exact X|]. split; [exact Y | right; exact It]. }
  exists w'. split; [exact A1|].
  assert (CO : cols_ok 0 (t_info t0) lays (fun k => map (fun v => nth k v cell0) (all_values (t0 :: ts))) (fw_hdu w')).
  { eapply cols_ok_ext; [|exact A3]. intros j. rewrite all_values_column. reflexivity. }
  destruct B0 as (I & Ds & T & R). unfold holds. split; [exact I|]. split.
  { unfold fits_info. rewrite (detect_ok (t_info t0) lays _ (fw_hdu w') 0 Ds G K 1 CO). exact I. }
  split.
  { destruct F0 as (Ne & _). unfold all_values. cbn [flat_map]. destruct (t_rows t0); [congruence | discriminate]. }
  split.
  { apply Forall_forall. intros v Iv. unfold all_values in Iv. apply in_map_iff in Iv. destruct Iv as (r & <- & Ir).
    apply in_flat_map in Ir. destruct Ir as (t & It & Ir). rewrite Forall_forall in F. destruct (F t It) as ((_ & X) & Y).
    rewrite Forall_forall in X. destruct (X r Ir) as (X1 & X2). split; [|exact X2]. rewrite X1. apply same_types. exact Y. }
  exists lays. split; [exact G | exact CO].
Qed.
Lemma consumed_state i vals h n r : holds i vals h -> consumed h n r ->
  fr_hdu r = h /\ fr_current r = (Z.of_nat n + 1)%Z /\ (fr_info r = None \/ fr_info r = Some i).
Proof.
  intros Hh C. pose proof Hh as (_ & Fi & _).
  assert (Ri : forall r, fr_hdu r = h -> (fr_info r = None \/ fr_info r = Some i) ->
     fr_read_info r = Ok (i, mkFr (Some i) (fr_current r) h)).
  { intros r0 Eh Ei. unfold fr_read_info. destruct Ei as [Ei|Ei]; rewrite Ei.
    - rewrite Eh, Fi. reflexivity.
    - destruct r0 as [a b c]. cbn in *. subst. reflexivity. }
  induction C as [|n r rows t r' C (I1 & I2 & I3) E|n r k r' C (I1 & I2 & I3) E|n r b r' C (I1 & I2 & I3) E|n r k r' C (I1 & I2 & I3) E].
  - split; [reflexivity|]. split; [reflexivity | left; reflexivity].
  - destruct (Z.eqb_spec rows (-1)) as [Er|Er].
    + destruct (Nat.lt_ge_cases n (length vals)) as [L|L].
      * rewrite (read_slice i vals h r n rows Hh I1 I3 I2 L (or_introl Er)) in E. injection E as <- <-.
        cbn [t_rows fr_hdu fr_current fr_info]. rewrite map_length. split; [reflexivity|]. split; [|right; reflexivity].
        rewrite Er. cbn [Z.eqb Pos.eqb]. rewrite slice_length by lia. reflexivity.
      * exfalso. unfold fr_read in E. rewrite Ri in E by assumption. cbn [bind] in E. unfold fr_total in E. cbn [fr_hdu fr_current] in E.
        rewrite (holds_rows_count i vals h Hh) in E. rewrite I2 in E.
        replace (Z.ltb (Z.of_nat (length vals)) (Z.of_nat n + 1)) with true in E by (symmetry; apply Z.ltb_lt; lia). discriminate.
    + destruct (Nat.lt_ge_cases n (length vals)) as [L|L].
      * destruct (Z.lt_trichotomy rows 0) as [Hr|[Hr|Hr]].
        -- exfalso. unfold fr_read in E. rewrite Ri in E by assumption. cbn [bind] in E. unfold fr_total in E. cbn [fr_hdu fr_current] in E.
           rewrite (holds_rows_count i vals h Hh) in E. rewrite I2 in E.
           replace (Z.ltb (Z.of_nat (length vals)) (Z.of_nat n + 1)) with false in E by (symmetry; apply Z.ltb_ge; lia).
           destruct (Z.eqb_spec rows (-1)); [contradiction|].
           set (q := Z.min _ _) in E. replace (Z.ltb q 0) with true in E by (symmetry; apply Z.ltb_lt; subst q; lia). discriminate.
        -- exfalso. unfold fr_read in E. rewrite Ri in E by assumption. cbn [bind] in E. unfold fr_total in E. cbn [fr_hdu fr_current] in E.
           rewrite (holds_rows_count i vals h Hh) in E. rewrite I2 in E.
           replace (Z.ltb (Z.of_nat (length vals)) (Z.of_nat n + 1)) with false in E by (symmetry; apply Z.ltb_ge; lia).
           destruct (Z.eqb_spec rows (-1)); [contradiction|].
           set (q := Z.min _ _) in E. assert (Q : q = 0%Z) by (subst q; lia). rewrite Q in E. cbn [Z.ltb Z.compare orb] in E.
           destruct (Z.ltb_spec (Z.of_nat n + 1) 1); [lia|]. change (Z.to_nat 0) with 0 in E.
           destruct (read_columns i h (Z.to_nat (Z.of_nat n + 1 - 1)) 0); try discriminate.
        -- rewrite (read_slice i vals h r n rows Hh I1 I3 I2 L (or_intror Hr)) in E. injection E as <- <-.
           cbn [t_rows fr_hdu fr_current fr_info]. rewrite map_length. split; [reflexivity|]. split; [|right; reflexivity].
           destruct (Z.eqb_spec rows (-1)); [contradiction|]. rewrite slice_length by lia. reflexivity.
      * exfalso. unfold fr_read in E. rewrite Ri in E by assumption. cbn [bind] in E. unfold fr_total in E. cbn [fr_hdu fr_current] in E.
        rewrite (holds_rows_count i vals h Hh) in E. rewrite I2 in E.
        replace (Z.ltb (Z.of_nat (length vals)) (Z.of_nat n + 1)) with true in E by (symmetry; apply Z.ltb_lt; lia). discriminate.
  - unfold fr_skip in E. rewrite Ri in E by assumption. cbn [bind snd] in E. injection E as <-. cbn. split; [reflexivity|].
    split; [lia | right; reflexivity].
  - unfold fr_has_more in E. rewrite Ri in E by assumption. cbn [bind snd] in E. injection E as _ <-. cbn. split; [reflexivity|].
    split; [lia | right; reflexivity].
  - unfold fr_rows_left in E. rewrite Ri in E by assumption. cbn [bind snd] in E. injection E as _ <-. cbn. split; [reflexivity|].
    split; [lia | right; reflexivity].
Qed.
Lemma read_info_at i vals h n r : holds i vals h -> consumed h n r ->
  fr_read_info r = Ok (i, mkFr (Some i) (Z.of_nat n + 1) h) /\ fr_total (mkFr (Some i) (Z.of_nat n + 1) h) = Z.of_nat (length vals).
Proof.
  intros Hh C. destruct (consumed_state i vals h n r Hh C) as (I1 & I2 & I3). pose proof (holds_rows_count i vals h Hh) as Ht.
  destruct Hh as (_ & Fi & _). split.
  - unfold fr_read_info. destruct I3 as [Ei|Ei]; rewrite Ei; [rewrite I1, Fi, I2; reflexivity|].
    destruct r as [a b c]. cbn in *. subst. reflexivity.
  - unfold fr_total. cbn. rewrite Ht. reflexivity.
Qed.

Lemma chunk_skip {A} n k (l : list A) : skipn (n + k) l = skipn k (skipn n l).
Proof. revert n. induction l as [|x l IH]; intros [|n]; cbn; try reflexivity; [destruct k; reflexivity | apply IH]. Qed.
Lemma chunk_join {A} a b (l : list A) : firstn a l ++ firstn b (skipn (length (firstn a l)) l) = firstn (a + b) l.
Proof.
  revert a. induction l as [|x l IH]; intros [|a]; cbn [firstn app length skipn Nat.add].
  - reflexivity.
  - apply firstn_nil.
  - reflexivity.
  - rewrite IH. reflexivity.
Qed.
