(** Properties C50 (FITS formats), C99 and C100: tables in FITS files. *)
From Coq Require Import QArith ZArith List Arith Ascii String Bool Lia.
From Verif Require Import Common TextModel TextProofs DblModel TableModel TableSpec TableProofs AsciiModel AsciiSpec AsciiProofs
  FitsModel FitsSpec FitsProofs.
Import ListNotations.
Local Open Scope nat_scope.
Local Notation length := List.length.

Definition col (n : string) (ty : ctype) (u d : string) : coldesc := mkDesc (txt n) ty (txt u) (txt d).
Definition one_table (info : colinfo) (rows : list (list cell)) : table := mkTable (map (fun v => mkRow v info) rows) info.

(** ** C50: formats of the columns *)

(** The format and the TDIM keyword written for a column are read back as the type of
    the column, whatever the number of characters or elements (at least two), the
    shape and the cells. *)
Theorem C50_fits_type : forall ty lay cells,
  cells <> [] -> good_layout lay -> (forall c, In c cells -> type_of c = ty /\ has_layout lay c) ->
  (forall w, lay = Chars w -> exists s, In (CString s) cells /\ length s = w) ->
  exists f dim sh, binary_format ty cells = Ok f /\ tdim ty cells = Ok dim /\
    parse_tdim dim = Ok sh /\ binary_type f sh = Ok ty /\
    (forall s, lay = Array s -> sh = s).
Proof.
  intros ty lay cells N G F W.
  assert (F' : Forall (fun c => type_of c = ty /\ has_layout lay c) cells) by (apply Forall_forall; exact F).
  assert (W' : match lay with Chars w => exists s, In (CString s) cells /\ length s = w | _ => True end)
    by (destruct lay; try exact I; apply W; reflexivity).
  destruct (format_ok ty lay cells N G F' W') as (A & B & _).
  exists (lay_format ty lay), (lay_dim lay), (lay_shape lay). split; [exact A|]. split; [exact B|]. split; [apply lay_parse; exact G|].
  split; [|intros s ->; reflexivity]. apply lay_type; [exact G|].
  destruct cells as [|c cells]; [congruence|]. inversion F' as [|? ? (T & H) _]; subst. apply has_kind. exact H.
Qed.
Print Assumptions C50_fits_type.
Example C50_fits_example :
  let cells := [CNInt [2; 3]%Z [1; 2; 3; 4; 5; 6]%Z; CNInt [2; 3]%Z [0; 0; 0; 0; 0; 0]%Z] in
  binary_format TNInt cells = Ok (txt "6J") /\ tdim TNInt cells = Ok (txt "(3,2)") /\
  parse_tdim (txt "(3,2)") = Ok [2; 3]%Z /\ binary_type (txt "6J") [2; 3]%Z = Ok TNInt /\
  good_layout (Array [2; 3]%Z) /\ (forall c, In c cells -> type_of c = TNInt /\ has_layout (Array [2; 3]%Z) c).
Proof.
  repeat (split; [reflexivity|]). split.
  - split; [repeat (apply Forall_cons; [lia|]); apply Forall_nil | unfold int32_max; cbn; lia].
  - intros c [<- |[<- |[]]]; repeat (split; try reflexivity).
Qed.

(** Vectors of one element and arrays of one cell are read back as single values. *)
Theorem C50_fits_one_element : forall ty cells,
  cells <> [] ->
  (forall c, In c cells -> type_of c = ty /\ (has_layout (Vector 1) c \/ exists sh, z_product sh = 1%Z /\ has_layout (Array sh) c)) ->
  forall f dim, binary_format ty cells = Ok f -> tdim ty cells = Ok dim ->
  dim = [] /\ binary_type f [] = Ok (element_type ty).
Proof.
  intros ty cells N F f dim Ef Ed. destruct cells as [|c0 cells]; [congruence|].
  destruct (F c0 (or_introl eq_refl)) as (T & H). subst ty.
  destruct H as [H|(sh & P & H)].
  - assert (V : vec_length (type_of c0) c0 = Ok 1) by (destruct c0; cbn in H; try contradiction; cbn; rewrite H; reflexivity).
    assert (Sz : forall n, vector_size (type_of c0) (c0 :: cells) = Ok n -> n = 1).
    { intros n E. unfold vector_size in E. cbn [map_o] in E. rewrite V in E. cbn [bind] in E.
      destruct (map_o (vec_length (type_of c0)) cells) as [l| | |]; cbn [bind] in E; try discriminate.
      destruct (forallb (Nat.eqb 1) (1 :: l)); [|discriminate]. injection E as <-. reflexivity. }
    destruct c0; cbn in H; try contradiction; cbn [type_of binary_format tdim] in *; (split; [congruence|]);
      destruct (vector_size _ _) as [n| | |]; try discriminate; cbn [bind] in Ef; rewrite (Sz n eq_refl) in Ef; injection Ef as <-; reflexivity.
  - assert (V : exists p, array_of (type_of c0) c0 = Ok p /\ snd p = 1 /\ z_product (fst p) = 1%Z).
    { destruct c0; cbn in H; try contradiction; destruct H as (-> & L); eexists; (split; [reflexivity|]); (split; [cbn; lia | exact P]). }
    destruct V as (p & V & V1 & V2).
    assert (Sz : forall n, array_size (type_of c0) (c0 :: cells) = Ok n -> n = 1).
    { intros n E. unfold array_size in E. cbn [map_o] in E. rewrite V in E. cbn [bind] in E.
      destruct (map_o (array_of (type_of c0)) cells) as [l| | |]; cbn [bind] in E; try discriminate.
      destruct p as [a b]. cbn [snd] in V1. destruct (forallb _ _); [|discriminate]. injection E as <-. exact V1. }
    destruct c0; cbn in H; try contradiction; cbn [type_of binary_format tdim] in *;
      rewrite V in Ed; cbn [bind] in Ed; rewrite V2 in Ed; cbn [Z.eqb Pos.eqb] in Ed;
      (split; [congruence|]);
      destruct (array_size _ _) as [n| | |]; try discriminate; cbn [bind] in Ef; rewrite (Sz n eq_refl) in Ef; injection Ef as <-; reflexivity.
Qed.
Print Assumptions C50_fits_one_element.
Example C50_fits_one_element_example :
  binary_format TVDouble [CVDouble [Fin 1]; CVDouble [Fin 2]] = Ok (txt "1D") /\ binary_type (txt "1D") [] = Ok TDouble.
Proof. split; reflexivity. Qed.

(** Texts of at most one character, and vectors of booleans other than of one element,
    get a format that cannot be read. *)
Theorem C50_fits_unreadable : forall ty cells f,
  cells <> [] -> binary_format ty cells = Ok f ->
  (ty = TString /\ (forall c, In c cells -> exists a, c = CString [a])) \/
  (ty = TVBool /\ exists n, n <> 1 /\ (Z.of_nat n <= int32_max)%Z /\ forall c, In c cells -> exists l, c = CVBool l /\ length l = n) ->
  binary_type f [] = Throw.
Proof.
  intros ty cells f N Ef [(-> & H)|(-> & n & Hn & B & H)]; destruct cells as [|c0 cells]; try congruence.
  - cbn [binary_format] in Ef. unfold max_width in Ef.
    rewrite (map_o_const _ 1) in Ef.
    + cbn [bind] in Ef. rewrite (fold_max _ 1) in Ef; [injection Ef as <-; reflexivity | left; reflexivity|].
      apply Forall_forall. intros x I. apply repeat_spec in I. lia.
    + apply Forall_forall. intros c I. destruct (H c I) as (a & ->). reflexivity.
  - cbn [binary_format] in Ef. unfold vector_size in Ef. rewrite (map_o_const _ n) in Ef.
    + cbn [bind length repeat] in Ef. destruct (forallb (Nat.eqb n) _); [|discriminate]. cbn [bind] in Ef. injection Ef as <-.
      unfold binary_type. change (txt "L") with ["L"%char]. rewrite format_num by exact B. cbn [bind fst snd].
      replace (Z.of_nat n =? 1)%Z with false by (symmetry; apply Z.eqb_neq; lia). reflexivity.
    + apply Forall_forall. intros c I. destruct (H c I) as (l & -> & L). cbn. rewrite L. reflexivity.
Qed.
Print Assumptions C50_fits_unreadable.
Example C50_fits_unreadable_example :
  binary_format TString [CString (txt "a"); CString (txt "b")] = Ok (txt "1A") /\ binary_type (txt "1A") [] = Throw /\
  binary_format TVBool [CVBool [true; false; true]] = Ok (txt "3L") /\ binary_type (txt "3L") [] = Throw.
Proof. repeat split. Qed.

(** Vectors of different lengths and arrays of different shapes are refused. *)
Theorem C50_fits_uneven : forall ty c0 cells,
  (exists n m c, vec_length ty c0 = Ok n /\ In c cells /\ vec_length ty c = Ok m /\ n <> m) \/
  (exists p q c, array_of ty c0 = Ok p /\ In c cells /\ array_of ty c = Ok q /\ fst p <> fst q) ->
  (forall c, In c cells -> type_of c = ty) -> type_of c0 = ty ->
  binary_format ty (c0 :: cells) = Throw.
Proof.
  intros ty c0 cells H T T0.
  assert (ZE : forall a b, z_list_eqb a b = true -> a = b).
  { induction a as [|x a IH]; intros [|y b] E; try discriminate; [reflexivity|]. cbn in E. apply andb_true_iff in E.
    destruct E as (E1 & E2). apply Z.eqb_eq in E1. rewrite E1, (IH b E2). reflexivity. }
  destruct H as [(n & m & c & En & Ic & Em & D)|(p & q & c & Ep & Ic & Eq & D)].
  - assert (V : vector_size ty (c0 :: cells) = Throw).
    { unfold vector_size. cbn [map_o]. rewrite En. cbn [bind].
      assert (X : exists l, map_o (vec_length ty) cells = Ok l /\ In m l).
      { clear En D T0. induction cells as [|x cells IH]; [destruct Ic|]. cbn [map_o].
        assert (Tx : exists k, vec_length ty x = Ok k).
        { pose proof (T x (or_introl eq_refl)) as Tx. pose proof (T c Ic) as Tc. clear - Tx Tc Em.
          destruct ty; cbn in Em; try (destruct c; discriminate); destruct x; try discriminate; eexists; reflexivity. }
        destruct Tx as (k & Tx). rewrite Tx. cbn [bind]. destruct Ic as [<- |Ic].
        - rewrite Tx in Em. injection Em as <-.
          assert (Y : exists l, map_o (vec_length ty) cells = Ok l).
          { clear IH. pose proof (T x (or_introl eq_refl)) as Tt. assert (T' : forall z, In z cells -> type_of z = ty) by (intros z I; apply T; right; exact I).
            clear T. induction cells as [|z cells IHc]; [exists []; reflexivity|]. cbn [map_o].
            assert (Tz : exists j, vec_length ty z = Ok j).
            { pose proof (T' z (or_introl eq_refl)) as Tz. clear - Tx Tz Tt. destruct ty; cbn in Tx; try (destruct x; discriminate); destruct z; try discriminate; eexists; reflexivity. }
            destruct Tz as (j & Tz). rewrite Tz. cbn [bind]. destruct IHc as (l & El); [intros w I; apply T'; right; exact I|]. rewrite El. eexists. reflexivity. }
          destruct Y as (l & El). rewrite El. exists (k :: l). split; [reflexivity | left; reflexivity].
        - destruct IH as (l & El & Il); [exact Ic | intros z I; apply T; right; exact I|]. rewrite El. exists (k :: l). split; [reflexivity | right; exact Il]. }
      destruct X as (l & El & Il). rewrite El. cbn [bind].
      destruct (forallb (Nat.eqb n) (n :: l)) eqn:Fb; [|reflexivity]. rewrite forallb_forall in Fb.
      specialize (Fb m (or_intror Il)). apply Nat.eqb_eq in Fb. contradiction. }
    destruct c0; cbn in En; subst ty; try discriminate; cbn [type_of binary_format] in *; rewrite V; reflexivity.
  - assert (V : array_size ty (c0 :: cells) = Throw).
    { unfold array_size. cbn [map_o]. rewrite Ep. cbn [bind].
      assert (X : exists l, map_o (array_of ty) cells = Ok l /\ In q l).
      { clear Ep D T0. induction cells as [|x cells IH]; [destruct Ic|]. cbn [map_o].
        assert (Tx : exists k, array_of ty x = Ok k).
        { pose proof (T x (or_introl eq_refl)) as Tx. pose proof (T c Ic) as Tc. clear - Tx Tc Eq.
          destruct ty; cbn in Eq; try (destruct c; discriminate); destruct x; try discriminate; eexists; reflexivity. }
        destruct Tx as (k & Tx). rewrite Tx. cbn [bind]. destruct Ic as [<- |Ic].
        - rewrite Tx in Eq. injection Eq as <-.
          assert (Y : exists l, map_o (array_of ty) cells = Ok l).
          { clear IH. pose proof (T x (or_introl eq_refl)) as Tt. assert (T' : forall z, In z cells -> type_of z = ty) by (intros z I; apply T; right; exact I).
            clear T. induction cells as [|z cells IHc]; [exists []; reflexivity|]. cbn [map_o].
            assert (Tz : exists j, array_of ty z = Ok j).
            { pose proof (T' z (or_introl eq_refl)) as Tz. clear - Tx Tz Tt. destruct ty; cbn in Tx; try (destruct x; discriminate); destruct z; try discriminate; eexists; reflexivity. }
            destruct Tz as (j & Tz). rewrite Tz. cbn [bind]. destruct IHc as (l & El); [intros w I; apply T'; right; exact I|]. rewrite El. eexists. reflexivity. }
          destruct Y as (l & El). rewrite El. exists (k :: l). split; [reflexivity | left; reflexivity].
        - destruct IH as (l & El & Il); [exact Ic | intros z I; apply T; right; exact I|]. rewrite El. exists (k :: l). split; [reflexivity | right; exact Il]. }
      destruct X as (l & El & Il). rewrite El. cbn [bind]. destruct p as [a b].
      destruct (forallb _ _) eqn:Fb; [|reflexivity]. rewrite forallb_forall in Fb.
      specialize (Fb q (or_intror Il)). apply ZE in Fb. cbn [fst] in D. congruence. }
    destruct c0; cbn in Ep; subst ty; try discriminate; cbn [type_of binary_format] in *; rewrite V; reflexivity.
Qed.
Print Assumptions C50_fits_uneven.
Example C50_fits_uneven_example : binary_format TVInt [CVInt [1; 2]%Z; CVInt [3]%Z] = Throw.
Proof. reflexivity. Qed.

(** ASCII tables only know three types: integers come back as 64 bit integers, numbers
    as doubles and texts as texts; vectors and arrays cannot be written. *)
Theorem C50_fits_ascii : forall ty width sci,
  match ty with
  | TBool | TInt | TLong => exists f, ascii_format ty width sci = Ok f /\ ascii_type f = Ok TLong
  | TFloat | TDouble => exists f, ascii_format ty width sci = Ok f /\ ascii_type f = Ok TDouble
  | TString => exists f, ascii_format ty width sci = Ok f /\ ascii_type f = Ok TString
  | _ => ascii_format ty width sci = Throw
  end.
Proof. intros ty w s. destruct ty; cbn; try reflexivity; eexists; split; reflexivity. Qed.
Print Assumptions C50_fits_ascii.

(** The width of the format is the length of the longest text of the column. *)
Theorem C50_fits_ascii_width : forall sci ty cells,
  In ty [TInt; TLong; TFloat; TDouble; TString] -> Forall (fun c => type_of c = ty) cells ->
  exists w, ascii_column sci ty cells = Ok (ascii_letter ty :: digits (Z.of_nat w)) /\ longest_of w (map (printed sci) cells).
Proof.
  intros sci ty cells I F.
  assert (G : exists w, longest (match ty with TFloat | TDouble => sci_text sci | _ => plain_text end) cells = Ok w /\ longest_of w (map (printed sci) cells)).
  { assert (M : map_o (match ty with TFloat | TDouble => sci_text sci | _ => plain_text end) cells = Ok (map (printed sci) cells)).
    { assert (C : forall c, type_of c = ty -> match ty with TFloat | TDouble => sci_text sci | _ => plain_text end c = Ok (printed sci c)).
      { intros c <-. repeat (destruct I as [I|I]; [destruct c; discriminate I || reflexivity|]). destruct I. }
      revert C. generalize (match ty with TFloat | TDouble => sci_text sci | _ => plain_text end). intros cast C. clear I.
      induction F as [|c cells Fc Fr IH]; [reflexivity|]. cbn [map_o map]. rewrite (C c Fc). cbn [bind]. rewrite IH. reflexivity. }
    unfold longest. rewrite M. cbn [bind]. eexists. split; [reflexivity|]. generalize (map (printed sci) cells). intros l. clear. split.
    - induction l as [|x l IH]; constructor; cbn [map fold_right]; [lia|]. apply Forall_forall. rewrite Forall_forall in IH. intros s J. specialize (IH s J). lia.
    - induction l as [|x l IH]; intros N; [congruence|]. cbn [map fold_right]. destruct l as [|y l]; [constructor; cbn; lia|].
      destruct (Nat.le_gt_cases (fold_right Nat.max 0 (map (@length ascii) (y :: l))) (length x)); [constructor; lia|]. apply Exists_cons_tl.
      rewrite Nat.max_r by lia. apply IH. discriminate. }
  destruct G as (w & E & L). exists w. split; [|exact L].
  repeat (destruct I as [<-|I]; [unfold ascii_column; rewrite E; reflexivity|]). destruct I.
Qed.
Print Assumptions C50_fits_ascii_width.
Example C50_fits_ascii_width_example : ascii_column (fun _ => txt "1.000000e+00") TInt [CInt 7; CInt (-120); CInt 3] = Ok (txt "I4").
Proof. reflexivity. Qed.

(** ** C99: tables written and read back *)

(** Tables with the same columns are written one after the other in a new binary table;
    reading everything back gives one table with the names, types, units and
    descriptions of the first table and all the rows in order. *)
Theorem C99_round_trip : forall t0 ts, writable t0 ts ->
  exists w t r, fw_add_all new_fwriter (t0 :: ts) = Ok w /\
    fr_read (new_freader (fw_hdu w)) (-1) = Ok (t, r) /\
    t_info t = t_info t0 /\
    map r_values (t_rows t) = map r_values (flat_map t_rows (t0 :: ts)).
Proof.
  intros t0 ts (B & C & F). destruct (file_holds t0 ts B C F) as (w & E & Hh).
  pose proof (read_slice (t_info t0) (all_values (t0 :: ts)) (fw_hdu w) (new_freader (fw_hdu w)) 0 (-1) Hh eq_refl
    (or_introl eq_refl) eq_refl) as R.
  assert (L : 0 < length (all_values (t0 :: ts))).
  { destruct Hh as (_ & _ & N & _). destruct (all_values (t0 :: ts)); [congruence | cbn; lia]. }
  specialize (R L (or_introl eq_refl)). exists w. eexists. eexists. split; [exact E|]. split; [exact R|]. split; [reflexivity|].
  cbn [t_rows]. rewrite map_map. cbn [r_values]. rewrite map_id. unfold slice. cbn [skipn Z.eqb Pos.eqb].
  rewrite Nat.sub_0_r. apply firstn_all.
Qed.
Print Assumptions C99_round_trip.
Definition example_info : colinfo :=
  [col "ID" TLong "" "the identifier"; col "name" TString "" ""; col "mag" TVDouble "mag" ""; col "img" TNInt "" "cutout"].
Definition example_row (k : Z) (s : string) : list cell :=
  [CLong k; CString (txt s); CVDouble [Fin 1; NaN]; CNInt [2; 1]%Z [k; 7]%Z].
Definition example_first : table := one_table example_info [example_row 1 "left"; example_row 2 "up"].
Definition example_second : table := one_table example_info [example_row (-3) "down"].
Example C99_example :
  writable example_first [example_second] /\
  exists w r, fw_add_all new_fwriter [example_first; example_second] = Ok w /\
    map fc_format (fw_hdu w) = [txt "K"; txt "4A"; txt "2D"; txt "2J"] /\
    fr_read (new_freader (fw_hdu w)) (-1) =
      Ok (one_table example_info [example_row 1 "left"; example_row 2 "up"; example_row (-3) "down"], r).
Proof.
  split.
  - split; [|split].
    + constructor; [|constructor; [|constructor]]; (split; [reflexivity|]); (split; [repeat constructor|]); (split; [reflexivity | repeat constructor]).
    + constructor; [reflexivity | constructor].
    + intros k Hk. assert (BL : forall s c r, rev s = c :: r -> c <> " "%char -> forall t : text, s <> t ++ [" "%char]).
      { intros s c r E Nc t Et. rewrite Et, rev_app_distr in E. injection E as E _. congruence. }
      destruct k as [|[|[|[|k]]]]; [| | | |cbn in Hk; lia].
      * exists Single. split; [exact I|]. split; [|exact I]. repeat constructor.
      * exists (Chars 4). split; [split; [lia | unfold int32_max; lia]|]. split.
        -- cbn. repeat constructor; (eapply BL; [reflexivity | discriminate]).
        -- exists (txt "left"). split; [left; reflexivity | reflexivity].
      * exists (Vector 2). split; [split; [lia | unfold int32_max; lia]|]. split; [|exact I]. repeat constructor.
      * exists (Array [2; 1]%Z). split; [split; [repeat (apply Forall_cons; [lia|]); apply Forall_nil | unfold int32_max; cbn; lia]|]. split; [|exact I].
        repeat constructor.
  - eexists. eexists. split; [vm_compute; reflexivity|]. split; [vm_compute; reflexivity|]; vm_compute; reflexivity.
Qed.

(** A table with other columns is refused. *)
Theorem C99_other_columns : forall w i t,
  fw_info w = Some i -> columns_of i <> columns_of (t_info t) -> fw_add w t = Throw.
Proof.
  intros w i t E D. unfold fw_add. rewrite E.
  destruct (info_eqb i (t_info t)) eqn:Q; [apply info_eqb_iff in Q; contradiction | reflexivity].
Qed.
Print Assumptions C99_other_columns.

Ltac built := split; [reflexivity|]; split; [repeat constructor|]; split; [reflexivity | repeat constructor].
(** The conditions are needed. A text of a later table that is longer than every text
    of the first table is cut. *)
Theorem C99_wider_text_refuted : exists t0 t1 w t r,
  built_table t0 /\ built_table t1 /\ t_info t1 = t_info t0 /\
  fw_add_all new_fwriter [t0; t1] = Ok w /\ fr_read (new_freader (fw_hdu w)) (-1) = Ok (t, r) /\
  map r_values (t_rows t1) = [[CString (txt "abcd")]] /\
  map r_values (t_rows t) = [[CString (txt "ab")]; [CString (txt "ab")]].
Proof.
  exists (one_table [col "s" TString "" ""] [[CString (txt "ab")]]), (one_table [col "s" TString "" ""] [[CString (txt "abcd")]]).
  eexists. eexists. eexists. split; [built|]. split; [built|]. split; [reflexivity|]. split; [vm_compute; reflexivity|].
  split; [vm_compute; reflexivity|]. split; [vm_compute; reflexivity|]; vm_compute; reflexivity.
Qed.
Print Assumptions C99_wider_text_refuted.
(** Blanks at the end of a text are lost. *)
Theorem C99_trailing_blank_refuted : exists t0 w t r,
  built_table t0 /\ fw_add_all new_fwriter [t0] = Ok w /\ fr_read (new_freader (fw_hdu w)) (-1) = Ok (t, r) /\
  map r_values (t_rows t0) = [[CString (txt "ab ")]] /\ map r_values (t_rows t) = [[CString (txt "ab")]].
Proof.
  exists (one_table [col "s" TString "" ""] [[CString (txt "ab ")]]). eexists. eexists. eexists.
  split; [built|]. split; [vm_compute; reflexivity|]. split; [vm_compute; reflexivity|]. split; [vm_compute; reflexivity|]; vm_compute; reflexivity.
Qed.
Print Assumptions C99_trailing_blank_refuted.
(** A column of texts of one character makes the file unreadable. *)
Theorem C99_one_character_refuted : exists t0 w,
  built_table t0 /\ fw_add_all new_fwriter [t0] = Ok w /\ fr_read (new_freader (fw_hdu w)) (-1) = Throw.
Proof.
  exists (one_table [col "s" TString "" ""] [[CString (txt "a")]; [CString (txt "b")]]). eexists.
  split; [built|]. split; [vm_compute; reflexivity|]; vm_compute; reflexivity.
Qed.
Print Assumptions C99_one_character_refuted.
(** Vectors of one element come back as single values. *)
Theorem C99_one_element_refuted : exists t0 w t r,
  built_table t0 /\ fw_add_all new_fwriter [t0] = Ok w /\ fr_read (new_freader (fw_hdu w)) (-1) = Ok (t, r) /\
  map r_values (t_rows t0) = [[CVInt [5]%Z]] /\ map r_values (t_rows t) = [[CInt 5]].
Proof.
  exists (one_table [col "v" TVInt "" ""] [[CVInt [5]%Z]]). eexists. eexists. eexists.
  split; [built|]. split; [vm_compute; reflexivity|]. split; [vm_compute; reflexivity|]. split; [vm_compute; reflexivity|]; vm_compute; reflexivity.
Qed.
Print Assumptions C99_one_element_refuted.
(** Vectors of booleans cannot be written, although they have a format. *)
Theorem C99_bool_vector_refuted : exists t0, built_table t0 /\
  (exists h, new_columns t0 0 (t_info t0) = Ok h) /\ fw_add_all new_fwriter [t0] = Throw.
Proof.
  exists (one_table [col "v" TVBool "" ""] [[CVBool [true; false]]]). split; [built|]. split; [eexists; vm_compute; reflexivity|].
  vm_compute. reflexivity.
Qed.
Print Assumptions C99_bool_vector_refuted.

(** ** C100: reading in chunks *)

(** Whatever was read, skipped or asked before, a reader that has consumed [n] rows
    returns the next [k] rows, or what is left of them; -1 stands for all. *)
Theorem C100_read : forall t0 ts w n r k,
  writable t0 ts -> fw_add_all new_fwriter (t0 :: ts) = Ok w -> consumed (fw_hdu w) n r ->
  n < length (all_values (t0 :: ts)) -> (k = (-1)%Z \/ (0 < k)%Z) ->
  exists t r', fr_read r k = Ok (t, r') /\ t_info t = t_info t0 /\
    map r_values (t_rows t) =
      (if Z.eqb k (-1) then skipn n (all_values (t0 :: ts)) else firstn (Z.to_nat k) (skipn n (all_values (t0 :: ts)))) /\
    consumed (fw_hdu w) (n + length (t_rows t)) r'.
Proof.
  intros t0 ts w n r k (B & C & F) E Cn Hn Hk. destruct (file_holds t0 ts B C F) as (w' & E' & Hh).
  rewrite E in E'. injection E' as <-. destruct (consumed_state _ _ _ _ _ Hh Cn) as (I1 & I2 & I3).
  pose proof (read_slice _ _ _ r n k Hh I1 I3 I2 Hn Hk) as R.
  eexists. eexists. split; [exact R|]. split; [reflexivity|]. split.
  - cbn [t_rows]. rewrite map_map. cbn [r_values]. rewrite map_id. unfold slice. destruct (Z.eqb k (-1)).
    + apply firstn_all2. rewrite skipn_length. lia.
    + rewrite <- skipn_length. destruct (Nat.le_ge_cases (Z.to_nat k) (length (skipn n (all_values (t0 :: ts))))) as [L|L].
      * rewrite Nat.min_l by exact L. reflexivity.
      * rewrite Nat.min_r by exact L. rewrite firstn_all, firstn_all2 by exact L. reflexivity.
  - eapply consumed_read; [exact Cn | exact R].
Qed.
Print Assumptions C100_read.

(** When every row has been consumed the reader says so, and reading throws. *)
Theorem C100_end : forall t0 ts w n r,
  writable t0 ts -> fw_add_all new_fwriter (t0 :: ts) = Ok w -> consumed (fw_hdu w) n r ->
  (exists b r', fr_has_more r = Ok (b, r') /\ (b = true <-> n < length (all_values (t0 :: ts)))) /\
  (length (all_values (t0 :: ts)) <= n -> forall k, fr_read r k = Throw).
Proof.
  intros t0 ts w n r (B & C & F) E Cn. destruct (file_holds t0 ts B C F) as (w' & E' & Hh).
  rewrite E in E'. injection E' as <-. destruct (read_info_at _ _ _ _ _ Hh Cn) as (Ri & Rt). split.
  - unfold fr_has_more. rewrite Ri. cbn [bind snd]. rewrite Rt. cbn [fr_current]. eexists. eexists. split; [reflexivity|].
    rewrite Z.leb_le. lia.
  - intros L k. unfold fr_read. rewrite Ri. cbn [bind]. rewrite Rt. cbn [fr_current].
    replace (Z.ltb (Z.of_nat (length (all_values (t0 :: ts)))) (Z.of_nat n + 1)) with true by (symmetry; apply Z.ltb_lt; lia). reflexivity.
Qed.
Print Assumptions C100_end.

(** rowsLeft is the number of rows that were not consumed. *)
Theorem C100_rows_left : forall t0 ts w n r,
  writable t0 ts -> fw_add_all new_fwriter (t0 :: ts) = Ok w -> consumed (fw_hdu w) n r ->
  n <= length (all_values (t0 :: ts)) -> (Z.of_nat (length (all_values (t0 :: ts))) < 2 ^ 64)%Z ->
  exists r', fr_rows_left r = Ok (Z.of_nat (length (all_values (t0 :: ts)) - n), r').
Proof.
  intros t0 ts w n r (B & C & F) E Cn L H. destruct (file_holds t0 ts B C F) as (w' & E' & Hh).
  rewrite E in E'. injection E' as <-. destruct (read_info_at _ _ _ _ _ Hh Cn) as (Ri & Rt).
  unfold fr_rows_left. rewrite Ri. cbn [bind snd]. rewrite Rt. cbn [fr_current]. eexists. do 2 f_equal.
  rewrite Z.mod_small; lia.
Qed.
Print Assumptions C100_rows_left.

(** Any sequence of reads of positive sizes gives the rows of one full read, in order. *)
Theorem C100_chunks : forall t0 ts w ks,
  writable t0 ts -> fw_add_all new_fwriter (t0 :: ts) = Ok w -> Forall (fun k => 0 < k)%Z ks ->
  fr_read_all (new_freader (fw_hdu w)) ks = Ok (firstn (Z.to_nat (fold_right Z.add 0%Z ks)) (all_values (t0 :: ts))).
Proof.
  intros t0 ts w ks W E P.
  assert (X : forall n r, consumed (fw_hdu w) n r ->
     fr_read_all r ks = Ok (firstn (Z.to_nat (fold_right Z.add 0%Z ks)) (skipn n (all_values (t0 :: ts))))).
  { induction P as [|k ks Hk P IH]; intros n r Cn; [reflexivity|]. cbn [fr_read_all].
    destruct (C100_end t0 ts w n r W E Cn) as ((b & r' & Hm & Hb) & _). rewrite Hm. cbn [bind fst snd].
    assert (Cn' : consumed (fw_hdu w) n r') by (eapply consumed_more; [exact Cn | exact Hm]).
    assert (Sp : (0 <= fold_right Z.add 0%Z ks)%Z).
    { clear - P. induction P; cbn; lia. }
    cbn [fold_right]. rewrite Z2Nat.inj_add by lia. destruct b.
    - assert (Hn : n < length (all_values (t0 :: ts))) by (apply Hb; reflexivity).
      destruct (C100_read t0 ts w n r' k W E Cn' Hn (or_intror Hk)) as (t & r2 & Er & _ & Ev & C2).
      rewrite Er. cbn [bind fst snd]. rewrite (IH _ _ C2). cbn [bind]. apply (f_equal (@Ok (list (list cell)))).
      rewrite Ev. replace (length (t_rows t)) with (length (map r_values (t_rows t))) by apply map_length. rewrite Ev.
      destruct (Z.eqb_spec k (-1)) as [D|_]; [lia|]. set (l := skipn n (all_values (t0 :: ts))).
      rewrite chunk_skip. fold l. apply chunk_join.
    - rewrite skipn_all2; [rewrite firstn_nil; reflexivity|].
      destruct (Nat.lt_ge_cases n (length (all_values (t0 :: ts)))) as [L|L]; [apply Hb in L; discriminate | exact L]. }
  apply (X 0 _ (consumed_none _)).
Qed.
Print Assumptions C100_chunks.
Example C100_example : exists w,
  fw_add_all new_fwriter [example_first; example_second] = Ok w /\
  fr_read_all (new_freader (fw_hdu w)) [2; 2; 5]%Z = Ok [example_row 1 "left"; example_row 2 "up"; example_row (-3) "down"].
Proof. eexists. split; [vm_compute; reflexivity|]; vm_compute; reflexivity. Qed.

(** After skipping beyond the end the number of rows left wraps around. *)
Theorem C100_skip_beyond_refuted : exists w r r' left,
  fw_add_all new_fwriter [example_first] = Ok w /\ fr_skip (new_freader (fw_hdu w)) 3 = Ok r /\
  fr_rows_left r = Ok (left, r') /\ left = (2 ^ 64 - 1)%Z.
Proof. eexists. eexists. eexists. eexists. split; [vm_compute; reflexivity|]. split; [vm_compute; reflexivity|]. split; [vm_compute; reflexivity|]; vm_compute; reflexivity. Qed.
Print Assumptions C100_skip_beyond_refuted.
(** Reading no rows throws, because a table has at least one row. *)
Theorem C100_read_nothing_refuted : exists w,
  fw_add_all new_fwriter [example_first] = Ok w /\ fr_read (new_freader (fw_hdu w)) 0 = Throw.
Proof. eexists. split; [vm_compute; reflexivity|]; vm_compute; reflexivity. Qed.
Print Assumptions C100_read_nothing_refuted.

(** Whatever the text of a TDIM keyword, it is a list of sizes or an exception: one that is not in parentheses is
    ignored, and a part between the commas that is not a number of a size throws. *)
Theorem C99_tdim_keywords : forall s, (exists l, parse_tdim s = Ok l /\ Forall (fun z => (0 <= z < 2 ^ 64)%Z) l) \/ parse_tdim s = Throw.
Proof.
  assert (T : forall x, (exists z, tdim_size x = Ok z /\ (0 <= z < 2 ^ 64)%Z) \/ tdim_size x = Throw).
  { intros x. unfold tdim_size. destruct (signed_text x) as [z|]; [|right; reflexivity]. destruct (Z.ltb _ _); [left|right; reflexivity].
    eexists. split; [reflexivity|]. apply Z.mod_pos_bound. reflexivity. }
  assert (M : forall l, (exists r, map_o tdim_size l = Ok r /\ Forall (fun z => (0 <= z < 2 ^ 64)%Z) r) \/ map_o tdim_size l = Throw).
  { induction l as [|x l IH]; [left; exists []; split; [reflexivity|constructor]|]. cbn [map_o].
    destruct (T x) as [[z [-> Z]]| ->]; [|right; reflexivity]. cbn [bind]. destruct IH as [[r [-> R]]| ->]; [|right; reflexivity].
    left. exists (z :: r). split; [reflexivity|constructor; assumption]. }
  intros s. unfold parse_tdim. destruct s as [|c r]; [left; exists []; split; [reflexivity|constructor]|]. destruct (_ && _); [|left; exists []; split; [reflexivity|constructor]].
  destruct (M (comma_tokens (removelast r))) as [[l [-> L]]| ->]; [|right; reflexivity]. left. exists (rev l). split; [reflexivity|]. apply Forall_rev, L.
Qed.
Print Assumptions C99_tdim_keywords.
Example C99_tdim_example : parse_tdim (txt "(3,x)") = Throw /\ parse_tdim (txt "(3,2)") = Ok [2; 3]%Z /\ parse_tdim (txt "3,x") = Ok [].
Proof. repeat split. Qed.

(** A column without a name is read with the name Col followed by its position. *)
Theorem C99_column_names : forall h i k c, fits_info h = Ok i -> nth_error h k = Some c ->
  exists d, nth_error i k = Some d /\
    cd_name d = match fc_name c with [] => txt "Col" ++ digits (Z.of_nat (S k)) | n => n end /\
    cd_unit d = fc_unit c /\ cd_desc d = fc_desc c.
Proof.
  intros h i k c E. unfold fits_info in E. destruct (detect_columns 1 h) as [l| | |] eqn:D; try discriminate E. cbn [bind] in E.
  apply TableProofs.new_info_ok in E. destruct E as [-> _].
  change (S k) with (1 + k). revert l k D. generalize 1. induction h as [|c' h IH]; intros b l k D H; [destruct k; discriminate H|].
  cbn [detect_columns] in D. destruct (parse_tdim (fc_tdim c')) as [sh| | |]; try discriminate D. cbn [bind] in D.
  destruct (binary_type (fc_format c') sh) as [ty| | |]; try discriminate D. cbn [bind] in D.
  destruct (new_desc _ ty (fc_unit c') (fc_desc c')) as [d| | |] eqn:Ed; try discriminate D. cbn [bind] in D.
  destruct (detect_columns (S b) h) as [rest| | |] eqn:Er; try discriminate D. cbn [bind] in D. injection D as <-.
  destruct k as [|k]; cbn [nth_error] in *.
  - injection H as ->. exists d. split; [reflexivity|]. rewrite Nat.add_0_r.
    change (num b) with (digits (Z.of_nat b)) in Ed. revert Ed. clear. match goal with |- new_desc ?n _ _ _ = _ -> _ => generalize n end.
    intros [|x nm] Ed; [discriminate Ed|]. unfold new_desc in Ed. destruct (has_vertical (x :: nm)); [discriminate Ed|]. injection Ed as <-. repeat split; reflexivity.
  - destruct (IH (S b) rest k Er H) as (d' & N & X). exists d'. split; [exact N|]. replace (b + S k) with (S b + k) by lia. exact X.
Qed.
Print Assumptions C99_column_names.
Example C99_column_names_example :
  fits_info [mkCol (txt "x") (txt "K") [] [] [] []; mkCol [] (txt "D") [] [] [] []; mkCol [] (txt "D") [] [] [] []]
  = Ok [col "x" TLong "" ""; col "Col2" TDouble "" ""; col "Col3" TDouble "" ""].
Proof. vm_compute. reflexivity. Qed.
