(** Proofs about FITS files of grids. *)
From Coq Require Import ZArith List Arith Ascii String Bool Lia.
From Verif Require Import Common TextModel TextProofs DblModel GridModel GridSpec GridArith GridProofs GridProofs2 GridProofs3
  TableModel TableSpec TableProofs AsciiModel FitsModel FitsSpec FitsProofs XYModel XYSpec XYProofs GridFitsModel GridFitsSpec.
Import ListNotations.
Local Open Scope nat_scope.
Local Notation length := List.length.

(** ** Tables *)
Lemma store_all_ok raws : forall col n l, format_parts (fc_format col) = Ok (Z.of_nat n, l) ->
  Forall (fun r => match r with RText s => length s <= n /\ (forall x, s <> x ++ [" "%char]) | RVals v => length v = n end) raws ->
  store_all col raws = Ok (mkCol (fc_name col) (fc_format col) (fc_unit col) (fc_desc col) (fc_tdim col) (fc_data col ++ raws)).
Proof.
  induction raws as [|r raws IH]; intros col n l E F.
  - cbn [store_all]. rewrite app_nil_r. destruct col; reflexivity.
  - inversion_clear F as [|? ? F1 F2]. cbn [store_all]. unfold store. rewrite E. cbn [bind fst]. rewrite Nat2Z.id.
    assert (X : match r with RText s => Ok (RText (fits_text n s)) | RVals v => if Nat.eqb (length v) n then Ok r else UB end = Ok r).
    { destruct r as [v|s]; [rewrite F1, Nat.eqb_refl; reflexivity|]. destruct F1 as [F1 F3]. unfold fits_text.
      rewrite firstn_all2 by exact F1. rewrite strip_id by exact F3. reflexivity. }
    rewrite X. cbn [bind]. rewrite (IH _ n l); [|exact E|exact F2]. cbn [fc_name fc_format fc_unit fc_desc fc_tdim fc_data].
    rewrite <- app_assoc. reflexivity.
Qed.

Definition axis_desc (kt : ktype) : colinfo := [mkDesc (txt "Index") TInt [] []; mkDesc (txt "Value") (fits_type kt) [] []].
Lemma axis_info_ok kt : axis_info kt = Ok (axis_desc kt).
Proof.
  unfold axis_info. apply new_info_ok. split; [reflexivity|]. split; [discriminate|].
  constructor; [|constructor; [intros []|constructor]]. intros [H|[]]. discriminate H.
Qed.
Fixpoint rows_from (kt : ktype) (i : nat) (values : list knot) : list row :=
  match values with [] => [] | x :: r => mkRow [CInt (Z.of_nat i); axis_to_fits x] (axis_desc kt) :: rows_from kt (S i) r end.
Lemma axis_rows_ok kt values : Forall (fun k => of_type kt k /\ storable k) values -> forall i,
  axis_rows (axis_desc kt) i values = Ok (rows_from kt i values).
Proof.
  intros F. induction F as [|x values [T S1] F IH]; intros i; [reflexivity|]. cbn [axis_rows rows_from].
  assert (R : new_row [CInt (Z.of_nat i); axis_to_fits x] (Some (axis_desc kt)) = Ok (mkRow [CInt (Z.of_nat i); axis_to_fits x] (axis_desc kt))).
  { apply new_row_ok. split; [reflexivity|]. split.
    - cbn [map type_of axis_desc cd_type]. do 2 f_equal. destruct kt, x; try contradiction T; reflexivity.
    - intros s [H|[H|[]]]; [discriminate H|]. destruct x; try discriminate H; injection H as <-.
      + destruct S1 as [A [B _]]. auto.
      + destruct S1 as [_ [A [B _]]]. auto. }
  rewrite R. cbn [bind]. rewrite IH. reflexivity.
Qed.
Lemma rows_info kt values : forall i r, In r (rows_from kt i values) -> r_info r = axis_desc kt.
Proof. induction values as [|x values IH]; intros i r; [intros []|]. intros [<-|H]; [reflexivity|]. exact (IH _ _ H). Qed.
Lemma axis_table_ok kt a : axis_ok kt a -> axis_table kt a = Ok (mkTable (rows_from kt 0 (ax_values a)) (axis_desc kt)).
Proof.
  intros [N F]. unfold axis_table. rewrite axis_info_ok. cbn [bind]. rewrite axis_rows_ok by exact F. cbn [bind].
  apply new_table_ok. destruct (ax_values a) as [|x r] eqn:E; [congruence|]. cbn [rows_from]. eexists. eexists. split; [reflexivity|].
  split; [reflexivity|]. intros y H. rewrite (rows_info kt (x :: r) 0 y H). reflexivity.
Qed.
Lemma rows_cells kt values : forall i, map_o (fun r => row_at r 0) (rows_from kt i values) = Ok (map (fun j => CInt (Z.of_nat j)) (seq i (length values))).
Proof. induction values as [|x values IH]; intros i; [reflexivity|]. cbn [rows_from map_o length seq map]. rewrite IH. reflexivity. Qed.
Lemma rows_values kt values : forall i, map_o (fun r => row_at r 1) (rows_from kt i values) = Ok (map axis_to_fits values).
Proof. induction values as [|x values IH]; intros i; [reflexivity|]. cbn [rows_from map_o map]. rewrite IH. reflexivity. Qed.

(** The format of the column of the knots. *)
Lemma knots_format kt values : values <> [] -> Forall (fun k => of_type kt k /\ storable k) values ->
  exists f n l, binary_format (fits_type kt) (map axis_to_fits values) = Ok f /\ tdim (fits_type kt) (map axis_to_fits values) = Ok []
    /\ format_parts f = Ok (Z.of_nat n, l)
    /\ map_o (entry (fits_type kt) false) (map axis_to_fits values) = Ok (map knot_entry values)
    /\ (forall c, is_many (fits_type kt) c = Ok false)
    /\ Forall (fun r => match r with RText s => length s <= n /\ (forall x, s <> x ++ [" "%char]) | RVals v => length v = n end) (map knot_entry values).
Proof.
  intros N F.
  assert (EN : map_o (entry (fits_type kt) false) (map axis_to_fits values) = Ok (map knot_entry values)).
  { clear N. induction F as [|x values [T _] F IH]; [reflexivity|]. cbn [map map_o]. rewrite IH.
    destruct kt, x; try contradiction T; reflexivity. }
  assert (M : forall c, is_many (fits_type kt) c = Ok false) by (intros c; destruct kt; reflexivity).
  assert (SG : (kt <> KTText /\ kt <> KTName) \/ (kt = KTText \/ kt = KTName)) by (destruct kt; auto; left; split; discriminate).
  destruct SG as [[N1 N2]|SG].
  - exists [letter (fits_type kt)], 1, (letter (fits_type kt)). split; [destruct kt; try congruence; reflexivity|].
    split; [destruct kt; reflexivity|]. split; [destruct kt; try congruence; reflexivity|]. split; [exact EN|]. split; [exact M|].
    apply Forall_forall. intros r I. apply in_map_iff in I. destruct I as [x [<- I]]. rewrite Forall_forall in F.
    destruct (F x I) as [T _]. destruct kt, x; try contradiction T; try congruence; reflexivity.
  - assert (TS : fits_type kt = TString) by (destruct SG as [SG|SG]; rewrite SG; reflexivity). rewrite TS in *.
    assert (H : exists l, map_o (fun c => match c with CString s => Ok (length s) | _ => Throw end) (map axis_to_fits values) = Ok l
      /\ (Z.of_nat (fold_right Nat.max 0%nat l) <= int32_max)%Z
      /\ Forall (fun r => match r with RText s => length s <= fold_right Nat.max 0%nat l /\ (forall x, s <> x ++ [" "%char]) | RVals v => False end) (map knot_entry values)).
    { clear N EN M TS. induction F as [|x values [T S1] F [l [A [B D]]]].
      - exists []. split; [reflexivity|]. split; [unfold int32_max; cbn; lia|constructor].
      - assert (X : exists s, axis_to_fits x = CString s /\ knot_entry x = RText s /\ storable_text s).
        { destruct SG as [SG|SG]; subst kt; destruct x; try contradiction T; cbn [storable] in S1.
          - exists s. auto.
          - exists (q_full q). split; [reflexivity|]. split; [reflexivity|]. apply S1. }
        destruct X as [s [X1 [X2 [_ [_ [X3 X4]]]]]]. exists (length s :: l). cbn [map map_o fold_right]. rewrite X1, A. cbn [bind].
        split; [reflexivity|]. split; [unfold int32_max in *; lia|]. rewrite X2. constructor; [split; [lia|exact X3]|].
        eapply Forall_impl; [|exact D]. intros r HR. destruct r; [contradiction|]. destruct HR. split; [lia|assumption]. }
    destruct H as [l [A [B D]]]. exists (num (fold_right Nat.max 0%nat l) ++ ["A"%char]), (fold_right Nat.max 0%nat l), "A"%char.
    cbn [binary_format tdim]. unfold max_width. rewrite A. cbn [bind]. split; [reflexivity|]. split; [reflexivity|].
    split; [apply format_num; exact B|]. split; [exact EN|]. split; [exact M|].
    eapply Forall_impl; [|exact D]. intros r HR. destruct r; [contradiction|exact HR].
Qed.
Lemma index_entries n : forall i, map_o (entry TInt false) (map (fun j => CInt (Z.of_nat j)) (seq i n)) = Ok (map (fun j => RVals [VInt (Z.of_nat j)]) (seq i n)).
Proof. induction n as [|n IH]; intros i; [reflexivity|]. cbn [seq map map_o]. rewrite IH. reflexivity. Qed.

Lemma table_written kt a : axis_ok kt a -> exists f w,
  fw_add (mkFw None []) (mkTable (rows_from kt 0 (ax_values a)) (axis_desc kt)) = Ok w
  /\ fw_hdu w = [mkCol (txt "Index") (txt "J") [] [] [] (map (fun i => RVals [VInt (Z.of_nat i)]) (seq 0 (length (ax_values a))));
                 mkCol (txt "Value") f [] [] [] (map knot_entry (ax_values a))].
Proof.
  intros [N F]. set (values := ax_values a) in *. destruct (knots_format kt values N F) as [f [n [l [A [B [D [E [M G]]]]]]]].
  exists f. set (T := mkTable (rows_from kt 0 values) (axis_desc kt)).
  assert (C0 : column_cells T 0 = Ok (map (fun j => CInt (Z.of_nat j)) (seq 0 (length values)))) by apply rows_cells.
  assert (C1 : column_cells T 1 = Ok (map axis_to_fits values)) by apply rows_values.
  assert (NC : new_columns T 0 (axis_desc kt) = Ok [mkCol (txt "Index") (txt "J") [] [] [] []; mkCol (txt "Value") f [] [] [] []]).
  { unfold axis_desc. cbn [new_columns]. rewrite C0, C1. cbn [bind cd_type cd_name cd_unit cd_desc]. cbn [binary_format tdim bind]. rewrite A. cbn [bind]. rewrite B. reflexivity. }
  unfold fw_add. cbn [fw_info]. change (t_info T) with (axis_desc kt). rewrite NC. cbn [bind].
  assert (P1 : populate TInt (map (fun j => CInt (Z.of_nat j)) (seq 0 (length values))) (mkCol (txt "Index") (txt "J") [] [] [] [])
     = Ok (mkCol (txt "Index") (txt "J") [] [] [] (map (fun i => RVals [VInt (Z.of_nat i)]) (seq 0 (length values))))).
  { unfold populate. destruct (map (fun j => CInt (Z.of_nat j)) (seq 0 (length values))) eqn:Q.
    - destruct values; [congruence|discriminate Q].
    - cbn [is_many bind]. rewrite <- Q, index_entries. cbn [bind]. rewrite (store_all_ok _ _ 1 "J"%char); [reflexivity|reflexivity|].
      apply Forall_forall. intros r I. apply in_map_iff in I. destruct I as [j [<- _]]. reflexivity. }
  assert (P2 : populate (fits_type kt) (map axis_to_fits values) (mkCol (txt "Value") f [] [] [] [])
     = Ok (mkCol (txt "Value") f [] [] [] (map knot_entry values))).
  { unfold populate. destruct (map axis_to_fits values) eqn:Q.
    - destruct values; [congruence|discriminate Q].
    - rewrite M. cbn [bind]. rewrite E. cbn [bind]. rewrite (store_all_ok _ _ n l); [reflexivity|exact D|exact G]. }
  unfold axis_desc at 1. cbn [append_columns cd_type]. rewrite C0, C1. cbn [bind]. rewrite P1, P2. cbn [bind]. eexists. split; reflexivity.
Qed.

(** ** Names *)
Lemma extname_id s : length s <= 68 -> (forall r, s <> r ++ [" "%char]) -> extname s = s.
Proof. intros L B. unfold extname. rewrite firstn_all2 by exact L. apply strip_id. exact B. Qed.
Lemma axis_hdu_blank hdu_name a : hdu_name <> [] -> (forall r, hdu_name <> r ++ [" "%char]) -> forall r, axis_hdu hdu_name a <> r ++ [" "%char].
Proof.
  intros N B r E. unfold axis_hdu in E. destruct (exists_last N) as [h [c Eh]]. rewrite Eh in E.
  change (list_ascii_of_string (ax_name a) ++ "_"%char :: h ++ [c]) with (list_ascii_of_string (ax_name a) ++ ("_"%char :: h) ++ [c]) in E.
  rewrite app_assoc in E. apply app_inj_tail in E. destruct E as [_ E]. subst c. exact (B h Eh).
Qed.
Lemma axis_hdu_inj hdu_name a b : axis_hdu hdu_name a = axis_hdu hdu_name b -> ax_name a = ax_name b.
Proof.
  unfold axis_hdu. intros H. apply app_inv_tail in H. apply (f_equal string_of_list_ascii) in H.
  rewrite !string_of_list_ascii_of_string in H. exact H.
Qed.
Lemma axis_hdu_other hdu_name a : axis_hdu hdu_name a <> hdu_name.
Proof. intros H. apply (f_equal (@length _)) in H. unfold axis_hdu in H. rewrite app_length in H. cbn [length] in H. lia. Qed.
Lemma axis_name_back hdu_name a : axis_name_of (axis_hdu hdu_name a) hdu_name = list_ascii_of_string (ax_name a).
Proof.
  unfold axis_name_of, axis_hdu. set (n := list_ascii_of_string (ax_name a)). rewrite app_length. cbn [length].
  destruct (Nat.ltb_spec (length n + S (length hdu_name)) (S (length hdu_name))); [lia|].
  replace (length n + S (length hdu_name) - length hdu_name - 1) with (length n) by lia.
  rewrite firstn_app, Nat.sub_diag, firstn_all. cbn [firstn]. apply app_nil_r.
Qed.

Section Grid.
Variable C : Type.
Variable zero : C.

Lemma append_rows_none (exts : list (ext C)) name t : (forall e, In e exts -> ext_name e <> name) -> append_rows exts name t = None.
Proof.
  induction exts as [|e r IH]; intros H; [reflexivity|]. cbn [append_rows].
  destruct (text_eqb (ext_name e) name) eqn:E; [apply text_eqb_iff in E; exfalso; exact (H e (or_introl eq_refl) E)|].
  rewrite IH; [reflexivity|]. intros x I. apply H. right. exact I.
Qed.

Lemma export_axes_ok hdu_name types axes : hdu_name <> [] -> (forall r, hdu_name <> r ++ [" "%char]) -> Forall2 axis_ok types axes -> forall exts : list (ext C),
  Forall (fun a => length (axis_hdu hdu_name a) <= 68) axes -> NoDup (map ax_name axes) ->
  (forall e a, In e exts -> In a axes -> ext_name e <> axis_hdu hdu_name a) ->
  exists tables, export_axes exts hdu_name types axes = Ok (exts ++ tables) /\ Forall2 (is_axis_table hdu_name) axes tables.
Proof.
  intros G1 G2 F. induction F as [|kt a types axes Ha F IH]; intros exts G4 G5 G6.
  - exists []. cbn [export_axes]. rewrite app_nil_r. split; [reflexivity|constructor].
  - cbn [export_axes]. rewrite (axis_table_ok kt a Ha). cbn [bind].
    unfold write_table. change (text_of (ax_name a) ++ txt "_" ++ hdu_name) with (axis_hdu hdu_name a). rewrite append_rows_none.
    2:{ intros e I. apply (G6 e a I). left. reflexivity. }
    destruct (table_written kt a Ha) as [f [w [W1 W2]]]. rewrite W1. cbn [bind].
    inversion_clear G4 as [|? ? G7 G8]. inversion_clear G5 as [|? ? G9 G10].
    rewrite extname_id; [|exact G7|apply axis_hdu_blank; assumption].
    destruct (IH (exts ++ [BinTable (axis_hdu hdu_name a) (fw_hdu w)]) G8 G10) as [tables [T1 T2]].
    { intros e b I Ib. apply in_app_iff in I. destruct I as [I|[<-|[]]]; [apply (G6 e b I); right; exact Ib|].
      cbn [ext_name]. intros E. apply axis_hdu_inj in E. apply G9. rewrite E. apply in_map. exact Ib. }
    rewrite T1. exists (BinTable (axis_hdu hdu_name a) (fw_hdu w) :: tables). rewrite <- app_assoc. split; [reflexivity|].
    constructor; [|exact T2]. exists (mkCol (txt "Index") (txt "J") [] [] [] (map (fun i => RVals [VInt (Z.of_nat i)]) (seq 0 (length (ax_values a))))),
      (mkCol (txt "Value") f [] [] [] (map knot_entry (ax_values a))). rewrite W2. repeat split.
Qed.

(** ** Reading the axes *)
Lemma knots_read kt values : Forall (fun k => of_type kt k /\ storable k) values ->
  exists data knots, map_o (read_entry (fits_type kt) []) (map knot_entry values) = Ok data
    /\ map_o (fits_to_axis kt) data = Ok knots /\ Forall2 same_knot values knots.
Proof.
  intros F. induction F as [|x values [T S1] F [data [knots [A [B D]]]]].
  - exists [], []. split; [reflexivity|]. split; [reflexivity|constructor].
  - assert (X : exists c y, read_entry (fits_type kt) [] (knot_entry x) = Ok c /\ fits_to_axis kt c = Ok y /\ same_knot x y).
    { destruct kt, x; try contradiction T; try (eexists; eexists; split; [reflexivity|]; split; reflexivity).
      destruct S1 as [[h R] _]. exists (CString (q_full q)). pose proof (round_trip h q R) as E. eexists. split; [reflexivity|].
      cbn [fits_to_axis]. rewrite E. cbn [bind]. split; reflexivity. }
    destruct X as [c [y [X1 [X2 X3]]]]. exists (c :: data), (y :: knots). cbn [map map_o]. rewrite X1, A, X2, B. cbn [bind].
    split; [reflexivity|]. split; [reflexivity|]. constructor; assumption.
Qed.
Lemma read_axis_ok kt a hdu_name (e : ext C) : axis_ok kt a -> is_axis_table hdu_name a e ->
  exists b, read_axis kt hdu_name e = Ok b /\ same_axis a b.
Proof.
  intros [N F] [c1 [c2 [-> [E1 [_ [E2 E3]]]]]]. cbn [read_axis find]. rewrite E1. cbn [text_eqb].
  change (text_eqb (txt "Index") (txt "Value")) with false. cbn iota. rewrite E2.
  change (text_eqb (txt "Value") (txt "Value")) with true. cbn iota. rewrite E3, map_length.
  destruct (Nat.eqb_spec (length (ax_values a)) 0) as [L|L]; [destruct (ax_values a); [congruence|discriminate L]|].
  destruct (knots_read kt _ F) as [data [knots [A [B D]]]]. rewrite A. cbn [bind]. rewrite B. cbn [bind].
  eexists. split; [reflexivity|]. split; [|exact D]. cbn [ax_name]. rewrite axis_name_back. symmetry. apply string_of_list_ascii_of_string.
Qed.
Lemma get_ext_ok (exts : list (ext C)) k e : nth_error exts k = Some e -> get_ext exts (Z.of_nat k + 1) = Ok e.
Proof.
  intros H. unfold get_ext. destruct (Z.ltb_spec (Z.of_nat k + 1) 1); [lia|].
  replace (Z.to_nat (Z.of_nat k + 1 - 1)) with k by lia. rewrite H. reflexivity.
Qed.
Lemma Forall2_snoc {A B} (R : A -> B -> Prop) l m a b : Forall2 R l m -> R a b -> Forall2 R (l ++ [a]) (m ++ [b]).
Proof. intros F H. apply Forall2_app; [exact F|]. constructor; [exact H|constructor]. Qed.
Lemma read_axes_ok hdu_name (before : list (ext C)) : forall types axes tables later,
  Forall2 axis_ok types axes -> Forall2 (is_axis_table hdu_name) axes tables ->
  exists axes', read_axes (before ++ tables ++ later) hdu_name (Z.of_nat (length before + length types)) (rev types) = Ok axes' /\ Forall2 same_axis axes axes'.
Proof.
  intros types. induction types as [|kt types IH] using rev_ind; intros axes tables later F T.
  - inversion F; subst. inversion T; subst. exists []. split; [reflexivity|constructor].
  - apply Forall2_app_inv_l in F. destruct F as [axes0 [la [F1 [F2 ->]]]]. inversion F2 as [|? a ? ? F3 F4]; subst. inversion F4; subst. clear F4 F2.
    apply Forall2_app_inv_l in T. destruct T as [tab0 [lt [T1 [T2 ->]]]]. inversion T2 as [|? e ? ? T3 T4]; subst. inversion T4; subst. clear T4 T2.
    rewrite rev_app_distr. cbn [rev app read_axes].
    assert (L : length types = length tab0) by (rewrite (Forall2_length _ _ _ F1); exact (Forall2_length _ _ _ T1)).
    assert (Hn : nth_error (before ++ (tab0 ++ [e]) ++ later) (length before + length types) = Some e).
    { rewrite nth_error_app2 by lia. replace (length before + length types - length before) with (length tab0) by lia.
      rewrite <- app_assoc. rewrite nth_error_app2 by lia. rewrite Nat.sub_diag. reflexivity. }
    replace (Z.of_nat (length before + length (types ++ [kt]))) with (Z.of_nat (length before + length types) + 1)%Z by (rewrite app_length; cbn [length]; lia).
    rewrite (get_ext_ok _ _ _ Hn). cbn [bind]. destruct (read_axis_ok kt a hdu_name e F3 T3) as [b [B1 B2]]. rewrite B1. cbn [bind].
    replace (Z.of_nat (length before + length types) + 1 - 1)%Z with (Z.of_nat (length before + length types)) by lia.
    destruct (IH axes0 tab0 ([e] ++ later) F1 T1) as [axes' [A1 A2]]. rewrite <- app_assoc. rewrite A1. cbn [bind].
    exists (axes' ++ [b]). split; [reflexivity|]. apply Forall2_snoc; assumption.
Qed.

(** ** Pixels *)
Lemma pixel_horner sizes coords : pixel_number sizes coords = horner sizes coords.
Proof. revert coords. induction sizes as [|n sizes IH]; intros [|c coords]; reflexivity. Qed.

Lemma in_range_dec sizes : forall coords, in_range sizes coords \/ ~ in_range sizes coords.
Proof.
  unfold in_range. induction sizes as [|n sizes IH]; intros [|c coords].
  - left. constructor.
  - right. intros H. inversion H.
  - right. intros H. inversion H.
  - destruct (Nat.lt_ge_cases c n) as [L|L]; [|right; intros H; inversion H; subst; lia].
    destruct (IH coords) as [H|H]; [left; constructor; assumption|right; intros H1; inversion H1; subst; contradiction].
Qed.
Lemma filter_fst {A B} (P : A -> bool) (l : list (A * B)) : map fst (filter (fun x => P (fst x)) l) = filter P (map fst l).
Proof. induction l as [|[a b] l IH]; [reflexivity|]. cbn [filter map fst]. destruct (P a); cbn [map fst]; rewrite IH; reflexivity. Qed.
Lemma map_fst_combine {A B} (l : list A) : forall m : list B, length l = length m -> map fst (combine l m) = l.
Proof. induction l as [|a l IH]; intros [|b m] H; try discriminate; [reflexivity|]. cbn [combine map fst]. rewrite IH; [reflexivity|]. injection H. auto. Qed.
Lemma Forall2_map_eq {A B D} (f : A -> D) (g : B -> D) l m : Forall2 (fun a b => f a = g b) l m -> map f l = map g m.
Proof. induction 1 as [|a b l m E F IH]; [reflexivity|]. cbn [map]. rewrite E, IH. reflexivity. Qed.
Lemma in_range_upd sizes : forall ax n coords, nth_error sizes ax = Some n -> 0 < n ->
  (in_range (upd sizes ax 1) coords <-> in_range sizes coords /\ nth_error coords ax = Some 0).
Proof.
  unfold in_range. induction sizes as [|m sizes IH]; intros ax n coords E P; [destruct ax; discriminate|]. destruct ax as [|ax].
  - injection E as ->. cbn [upd]. split.
    + intros H. inversion H as [|c ? cr ? L F]; subst. assert (c = 0) by lia. subst c. split; [constructor; assumption|reflexivity].
    + intros [H H1]. inversion H as [|c ? cr ? L F]; subst. injection H1 as ->. constructor; [lia|assumption].
  - cbn [upd]. split.
    + intros H. inversion H as [|c ? cr ? L F]; subst. apply (IH ax n cr E P) in F. destruct F as [F1 F2]. split; [constructor; assumption|exact F2].
    + intros [H H1]. inversion H as [|c ? cr ? L F]; subst. constructor; [assumption|]. apply (IH ax n cr E P). split; assumption.
Qed.
Lemma cell_count_nonzero sizes : positive sizes -> cell_count sizes <> 0.
Proof. intros P. induction P as [|n sizes H P IH]; cbn; [lia|]. fold (cell_count sizes). nia. Qed.

(** What is at the coordinates of a grid, through its pixels. *)
Definition shows (sizes : list nat) (pixels : list C) (v : view knot) (cells : list C) : Prop :=
  forall coords, length coords = length sizes ->
    (in_range sizes coords -> exists c, nth_error pixels (horner sizes coords) = Some c /\ at_read v cells coords = Ok c)
    /\ (~ in_range sizes coords -> at_read v cells coords = Throw).
Lemma shows_self axes cells : length cells = cell_count (axes_sizes axes) -> shows (axes_sizes axes) cells (new_view axes) cells.
Proof.
  intros L coords Lc. assert (Lc' : length coords = length axes) by (rewrite Lc; unfold axes_sizes; apply map_length).
  assert (A : in_range (axes_sizes axes) coords <-> accepted (axes_sizes axes) [] coords) by (unfold accepted; firstorder).
  destruct (at_read_spec axes [] (new_view axes) cells coords eq_refl L Lc') as [H1 H2]. split; intros H.
  - destruct (H1 (proj1 A H)) as [full [c [Ha [Hi [Hr _]]]]]. exists c. split; [|exact Hr].
    apply in_content in Hi; [|exact L]. destruct Hi as [_ Hi]. destruct Ha as [Hl [_ Hs]].
    replace coords with full; [exact Hi|]. apply nth_error_ext_eq. intros i. apply Hs. intros [].
  - apply H2. intros Ac. apply H. apply A. exact Ac.
Qed.
Lemma pixels_ok axes fixes v cells : fix_chain (new_view axes) fixes = Ok v -> length fixes <= 1 ->
  length cells = cell_count (axes_sizes axes) -> positive (axes_sizes (v_axes_fixed v)) ->
  exists pixels, grid_pixels zero v cells = Ok pixels /\ length pixels = cell_count (axes_sizes (v_axes_fixed v))
    /\ shows (axes_sizes (v_axes_fixed v)) pixels v cells.
Proof.
  intros E L1 L P. destruct fixes as [|[ax k] [|? ?]]; [| |cbn in L1; lia].
  - injection E as <-. destruct (visit_unsliced axes cells (S (length cells)) ltac:(lia)) as [out [V O]].
    assert (LO : length out = length cells) by (rewrite <- O; symmetry; apply map_length).
    exists cells. unfold grid_pixels. rewrite V. cbn [bind]. cbv zeta. rewrite view_size_spec. cbn [new_view v_axes_fixed]. rewrite LO, <- L.
    rewrite Nat.ltb_irrefl, Nat.sub_diag, O. cbn [repeat]. rewrite app_nil_r. split; [reflexivity|]. split; [reflexivity|]. apply shows_self. exact L.
  - assert (E1 : fix_axis_by_index (new_view axes) ax k = Ok v).
    { cbn [fix_chain] in E. destruct (fix_axis_by_index (new_view axes) ax k) as [v1| | |]; try discriminate E. exact E. }
    destruct (single_slice_meta axes ax k v E1) as [_ [_ [SZ SU]]].
    pose proof (fix_chain_slice _ _ _ E) as I. destruct I as (_ & _ & _ & _ & I). destruct (I ax k (or_introl eq_refl)) as [n [In1 In2]].
    set (sizes := axes_sizes axes) in *.
    assert (PS : positive sizes).
    { rewrite SU in P. revert In1 In2 P. clear. unfold positive. revert ax. induction sizes as [|m sizes IH]; intros ax E L P; [constructor|].
      destruct ax as [|ax]; cbn [upd] in P; inversion P; subst.
      - injection E as ->. constructor; [lia|assumption].
      - constructor; [assumption|]. eapply IH; eassumption. }
    destruct (visit_spec axes [(ax, k)] v cells (S (length cells)) E PS L ltac:(lia)) as [out [V F]].
    fold sizes in F.
    assert (EO : map snd out = map snd (filter (fun x => matchesb [(ax, k)] (fst x)) (content sizes cells))).
    { apply (Forall2_map_eq snd snd). revert F. generalize (filter (fun x => matchesb [(ax, k)] (fst x)) (content sizes cells)). clear. intros l F.
      induction F as [|a b o m [H _] F IH]; constructor; assumption. }
    set (sel := filter (fun x => matchesb [(ax, k)] (fst x)) (content sizes cells)) in *.
    assert (EF : map fst sel = map (fun c => upd c ax k) (all_coords (upd sizes ax 1))).
    { unfold sel. rewrite (filter_fst (matchesb [(ax, k)])). unfold content. rewrite map_fst_combine by (rewrite all_coords_length; symmetry; exact L).
      exact (filter_all_coords_fixed sizes ax k n In1 In2). }
    assert (LS : length sel = cell_count (upd sizes ax 1)).
    { rewrite <- (map_length fst), EF, map_length. apply all_coords_length. }
    assert (LO : length out = length sel) by (rewrite <- (map_length snd out), EO; apply map_length).
    exists (map snd sel). unfold grid_pixels. rewrite V. cbn [bind]. cbv zeta. rewrite view_size_spec, SU. fold sizes. rewrite LO, LS.
    rewrite Nat.ltb_irrefl, Nat.sub_diag, EO. cbn [repeat]. rewrite app_nil_r. split; [reflexivity|].
    split; [rewrite map_length; exact LS|]. intros coords Lc. rewrite upd_length in Lc.
    assert (Lc' : length coords = length axes) by (rewrite Lc; unfold sizes, axes_sizes; apply map_length).
    pose proof (in_range_upd sizes ax n coords In1 ltac:(lia)) as IU.
    assert (A : in_range (upd sizes ax 1) coords <-> accepted sizes [(ax, k)] coords).
    { rewrite IU. unfold accepted. split; intros [H1 H2]; (split; [exact H1|]); [|apply (H2 ax k); left; reflexivity].
      intros a j [H|[]]. injection H as <- <-. exact H2. }
    destruct (at_read_spec axes [(ax, k)] v cells coords E L Lc') as [H1 H2]. fold sizes in H1, H2. split; intros H.
    + destruct (H1 (proj1 A H)) as [full [c [Ha [Hi [Hr _]]]]]. exists c. split; [|exact Hr].
      pose proof (nth_error_horner _ _ H) as Hn. pose proof (map_nth_error (fun c => upd c ax k) _ _ Hn) as Hm. rewrite <- EF in Hm.
      destruct (nth_error sel (horner (upd sizes ax 1) coords)) as [[f c1]|] eqn:Es.
      2:{ rewrite nth_error_map, Es in Hm. discriminate Hm. }
      rewrite nth_error_map, Es in Hm. injection Hm as ->. rewrite nth_error_map, Es. cbn [option_map snd]. f_equal.
      apply nth_error_In in Es. apply filter_In in Es. destruct Es as [Es _].
      apply in_content in Es; [|exact L]. apply in_content in Hi; [|exact L]. destruct Es as [_ Es], Hi as [_ Hi].
      assert (full = upd coords ax k).
      { apply (addresses_unique _ _ _ _ Ha). split; [apply upd_length|]. split.
        - intros a j [X|[]]. injection X as <- <-. apply upd_same. rewrite Lc. apply nth_error_Some. congruence.
        - intros a X. apply upd_other. intros ->. apply X. left. reflexivity. }
      subst full. congruence.
    + apply H2. intros Ac. apply H. apply A. exact Ac.
Qed.

(** ** Filling the new grid *)
Lemma nth_error_firstn {A} : forall n j (l : list A), j < n -> nth_error (firstn n l) j = nth_error l j.
Proof.
  induction n as [|n IH]; intros j l H; [lia|]. destruct l as [|y l]; [destruct j; reflexivity|].
  destruct j as [|j]; [reflexivity|]. cbn [firstn nth_error]. apply IH. lia.
Qed.
Lemma fill_ok (h : index_helper) (data : list C) : forall fuel i cells, length cells = length data -> i <= length data ->
  length data - i < fuel -> firstn i cells = firstn i data ->
  fill_from h cells data i fuel (mkIter i []) = Ok data.
Proof.
  induction fuel as [|fuel IH]; intros i cells L Li Lf F; [lia|]. cbn [fill_from it_pos].
  destruct (Nat.eqb_spec i (length cells)) as [->|N].
  - rewrite firstn_all in F. rewrite L, firstn_all in F. rewrite F. reflexivity.
  - destruct (nth_error data i) as [x|] eqn:Ex; [|apply nth_error_None in Ex; lia]. cbn [of_option bind].
    destruct (list_set_spec cells i x ltac:(lia)) as [cells' [E1 [E2 E3]]]. rewrite E1. cbn [of_option bind iter_incr it_fixed it_pos].
    apply IH; [lia|lia|lia|]. apply nth_error_ext_eq. intros j. specialize (E3 j). destruct (Nat.lt_ge_cases j (S i)) as [Lj|Lj].
    + rewrite !nth_error_firstn by exact Lj. rewrite E3. destruct (Nat.eqb_spec j i) as [Ej|Nj]; [rewrite Ej; congruence|].
      rewrite <- (nth_error_firstn i j cells), <- (nth_error_firstn i j data), F by lia. reflexivity.
    + rewrite !(proj2 (nth_error_None _ _)); [reflexivity| |]; rewrite firstn_length; lia.
Qed.
Lemma begin_new {V} (axes : list (axis V)) : view_begin (new_view axes) = Ok (mkIter 0 []).
Proof.
  unfold view_begin. cbn [new_view v_fixed v_axes]. generalize (v_helper (new_view axes)) as h, 0 as i, (mkIter 0 []) as it.
  induction (length axes) as [|n IH]; intros h i it; [reflexivity|]. simpl. apply IH.
Qed.

Lemma same_sizes axes axes' : Forall2 same_axis axes axes' -> axes_sizes axes' = axes_sizes axes.
Proof.
  intros F. unfold axes_sizes. symmetry. apply Forall2_map_eq. induction F as [|a b l m [_ H] F IH]; constructor; [|exact IH].
  unfold ax_size. exact (Forall2_length _ _ _ H).
Qed.
Lemma axes_positive types axes : Forall2 axis_ok types axes -> positive (axes_sizes axes).
Proof.
  intros F. induction F as [|kt a types axes [N _] F IH]; [constructor|]. constructor; [|exact IH]. unfold ax_size.
  destruct (ax_values a); [congruence|cbn; lia].
Qed.

Lemma export_ok axes fixes v cells types exts hdu_name : fix_chain (new_view axes) fixes = Ok v -> length fixes <= 1 ->
  length cells = cell_count (axes_sizes axes) -> Forall2 axis_ok types (v_axes_fixed v) -> good_name exts hdu_name (v_axes_fixed v) ->
  exists pixels tables, grid_export zero exts hdu_name types v cells = Ok (exts ++ Image hdu_name (axes_sizes (v_axes_fixed v)) pixels :: tables)
    /\ length pixels = cell_count (axes_sizes (v_axes_fixed v))
    /\ shows (axes_sizes (v_axes_fixed v)) pixels v cells /\ Forall2 (is_axis_table hdu_name) (v_axes_fixed v) tables.
Proof.
  intros E L1 L F G. destruct (pixels_ok axes fixes v cells E L1 L (axes_positive _ _ F)) as [pixels [P1 [P2 P3]]].
  pose proof G as [G1 [G2 [G3 [G4 [G5 G6]]]]].
  set (im := Image hdu_name (axes_sizes (v_axes_fixed v)) pixels).
  destruct (export_axes_ok hdu_name types (v_axes_fixed v) G1 G2 F (exts ++ [im]) G4 G5) as [tables [T1 T2]].
  { intros e a I Ia. apply in_app_iff in I. destruct I as [I|[<-|[]]]; [apply (G6 e I); exact Ia|].
    cbn [im ext_name]. intros X. symmetry in X. exact (axis_hdu_other _ _ X). }
  exists pixels, tables. split; [|auto]. unfold grid_export. cbv zeta. rewrite P1. cbn [bind]. unfold add_image.
  assert (X : existsb (fun e : ext C => text_eqb (ext_name e) hdu_name) exts = false).
  { apply not_true_iff_false. intros X. apply existsb_exists in X. destruct X as [e [I X]]. apply text_eqb_iff in X. destruct (G6 e I) as [Y _]. exact (Y X). }
  rewrite X. rewrite extname_id by assumption. cbn [bind]. fold im. rewrite T1, <- app_assoc. reflexivity.
Qed.
Lemma import_ok types axes hdu_name exts pixels tables later : Forall2 axis_ok types axes -> Forall2 (is_axis_table hdu_name) axes tables ->
  length pixels = cell_count (axes_sizes axes) ->
  exists axes', grid_import zero (exts ++ (Image hdu_name (axes_sizes axes) pixels :: tables) ++ later) types (Z.of_nat (length exts) + 1) = Ok (new_view axes', pixels)
    /\ Forall2 same_axis axes axes'.
Proof.
  intros F T L. set (im := Image hdu_name (axes_sizes axes) pixels).
  destruct (read_axes_ok hdu_name (exts ++ [im]) types axes tables later F T) as [axes' [A1 A2]]. exists axes'. split; [|exact A2].
  unfold grid_import. rewrite (get_ext_ok _ _ im).
  2:{ rewrite nth_error_app2 by lia. rewrite Nat.sub_diag. reflexivity. }
  cbn [bind]. change (ext_name im) with hdu_name.
  replace (Z.of_nat (length exts) + 1 + Z.of_nat (length types))%Z with (Z.of_nat (length (exts ++ [im]) + length types)) by (rewrite app_length; cbn [length]; lia).
  replace (exts ++ (im :: tables) ++ later) with ((exts ++ [im]) ++ tables ++ later) by (rewrite <- app_assoc; reflexivity).
  rewrite A1. cbn [bind]. cbv zeta. cbn [im]. rewrite begin_new. cbn [bind]. rewrite fill_ok; [reflexivity| | | |reflexivity].
  - rewrite repeat_length, alloc_size_spec, (same_sizes _ _ A2). symmetry. exact L.
  - lia.
  - rewrite repeat_length, alloc_size_spec, (same_sizes _ _ A2), L. lia.
Qed.
Lemma shows_same sizes pixels v1 cells1 v2 cells2 : shows sizes pixels v1 cells1 -> shows sizes pixels v2 cells2 ->
  forall coords, length coords = length sizes -> at_read v1 cells1 coords = at_read v2 cells2 coords.
Proof.
  intros H1 H2 coords L. destruct (H1 coords L) as [A1 B1], (H2 coords L) as [A2 B2]. destruct (in_range_dec sizes coords) as [R|R].
  - destruct (A1 R) as [c1 [X1 Y1]], (A2 R) as [c2 [X2 Y2]]. congruence.
  - rewrite (B1 R), (B2 R). reflexivity.
Qed.

Lemma fixed_length axes fixes (v : view knot) : fix_chain (new_view axes) fixes = Ok v -> length fixes <= 1 ->
  length (axes_sizes (v_axes_fixed v)) = length axes.
Proof.
  intros E L1. destruct fixes as [|[ax k] [|? ?]]; [| |cbn in L1; lia].
  - injection E as <-. cbn [new_view v_axes_fixed]. unfold axes_sizes. apply map_length.
  - assert (E1 : fix_axis_by_index (new_view axes) ax k = Ok v).
    { cbn [fix_chain] in E. destruct (fix_axis_by_index (new_view axes) ax k) as [v1| | |]; try discriminate E. exact E. }
    destruct (single_slice_meta axes ax k v E1) as [_ [_ [_ SU]]]. rewrite SU, upd_length. unfold axes_sizes. apply map_length.
Qed.

(** ** An axis without knots *)
Lemma export_axes_throw hdu_name types axes : hdu_name <> [] -> (forall r, hdu_name <> r ++ [" "%char]) ->
  Forall2 (fun kt a => Forall (fun k => of_type kt k /\ storable k) (ax_values a)) types axes -> forall exts : list (ext C),
  Forall (fun a => length (axis_hdu hdu_name a) <= 68) axes -> NoDup (map ax_name axes) ->
  (forall e a, In e exts -> In a axes -> ext_name e <> axis_hdu hdu_name a) ->
  (exists a, In a axes /\ ax_values a = []) -> export_axes exts hdu_name types axes = Throw.
Proof.
  intros G1 G2 F. induction F as [|kt a types axes Ha F IH]; intros exts G4 G5 G6 [x [Ix Ex]]; [contradiction|]. cbn [export_axes].
  destruct (ax_values a) as [|y r] eqn:Ev.
  - unfold axis_table. rewrite axis_info_ok, Ev. reflexivity.
  - assert (Ho : axis_ok kt a) by (split; [rewrite Ev; discriminate|rewrite Ev; exact Ha]).
    rewrite (axis_table_ok kt a Ho). cbn [bind].
    unfold write_table. change (text_of (ax_name a) ++ txt "_" ++ hdu_name) with (axis_hdu hdu_name a). rewrite append_rows_none.
    2:{ intros e I. apply (G6 e a I). left. reflexivity. }
    destruct (table_written kt a Ho) as [f [w [W1 W2]]]. rewrite W1. cbn [bind].
    inversion_clear G4 as [|? ? G7 G8]. inversion_clear G5 as [|? ? G9 G10].
    rewrite extname_id; [|exact G7|apply axis_hdu_blank; assumption]. apply IH; [exact G8|exact G10| |].
    + intros e b I Ib. apply in_app_iff in I. destruct I as [I|[<-|[]]]; [apply (G6 e b I); right; exact Ib|].
      cbn [ext_name]. intros E. apply axis_hdu_inj in E. apply G9. rewrite E. apply in_map. exact Ib.
    + exists x. split; [|exact Ex]. destruct Ix as [<-|Ix]; [congruence|exact Ix].
Qed.
Lemma zero_count sizes : In 0 sizes -> cell_count sizes = 0.
Proof. induction sizes as [|n sizes IH]; [intros []|]. intros [->|H]; [reflexivity|]. cbn. fold (cell_count sizes). rewrite IH by exact H. lia. Qed.
Lemma export_empty axes (cells : list C) types exts hdu_name : length cells = cell_count (axes_sizes axes) ->
  Forall2 (fun kt a => Forall (fun k => of_type kt k /\ storable k) (ax_values a)) types axes -> good_name exts hdu_name axes ->
  (exists a, In a axes /\ ax_values a = []) -> grid_export zero exts hdu_name types (new_view axes) cells = Throw.
Proof.
  intros L F G E. pose proof G as [G1 [G2 [G3 [G4 [G5 G6]]]]].
  assert (Z0 : cell_count (axes_sizes axes) = 0).
  { destruct E as [a [I E]]. apply zero_count. unfold axes_sizes. apply in_map_iff. exists a. split; [unfold ax_size; rewrite E; reflexivity|exact I]. }
  destruct (visit_unsliced axes cells (S (length cells)) ltac:(lia)) as [out [V O]].
  assert (LO : length out = length cells) by (rewrite <- O; symmetry; apply map_length).
  unfold grid_export, grid_pixels. cbv zeta. rewrite V. cbn [bind]. rewrite view_size_spec. cbn [new_view v_axes_fixed].
  rewrite LO, <- L, Nat.ltb_irrefl. cbn [bind]. unfold add_image.
  assert (X : existsb (fun e : ext C => text_eqb (ext_name e) hdu_name) exts = false).
  { apply not_true_iff_false. intros X. apply existsb_exists in X. destruct X as [e [I X]]. apply text_eqb_iff in X. destruct (G6 e I) as [Y _]. exact (Y X). }
  rewrite X. cbn [bind]. apply export_axes_throw; try assumption.
  intros e a I Ia. apply in_app_iff in I. destruct I as [I|[<-|[]]]; [apply (G6 e I); exact Ia|].
  cbn [ext_name]. rewrite extname_id by assumption. intros X1. symmetry in X1. exact (axis_hdu_other _ _ X1).
Qed.
End Grid.
