(** C46 (columns, rows and tables) and C79 (casts). *)
From Coq Require Import QArith ZArith List Arith Ascii String Bool Lia.
From Verif Require Import Common TextModel TextProofs DblModel TableModel TableSpec TableProofs.
Import ListNotations.
Local Open Scope nat_scope.
Local Notation length := List.length.

(** A column name is accepted iff it is not empty and has no line break. *)
Theorem C46_column_names : forall name ty unit desc d,
  new_desc name ty unit desc = Ok d <->
  name <> [] /\ one_line name /\ d = mkDesc name ty unit desc.
Proof. exact new_desc_ok. Qed.
Print Assumptions C46_column_names.

(** A list of columns is accepted iff it is not empty and the names differ. *)
Theorem C46_column_lists : forall l i,
  new_info l = Ok i <-> i = l /\ l <> [] /\ NoDup (names_of l).
Proof. exact new_info_ok. Qed.
Print Assumptions C46_column_lists.

(** Looking up a name finds the one column with the name, or nothing when there is none. *)
Theorem C46_find_column : forall l i, new_info l = Ok i -> forall name,
  (forall k, find_col i name = Some k <-> nth_error (names_of l) k = Some name) /\
  (find_col i name = None <-> ~ In name (names_of l)).
Proof.
  intros l i H name. apply new_info_ok in H. destruct H as [-> [_ N]].
  split; [intros k; apply find_col_iff; exact N | apply find_col_none].
Qed.
Print Assumptions C46_find_column.

(** Asking for the description of a name gives that of the column with the name, and throws when there is none. *)
Theorem C46_description_by_name : forall l i, new_info l = Ok i -> forall name,
  (forall d, get_desc_by_name i name = Ok d <-> In d l /\ cd_name d = name) /\
  (get_desc_by_name i name = Throw <-> ~ In name (names_of l)).
Proof.
  intros l i H name. destruct (C46_find_column l i H name) as [F N]. apply new_info_ok in H. destruct H as [-> [_ ND]].
  unfold get_desc_by_name. destruct (find_col l name) as [k|] eqn:E.
  - pose proof (proj1 (F k) eq_refl) as G. unfold names_of in G. rewrite nth_error_map in G.
    destruct (nth_error l k) as [d|] eqn:D; [|discriminate G]. cbn in G. injection G as G. cbn [of_option]. split.
    + intros d'. split; [intros Q; injection Q as <-; split; [apply nth_error_In in D; exact D|exact G]|].
      intros [I C]. apply In_nth_error in I. destruct I as [k' D']. f_equal.
      assert (k = k') as ->; [|congruence]. assert (Some k' = Some k) as X; [|congruence]. symmetry. apply F. unfold names_of. rewrite nth_error_map, D'. cbn. congruence.
    + split; [discriminate|]. intros C. exfalso. apply C. apply (nth_error_In _ k). apply F. reflexivity.
  - assert (~ In name (names_of l)) as C by (apply N; reflexivity). split; [|tauto]. intros d. split; [discriminate|].
    intros [I Q]. exfalso. apply C. unfold names_of. rewrite <- Q. apply in_map, I.
Qed.
Print Assumptions C46_description_by_name.

(** Two column lists compare equal iff they have the same names, types and units in
    the same order. *)
Theorem C46_column_equality : forall a b, info_eqb a b = true <-> columns_of a = columns_of b.
Proof. exact info_eqb_iff. Qed.
Print Assumptions C46_column_equality.

(** A row is accepted iff the cells have the types of the columns, one each, and the
    texts are not empty and have no line break. *)
Theorem C46_rows : forall values i r,
  new_row values (Some i) = Ok r <-> r = mkRow values i /\ fits values i.
Proof. exact new_row_ok. Qed.
Print Assumptions C46_rows.

(** A refused construction throws. *)
Theorem C46_refused_throws :
  (forall n t u d, (forall r, new_desc n t u d <> Ok r) -> new_desc n t u d = Throw) /\
  (forall l, (forall i, new_info l <> Ok i) -> new_info l = Throw) /\
  (forall v i, (forall r, new_row v i <> Ok r) -> new_row v i = Throw) /\
  (forall v, new_row v None = Throw) /\
  (forall rows, (forall t, new_table rows <> Ok t) -> new_table rows = Throw).
Proof.
  split; [|split; [|split; [|split]]].
  - intros n t u d H. destruct (new_desc_outcomes n t u d) as [[r E]|E]; [exfalso; apply (H r E) | exact E].
  - intros l H. destruct (new_info_outcomes l) as [[r E]|E]; [exfalso; apply (H r E) | exact E].
  - intros v i H. destruct (new_row_outcomes v i) as [[r E]|E]; [exfalso; apply (H r E) | exact E].
  - reflexivity.
  - intros rows H. destruct (new_table_outcomes rows) as [[r E]|E]; [exfalso; apply (H r E) | exact E].
Qed.
Print Assumptions C46_refused_throws.

(** Cells are reached by position and by column name; anything else throws. *)
Theorem C46_cell_access : forall l i values r,
  new_info l = Ok i -> new_row values (Some i) = Ok r ->
  (forall k c, row_at r k = Ok c <-> nth_error values k = Some c) /\
  (forall k, row_at r k = Throw <-> length values <= k) /\
  (forall name c, row_named r name = Ok c <->
     exists k, nth_error (names_of l) k = Some name /\ nth_error values k = Some c) /\
  (forall name, row_named r name = Throw <-> ~ In name (names_of l)) /\
  (forall name, row_named r name <> UB).
Proof.
  intros l i values r H R. apply new_info_ok in H. destruct H as [-> [_ N]].
  pose proof R as R0. apply new_row_ok in R0. destruct R0 as [E _].
  split; [|split; [|split; [|split]]].
  - intros k c. rewrite row_at_ok, E. reflexivity.
  - intros k. rewrite row_at_throw, E. reflexivity.
  - intros name c. apply (row_named_ok values l r name c R N).
  - intros name. apply (row_named_throw values l r name R).
  - intros name. apply (row_named_throw values l r name R).
Qed.
Print Assumptions C46_cell_access.

(** A table is accepted iff it has a row and all its rows have the same columns. *)
Theorem C46_tables : forall rows t,
  new_table rows = Ok t <->
  exists r0 rest, rows = r0 :: rest /\ t = mkTable rows (r_info r0) /\
    forall r, In r rows -> columns_of (r_info r) = columns_of (r_info r0).
Proof. exact new_table_ok. Qed.
Print Assumptions C46_tables.

(** The rows of a table are reached by position; a position after the last one throws. *)
Theorem C46_row_access : forall rows t, new_table rows = Ok t ->
  (forall k r, table_at t k = Ok r <-> nth_error rows k = Some r) /\
  (forall k, table_at t k = Throw <-> length rows <= k).
Proof.
  intros rows t H. apply new_table_ok in H. destruct H as (r0 & rest & -> & -> & _). split.
  - intros k r. exact (table_at_ok _ k r).
  - intros k. unfold table_at. cbn [t_rows]. destruct (Nat.leb_spec (length (r0 :: rest)) k) as [L|L]; [tauto|].
    split; [|lia]. apply nth_error_Some in L. destruct (nth_error (r0 :: rest) k); [discriminate|congruence].
Qed.
Print Assumptions C46_row_access.

(** Tables appended to a writer are accepted iff they all have the columns of the first,
    and the rows are kept in order. *)
Theorem C46_appending_tables : forall ts w,
  add_all empty_writer ts = Ok w <->
  (ts = [] /\ w = empty_writer) \/
  exists t0 r, ts = t0 :: r /\
    w = mkWriter (Some (t_info t0)) (flat_map t_rows ts) /\
    forall t, In t ts -> columns_of (t_info t) = columns_of (t_info t0).
Proof. exact add_all_ok. Qed.
Print Assumptions C46_appending_tables.

Definition ex_info : colinfo :=
  [mkDesc (txt "id") TLong [] []; mkDesc (txt "name") TString (txt "m") []; mkDesc (txt "z") TDouble [] []].
Definition ex_row : list cell := [CLong 3; CString (txt "a b"); CDouble (Fin 1%Q)].
Example C46_case :
  new_info ex_info = Ok ex_info /\
  new_info (ex_info ++ [mkDesc (txt "id") TBool [] []]) = Throw /\
  new_row ex_row (Some ex_info) = Ok (mkRow ex_row ex_info) /\
  new_row [CLong 3; CString []; CDouble (Fin 1%Q)] (Some ex_info) = Throw /\
  new_row [CLong 3; CInt 4; CDouble (Fin 1%Q)] (Some ex_info) = Throw /\
  row_named (mkRow ex_row ex_info) (txt "name") = Ok (CString (txt "a b")) /\
  (exists t, new_table [mkRow ex_row ex_info; mkRow ex_row ex_info] = Ok t).
Proof. vm_compute. repeat split. eexists. reflexivity. Qed.

Lemma Forall2_impl' {A B} (P Q : A -> B -> Prop) : (forall a b, P a b -> Q a b) -> forall l l', Forall2 P l l' -> Forall2 Q l l'.
Proof. intros H l l' F. induction F; constructor; auto. Qed.

(** ** C79 *)

(** Casting never leaves the range of the target type, whatever the cell. *)
Theorem C79_casts_stay_in_range : forall c z, cell_ok c ->
  (cast_int c = Ok z -> is_int32 z) /\ (cast_long c = Ok z -> is_int64 z).
Proof. intros c z K. split; [apply cast_int_range | apply cast_long_range]; exact K. Qed.
Print Assumptions C79_casts_stay_in_range.

(** A wider target gives the same value: int32 to int64 for every cell, int64 to double
    and float to double for cells that are not texts. *)
Theorem C79_wider_casts_agree : forall strtod c,
  (forall z, cast_int c = Ok z -> cast_long c = Ok z) /\
  ((forall s, c <> CString s) ->
     (forall z, cast_long c = Ok z -> cast_double strtod c = Ok (dbl_of_Z z)) /\
     (forall d, cast_float strtod c = Ok d -> cast_double strtod c = Ok d)).
Proof.
  intros strtod c. split; [apply cast_int_long|]. intros N.
  split; [intros z; apply cast_long_double; exact N | intros d; apply cast_float_double; exact N].
Qed.
Print Assumptions C79_wider_casts_agree.

(** Casting to the cell's own type returns the cell's value, and a narrower numeric target throws. *)
Theorem C79_exact_and_narrowing_casts : forall strtod,
  (forall b, cast_bool (CBool b) = Ok b) /\
  (forall z, cast_int (CInt z) = Ok z /\ cast_long (CLong z) = Ok z /\ cast_int (CLong z) = Throw) /\
  (forall d, cast_double strtod (CDouble d) = Ok d /\ cast_float strtod (CFloat d) = Ok d /\
     cast_float strtod (CDouble d) = Throw /\ cast_long (CDouble d) = Throw /\ cast_long (CFloat d) = Throw) /\
  (forall l, cast_vdouble strtod (CVDouble l) = Ok l).
Proof. intros strtod. repeat split. Qed.
Print Assumptions C79_exact_and_narrowing_casts.

(** Which kinds of cells a scalar target takes; the others are refused with an exception. *)
Theorem C79_refused_kinds : forall strtod c,
  (match c with CBool _ => True | _ => cast_bool c = Throw end) /\
  (match c with CBool _ | CInt _ | CString _ => True | _ => cast_int c = Throw end) /\
  (match c with CBool _ | CInt _ | CLong _ | CString _ => True | _ => cast_long c = Throw end) /\
  (match c with CBool _ | CInt _ | CLong _ | CFloat _ | CString _ => True | _ => cast_float strtod c = Throw end) /\
  (match c with CBool _ | CInt _ | CLong _ | CFloat _ | CDouble _ | CString _ => True
   | _ => cast_double strtod c = Throw end) /\
  (match c with CNInt _ _ | CNLong _ _ | CNFloat _ _ | CNDouble _ _ => cast_vdouble strtod c = Throw | _ => True end).
Proof. intros strtod c. destruct c; cbn; repeat split. Qed.
Print Assumptions C79_refused_kinds.

(** A text becomes the number it starts with; a text that starts with none, or with
    one beyond the range of doubles, is rejected. *)
Theorem C79_text_to_double : forall strtod s,
  (forall d, cast_double strtod (CString s) = Ok d <-> strtod s = Some d /\ d <> PInf /\ d <> NInf) /\
  (strtod s = None \/ strtod s = Some PInf \/ strtod s = Some NInf -> cast_double strtod (CString s) = Throw) /\
  cast_float strtod (CString s) = cast_double strtod (CString s).
Proof.
  intros strtod s. cbn. unfold dbl_of_text. split; [|split; [|reflexivity]].
  - intro d. destruct (strtod s) as [d'|]; [|split; [discriminate|intros [H _]; discriminate]]. split.
    + intro E. destruct d'; cbn in E; try discriminate; injection E as <-; repeat split; discriminate.
    + intros (E & P & N). injection E as ->. destruct d; cbn; congruence.
  - intros [E|[E|E]]; rewrite E; reflexivity.
Qed.
Print Assumptions C79_text_to_double.

(** A text becomes the integer it starts with; int64 saturates, int32 refuses what does
    not fit, and both refuse a text that starts with no integer. *)
Theorem C79_text_to_integer : forall s,
  (forall v, starts_with_integer s v ->
     cast_long (CString s) = Ok (Z.max (- 2 ^ 63) (Z.min (2 ^ 63 - 1) v)) /\
     (is_int32 v -> cast_int (CString s) = Ok v) /\ (~ is_int32 v -> cast_int (CString s) = Throw)) /\
  ((forall v, ~ starts_with_integer s v) -> cast_long (CString s) = Throw /\ cast_int (CString s) = Throw).
Proof.
  intros s. split.
  - intros v H. cbn [cast_long cast_int]. rewrite (strtoll_starts s v H). unfold is_int32, clamp64, int64_min, int64_max, int32_min, int32_max.
    split; [reflexivity|]. split; intros R.
    + rewrite (proj2 (Z.ltb_ge _ _)), (proj2 (Z.ltb_ge _ _)) by lia. cbn [orb]. f_equal. lia.
    + destruct (Z.ltb_spec (2 ^ 31 - 1) (Z.max (- 2 ^ 63) (Z.min (2 ^ 63 - 1) v))); [reflexivity|].
      destruct (Z.ltb_spec (Z.max (- 2 ^ 63) (Z.min (2 ^ 63 - 1) v)) (- 2 ^ 31)); [reflexivity|]. exfalso. apply R. lia.
  - intros H. cbn [cast_long cast_int]. rewrite (strtoll_none s H). split; reflexivity.
Qed.
Print Assumptions C79_text_to_integer.

(** A vector of doubles is obtained cell by cell: the elements of a numeric vector, the
    comma separated parts of a text, or the single value of a scalar. *)
Theorem C79_vector_casts : forall strtod c ds,
  cast_vdouble strtod c = Ok ds ->
  match c with
  | CString s => Forall2 (fun t d => strtod t = Some d /\ d <> PInf /\ d <> NInf) (comma_tokens s) ds
  | CVBool l => ds = map (fun b : bool => dbl_of_Z (if b then 1 else 0)%Z) l
  | CVInt l | CVLong l => ds = map dbl_of_Z l
  | CVFloat l | CVDouble l => ds = l
  | _ => exists d, cast_double strtod c = Ok d /\ ds = [d]
  end.
Proof.
  intros strtod c ds H.
  assert (G : forall A (f : A -> dbl) l, map_o (fun x => Ok (f x)) l = Ok ds -> ds = map f l).
  { intros A f l E. apply map_o_ok in E. clear H. induction E as [|x y l ys E F IH]; simpl; congruence. }
  assert (M : forall l : list dbl, map (fun d => d) l = l) by (induction l; simpl; congruence).
  destruct c; cbn in H |- *; try discriminate.
  - injection H as <-. eauto.
  - injection H as <-. eauto.
  - injection H as <-. eauto.
  - injection H as <-. eauto.
  - injection H as <-. eauto.
  - apply map_o_ok in H. revert H. apply Forall2_impl'. intros t d E. unfold dbl_of_text in E. destruct (strtod t) as [d'|]; [|discriminate]. destruct d'; cbn in E; try discriminate; injection E as <-; repeat split; discriminate.
  - apply G in H. exact H.
  - apply G in H. exact H.
  - apply G in H. exact H.
  - apply G in H. rewrite M in H. exact H.
  - injection H as <-. reflexivity.
Qed.
Print Assumptions C79_vector_casts.

(** A boolean is one or zero whatever number it is cast to. *)
Theorem C79_bool_casts : forall strtod (b : bool),
  let v := (if b then 1 else 0)%Z in
  cast_int (CBool b) = Ok v /\ cast_long (CBool b) = Ok v /\
  cast_double strtod (CBool b) = Ok (dbl_of_Z v) /\ cast_float strtod (CBool b) = Ok (dbl_of_Z v).
Proof. intros strtod b. destruct b; repeat split. Qed.
Print Assumptions C79_bool_casts.

(** Casts either succeed or throw. *)
Theorem C79_cast_outcomes : forall strtod c,
  ((exists d, cast_double strtod c = Ok d) \/ cast_double strtod c = Throw) /\
  ((exists l, cast_vdouble strtod c = Ok l) \/ cast_vdouble strtod c = Throw).
Proof. intros strtod c. split; [apply cast_double_outcomes | apply cast_vdouble_outcomes]. Qed.
Print Assumptions C79_cast_outcomes.

(** A text with trailing garbage, or a number that does not fit, is not refused by the cast
    to int64: the prefix or the bound is returned. *)
Theorem C79_long_casts_check_the_text_refuted :
  exists s1 s2, cast_long (CString s1) = Ok 12%Z /\ s1 = txt "12abc" /\
    cast_long (CString s2) = Ok 9223372036854775807%Z /\ s2 = txt "99999999999999999999".
Proof. exists (txt "12abc"), (txt "99999999999999999999"). vm_compute. repeat split. Qed.
Print Assumptions C79_long_casts_check_the_text_refuted.

Example C79_case :
  cast_int (CString (txt " -42")) = Ok (-42)%Z /\ cast_int (CString (txt "3000000000")) = Throw /\
  cast_long (CString (txt "3000000000")) = Ok 3000000000%Z /\ cast_long (CString (txt "abc")) = Throw /\
  cast_vdouble (fun _ => Some (Fin 2%Q)) (CString (txt "2,,2")) = Ok [Fin 2%Q; Fin 2%Q] /\
  starts_with_integer (txt " -42 m") (-42).
Proof.
  do 5 (split; [vm_compute; reflexivity|]). exists (txt " "), (txt "-"), (txt "42"), (txt " m"), 42%Z.
  split; [reflexivity|]. split; [constructor; [vm_compute; tauto | constructor]|]. split; [discriminate|]. split.
  - apply (decimal_snoc (txt "4") 4 "2"%char 2); [apply (decimal_snoc [] 0 "4"%char 4); [constructor | reflexivity] | reflexivity].
  - split; [|right; split; reflexivity]. intros c r E. injection E as <- <-. vm_compute. intros Q. repeat (destruct Q as [Q|Q]; [discriminate|]). exact Q.
Qed.
