(** C59 (band mapping), C60 (catalogs), C61 (photometry), C82 (equality of
    photometry entries), C83 (catalogs from tables), C84 (redshifts). *)
From Coq Require Import QArith ZArith List Arith Ascii String Bool Lia.
From Verif Require Import Common TextModel TextProofs DblModel TableModel TableSpec TableProofs CatalogModel CatalogSpec CatalogProofs.
Import ListNotations.
Local Open Scope nat_scope.
Local Notation length := List.length.

(** *** C59 *)

(** A file of comments and filters is read as written: one entry per filter, in
    order, with its columns, its threshold (3 by default) and its conversion
    flag (off by default). *)
Theorem C59_file_read : forall stof gap lines entries,
  is_gap gap -> Forall well_written lines -> Forall2 (stands_for stof) lines entries ->
  init_bands stof (file_of gap lines) [] =
  Ok (map (fun '(name, columns, _, _) => (name, columns)) (given entries),
      map (fun '(name, _, n, _) => (name, n)) (given entries),
      map (fun '(name, _, _, c) => (name, c)) (given entries)).
Proof.
  intros stof gap ls es G W F. rewrite (init_none stof _ _ (file_parsed stof gap ls es G W F)).
  do 2 f_equal; [f_equal|]; apply map_ext; intros [[[a b] n] f]; reflexivity.
Qed.
Print Assumptions C59_file_read.

(** A line of white space only is a syntax error. *)
Theorem C59_blank_line_throws : forall stof content exclude line,
  In line (getlines content) -> (forall c, In c line -> is_space c = true) ->
  init_bands stof content exclude = Throw.
Proof.
  intros stof content ex l I B. unfold init_bands, parse_file. rewrite (blank_line stof _ l I B). reflexivity.
Qed.
Print Assumptions C59_blank_line_throws.

(** The names to exclude must all occur in the file: otherwise, and only then,
    a readable file is refused. *)
Theorem C59_unknown_excluded_throws : forall stof content exclude m t c,
  init_bands stof content [] = Ok (m, t, c) ->
  (init_bands stof content exclude = Throw <-> exists x, In x exclude /\ ~ In x (names m)).
Proof.
  intros stof content ex m t c E0.
  destruct (proj1 (init_ok_iff stof content [])) as [m0 [t0 [c0 [P _]]]]; [eauto|].
  assert (NM : names m0 = names m).
  { rewrite (init_none _ _ _ P) in E0. injection E0 as <- _ _. reflexivity. }
  rewrite <- NM. split.
  - intros T. assert (NO : ~ (exists r, init_bands stof content ex = Ok r)) by (intros [r X]; congruence).
    rewrite init_ok_iff in NO.
    destruct (Forall_Exists_dec (fun x => In x (names m0)) (fun x => in_dec text_dec x (names m0)) ex) as [F|F].
    + exfalso. apply NO. exists m0, t0, c0. split; [exact P|]. rewrite Forall_forall in F. exact F.
    + apply Exists_exists in F. exact F.
  - intros [x [I N]]. destruct (init_outcomes stof content ex) as [R|R]; [|exact R].
    apply init_ok_iff in R. destruct R as [m1 [t1 [c1 [P1 A]]]]. rewrite P in P1. injection P1 as <- <- <-. exfalso. exact (N (A x I)).
Qed.
Print Assumptions C59_unknown_excluded_throws.

(** With distinct names the three lists are the lists of the file without the
    excluded names, and they name the same filters in the same order. *)
Theorem C59_exclusion_aligned : forall stof content exclude m t c m' t' c',
  init_bands stof content [] = Ok (m, t, c) -> NoDup (names m) ->
  init_bands stof content exclude = Ok (m', t', c') ->
  m' = without exclude m /\ t' = without exclude t /\ c' = without exclude c
  /\ names t' = names m' /\ names c' = names m'.
Proof.
  intros stof content ex m t c m' t' c' E0 N E.
  destruct (proj1 (init_ok_iff stof content [])) as [m0 [t0 [c0 [P _]]]]; [eauto|].
  assert (E0' : m0 = m /\ t0 = t /\ c0 = c).
  { rewrite (init_none _ _ _ P) in E0. injection E0 as <- <- <-. auto. }
  destruct E0' as [-> [-> ->]].
  assert (V := init_value _ _ _ _ _ _ _ P E). cbn [fst snd] in V. destruct V as [-> [-> V]]. specialize (V N). subst m'.
  apply parse_names in P. destruct P as [P1 P2]. repeat split; apply without_names; assumption.
Qed.
Print Assumptions C59_exclusion_aligned.

(** Without exclusion the three lists always name the same filters. *)
Theorem C59_read_aligned : forall stof content m t c,
  init_bands stof content [] = Ok (m, t, c) -> names t = names m /\ names c = names m.
Proof.
  intros stof content m t c E0.
  destruct (proj1 (init_ok_iff stof content [])) as [m0 [t0 [c0 [P _]]]]; [eauto|].
  rewrite (init_none _ _ _ P) in E0. injection E0 as <- <- <-. apply parse_names in P. exact P.
Qed.
Print Assumptions C59_read_aligned.

(** Every configuration is accepted or refused with an exception. *)
Theorem C59_defined : forall stof content exclude,
  (exists r, init_bands stof content exclude = Ok r) \/ init_bands stof content exclude = Throw.
Proof. exact init_outcomes. Qed.
Print Assumptions C59_defined.

(** With a repeated name the lists differ after exclusion: the second entry of an
    excluded name keeps its columns but has no threshold. *)
Theorem C59_aligned_refuted : exists stof content exclude m t c,
  init_bands stof content exclude = Ok (m, t, c) /\ names t <> names m /\ length t < length m.
Proof.
  exists (fun _ => None), (file_of (txt " ") [Band (txt "r") (txt "R1") (txt "E1") []; Band (txt "r") (txt "R2") (txt "E2") []]), [txt "r"].
  exists [(txt "r", (txt "R2", txt "E2"))], [], [].
  split; [vm_compute; reflexivity|]. split; [discriminate | cbn; lia].
Qed.
Print Assumptions C59_aligned_refuted.

Definition stof_ex (s : text) : option dbl := if text_eqb s (txt "5.0") then Some (Fin 5%Q) else None.
Definition ex_lines : list band_line :=
  [Comment (txt " bands"); Band (txt "g") (txt "G") (txt "EG") [txt "5.0"]; Band (txt "r") (txt "R") (txt "ER") [];
   Band (txt "i") (txt "I") (txt "EI") [txt "5.0"; txt "1"]].
Lemma ex_word s : s <> [] -> existsb (fun c => is_space c || Ascii.eqb c "#"%char) s = false -> is_word s.
Proof.
  intros N E. assert (K : forall c, In c s -> is_space c || Ascii.eqb c "#"%char = false).
  { intros c I. destruct (is_space c || Ascii.eqb c "#"%char) eqn:X; [|reflexivity].
    assert (Y : existsb (fun c => is_space c || Ascii.eqb c "#"%char) s = true) by (apply existsb_exists; eauto). congruence. }
  split; [exact N|]. split.
  - intros I. specialize (K _ I). discriminate K.
  - intros c I. specialize (K _ I). apply orb_false_iff in K. tauto.
Qed.
Example C59_case : is_gap (txt "  ") /\ Forall well_written ex_lines /\
  (exists es, Forall2 (stands_for stof_ex) ex_lines es) /\
  match init_bands stof_ex (file_of (txt "  ") ex_lines) [txt "r"] with
  | Ok (m, t, c) => m = [(txt "g", (txt "G", txt "EG")); (txt "i", (txt "I", txt "EI"))]
                    /\ t = [(txt "g", Fin 5%Q); (txt "i", Fin 5%Q)] /\ c = [(txt "g", false); (txt "i", true)]
  | _ => False
  end.
Proof.
  split; [|split; [|split]].
  - split; [discriminate|]. intros c [<-|[<-|[]]]; left; reflexivity.
  - assert (K : forall a b c o, forallb (fun w => match w with [] => false | _ => negb (existsb (fun c => is_space c || Ascii.eqb c "#"%char) w) end)
                      (a :: b :: c :: o) = true -> well_written (Band a b c o)).
    { intros a b c o H. cbn [well_written]. apply Forall_forall. intros w I. rewrite forallb_forall in H. specialize (H w I).
      apply ex_word; [intros ->; discriminate H|]. destruct w; [discriminate H|]. apply negb_true_iff. exact H. }
    constructor; [|constructor; [apply K; reflexivity|constructor; [apply K; reflexivity|constructor; [apply K; reflexivity|constructor]]]].
    cbn [well_written]. intros H. cbn in H. repeat destruct H as [H|H]; try discriminate H; exact H.
  - eexists. constructor; [apply sf_comment|]. constructor; [apply sf_threshold; reflexivity|].
    constructor; [apply sf_plain|]. constructor; [|constructor].
    eapply sf_convert; [reflexivity | vm_compute; reflexivity].
  - vm_compute. repeat split.
Qed.

(** *** C60 *)

(** A catalog is built iff the identifiers are distinct; otherwise the
    constructor throws. *)
Theorem C60_built_iff_distinct : forall A (l : list (source A)),
  ((exists c, new_catalog l = Ok c) <-> NoDup (ids l)) /\
  (new_catalog l = Throw <-> ~ NoDup (ids l)).
Proof.
  intros A l. split; [|apply new_catalog_throw]. split.
  - intros [c E]. apply new_catalog_ok in E. tauto.
  - intros N. eexists. apply new_catalog_ok. eauto.
Qed.
Print Assumptions C60_built_iff_distinct.

(** find returns the source with the identifier, and nothing iff there is none. *)
Theorem C60_find : forall A (l : list (source A)) c, new_catalog l = Ok c -> forall i,
  (forall s, catalog_find c i = Ok (Some s) <-> In s l /\ s_id s = i) /\
  (catalog_find c i = Ok None <-> ~ In i (ids l)).
Proof.
  intros A l c E i. split; [intros s; apply find_iff; exact E | apply find_none_iff; exact E].
Qed.
Print Assumptions C60_find.

(** find never leaves the list of sources. *)
Theorem C60_find_defined : forall A (l : list (source A)) c, new_catalog l = Ok c -> forall i,
  catalog_find c i = Ok None \/ exists s, catalog_find c i = Ok (Some s).
Proof.
  intros A l c E i. destruct (find_spec l c i E) as [[s [F _]]|[F _]]; eauto.
Qed.
Print Assumptions C60_find_defined.

(** Iteration goes over the given sources in the given order. *)
Theorem C60_iteration : forall A (l : list (source A)) c, new_catalog l = Ok c ->
  catalog_sources c = l /\ catalog_size c = length l.
Proof. intros A l c. apply new_catalog_sources. Qed.
Print Assumptions C60_iteration.

(** The attribute of a type is the first one of that type, null iff there is none. *)
Theorem C60_attribute : forall A T (dcast : A -> option T) (s : source A),
  (forall t, get_attribute dcast s = Some t <->
     exists before a after, s_attrs s = before ++ a :: after /\ dcast a = Some t
       /\ forall b, In b before -> dcast b = None) /\
  (get_attribute dcast s = None <-> forall a, In a (s_attrs s) -> dcast a = None).
Proof. intros A T d s. split; [intros t; apply get_attribute_some | apply get_attribute_none]. Qed.
Print Assumptions C60_attribute.

Example C60_case :
  let l := [mkSource (IdInt 5) [1]; mkSource (IdText (txt "5")) [2; 3]; mkSource (IdInt (-1)) []] in
  NoDup (ids l) /\
  match new_catalog l with
  | Ok c => catalog_find c (IdInt 5) = Ok (Some (mkSource (IdInt 5) [1]))
            /\ catalog_find c (IdText (txt "5")) = Ok (Some (mkSource (IdText (txt "5")) [2; 3]))
            /\ catalog_find c (IdInt 7) = Ok None
  | _ => False
  end.
Proof.
  split; [|vm_compute; repeat split].
  repeat constructor; cbn; intros H; repeat destruct H as [H|H]; try discriminate H; exact H.
Qed.

(** *** C83 *)

(** The conversion of a table gives one source per row, in the order of the
    rows, with the identifier of the identifier column and the attributes in the
    order of the attribute makers; it succeeds iff every identifier is an integer
    or a text, every attribute can be made and the identifiers are distinct. *)
Theorem C83_catalog_from_table : forall A (k : nat) (makers : list (row -> outcome A)) t l,
  (exists c, create_catalog k makers t = Ok c /\ catalog_sources c = l) <->
  NoDup (ids l) /\
  Forall2 (fun r s =>
    (exists cell, nth_error (r_values r) k = Some cell /\
       ((exists x, cell = CString x /\ s_id s = IdText x) \/
        (exists z, (cell = CInt z \/ cell = CLong z) /\ s_id s = IdInt z)))
    /\ Forall2 (fun make a => make r = Ok a) makers (s_attrs s)) (t_rows t) l.
Proof.
  intros A k makers t l.
  assert (K : forall r (s : source A), source_of_row k makers r = Ok s <->
    (exists cell, nth_error (r_values r) k = Some cell /\
       ((exists x, cell = CString x /\ s_id s = IdText x) \/
        (exists z, (cell = CInt z \/ cell = CLong z) /\ s_id s = IdInt z)))
    /\ Forall2 (fun make a => make r = Ok a) makers (s_attrs s)).
  { intros r s. rewrite source_of_row_ok. split; intros [[c [E F]] G]; split; auto; exists c; split; auto; apply cast_id_ok; exact F. }
  split.
  - intros [c [E <-]]. apply create_catalog_ok in E. destruct E as [l' [F N]].
    assert (S := new_catalog_sources _ _ N). destruct S as [-> _]. apply new_catalog_ok in N. split; [tauto|].
    clear - F K. induction F as [|r s rs ss H F IH]; constructor; auto. apply K. exact H.
  - intros [N F]. destruct (proj2 (proj1 (C60_built_iff_distinct A l)) N) as [c E]. exists c.
    split; [|apply (new_catalog_sources _ _ E)]. apply create_catalog_ok. exists l. split; [|exact E].
    clear - F K. induction F as [|r s rs ss H F IH]; constructor; auto. apply K. exact H.
Qed.
Print Assumptions C83_catalog_from_table.

(** The identifier column must exist. *)
Theorem C83_id_column : forall info name, NoDup (names_of info) ->
  (forall k, new_from_table info name = Ok k <-> column_named info name k) /\
  (new_from_table info name = Throw <-> ~ In name (names_of info)).
Proof.
  intros info name N. unfold new_from_table. split.
  - intros k. rewrite <- (find_col_named info name k N). destruct (find_col info name); split; congruence.
  - rewrite <- find_col_none. destruct (find_col info name); split; congruence.
Qed.
Print Assumptions C83_id_column.

Example C83_case :
  let info := [mkDesc (txt "ID") TLong [] []; mkDesc (txt "Z") TDouble [] []] in
  let t := mkTable [mkRow [CLong 4; CDouble (Fin 1%Q)] info; mkRow [CLong 9; CDouble (Fin 2%Q)] info] info in
  match create_catalog 0 [fun r => create_redshift (fun _ => None) (mkZfr 1 None) r] t with
  | Ok c => map (fun s => (s_id s, s_attrs s)) (catalog_sources c)
            = [(IdInt 4, [(Fin 1%Q, Fin 0%Q)]); (IdInt 9, [(Fin 2%Q, Fin 0%Q)])]
  | _ => False
  end.
Proof. vm_compute. reflexivity. Qed.

(** *** C61 *)

(** The object is constructed iff the columns of all the filters exist. *)
Theorem C61_columns_required : forall info m mo mf uo ns uf cs, NoDup (names_of info) ->
  ((exists p, new_pfr info m mo mf uo ns uf cs = Ok p) <->
   forall f, In f m -> In (fst (snd f)) (names_of info) /\ In (snd (snd f)) (names_of info)).
Proof. intros. apply new_pfr_iff. assumption. Qed.
Print Assumptions C61_columns_required.

(** A row gives a photometry iff every filter has numbers in its two columns
    which are not rejected; the photometry then has one entry per filter, in
    order, made of the filter's own columns, threshold and conversion flag. *)
Theorem C61_photometry_of_row : forall strtod same mag_flux mag_error info m mo mf uo ns uf cs p r ph,
  NoDup (names_of info) -> new_pfr info m mo mf uo ns uf cs = Ok p -> length cs = length ns ->
  (create_photometry strtod same mag_flux mag_error p r = Ok ph <->
   ph_names ph = names m /\ length (ph_values ph) = length m /\
   forall k f, nth_error m k = Some f ->
     exists n c x, nth_error ns k = Some n /\ nth_error cs k = Some c /\ nth_error (ph_values ph) k = Some x
       /\ filter_entry strtod same mag_flux mag_error mo mf uo uf info r f (snd n) (snd c) x).
Proof. exact photometry_iff. Qed.
Print Assumptions C61_photometry_of_row.

(** With a threshold for every filter a row is accepted or refused with an
    exception. *)
Theorem C61_defined : forall strtod same mag_flux mag_error info m mo mf uo ns uf cs p r,
  new_pfr info m mo mf uo ns uf cs = Ok p -> length m <= length ns ->
  (exists ph, create_photometry strtod same mag_flux mag_error p r = Ok ph)
  \/ create_photometry strtod same mag_flux mag_error p r = Throw.
Proof. exact photometry_defined. Qed.
Print Assumptions C61_defined.

(** The contract of the entries: missing only if enabled, and then with error 0;
    an upper limit only if enabled, and then with a positive flux; a finite flux
    and, for a finite threshold, an error which is positive or NaN whenever the
    value is not missing. *)
Theorem C61_entry_contract : forall strtod same mag_flux mag_error mo mf uo uf info r f n cv x,
  filter_entry strtod same mag_flux mag_error mo mf uo uf info r f n cv x ->
  (f_missing x = true -> mo = true /\ f_error x = Fin 0%Q /\ f_upper x = false) /\
  (f_upper x = true -> uo = true /\ f_missing x = false /\ positive (f_flux x)) /\
  (f_missing x = false -> exists q, f_flux x = Fin q) /\
  (f_missing x = false -> (exists q, n = Fin q) -> positive (f_error x) \/ f_error x = NaN).
Proof.
  intros strtod same mag_flux mag_error mo mf uo uf info r f n cv x [i [j [a [b [flux [error [_ [_ [_ [_ [R E]]]]]]]]]]].
  exact (entry_contract same mo uo mf uf flux error n x R E).
Qed.
Print Assumptions C61_entry_contract.

(** Without the conversion flags the values are taken as fluxes. *)
Theorem C61_default_no_conversion : forall info m mo mf uo ns uf cs, length cs <> length ns ->
  new_pfr info m mo mf uo ns uf cs = new_pfr info m mo mf uo ns uf (map (fun p => (fst p, false)) ns).
Proof.
  intros info m mo mf uo ns uf cs H. unfold new_pfr.
  destruct (Nat.eqb (length cs) (length ns)) eqn:E; [apply Nat.eqb_eq in E; contradiction|].
  rewrite map_length, Nat.eqb_refl. reflexivity.
Qed.
Print Assumptions C61_default_no_conversion.

(** Lookup by filter name: the entry of the first filter with the name, null iff
    there is none. *)
Theorem C61_find_filter : forall filter_names values p name,
  new_photometry (Some filter_names) values = Ok p ->
  (exists k x, nth_error (ph_names p) k = Some name /\ nth_error (ph_values p) k = Some x
     /\ (forall j, j < k -> nth_error (ph_names p) j <> Some name) /\ phot_find p name = Ok (Some x))
  \/ (~ In name (ph_names p) /\ phot_find p name = Ok None).
Proof. exact phot_find_ok. Qed.
Print Assumptions C61_find_filter.

(** A photometry needs as many values as names. *)
Theorem C61_new_photometry : forall filter_names values,
  (forall p, new_photometry (Some filter_names) values = Ok p <->
     length filter_names = length values /\ p = mkPhot filter_names values) /\
  new_photometry None values = Throw /\
  (length filter_names <> length values -> new_photometry (Some filter_names) values = Throw).
Proof.
  intros n v. unfold new_photometry. split; [|split; [reflexivity|]].
  - intros p. destruct (Nat.eqb (length n) (length v)) eqn:E.
    + apply Nat.eqb_eq in E. split; [intros H; injection H as <-; auto | intros [_ ->]; reflexivity].
    + apply Nat.eqb_neq in E. split; [discriminate | tauto].
  - intros H. apply Nat.eqb_neq in H. rewrite H. reflexivity.
Qed.
Print Assumptions C61_new_photometry.

(** An infinite threshold gives an upper limit with error 0. *)
Definition exact_eq (a b : dbl) : bool := deq a b.
Definition ex_info : colinfo := [mkDesc (txt "R") TDouble [] []; mkDesc (txt "ER") TDouble [] []].
Definition ex_map : mapping := [(txt "r", (txt "R", txt "ER"))].
Theorem C61_positive_error_refuted : exists p r ph x,
  new_pfr ex_info ex_map true (Fin (-99)%Q) true [(txt "r", PInf)] (Fin (-1)%Q) [(txt "r", false)] = Ok p /\
  create_photometry (fun _ => None) exact_eq (fun d => d) (fun a b => b) p r = Ok ph /\
  nth_error (ph_values ph) 0 = Some x /\ f_missing x = false /\ f_error x = Fin 0%Q.
Proof.
  eexists. exists (mkRow [CDouble (Fin 2%Q); CDouble (Fin (-1)%Q)] ex_info). do 2 eexists.
  split; [vm_compute; reflexivity|]. split; [vm_compute; reflexivity|]. split; [reflexivity|]. split; reflexivity.
Qed.
Print Assumptions C61_positive_error_refuted.

(** With fewer thresholds than filters the behaviour is undefined: the lists left
    by the exclusion of a repeated name are of this kind. *)
Theorem C61_defined_refuted : exists m t c p r,
  init_bands (fun _ => None) (file_of (txt " ") [Band (txt "r") (txt "R") (txt "ER") []; Band (txt "r") (txt "R") (txt "ER") []])
    [txt "r"] = Ok (m, t, c) /\
  new_pfr ex_info m true (Fin (-99)%Q) true t (Fin (-1)%Q) c = Ok p /\
  create_photometry (fun _ => None) exact_eq (fun d => d) (fun a b => b) p r = UB.
Proof.
  do 4 eexists. exists (mkRow [CDouble (Fin 2%Q); CDouble (Fin 1%Q)] ex_info).
  split; [vm_compute; reflexivity|]. split; vm_compute; reflexivity.
Qed.
Print Assumptions C61_defined_refuted.

Example C61_case : NoDup (names_of ex_info) /\
  match new_pfr ex_info ex_map true (Fin (-99)%Q) true [(txt "r", Fin 4%Q)] (Fin (-1)%Q) [(txt "r", false)] with
  | Ok p =>
      let go a b := match create_photometry (fun _ => None) exact_eq (fun d => d) (fun a b => b) p
                            (mkRow [CDouble a; CDouble b] ex_info) with
                    | Ok ph => Some (ph_values ph) | _ => None end in
      go (Fin 8%Q) (Fin 1%Q) = Some [mkFep (Fin 8%Q) (Fin 1%Q) false false] /\
      go (Fin (-99)%Q) (Fin 1%Q) = Some [mkFep (Fin (-99)%Q) (Fin 0%Q) true false] /\
      go NaN NaN = Some [mkFep NaN (Fin 0%Q) true false] /\
      go (Fin 8%Q) NaN = Some [mkFep (Fin 8%Q) NaN false false] /\
      go (Fin 8%Q) (Fin (-3)%Q) = Some [mkFep (Fin 8%Q) (Fin 3%Q) false true] /\
      match go (Fin 8%Q) (Fin (-1)%Q) with Some [x] => deq (f_error x) (Fin 2%Q) = true /\ f_upper x = true | _ => False end /\
      go (Fin 8%Q) (Fin 0%Q) = None /\ go PInf (Fin 1%Q) = None /\ go (Fin (-8)%Q) (Fin (-3)%Q) = None
  | _ => False
  end.
Proof.
  split.
  - repeat constructor; cbn; intros H; repeat destruct H as [H|H]; try discriminate H; exact H.
  - vm_compute. repeat split.
Qed.

(** *** C82 *)

(** Equality of entries: symmetric; an entry equals itself iff it is missing or
    has no NaN; != is the negation of ==. *)
Theorem C82_entry_equality : forall a b,
  fep_eqb a b = fep_eqb b a /\
  fep_neqb a b = negb (fep_eqb a b) /\
  (fep_eqb a a = true <-> f_missing a = true \/ (f_flux a <> NaN /\ f_error a <> NaN)) /\
  (f_missing a = true -> f_missing b = true -> fep_eqb a b = true) /\
  (f_missing a = false ->
     (fep_eqb a b = true <-> deq (f_flux a) (f_flux b) = true /\ deq (f_error a) (f_error b) = true /\ f_upper a = f_upper b)).
Proof.
  intros a b. split; [apply fep_sym|]. split; [reflexivity|]. split; [apply fep_refl|]. split.
  - intros A B. unfold fep_eqb. rewrite A, B. reflexivity.
  - intros A. unfold fep_eqb. rewrite A. cbn [andb orb]. rewrite !andb_true_iff, Bool.eqb_true_iff. tauto.
Qed.
Print Assumptions C82_entry_equality.

(** It is transitive among entries which are all missing or all present. *)
Theorem C82_entry_equality_transitive : forall a b c,
  f_missing a = f_missing b -> f_missing b = f_missing c ->
  fep_eqb a b = true -> fep_eqb b c = true -> fep_eqb a c = true.
Proof. exact fep_trans. Qed.
Print Assumptions C82_entry_equality_transitive.

(** It is not transitive in general: the missing flag is compared only when both
    are set. *)
Theorem C82_transitive_refuted : exists a b c,
  fep_eqb a b = true /\ fep_eqb b c = true /\ fep_eqb a c = false.
Proof.
  exists (mkFep (Fin 1%Q) (Fin 0%Q) true false), (mkFep (Fin 2%Q) (Fin 0%Q) true false), (mkFep (Fin 2%Q) (Fin 0%Q) false false).
  repeat split.
Qed.
Print Assumptions C82_transitive_refuted.

Example C82_case : let a := mkFep (Fin 1%Q) (Fin (1#2)%Q) false true in
  f_missing a = false /\ fep_eqb a (mkFep (Fin (2#2)%Q) (Fin (2#4)%Q) false true) = true /\ fep_eqb a (mkFep (Fin 1%Q) (Fin (1#2)%Q) false false) = false.
Proof. repeat split. Qed.

(** *** C84 *)

(** The redshift of a row is the number in the value column; its error is the
    number in the error column, or 0 when no error column is given. *)
Theorem C84_redshift_of_row : forall strtod info value error f r z e, NoDup (names_of info) ->
  new_zfr info value error = Ok f ->
  (create_redshift strtod f r = Ok (z, e) <->
   exists i c, column_named info value i /\ nth_error (r_values r) i = Some c /\ cast_double strtod c = Ok z
     /\ match error with
        | None => e = Fin 0%Q
        | Some en => exists j ce, column_named info en j /\ nth_error (r_values r) j = Some ce /\ cast_double strtod ce = Ok e
        end).
Proof. exact redshift_ok. Qed.
Print Assumptions C84_redshift_of_row.

(** The columns must exist. *)
Theorem C84_columns_required : forall info value error,
  new_zfr info value error = Throw <->
  ~ In value (names_of info) \/ exists en, error = Some en /\ ~ In en (names_of info).
Proof.
  intros info value error. rewrite <- find_col_none. unfold new_zfr.
  destruct (find_col info value) as [k|]; [|tauto].
  destruct error as [en|].
  - destruct (find_col info en) eqn:E; split; try discriminate; try tauto.
    + intros [H|[en' [H N]]]; [discriminate|]. injection H as <-. apply find_col_none in N. congruence.
    + intros _. right. exists en. split; [reflexivity | apply find_col_none; exact E].
  - split; [discriminate|]. intros [H|[en [H _]]]; discriminate.
Qed.
Print Assumptions C84_columns_required.

Example C84_case :
  match new_zfr ex_info (txt "R") (Some (txt "ER")) with
  | Ok f => create_redshift (fun _ => None) f (mkRow [CDouble (Fin 2%Q); CDouble (Fin 1%Q)] ex_info) = Ok (Fin 2%Q, Fin 1%Q)
  | _ => False
  end /\ new_zfr ex_info (txt "R") (Some (txt "X")) = Throw.
Proof. vm_compute. repeat split. Qed.
