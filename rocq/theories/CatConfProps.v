(** C110 (format detection), C111 (options of the catalog), C112 (life cycle),
    C113 (programs), C114 (options of the redshift), C115 (options of the photometry),
    C116 (densities), C117 (options with wildcards), C118 (identifiers of managers). *)
From Coq Require Import QArith ZArith List Arith Ascii String Bool Lia.
From Verif Require Import Common TextModel TextProofs DblModel GridModel GridSpec TableModel TableSpec TableProofs AsciiModel
  FitsModel CatalogModel CatalogSpec CatalogProofs ConfigModel CatConfModel CatConfSpec CatConfProofs CatConfProofs2 CatConfProofs3.
Import ListNotations.
Local Open Scope nat_scope.
Local Notation length := List.length.

(** ** C110 *)

(** A file of at least nine bytes is taken for FITS iff it begins with the keyword SIMPLE
    in its fixed place, whatever else is in memory, provided there is a zero byte in the
    first 80 bytes or behind them. *)
Theorem C110_detect : forall junk bytes, 9 <= length bytes -> In nul (firstn 80 bytes ++ junk) ->
  exists fits, detect_fits junk bytes = Ok fits /\ (fits = true <-> exists r, bytes = txt "SIMPLE  =" ++ r).
Proof. exact detect_spec. Qed.
Print Assumptions C110_detect.

(** The answer for a shorter file depends on what is in memory: the part of the buffer
    which is not read is not cleared. *)
Theorem C110_short_refuted : exists bytes junk junk', bytes = txt "SIMPLE" /\
  detect_fits junk bytes = Ok true /\ detect_fits junk' bytes = Ok false.
Proof. exists (txt "SIMPLE"), (txt "  =" ++ [nul]), [nul]. split; [reflexivity|]. split; vm_compute; reflexivity. Qed.
Print Assumptions C110_short_refuted.

(** Whenever the first 80 bytes of a file hold no zero byte, as in every FITS file and in
    every text, the string is read past the end of the buffer. *)
Theorem C110_overrun_refuted : forall bytes, 80 <= length bytes -> ~ In nul (firstn 80 bytes) -> detect_fits [] bytes = UB.
Proof.
  intros bytes _ N. unfold detect_fits, first_header. rewrite app_nil_r, until_nul_none by exact N. reflexivity.
Qed.
Print Assumptions C110_overrun_refuted.

Example C110_case :
  let fits := txt "SIMPLE  =                    T / conforms to FITS standard                      BITPIX" in
  9 <= length fits /\ In nul (firstn 80 fits ++ [nul]) /\ detect_fits [nul] fits = Ok true /\
  detect_fits [nul] (txt "# ID R ER" ++ [nul]) = Ok false /\ 80 <= length fits /\ ~ In nul (firstn 80 fits).
Proof.
  cbv zeta. split; [vm_compute; lia|]. split; [apply in_or_app; right; left; reflexivity|]. split; [vm_compute; reflexivity|].
  split; [vm_compute; reflexivity|]. split; [vm_compute; lia|]. vm_compute. intros H. repeat (destruct H as [H|H]; [discriminate H|]). exact H.
Qed.

(** ** C111 *)

(** The options are refused before the initialization exactly in the documented cases. *)
Theorem C111_pre_initialize : forall args, parsed args ->
  (cat_pre_initialize args = Throw <-> bad_catalog_options args) /\
  (cat_pre_initialize args = Ok tt <-> ~ bad_catalog_options args).
Proof. exact cat_pre_initialize_spec. Qed.
Print Assumptions C111_pre_initialize.

(** The initialization succeeds iff the options stand for a catalog: the file exists, it
    is a table in its format and the column chosen for the identifiers exists. The
    configuration then shows that file, those columns and that column, and reads the
    table of the file. *)
Theorem C111_initialize : forall pf pd open_fits A args fs junk base, parsed args -> ~ bad_catalog_options args ->
  let calls := [SetBaseDir base; PreInitialize; InitializeWith fs junk] : list (call A) in
  ((exists c, cat_calls open_fits args new_catconf calls = Ok c) <->
   exists file bytes fits info column, catalog_ready open_fits fs base args junk file bytes fits info column) /\
  (forall c file bytes fits info column, cat_calls open_fits args new_catconf calls = Ok c ->
     catalog_ready open_fits fs base args junk file bytes fits info column ->
     get_filename c = Ok file /\ get_column_info c = Ok (Some info) /\ get_id_column c = column /\
     forall fs' bytes', fs' file = Regular bytes' ->
       read_as_table pf pd open_fits fs' (with_state c Final) = file_table pf pd open_fits fits bytes').
Proof.
  intros pf pd open_fits A args fs junk base P NB calls.
  assert (E : cat_calls open_fits args new_catconf calls =
    do c <- cat_initialize open_fits fs junk args (mkCat PreInitialized base [] true [] [] None); Ok (with_state c Initialized)).
  { unfold calls. cbn [cat_calls cat_call set_base_dir new_catconf cc_state at_least_initialized by_user].
    rewrite (proj2 (proj2 (cat_pre_initialize_spec args P)) NB). cbn [bind with_state cc_base cc_file cc_fits cc_id cc_handlers cc_info].
    destruct (cat_initialize _ _ _ _ _); reflexivity. }
  rewrite E. split.
  - split.
    + intros [c H]. apply bind_ok in H. destruct H as [c' [H _]]. apply (cat_initialize_ok open_fits fs base args P) in H; [|exact NB|reflexivity].
      destruct H as [f [b [x [i [k [R _]]]]]]. exists f, b, x, i, k. exact R.
    + intros [f [b [x [i [k R]]]]].
      assert (H := proj2 (cat_initialize_ok open_fits fs base args P junk (mkCat PreInitialized base [] true [] (@nil (row -> outcome A)) None) _ NB eq_refl)
        (ex_intro _ f (ex_intro _ b (ex_intro _ x (ex_intro _ i (ex_intro _ k (conj R eq_refl))))))).
      rewrite H. cbn [bind]. eauto.
  - intros c f b x i k H R. apply bind_ok in H. destruct H as [c' [H Ec]]. injection Ec as <-.
    apply (cat_initialize_ok open_fits fs base args P) in H; [|exact NB|reflexivity].
    destruct H as [f' [b' [x' [i' [k' [R' ->]]]]]].
    destruct (ready_unique open_fits fs base args P _ _ _ _ _ _ _ _ _ _ _ NB R R') as [-> [-> [-> [-> ->]]]].
    split; [reflexivity|]. split; [reflexivity|]. split; [reflexivity|].
    intros fs' bytes' F. unfold read_as_table. cbn [with_state cc_state is_final cc_fits cc_file]. apply reader_table_file. exact F.
Qed.
Print Assumptions C111_initialize.

(** A small program: a table with identifiers, redshifts, densities and fluxes. *)
Definition ex_num (s : text) : option dbl :=
  if text_eqb s (txt "1") then Some (Fin 1%Q) else if text_eqb s (txt "2") then Some (Fin 2%Q) else if text_eqb s (txt "3") then Some (Fin 3%Q) else None.
Definition ex_lines (l : list string) : text := flat_map (fun s => txt s ++ ["010"%char]) l.
Definition ex_bytes : text := ex_lines
  ["# Column: ID long"; "# Column: Z double"; "# Column: P [double]"; "# Column: R double"; "# Column: ER double";
   " 7 1 1,2 3 1"; " 9 2 3,3 2 1"]%string.
Definition ex_noid : text := ex_lines ["# Column: N long"; "# Column: Z double"; " 7 1"; " 9 2"]%string.
Definition ex_fs (p : text) : entry :=
  if text_eqb p (txt "/data/cat.txt") then Regular ex_bytes
  else if text_eqb p (txt "/data/noid.txt") then Regular ex_noid
  else if text_eqb p (txt "/data/map.txt") then Regular (ex_lines ["r R ER"]%string)
  else if text_eqb p (txt "/data") then Folder else Nothing.
Definition ex_args : user_values :=
  [(txt "input-catalog-file", UText (txt "cat.txt")); (txt "input-catalog-format", UText (txt "AUTO"));
   (txt "source-id-column-index", UInt 1); (txt "spec-z-column-name", UText (txt "Z"));
   (txt "filter-mapping-file", UText (txt "/data/map.txt")); (txt "exclude-filter", UTexts [])].
Definition ex_args_noid : user_values :=
  [(txt "input-catalog-file", UText (txt "noid.txt")); (txt "input-catalog-format", UText (txt "ASCII"))].
Ltac solve_parsed :=
  split;
  [ repeat (apply NoDup_cons; [vm_compute; intros H; repeat (destruct H as [H|H]; [discriminate H|]); exact H|]); apply NoDup_nil
  | intros key v t I D; cbn [In] in I;
    repeat (destruct I as [I|I]; [injection I as <- <-; cbn [declared In] in D;
      repeat (destruct D as [D|D]; [first [discriminate D | injection D as <-; cbn [has_type]; first [exact Logic.I | unfold is_int32, int32_min, int32_max; lia]]|]); contradiction D|]);
    contradiction I ].
Lemma ex_parsed : parsed ex_args. Proof. solve_parsed. Qed.
Lemma ex_parsed_noid : parsed ex_args_noid. Proof. solve_parsed. Qed.

(** The missing column of the identifiers is not noticed when the default name is used:
    the initialization succeeds and only the reading of the catalog fails. *)
Theorem C111_missing_id_refuted : exists open_fits A args fs junk base c, parsed args /\
  cat_calls open_fits args (new_catconf (A := A)) [SetBaseDir base; PreInitialize; InitializeWith fs junk] = Ok c /\
  (exists info, get_column_info c = Ok (Some info) /\ ~ In (get_id_column c) (names_of info)) /\
  read_as_catalog ex_num ex_num open_fits fs (with_state c Final) = Throw.
Proof.
  exists (fun _ => Throw), nat, ex_args_noid, ex_fs, [nul], (txt "/data"). eexists.
  split; [exact ex_parsed_noid|]. split; [vm_compute; reflexivity|]. split; [|vm_compute; reflexivity].
  eexists. split; [vm_compute; reflexivity|]. vm_compute. intros H. repeat (destruct H as [H|H]; [discriminate H|]). exact H.
Qed.
Print Assumptions C111_missing_id_refuted.

Example C111_case : parsed ex_args /\ ~ bad_catalog_options ex_args /\
  match cat_calls (fun _ => Throw) ex_args (new_catconf (A := nat)) [SetBaseDir (txt "/data"); PreInitialize; InitializeWith ex_fs [nul]] with
  | Ok c => get_filename c = Ok (txt "/data/cat.txt") /\ get_id_column c = txt "ID" /\
            match read_as_table ex_num ex_num (fun _ => Throw) ex_fs (with_state c Final) with Ok t => length (t_rows t) = 2 | _ => False end
  | _ => False
  end /\
  bad_catalog_options [(txt "source-id-column-index", UInt 0)] /\ bad_catalog_options [(txt "input-catalog-format", UText (txt "fits"))].
Proof.
  split; [exact ex_parsed|]. split.
  - apply (proj2 (cat_pre_initialize_spec ex_args ex_parsed)). vm_compute. reflexivity.
  - split; [vm_compute; repeat split|]. split; [apply (bad_index _ 0%Z); [left; reflexivity|lia]|].
    apply (bad_format _ (txt "fits")); [left; reflexivity|]. vm_compute. intros H. repeat (destruct H as [H|H]; [discriminate H|]). exact H.
Qed.

(** ** C112 *)

(** The calls made by other configurations: the handlers added before the finalization
    all count, in their order, and the last directory set before the initialization; a
    later call is refused and changes nothing. *)
Theorem C112_life : forall open_fits A args u1 u2 fs junk u3 (u4 : list (call A)),
  user_calls u1 -> user_calls u2 -> user_calls u3 -> user_calls u4 ->
  cat_calls open_fits args new_catconf (stages u1 u2 fs junk u3 u4) =
  cat_calls open_fits args new_catconf
    (stages [SetBaseDir (base_dir_of (u1 ++ u2))] [] fs junk (map (@AddHandler A) (handlers_in (u1 ++ u2 ++ u3))) []).
Proof.
  intros open_fits A args u1 u2 fs junk u3 u4 U1 U2 U3 U4. rewrite stages_value by assumption. rewrite stages_value.
  - cbn [app]. assert (E : handlers_in (SetBaseDir (base_dir_of (u1 ++ u2)) :: map (@AddHandler A) (handlers_in (u1 ++ u2 ++ u3))) = handlers_in (u1 ++ u2 ++ u3)).
    { unfold handlers_in at 1. cbn [flat_map app]. induction (handlers_in (u1 ++ u2 ++ u3)) as [|h l IH]; [reflexivity|]. cbn [map flat_map app]. rewrite IH. reflexivity. }
    rewrite E. reflexivity.
  - repeat constructor.
  - constructor.
  - apply Forall_forall. intros k I. apply in_map_iff in I. destruct I as [h [<- _]]. reflexivity.
  - constructor.
Qed.
Print Assumptions C112_life.

(** The final object makes the sources of the rows with those handlers. *)
Theorem C112_handlers : forall open_fits A args u1 u2 fs junk u3 (u4 : list (call A)) c,
  user_calls u1 -> user_calls u2 -> user_calls u3 -> user_calls u4 ->
  cat_calls open_fits args new_catconf (stages u1 u2 fs junk u3 u4) = Ok c ->
  forall t info k, get_column_info c = Ok (Some info) -> NoDup (names_of info) -> column_named info (get_id_column c) k ->
  (do convert <- get_converter c; convert t) = create_catalog k (handlers_in (u1 ++ u2 ++ u3)) t.
Proof.
  intros open_fits A args u1 u2 fs junk u3 u4 c U1 U2 U3 U4 H t info k GI ND C. rewrite stages_value in H by assumption.
  apply bind_ok in H. destruct H as [[] [_ H]]. apply bind_ok in H. destruct H as [c' [_ H]]. injection H as <-.
  unfold get_converter, get_column_info in *. cbn [cc_state is_final at_least_initialized cc_info cc_id get_id_column] in *.
  injection GI as GI. rewrite GI. cbn [of_option bind]. unfold new_from_table. apply (find_col_named _ _ _ ND) in C.
  unfold get_id_column in C. cbn [cc_id] in C. rewrite C. reflexivity.
Qed.
Print Assumptions C112_handlers.

(** The file and the columns are not shown before the initialization, and nothing is read
    before the finalization. *)
Theorem C112_too_early : forall pf pd open_fits A args u1 u2 fs junk u3 fs' (c : catconf A),
  user_calls u1 -> user_calls u2 -> user_calls u3 ->
  (cat_calls open_fits args new_catconf u1 = Ok c \/ cat_calls open_fits args new_catconf (u1 ++ PreInitialize :: u2) = Ok c ->
   get_filename c = Throw /\ get_column_info c = Throw /\ get_converter c = Throw
   /\ read_as_table pf pd open_fits fs' c = Throw /\ read_as_catalog pf pd open_fits fs' c = Throw) /\
  (cat_calls open_fits args new_catconf (u1 ++ PreInitialize :: u2 ++ InitializeWith fs junk :: u3) = Ok c ->
   (exists file info, get_filename c = Ok file /\ get_column_info c = Ok (Some info)) /\ get_converter c = Throw
   /\ read_as_table pf pd open_fits fs' c = Throw /\ read_as_catalog pf pd open_fits fs' c = Throw).
Proof.
  intros pf pd open_fits A args u1 u2 fs junk u3 fs' c U1 U2 U3.
  assert (N : at_least_initialized (cc_state c) = false ->
    get_filename c = Throw /\ get_column_info c = Throw /\ get_converter c = Throw
    /\ read_as_table pf pd open_fits fs' c = Throw /\ read_as_catalog pf pd open_fits fs' c = Throw).
  { intros E. unfold get_filename, get_column_info, get_converter, read_as_table, read_as_catalog. rewrite E.
    destruct (cc_state c); try discriminate E; cbn [is_final]; auto. }
  rewrite !cat_calls_app by exact U1. rewrite user_calls_early; [|exact U1|reflexivity]. cbn [bind].
  cbn [cat_calls cat_call by_user]. split.
  - intros [H|H]; apply N.
    + injection H as <-. reflexivity.
    + destruct (cat_pre_initialize args); cbn [bind] in H; try discriminate. rewrite user_calls_early in H; [|exact U2|reflexivity]. injection H as <-. reflexivity.
  - destruct (cat_pre_initialize args); cbn [bind]; try discriminate. rewrite cat_calls_app by exact U2.
    rewrite user_calls_early; [|exact U2|reflexivity]. cbn [bind cat_calls cat_call by_user].
    unfold cat_initialize.
    destruct (file_from_options _ _ _ _) as [file| | |]; cbn [bind]; try discriminate.
    destruct (format_from_options _ _ _ _) as [fits| | |]; cbn [bind]; try discriminate.
    destruct (reader_info _ _ _ _) as [info| | |]; cbn [bind]; try discriminate.
    destruct (id_column_from_options _ _) as [id| | |]; cbn [bind]; try discriminate.
    rewrite user_calls_initialized; [|exact U3|reflexivity]. intros H. injection H as <-.
    split; [|auto]. exists file, info. split; reflexivity.
Qed.
Print Assumptions C112_too_early.

(** The name of the identifier column is not guarded: before the initialization it is
    empty. *)
Theorem C112_id_column_refuted : forall A, get_id_column (new_catconf (A := A)) = [] .
Proof. reflexivity. Qed.
Print Assumptions C112_id_column_refuted.

Example C112_case :
  let h1 := (fun r : row => Ok 1) in let h2 := (fun r : row => Ok 2) in let h3 := (fun r : row => Ok 3) in
  let u1 := [AddHandler h1; SetBaseDir (txt "/tmp")] in let u2 := [SetBaseDir (txt "/data")] in
  let u3 := [SetBaseDir (txt "/late"); AddHandler h2] in let u4 := [AddHandler h3] in
  user_calls u1 /\ user_calls u2 /\ user_calls u3 /\ user_calls u4 /\
  match cat_calls (fun _ => Throw) ex_args new_catconf (stages u1 u2 ex_fs [nul] u3 u4) with
  | Ok c => match read_as_catalog ex_num ex_num (fun _ => Throw) ex_fs c with
            | Ok cat => map (fun s => (s_id s, s_attrs s)) (catalog_sources cat) = [(IdInt 7, [1; 2]); (IdInt 9, [1; 2])]
            | _ => False
            end
  | _ => False
  end.
Proof. cbv zeta. do 4 (split; [repeat constructor|]). vm_compute. reflexivity. Qed.

(** ** C113 *)

(** A program starts iff its options are valid, they stand for a catalog and every
    configuration finds what it needs. *)
Theorem C113_starts : forall K stof strtod open_fits same mag_flux mag_error fs junk base_dir args (l : list (extra K)), parsed args ->
  ((exists c, run_program K stof strtod open_fits same mag_flux mag_error fs junk base_dir args l = Ok c) <->
   ~ bad_catalog_options args /\ (In WithRedshift l -> ~ bad_redshift_options args) /\
   exists file bytes fits info column, catalog_ready open_fits fs base_dir args junk file bytes fits info column
     /\ Forall (can_start stof fs base_dir args info) l).
Proof. intros. apply run_starts; [exact stof|exact stof|assumption]. Qed.
Print Assumptions C113_starts.

(** The catalog read by a program has one source per row of the file, in order, with the
    identifier of the row and, for every configuration in turn, its attribute; and it can
    be read whenever there is such a catalog. *)
Theorem C113_catalog : forall K pf pd stof strtod open_fits same mag_flux mag_error fs junk base_dir args (l : list (extra K)) c, parsed args ->
  run_program K stof strtod open_fits same mag_flux mag_error fs junk base_dir args l = Ok c ->
  (forall cat, read_as_catalog pf pd open_fits fs c = Ok cat ->
     catalog_of pf pd stof strtod open_fits same mag_flux mag_error fs junk base_dir args l (catalog_sources cat)) /\
  ((exists sources, catalog_of pf pd stof strtod open_fits same mag_flux mag_error fs junk base_dir args l sources) ->
   exists cat, read_as_catalog pf pd open_fits fs c = Ok cat).
Proof. intros K pf pd stof strtod open_fits same mag_flux mag_error fs junk base_dir args l c P. apply read_catalog_spec. exact P. Qed.
Print Assumptions C113_catalog.

Definition ex_program : list (extra nat) :=
  [WithPhotometry; WithRedshift; WithPdfs [(txt "p", txt "P", [10; 20]); (txt "p", txt "Q", [])]; WithRows].
Example C113_case : parsed ex_args /\
  match run_program nat ex_num ex_num (fun _ => Throw) deq (fun d => d) (fun a b => b) ex_fs [nul] (txt "/data") ex_args ex_program with
  | Ok c => match read_as_catalog ex_num ex_num (fun _ => Throw) ex_fs c with
            | Ok cat => map (fun s => (s_id s, match s_attrs s with
                 | [APhotometry ph; ARedshift z; APdfs [(n, p)]; ARow r] => Some (ph_values ph, z, n, pdf_cells p)
                 | _ => None end)) (catalog_sources cat)
                = [(IdInt 7, Some ([mkFep (Fin 3%Q) (Fin 1%Q) false false], (Fin 1%Q, Fin 0%Q), txt "p", [Fin 1%Q; Fin 2%Q]));
                   (IdInt 9, Some ([mkFep (Fin 2%Q) (Fin 1%Q) false false], (Fin 2%Q, Fin 0%Q), txt "p", [Fin 3%Q; Fin 3%Q]))]
            | _ => False
            end
  | _ => False
  end.
Proof. split; [exact ex_parsed|]. vm_compute. reflexivity. Qed.

(** ** C114 *)

(** The options of the redshift are refused exactly in the documented cases. *)
Theorem C114_options : forall args, parsed args ->
  (specz_pre_initialize args = Throw <-> bad_redshift_options args) /\
  (specz_pre_initialize args = Ok tt <-> ~ bad_redshift_options args).
Proof. exact specz_pre_initialize_spec. Qed.
Print Assumptions C114_options.

(** With valid options the handler exists iff the columns do; it gives the number in the
    chosen column, and the one in the chosen column of the errors or 0. *)
Theorem C114_redshift : forall K stof strtod fs base_dir args info, parsed args -> ~ bad_redshift_options args -> NoDup (names_of info) ->
  ((exists f, specz_handler args info = Ok f) <-> can_start (K := K) stof fs base_dir args info WithRedshift) /\
  (forall f r z, specz_handler args info = Ok f -> (create_redshift strtod f r = Ok z <-> redshift_of strtod args info r z)).
Proof.
  intros K stof strtod fs base_dir args info P NB ND. split.
  - assert (H := handler_starts K stof strtod (fun _ _ => true) (fun d => d) (fun a b => b) fs base_dir args P
      (mkCat Initialized base_dir [] false [] [] (Some info)) info WithRedshift ND eq_refl (fun _ => NB)).
    rewrite <- H. cbn [extra_handler]. unfold get_column_info. cbn [cc_state at_least_initialized cc_info bind of_option]. split.
    + intros [f ->]. cbn [bind]. eauto.
    + intros [h E]. apply bind_ok in E. destruct E as [z [E _]]. eauto.
  - intros f r z H. exact (redshift_handler_iff strtod args P info f r z NB ND H).
Qed.
Print Assumptions C114_redshift.

Example C114_case : parsed ex_args /\ ~ bad_redshift_options ex_args /\
  match fst (read_info (new_areader ex_bytes)) with
  | Ok info => NoDup (names_of info) /\ specz_handler ex_args info = Ok (mkZfr 1 None)
  | _ => False
  end.
Proof.
  split; [exact ex_parsed|]. split; [apply (proj2 (specz_pre_initialize_spec ex_args ex_parsed)); vm_compute; reflexivity|].
  vm_compute. split; [|reflexivity].
  repeat (apply NoDup_cons; [intros H; repeat (destruct H as [H|H]; [discriminate H|]); exact H|]); apply NoDup_nil.
Qed.

(** ** C115 *)

(** The photometry of a row, from the mapping file and the flags of the options: the
    handler exists iff the mapping can be read and its columns exist; missing data and
    upper limits are recognised iff the options ask for them, with -99 by default. *)
Theorem C115_photometry : forall K stof strtod same mag_flux mag_error fs base_dir args info, parsed args -> NoDup (names_of info) ->
  ((exists p, (do bands <- bands_from_options stof fs base_dir args; phot_handler args info bands) = Ok p) <->
   can_start (K := K) stof fs base_dir args info WithPhotometry) /\
  (forall p r ph, (do bands <- bands_from_options stof fs base_dir args; phot_handler args info bands) = Ok p ->
     (create_photometry strtod same mag_flux mag_error p r = Ok ph <->
      photometry_of stof strtod same mag_flux mag_error fs base_dir args info r ph)).
Proof.
  intros K stof strtod same mag_flux mag_error fs base_dir args info P ND. split.
  - assert (H := handler_starts K stof strtod same mag_flux mag_error fs base_dir args P
      (mkCat Initialized base_dir [] false [] [] (Some info)) info WithPhotometry ND eq_refl (fun E => ltac:(discriminate E))).
    rewrite <- H. cbn [extra_handler]. unfold get_column_info. cbn [cc_state at_least_initialized cc_info bind of_option]. split.
    + intros [p E]. apply bind_ok in E. destruct E as [b [-> E]]. cbn [bind]. rewrite E. cbn [bind]. eauto.
    + intros [h E]. apply bind_ok in E. destruct E as [b [-> E]]. cbn [bind]. apply bind_ok in E. destruct E as [p [E _]]. eauto.
  - intros p r ph H. apply bind_ok in H. destruct H as [b [B H]].
    exact (photometry_handler_iff stof stof stof strtod (fun _ => Throw) same mag_flux mag_error fs base_dir args P info b p r ph ND B H).
Qed.
Print Assumptions C115_photometry.

Example C115_case :
  let args := ex_args ++ [(txt "missing-photometry-flag", UDouble (Fin 3%Q)); (txt "enable-upper-limit", UText (txt "YES"))] in
  parsed args /\ phot_settings args = Ok (mkPc true (Fin 3%Q) true (Fin (-99)%Q)) /\
  match fst (read_info (new_areader ex_bytes)) with
  | Ok info =>
      match (do bands <- bands_from_options ex_num ex_fs (txt "/data") args; phot_handler args info bands) with
      | Ok p => match create_photometry ex_num deq (fun d => d) (fun a b => b) p
                        (mkRow [CLong 7; CDouble (Fin 1%Q); CVDouble []; CDouble (Fin 3%Q); CDouble (Fin 1%Q)] info) with
                | Ok ph => ph_values ph = [mkFep (Fin 3%Q) (Fin 0%Q) true false]
                | _ => False
                end
      | _ => False
      end
  | _ => False
  end.
Proof.
  cbv zeta. split; [unfold ex_args; cbn [app]; solve_parsed|]. split; [vm_compute; reflexivity|]. vm_compute. reflexivity.
Qed.

(** ** C116 *)

(** The densities of a row: for every name the knots and the values of the column given
    at the first call for that name; they can be made whenever such densities exist. *)
Theorem C116_pdfs : forall K strtod (calls : list (text * text * list K)),
  exists f, add_pdf_columns Constructed (mkPdfFr [] []) calls = Ok f /\
  forall r, (forall pdfs, create_pdfs strtod f r = Ok pdfs -> pdfs_of strtod calls r pdfs)
    /\ ((exists pdfs, pdfs_of strtod calls r pdfs) -> exists pdfs, create_pdfs strtod f r = Ok pdfs).
Proof.
  intros K strtod calls. destruct (add_pdf_columns_ok K Constructed calls eq_refl (mkPdfFr [] [])) as [f [E _]].
  exists f. split; [exact E|]. intros r. apply create_pdfs_spec. exact E.
Qed.
Print Assumptions C116_pdfs.

(** A column whose size is not the number of knots is refused, and every row is accepted
    or refused with an exception. *)
Theorem C116_sizes : forall K strtod (calls : list (text * text * list K)) f r values info,
  add_pdf_columns Constructed (mkPdfFr [] []) calls = Ok f -> new_row values (Some info) = Ok r ->
  ((exists pdfs, create_pdfs strtod f r = Ok pdfs) \/ create_pdfs strtod f r = Throw) /\
  (forall name column knots c data, registered calls name column knots -> row_named r column = Ok c ->
     cast_vdouble strtod c = Ok data -> length data <> length knots -> create_pdfs strtod f r = Throw).
Proof.
  intros K strtod calls f r values info E R.
  assert (O : (exists pdfs, create_pdfs strtod f r = Ok pdfs) \/ create_pdfs strtod f r = Throw).
  { unfold create_pdfs. apply map_o_outcomes. intros [name knots]. cbn [fst snd].
    assert (X : (exists p, one_pdf strtod f r name knots = Ok p) \/ one_pdf strtod f r name knots = Throw).
    { unfold one_pdf. destruct (map_at_outcomes (pf_columns f) name) as [[col ->]| ->]; [|auto]. cbn [bind].
      apply new_row_ok in R. destruct R as [-> [F _]].
      destruct (row_named (mkRow values info) col) as [c| | |] eqn:RN; cbn [bind]; auto.
      - destruct (cast_vdouble_outcomes strtod c) as [[d ->]| ->]; cbn [bind]; [|auto]. destruct (negb _); eauto.
      - exfalso. unfold row_named in RN. cbn [r_info r_values] in RN. destruct (find_col info col) as [k|] eqn:FC; [|discriminate].
        apply find_col_some in FC. destruct FC as [FC _].
        destruct (nth_error values k) eqn:NE; [discriminate|]. apply nth_error_None in NE.
        assert (L : k < length info). { assert (X : k < length (names_of info)) by (apply nth_error_Some; congruence). unfold names_of in X. rewrite map_length in X. exact X. }
        apply (f_equal (@List.length _)) in F. rewrite !map_length in F. lia.
      - exfalso. unfold row_named in RN. cbn [r_info r_values] in RN. destruct (find_col info col) as [k|]; [|discriminate]. destruct (nth_error values k); discriminate. }
    destruct X as [[p ->]| ->]; cbn [bind]; eauto. }
  split; [exact O|]. intros name column knots c data RG RN CV L. destruct O as [[pdfs H]|H]; [|exact H]. exfalso.
  destruct (proj1 (create_pdfs_spec K strtod calls f r E) pdfs H) as [S _].
  destruct (S _ _ _ RG) as [c' [data' [p [A1 [A2 [_ [_ [A3 _]]]]]]]]. apply L. congruence.
Qed.
Print Assumptions C116_sizes.

(** After the initialization no density can be added. *)
Theorem C116_too_late : forall K s (f : pdf_from_row K) name column knots, s = Initialized \/ s = Final ->
  add_pdf_column s f name column knots = Throw.
Proof. intros K s f name column knots H. destruct H as [H|H]; rewrite H; reflexivity. Qed.
Print Assumptions C116_too_late.

Example C116_case :
  let info := [mkDesc (txt "P") TVDouble [] []] in
  let calls := [(txt "p", txt "P", [10; 20])] in
  match add_pdf_columns Constructed (mkPdfFr [] []) calls with
  | Ok f => registered calls (txt "p") (txt "P") [10; 20] /\
      (exists r, new_row [CVDouble [Fin 1%Q; Fin 2%Q]] (Some info) = Ok r /\ exists pdfs, create_pdfs ex_num f r = Ok pdfs) /\
      exists r, new_row [CVDouble [Fin 1%Q]] (Some info) = Ok r /\ create_pdfs ex_num f r = Throw
  | _ => False
  end.
Proof.
  cbv zeta. cbn [add_pdf_columns add_pdf_column at_least_initialized bind]. split; [exists [], []; split; [reflexivity|intros []]|]. split.
  - eexists. split; [vm_compute; reflexivity|]. eexists. vm_compute. reflexivity.
  - eexists. split; vm_compute; reflexivity.
Qed.

(** ** C117 *)

(** The names found are exactly what follows, after one character, one of the given names
    in an option; they are sorted and each appears once. *)
Theorem C117_names : forall option_names options,
  sorted_texts (find_wildcard_names option_names options) /\
  forall y, In y (find_wildcard_names option_names options) <->
    exists o key v, In o option_names /\ In (key, v) options /\ (key = o /\ y = [] \/ exists c, key = o ++ c :: y).
Proof.
  intros names options. destruct (find_outer names options [] sorted_nil) as [A B]. split; [exact A|]. intros y.
  unfold find_wildcard_names. rewrite B. split.
  - intros [[]|[o [key [v [I [J W]]]]]]. exists o, key, v. split; [exact I|]. split; [exact J|]. apply wildcard_of_iff. exact W.
  - intros [o [key [v [I [J W]]]]]. right. exists o, key, v. split; [exact I|]. split; [exact J|]. apply wildcard_of_iff. exact W.
Qed.
Print Assumptions C117_names.

(** Every instance of a wildcard option is found, and the wildcard name determines the
    instance. *)
Theorem C117_instances : forall option_names options name instance instance' v,
  (In name option_names -> In (wildcard name instance, v) options -> In instance (find_wildcard_names option_names options)) /\
  (wildcard name instance = wildcard name instance' -> instance = instance').
Proof.
  intros names options name i i' v. split.
  - intros I J. apply (proj2 (C117_names names options)). exists name, (wildcard name i), v. split; [exact I|]. split; [exact J|]. right. exists "-"%char. reflexivity.
  - unfold wildcard. intros H. apply app_inv_head in H. apply app_inv_head in H. exact H.
Qed.
Print Assumptions C117_instances.

(** The separator is not checked: another option which only begins with the name is taken
    for an instance. *)
Theorem C117_separator_refuted : exists option_names options y, In y (find_wildcard_names option_names options) /\
  forall name v, In name option_names -> ~ In (wildcard name y, v) options.
Proof.
  exists [txt "filter"], [(txt "filters", UInt 1)], []. split; [vm_compute; auto|].
  intros name v [<-|[]] [H|[]]. discriminate H.
Qed.
Print Assumptions C117_separator_refuted.

Example C117_case :
  find_wildcard_names [txt "in"; txt "out"] [(txt "in-b", UInt 1); (txt "in-a", UInt 2); (txt "other", UInt 3); (txt "out-b", UInt 4)] = [txt "a"; txt "b"].
Proof. vm_compute. reflexivity. Qed.

(** ** C118 *)

(** Two managers created one after the other get different identifiers, whatever the
    clock shows. *)
Theorem C118_consecutive : forall n clock l, unique_ids n clock = Ok l ->
  length l = n /\ forall i a b, nth_error l i = Some a -> nth_error l (S i) = Some b -> a <> b.
Proof. intros n clock l H. apply unique_ids_consecutive in H. destruct H as [A [_ B]]. auto. Qed.
Print Assumptions C118_consecutive.

(** If the clock never goes back the identifiers increase, so all are different. *)
Theorem C118_increasing : forall n clock l,
  (forall i a, nth_error clock i = Some a -> (0 <= a)%Z) ->
  (forall i j a b, i < j -> nth_error clock i = Some a -> nth_error clock j = Some b -> (a <= b)%Z) ->
  unique_ids n clock = Ok l ->
  (forall i j a b, i < j -> nth_error l i = Some a -> nth_error l j = Some b -> (a < b)%Z) /\ NoDup l.
Proof.
  intros n clock l N M H.
  assert (I : forall i j a b, i < j -> nth_error l i = Some a -> nth_error l j = Some b -> (a < b)%Z).
  { apply (unique_ids_increasing n 0%Z clock l); [|exact H]. intros [|i] [|j] a b L E F; try lia; cbn [nth_error] in *.
    - injection E as <-. exact (N j b F).
    - apply (M i j a b); [lia|exact E|exact F]. }
  split; [exact I|]. apply NoDup_nth_error. intros i j L E. destruct (lt_eq_lt_dec i j) as [[X|X]|X]; [|exact X|].
  - destruct (nth_error l i) as [a|] eqn:A; [|apply nth_error_None in A; lia]. assert (Y := I i j a a X A (eq_sym E)). lia.
  - destruct (nth_error l i) as [a|] eqn:A; [|apply nth_error_None in A; lia]. assert (Y := I j i a a X (eq_sym E) A). lia.
Qed.
Print Assumptions C118_increasing.

(** A clock that is set back can give an identifier twice, and one that stands still
    never gives another one. *)
Theorem C118_set_back_refuted : exists clock l, unique_ids 3 clock = Ok l /\ ~ NoDup l.
Proof.
  exists [5; 6; 5]%Z, [5; 6; 5]%Z. split; [reflexivity|]. intros N. inversion_clear N as [|? ? N1 _]. apply N1. cbn. auto.
Qed.
Print Assumptions C118_set_back_refuted.
Theorem C118_frozen_refuted : forall t k, unique_ids 2 (repeat t k) = Diverge.
Proof.
  intros t k. assert (D : forall m, unique_id t (repeat t m) = Diverge).
  { induction m as [|j IH]; [reflexivity|]. cbn [repeat unique_id]. rewrite Z.eqb_refl. exact IH. }
  unfold unique_ids. cbn [unique_ids_from]. destruct (unique_id_outcomes 0 (repeat t k)) as [[[x r] E]|E]; rewrite E; cbn [bind]; [|reflexivity].
  cbn [fst snd]. apply unique_id_ok in E. destruct E as [j [E N]]. destruct j as [|j].
  - cbn [repeat app] in E. destruct k as [|k]; [discriminate|]. cbn [repeat] in E. injection E as <- <-. rewrite D. reflexivity.
  - exfalso. destruct k as [|k]; [discriminate|]. cbn [repeat app] in E. injection E as E0 E. subst t.
    assert (I : In x (repeat 0%Z k)) by (rewrite E; apply in_or_app; right; left; reflexivity). apply repeat_spec in I. contradiction.
Qed.
Print Assumptions C118_frozen_refuted.

Example C118_case : unique_ids 3 [10; 10; 10; 11; 11; 15]%Z = Ok [10; 11; 15]%Z.
Proof. reflexivity. Qed.
