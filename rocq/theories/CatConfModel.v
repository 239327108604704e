(** Model of the configurations of the input catalog (Configuration/src/lib/
    CatalogConfig.cpp, PhotometryCatalogConfig.cpp, SpecZCatalogConfig.cpp,
    ProgramOptionsHelper.cpp, Utils.cpp, Configuration/Configuration/PdfCatalogConfig.h,
    and SourceCatalog/SourceAttributes/PdfFromRow.h, Pdf.h, TableRowAttribute(FromRow).cpp
    in /repo).

    The file system is a function from paths to what is there. [junk] are the bytes
    which happen to be in memory behind those that were read (see [first_header]).
    [open_fits] is the first extension of a FITS file, for the bytes of the file.
    Messages are not modelled. *)
From Coq Require Import QArith ZArith List Arith Ascii String Bool.
From Verif Require Import Common TextModel DblModel GridModel TableModel AsciiModel FitsModel CatalogModel ConfigModel.
Import ListNotations.
Local Open Scope nat_scope.
Local Notation length := List.length.

(** ** The user values *)

(** boost::program_options::variable_value: a value of one of the types used. *)
Inductive uval : Type := UText (s : text) | UInt (z : Z) | UDouble (d : dbl) | UTexts (l : list text).
(** std::map<std::string, variable_value>. *)
Definition user_values : Type := list (text * uval).
Definition option_value (args : user_values) (key : text) : option uval :=
  option_map snd (find (fun p => text_eqb (fst p) key) args).
(** args.find(key) != args.end(). *)
Definition has (args : user_values) (key : text) : bool :=
  match option_value args key with Some _ => true | None => false end.
(** args.at(key).as<T>(): a missing key or another type throws. *)
Definition at_text (args : user_values) (key : text) : outcome text :=
  match option_value args key with Some (UText s) => Ok s | _ => Throw end.
Definition at_int (args : user_values) (key : text) : outcome Z :=
  match option_value args key with Some (UInt z) => Ok z | _ => Throw end.
Definition at_double (args : user_values) (key : text) : outcome dbl :=
  match option_value args key with Some (UDouble d) => Ok d | _ => Throw end.
Definition at_texts (args : user_values) (key : text) : outcome (list text) :=
  match option_value args key with Some (UTexts l) => Ok l | _ => Throw end.

(** CatalogConfig.cpp:41-44, SpecZCatalogConfig.cpp:35-38,
    PhotometryCatalogConfig.cpp:38-40, PhotometricBandMappingConfig.cpp:47-48. *)
Definition CATALOG_FILE : text := txt "input-catalog-file".
Definition CATALOG_FORMAT : text := txt "input-catalog-format".
Definition ID_NAME : text := txt "source-id-column-name".
Definition ID_INDEX : text := txt "source-id-column-index".
Definition SPECZ_NAME : text := txt "spec-z-column-name".
Definition SPECZ_INDEX : text := txt "spec-z-column-index".
Definition SPECZ_ERR_NAME : text := txt "spec-z-err-column-name".
Definition SPECZ_ERR_INDEX : text := txt "spec-z-err-column-index".
Definition MISSING_FLAG : text := txt "missing-photometry-flag".
Definition ENABLE_UPPER_LIMIT : text := txt "enable-upper-limit".
Definition THRESHOLD_FLAG : text := txt "upper-limit-use-threshod-flag".
Definition MAPPING_FILE : text := txt "filter-mapping-file".
Definition EXCLUDE_FILTER : text := txt "exclude-filter".

(** ** Names and identifiers *)

(** ProgramOptionsHelper.cpp:30-32. *)
Definition wildcard (name instance : text) : text := name ++ txt "-" ++ instance.
(** ProgramOptionsHelper.cpp:39-48: what one option contributes. *)
Definition wildcard_of (option_name key : text) : option text :=
  if starts_with key option_name then Some (tl (skipn (length option_name) key)) else None.
(** std::set<std::string>: insert. *)
Fixpoint set_insert (x : text) (l : list text) : list text :=
  match l with
  | [] => [x]
  | y :: r => if text_ltb x y then x :: l else if text_ltb y x then y :: set_insert x r else l
  end.
(** ProgramOptionsHelper.cpp:34-51. *)
Definition find_wildcard_names (option_names : list text) (options : user_values) : list text :=
  fold_left (fun result option_name =>
    fold_left (fun result pair =>
      match wildcard_of option_name (fst pair) with Some name => set_insert name result | None => result end)
      options result)
    option_names [].

(** Utils.cpp:34-41: [clock] are the readings of the system clock, in microseconds, in
    the order in which they are taken; the identifier, and the readings left. A clock
    that stands still makes the loop run for ever. *)
Fixpoint unique_id (last_id : Z) (clock : list Z) : outcome (Z * list Z) :=
  match clock with
  | [] => Diverge
  | t :: r => if Z.eqb t last_id then unique_id last_id r else Ok (t, r)
  end.
(** [n] calls, the first with the initial value of the variable (Utils.cpp:32). *)
Fixpoint unique_ids_from (last_id : Z) (n : nat) (clock : list Z) : outcome (list Z) :=
  match n with
  | O => Ok []
  | S n' =>
      do p <- unique_id last_id clock;
      do ids <- unique_ids_from (fst p) n' (snd p);
      Ok (fst p :: ids)
  end.
Definition unique_ids (n : nat) (clock : list Z) : outcome (list Z) := unique_ids_from 0 n clock.

(** ** Files *)

Inductive entry : Type := Nothing | Folder | Regular (bytes : text).
(** boost::filesystem: a path with a root name (two slashes) is not considered. *)
Definition is_relative (p : text) : bool := match p with c :: _ => negb (Ascii.eqb c "/") | [] => true end.
Definition join_path (base p : text) : text :=
  match p with
  | [] => base
  | _ => match base with
         | [] => p
         | _ => if Ascii.eqb (last base sp) "/" then base ++ p else base ++ "/"%char :: p
         end
  end.
(** CatalogConfig.cpp:78-90 and PhotometricBandMappingConfig.cpp:60-72. *)
Definition file_from_options (fs : text -> entry) (key : text) (args : user_values) (base_dir : text) : outcome text :=
  do given <- at_text args key;
  let file := if is_relative given then join_path base_dir given else given in
  match fs file with
  | Nothing => Throw
  | Folder => Throw
  | Regular _ => Ok file
  end.

(** CatalogConfig.cpp:99-103: the std::string made from an array of 80 characters of
    which the file filled the first: the characters before the first zero byte in the
    array or in what follows it in memory. Without such a byte, and strictly whenever
    the array itself has none, the behaviour is undefined. *)
Definition nul : ascii := ascii_of_nat 0.
Fixpoint until_nul (s : text) : outcome text :=
  match s with
  | [] => UB
  | c :: r => if Ascii.eqb c nul then Ok [] else do t <- until_nul r; Ok (c :: t)
  end.
Definition first_header (junk bytes : text) : outcome text := until_nul (firstn 80 bytes ++ junk).
(** CatalogConfig.cpp:94-110: is it a FITS file? *)
Definition detect_fits (junk bytes : text) : outcome bool :=
  do header <- first_header junk bytes;
  Ok (text_eqb (firstn 9 header) (txt "SIMPLE  =")).

Section Files.
Variables pf pd : text -> option dbl.
Variable open_fits : text -> outcome hdu.
Variable fs : text -> entry.
Variable junk : text.

(** The bytes of a file that is there; the readers throw otherwise. *)
Definition bytes_of (file : text) : outcome text := match fs file with Regular b => Ok b | _ => Throw end.

(** CatalogConfig.cpp:112-122. *)
Definition format_from_options (args : user_values) (file : text) : outcome bool :=
  do f <- at_text args CATALOG_FORMAT;
  if text_eqb f (txt "AUTO") then do b <- bytes_of file; detect_fits junk b
  else Ok (text_eqb f (txt "FITS")).

(** CatalogConfig.cpp:124-130: the columns (getInfo) and all the rows (read) of the
    reader. *)
Definition reader_info (fits_format : bool) (file : text) : outcome colinfo :=
  do b <- bytes_of file;
  if fits_format then do h <- open_fits b; do p <- fr_read_info (new_freader h); Ok (fst p)
  else fst (read_info (new_areader b)).
Definition reader_table (fits_format : bool) (file : text) : outcome table :=
  do b <- bytes_of file;
  if fits_format then do h <- open_fits b; do p <- fr_read (new_freader h) (-1); Ok (fst p)
  else fst (ar_read pf pd (new_areader b) (-1)).
End Files.

(** The conversion of an int to std::size_t. *)
Definition size_of_int (z : Z) : Z := Z.modulo z (2 ^ 64).
(** CatalogConfig.cpp:141-146, SpecZCatalogConfig.cpp:88-93, 106-111: the name of the
    column with that number. A vector subscript out of range is UB, here for 0. *)
Definition column_of_index (args : user_values) (key : text) (info : colinfo) : outcome text :=
  do z <- at_int args key;
  let index := size_of_int z in
  if Z.ltb (Z.of_nat (length info)) index then Throw
  else if Z.eqb index 0 then UB
  else do d <- get_desc info (Z.to_nat (index - 1)); Ok (cd_name d).
(** CatalogConfig.cpp:134-140, SpecZCatalogConfig.cpp:80-86, 98-104. *)
Definition column_of_name (args : user_values) (key : text) (info : colinfo) : outcome text :=
  do name <- at_text args key;
  match find_col info name with None => Throw | Some _ => Ok name end.

(** CatalogConfig.cpp:132-149. *)
Definition id_column_from_options (args : user_values) (info : colinfo) : outcome text :=
  do name <- (if has args ID_NAME then column_of_name args ID_NAME info else Ok (txt "ID"));
  if has args ID_INDEX then column_of_index args ID_INDEX info else Ok name.

(** CatalogConfig.cpp:57-74 (preInitialize). *)
Definition check_index (args : user_values) (key : text) : outcome unit :=
  if has args key then do z <- at_int args key; if Z.ltb z 1 then Throw else Ok tt else Ok tt.
Definition cat_pre_initialize (args : user_values) : outcome unit :=
  if has args ID_NAME && has args ID_INDEX then Throw
  else
    do _ <- check_index args ID_INDEX;
    if has args CATALOG_FORMAT then
      do f <- at_text args CATALOG_FORMAT;
      if negb (text_eqb f (txt "AUTO")) && negb (text_eqb f (txt "FITS")) && negb (text_eqb f (txt "ASCII")) then Throw
      else Ok tt
    else Ok tt.

(** ** CatalogConfig *)

Section Config.
Variables pf pd : text -> option dbl.
Variable open_fits : text -> outcome hdu.
(** The attributes. *)
Variable A : Type.

(** CatalogConfig.h:246-252 and the state of Configuration.h. The handlers are functions
    of the row. *)
Record catconf : Type := mkCat {
  cc_state : cstate; cc_base : text; cc_file : text; cc_fits : bool; cc_id : text;
  cc_handlers : list (row -> outcome A); cc_info : option colinfo }.
Definition new_catconf : catconf := mkCat Constructed [] [] true [] [] None.
Definition with_state (c : catconf) (s : cstate) : catconf :=
  mkCat s (cc_base c) (cc_file c) (cc_fits c) (cc_id c) (cc_handlers c) (cc_info c).
Definition is_final (s : cstate) : bool := match s with Final => true | _ => false end.

(** CatalogConfig.cpp:160-165 *)
Definition set_base_dir (c : catconf) (dir : text) : outcome catconf :=
  if at_least_initialized (cc_state c) then Throw
  else Ok (mkCat (cc_state c) dir (cc_file c) (cc_fits c) (cc_id c) (cc_handlers c) (cc_info c)).
(** CatalogConfig.cpp:167-172 *)
Definition add_handler (c : catconf) (h : row -> outcome A) : outcome catconf :=
  if is_final (cc_state c) then Throw
  else Ok (mkCat (cc_state c) (cc_base c) (cc_file c) (cc_fits c) (cc_id c) (cc_handlers c ++ [h]) (cc_info c)).
(** CatalogConfig.cpp:153-158. The members set before an exception are not kept here:
    the manager stops at the exception. *)
Definition cat_initialize (fs : text -> entry) (junk : text) (args : user_values) (c : catconf) : outcome catconf :=
  do file <- file_from_options fs CATALOG_FILE args (cc_base c);
  do fits <- format_from_options fs junk args file;
  do info <- reader_info open_fits fs fits file;
  do id <- id_column_from_options args info;
  Ok (mkCat (cc_state c) (cc_base c) file fits id (cc_handlers c) (Some info)).

(** CatalogConfig.cpp:181-186, 188-190, 234-239. *)
Definition get_column_info (c : catconf) : outcome (option colinfo) :=
  if at_least_initialized (cc_state c) then Ok (cc_info c) else Throw.
Definition get_id_column (c : catconf) : text := cc_id c.
Definition get_filename (c : catconf) : outcome text :=
  if at_least_initialized (cc_state c) then Ok (cc_file c) else Throw.
(** CatalogConfig.cpp:212-217 with CatalogFromTable.cpp:34-45: the position of the column
    of the identifiers and the handlers. A null pointer to the columns is UB. *)
Definition get_converter (c : catconf) : outcome (table -> outcome (catalog A)) :=
  if is_final (cc_state c) then
    do info <- of_option (cc_info c);
    do k <- new_from_table info (cc_id c);
    Ok (create_catalog k (cc_handlers c))
  else Throw.
(** CatalogConfig.cpp:219-225. *)
Definition read_as_table (fs : text -> entry) (c : catconf) : outcome table :=
  if is_final (cc_state c) then reader_table pf pd open_fits fs (cc_fits c) (cc_file c) else Throw.
(** CatalogConfig.cpp:227-234. *)
Definition read_as_catalog (fs : text -> entry) (c : catconf) : outcome (catalog A) :=
  if is_final (cc_state c) then
    do t <- read_as_table fs c;
    do convert <- get_converter c;
    convert t
  else Throw.

(** The calls made on the object: by the user or another configuration, and by the
    manager (ConfigManager.cpp:139-170), which calls preInitialize, initialize and
    postInitialize and sets the state after each. *)
Inductive call : Type :=
| SetBaseDir (dir : text)
| AddHandler (h : row -> outcome A)
| PreInitialize
| InitializeWith (fs : text -> entry) (junk : text)
| PostInitialize.
Definition cat_call (args : user_values) (c : catconf) (k : call) : outcome catconf :=
  match k with
  | SetBaseDir dir => set_base_dir c dir
  | AddHandler h => add_handler c h
  | PreInitialize => do _ <- cat_pre_initialize args; Ok (with_state c PreInitialized)
  | InitializeWith fs junk => do c' <- cat_initialize fs junk args c; Ok (with_state c' Initialized)
  | PostInitialize => Ok (with_state c Final)
  end.
(** A sequence of calls; the exceptions of the user's own calls are caught. *)
Definition by_user (k : call) : bool := match k with SetBaseDir _ | AddHandler _ => true | _ => false end.
Fixpoint cat_calls (args : user_values) (c : catconf) (l : list call) : outcome catconf :=
  match l with
  | [] => Ok c
  | k :: r =>
      match cat_call args c k with
      | Ok c' => cat_calls args c' r
      | o => if by_user k then cat_calls args c r else o
      end
  end.
End Config.
Arguments mkCat {A}. Arguments cc_state {A}. Arguments cc_base {A}. Arguments cc_file {A}.
Arguments cc_fits {A}. Arguments cc_id {A}. Arguments cc_handlers {A}. Arguments cc_info {A}.
Arguments new_catconf {A}. Arguments with_state {A}. Arguments set_base_dir {A}. Arguments add_handler {A}.
Arguments cat_initialize open_fits {A}. Arguments get_column_info {A}. Arguments get_id_column {A}.
Arguments get_filename {A}. Arguments get_converter {A}. Arguments read_as_table pf pd open_fits {A}.
Arguments read_as_catalog pf pd open_fits {A}. Arguments cat_call open_fits {A}. Arguments cat_calls open_fits {A}.
Arguments SetBaseDir {A}. Arguments AddHandler {A}. Arguments PreInitialize {A}.
Arguments InitializeWith {A}. Arguments PostInitialize {A}. Arguments by_user {A}.

(** ** The attributes *)

(** Pdf.h: GridContainer<std::vector<double>, T> with one axis of knots [K]. *)
Record pdf (K : Type) : Type := mkPdf { pdf_view : view K; pdf_cells : list dbl }.
Arguments mkPdf {K}. Arguments pdf_view {K}. Arguments pdf_cells {K}.
(** std::map::emplace: the first value of a key is kept. The order of the maps is not
    observable here. *)
Definition emplace {V} (m : list (text * V)) (k : text) (v : V) : list (text * V) :=
  if existsb (fun p => text_eqb (fst p) k) m then m else m ++ [(k, v)].
(** std::map::at. *)
Definition map_at {V} (m : list (text * V)) (k : text) : outcome V :=
  match find (fun p => text_eqb (fst p) k) m with Some p => Ok (snd p) | None => Throw end.

Section Pdfs.
Variable K : Type.
(** The text to double conversion of CastVisitor. *)
Variable strtod : text -> option dbl.

(** PdfFromRow.h:60-88: m_keys and m_column_names. *)
Record pdf_from_row : Type := mkPdfFr { pf_keys : list (text * list K); pf_columns : list (text * text) }.
(** PdfFromRow.h:70-84, one turn: the copy fills the grid in the order of its iterator. *)
Definition one_pdf (f : pdf_from_row) (r : row) (name : text) (keys : list K) : outcome (pdf K) :=
  let v := new_view [mkAxis (string_of_list_ascii name) keys] in
  do column <- map_at (pf_columns f) name;
  do cell <- row_named r column;
  do data <- cast_vdouble strtod cell;
  if negb (Nat.eqb (length data) (view_size v)) then Throw else Ok (mkPdf v data).
Definition create_pdfs (f : pdf_from_row) (r : row) : outcome (list (text * pdf K)) :=
  map_o (fun pair => do p <- one_pdf f r (fst pair) (snd pair); Ok (fst pair, p)) (pf_keys f).
(** Pdf.h:54-56 (getPdf). *)
Definition get_pdf (pdfs : list (text * pdf K)) (name : text) : outcome (pdf K) := map_at pdfs name.

(** PdfCatalogConfig.h:48-54 (addPdfColumn), for the state of the configuration. *)
Definition add_pdf_column (s : cstate) (f : pdf_from_row) (pdf_name col_name : text) (keys : list K) : outcome pdf_from_row :=
  if at_least_initialized s then Throw
  else Ok (mkPdfFr (emplace (pf_keys f) pdf_name keys) (emplace (pf_columns f) pdf_name col_name)).
(** A sequence of calls in the state [s]. *)
Fixpoint add_pdf_columns (s : cstate) (f : pdf_from_row) (l : list (text * text * list K)) : outcome pdf_from_row :=
  match l with
  | [] => Ok f
  | (pdf_name, col_name, keys) :: r => do f' <- add_pdf_column s f pdf_name col_name keys; add_pdf_columns s f' r
  end.
End Pdfs.
Arguments mkPdfFr {K}. Arguments pf_keys {K}. Arguments pf_columns {K}. Arguments one_pdf {K}.
Arguments create_pdfs {K}. Arguments get_pdf {K}. Arguments add_pdf_column {K}. Arguments add_pdf_columns {K}.

(** The attributes made by the handlers of this library. *)
Inductive attribute (K : Type) : Type :=
| APhotometry (p : photometry)
| ARedshift (z : dbl * dbl)
| APdfs (p : list (text * pdf K))
| ARow (r : row).
Arguments APhotometry {K}. Arguments ARedshift {K}. Arguments APdfs {K}. Arguments ARow {K}.

(** ** SpecZCatalogConfig *)

(** SpecZCatalogConfig.cpp:57-77. *)
Definition specz_pre_initialize (args : user_values) : outcome unit :=
  if has args SPECZ_NAME && has args SPECZ_INDEX then Throw
  else if negb (has args SPECZ_NAME) && negb (has args SPECZ_INDEX) then Throw
  else
    do _ <- check_index args SPECZ_INDEX;
    if has args SPECZ_ERR_NAME && has args SPECZ_ERR_INDEX then Throw
    else check_index args SPECZ_ERR_INDEX.
(** SpecZCatalogConfig.cpp:79-95 and 97-113. *)
Definition column_from_options (name_key index_key : text) (args : user_values) (info : colinfo) : outcome text :=
  if has args name_key then column_of_name args name_key info else column_of_index args index_key info.
(** SpecZCatalogConfig.cpp:115-125: the handler. *)
Definition specz_handler (args : user_values) (info : colinfo) : outcome zfr :=
  do value <- column_from_options SPECZ_NAME SPECZ_INDEX args info;
  if negb (has args SPECZ_ERR_NAME) && negb (has args SPECZ_ERR_INDEX) then new_zfr info value None
  else do err <- column_from_options SPECZ_ERR_NAME SPECZ_ERR_INDEX args info; new_zfr info value (Some err).

(** ** PhotometryCatalogConfig *)

(** The settings of the photometry. *)
Record photconf : Type := mkPc {
  pc_missing_on : bool; pc_missing_flag : dbl; pc_upper_on : bool; pc_upper_flag : dbl }.
Definition minus_99 : dbl := Fin (-99)%Q.
(** PhotometryCatalogConfig.cpp:63-80. *)
Definition phot_settings (args : user_values) : outcome photconf :=
  do upper <- (if has args ENABLE_UPPER_LIMIT then do s <- at_text args ENABLE_UPPER_LIMIT; Ok (text_eqb s (txt "YES")) else Ok false);
  do flag <- (if has args THRESHOLD_FLAG then at_double args THRESHOLD_FLAG else Ok minus_99);
  if has args MISSING_FLAG then do missing <- at_double args MISSING_FLAG; Ok (mkPc true missing upper flag)
  else Ok (mkPc false minus_99 upper flag).
(** PhotometryCatalogConfig.cpp:82-91: the handler, from the lists of the band mapping. *)
Definition phot_handler (args : user_values) (info : colinfo) (bands : mapping * thresholds * converts) : outcome pfr :=
  do s <- phot_settings args;
  let '(m, t, c) := bands in
  new_pfr info m (pc_missing_on s) (pc_missing_flag s) (pc_upper_on s) t (pc_upper_flag s) c.

(** PhotometricBandMappingConfig.cpp:114-156 with the file of the options. *)
Definition bands_from_options (stof : text -> option dbl) (fs : text -> entry) (base_dir : text) (args : user_values)
  : outcome (mapping * thresholds * converts) :=
  do file <- file_from_options fs MAPPING_FILE args base_dir;
  do b <- bytes_of fs file;
  do exclude <- at_texts args EXCLUDE_FILTER;
  init_bands stof b exclude.

(** ** A program with these configurations *)

Section Program.
Variable K : Type.
Variables pf pd stof strtod : text -> option dbl.
Variable open_fits : text -> outcome hdu.
Variable same : dbl -> dbl -> bool.
Variable mag_flux : dbl -> dbl.
Variable mag_error : dbl -> dbl -> dbl.

(** The configurations that add a handler; the order in which the manager initializes
    them is that of the list. [calls] are the calls of addPdfColumn made before: the name,
    the column and the knots. *)
Inductive extra : Type := WithPhotometry | WithRedshift | WithPdfs (calls : list (text * text * list K)) | WithRows.
Definition extra_pre_initialize (args : user_values) (e : extra) : outcome unit :=
  match e with WithRedshift => specz_pre_initialize args | _ => Ok tt end.
(** The handlers of initialize() of each; a null pointer to the columns is UB. *)
Definition extra_handler (fs : text -> entry) (base_dir : text) (args : user_values) (c : catconf (attribute K)) (e : extra)
  : outcome (row -> outcome (attribute K)) :=
  match e with
  | WithPhotometry =>
      do bands <- bands_from_options stof fs base_dir args;
      do i <- get_column_info c;
      do info <- of_option i;
      do p <- phot_handler args info bands;
      Ok (fun r => do a <- create_photometry strtod same mag_flux mag_error p r; Ok (APhotometry a))
  | WithRedshift =>
      do i <- get_column_info c;
      do info <- of_option i;
      do z <- specz_handler args info;
      Ok (fun r => do a <- create_redshift strtod z r; Ok (ARedshift a))
  | WithPdfs calls =>
      do f <- add_pdf_columns Constructed (mkPdfFr [] []) calls;
      Ok (fun r => do a <- create_pdfs strtod f r; Ok (APdfs a))
  | WithRows => Ok (fun r => Ok (ARow r))
  end.
Fixpoint add_handlers (fs : text -> entry) (base_dir : text) (args : user_values) (c : catconf (attribute K)) (l : list extra)
  : outcome (catconf (attribute K)) :=
  match l with
  | [] => Ok c
  | e :: r =>
      do h <- extra_handler fs base_dir args c e;
      do c' <- add_handler c h;
      add_handlers fs base_dir args c' r
  end.
Fixpoint pre_initialize_all (args : user_values) (l : list extra) : outcome unit :=
  match l with
  | [] => Ok tt
  | e :: r => do _ <- extra_pre_initialize args e; pre_initialize_all args r
  end.
(** ConfigManager.cpp:154-170: all the preInitialize, then the initialize, those of the
    dependencies first, then all the postInitialize. *)
Definition run_program (fs : text -> entry) (junk base_dir : text) (args : user_values) (l : list extra)
  : outcome (catconf (attribute K)) :=
  do c0 <- set_base_dir new_catconf base_dir;
  do _ <- cat_pre_initialize args;
  do _ <- pre_initialize_all args l;
  do c1 <- cat_initialize open_fits fs junk args (with_state c0 PreInitialized);
  do c2 <- add_handlers fs base_dir args (with_state c1 Initialized) l;
  Ok (with_state c2 Final).
End Program.
Arguments WithPhotometry {K}. Arguments WithRedshift {K}. Arguments WithPdfs {K}. Arguments WithRows {K}.
