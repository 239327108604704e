(** Specification vocabulary for the configurations of the input catalog. *)
From Coq Require Import QArith ZArith List Arith Ascii String Bool.
From Verif Require Import Common TextModel DblModel GridModel TableModel AsciiModel FitsModel CatalogModel ConfigModel
  TableSpec CatalogSpec CatConfModel.
Import ListNotations.
Local Open Scope nat_scope.
Local Notation length := List.length.

(** The options the configurations declare, with their types. *)
Inductive utype : Type := KText | KInt | KDouble | KTexts.
Definition declared : list (text * utype) :=
  [(txt "input-catalog-file", KText); (txt "input-catalog-format", KText);
   (txt "source-id-column-name", KText); (txt "source-id-column-index", KInt);
   (txt "spec-z-column-name", KText); (txt "spec-z-column-index", KInt);
   (txt "spec-z-err-column-name", KText); (txt "spec-z-err-column-index", KInt);
   (txt "missing-photometry-flag", KDouble); (txt "enable-upper-limit", KText);
   (txt "upper-limit-use-threshod-flag", KDouble);
   (txt "filter-mapping-file", KText); (txt "exclude-filter", KTexts)].
Definition has_type (v : uval) (t : utype) : Prop :=
  match v, t with
  | UText _, KText | UDouble _, KDouble | UTexts _, KTexts => True
  | UInt z, KInt => is_int32 z
  | _, _ => False
  end.
(** What the parser of the options gives: one value per option, of its type. *)
Definition parsed (args : user_values) : Prop :=
  NoDup (map fst args) /\ forall key v t, In (key, v) args -> In (key, t) declared -> has_type v t.
Definition is_given (args : user_values) (key : string) : Prop := exists v, In (txt key, v) args.

(** The options of the catalog that must be refused. *)
Inductive bad_catalog_options (args : user_values) : Prop :=
| bad_both : is_given args "source-id-column-name" -> is_given args "source-id-column-index" -> bad_catalog_options args
| bad_index z : In (txt "source-id-column-index", UInt z) args -> (z < 1)%Z -> bad_catalog_options args
| bad_format f : In (txt "input-catalog-format", UText f) args -> ~ In f [txt "AUTO"; txt "FITS"; txt "ASCII"] ->
    bad_catalog_options args.
(** The options of the redshift that must be refused. *)
Inductive bad_redshift_options (args : user_values) : Prop :=
| bad_z_both : is_given args "spec-z-column-name" -> is_given args "spec-z-column-index" -> bad_redshift_options args
| bad_z_none : ~ is_given args "spec-z-column-name" -> ~ is_given args "spec-z-column-index" -> bad_redshift_options args
| bad_z_index z : In (txt "spec-z-column-index", UInt z) args -> (z < 1)%Z -> bad_redshift_options args
| bad_e_both : is_given args "spec-z-err-column-name" -> is_given args "spec-z-err-column-index" -> bad_redshift_options args
| bad_e_index z : In (txt "spec-z-err-column-index", UInt z) args -> (z < 1)%Z -> bad_redshift_options args.

(** The file a path stands for: an absolute path for itself, another one in the base
    directory. *)
Definition absolute (p : text) : Prop := exists r, p = "/"%char :: r.
Inductive resolved (base given : text) : text -> Prop :=
| res_absolute : absolute given -> resolved base given given
| res_no_base : ~ absolute given -> base = [] -> resolved base given given
| res_after_slash b : ~ absolute given -> base = b ++ txt "/" -> resolved base given (base ++ given)
| res_in_base b c : ~ absolute given -> given <> [] -> base = b ++ [c] -> c <> "/"%char ->
    resolved base given (base ++ txt "/" ++ given)
| res_empty : given = [] -> resolved base given base.

(** The columns and the table of a file in either format. *)
Section Format.
Variables pf pd : text -> option dbl.
Variable open_fits : text -> outcome hdu.
Definition file_columns (fits : bool) (bytes : text) : outcome colinfo :=
  if fits then do h <- open_fits bytes; fits_info h else fst (read_info (new_areader bytes)).
Definition file_table (fits : bool) (bytes : text) : outcome table :=
  if fits then do h <- open_fits bytes; do p <- fr_read (new_freader h) (-1); Ok (fst p)
  else fst (ar_read pf pd (new_areader bytes) (-1)).
End Format.

(** The format: the one that is asked for, or that of the first bytes. *)
Inductive format_of (junk : text) (args : user_values) (bytes : text) : bool -> Prop :=
| fmt_fits : In (txt "input-catalog-format", UText (txt "FITS")) args -> format_of junk args bytes true
| fmt_ascii : In (txt "input-catalog-format", UText (txt "ASCII")) args -> format_of junk args bytes false
| fmt_auto fits : In (txt "input-catalog-format", UText (txt "AUTO")) args -> detect_fits junk bytes = Ok fits ->
    format_of junk args bytes fits.

(** A column chosen by its name or by its number, counted from 1. *)
Inductive chosen (args : user_values) (name_option index_option : string) (info : colinfo) (column : text) : Prop :=
| by_name : In (txt name_option, UText column) args -> In column (names_of info) -> chosen args name_option index_option info column
| by_index z d : In (txt index_option, UInt z) args -> (1 <= z)%Z -> nth_error info (Z.to_nat z - 1) = Some d -> cd_name d = column ->
    chosen args name_option index_option info column.
Definition chosen_id (args : user_values) (info : colinfo) (column : text) : Prop :=
  chosen args "source-id-column-name" "source-id-column-index" info column
  \/ ~ is_given args "source-id-column-name" /\ ~ is_given args "source-id-column-index" /\ column = txt "ID".

(** The catalog the options stand for: the file and its bytes, the format, the columns of
    the file and the one of the identifiers. *)
Definition catalog_ready (open_fits : text -> outcome hdu) (fs : text -> entry) (base_dir : text) (args : user_values) (junk : text)
    (file bytes : text) (fits : bool) (info : colinfo) (column : text) : Prop :=
  (exists given, In (txt "input-catalog-file", UText given) args /\ resolved base_dir given file)
  /\ fs file = Regular bytes /\ format_of junk args bytes fits
  /\ file_columns open_fits fits bytes = Ok info /\ chosen_id args info column.

(** The life of a configuration: the user's calls before, between and after the steps
    of the manager. *)
Definition stages {A} (u1 u2 : list (call A)) (fs : text -> entry) (junk : text) (u3 u4 : list (call A)) : list (call A) :=
  u1 ++ PreInitialize :: u2 ++ InitializeWith fs junk :: u3 ++ PostInitialize :: u4.
(** The handlers and the last directory of a sequence of calls. *)
Definition handlers_in {A} (l : list (call A)) : list (row -> outcome A) :=
  flat_map (fun k => match k with AddHandler h => [h] | _ => [] end) l.
Definition base_dir_of {A} (l : list (call A)) : text :=
  last (flat_map (fun k => match k with SetBaseDir d => [d] | _ => [] end) l) [].
Definition user_calls {A} (l : list (call A)) : Prop := Forall (fun k => by_user k = true) l.

(** A source of the catalog and the row it was made from. *)
Definition id_of_cell (c : cell) (i : sid) : Prop :=
  (exists x, c = CString x /\ i = IdText x) \/ (exists z, (c = CInt z \/ c = CLong z) /\ i = IdInt z).
Definition id_of_row (info : colinfo) (column : text) (r : row) (i : sid) : Prop :=
  exists k c, column_named info column k /\ nth_error (r_values r) k = Some c /\ id_of_cell c i.

(** The settings of the photometry. *)
Definition number_or (args : user_values) (key : string) (default d : dbl) : Prop :=
  In (txt key, UDouble d) args \/ ~ is_given args key /\ d = default.

(** The instances of the options with wildcards. *)
Definition sorted_texts (l : list text) : Prop := forall i j a b, i < j -> nth_error l i = Some a -> nth_error l j = Some b -> text_ltb a b = true.

(** The values of a density: one per knot, in order. *)
Definition pdf_of {K} (p : pdf K) (knots : list K) (values : list dbl) : Prop :=
  (exists name, get_axis (pdf_view p) 0 = Some (mkAxis name knots))
  /\ length values = length knots
  /\ forall i, at_read (pdf_view p) (pdf_cells p) [i] = match nth_error values i with Some x => Ok x | None => Throw end.
(** The first call of addPdfColumn for a name. *)
Definition registered {K} (calls : list (text * text * list K)) (name column : text) (knots : list K) : Prop :=
  exists before after, calls = before ++ (name, column, knots) :: after /\ ~ In name (map (fun c => fst (fst c)) before).
(** The densities of a row for these calls. *)
Definition pdfs_of {K} (strtod : text -> option dbl) (calls : list (text * text * list K)) (r : row) (pdfs : list (text * pdf K)) : Prop :=
  (forall name column knots, registered calls name column knots ->
     exists c data p, row_named r column = Ok c /\ cast_vdouble strtod c = Ok data
       /\ get_pdf pdfs name = Ok p /\ pdf_of p knots data)
  /\ forall name, ~ In name (map (fun c => fst (fst c)) calls) -> get_pdf pdfs name = Throw.

(** What each configuration puts into a source. *)
Section Attributes.
Variable K : Type.
Variables stof strtod : text -> option dbl.
Variable same : dbl -> dbl -> bool.
Variable mag_flux : dbl -> dbl.
Variable mag_error : dbl -> dbl -> dbl.
Variable fs : text -> entry.
Variable base_dir : text.
Variable args : user_values.
Variable info : colinfo.

Definition photometry_of (r : row) (ph : photometry) : Prop :=
  exists given file bytes exclude m ns cs missing upper missing_flag upper_flag,
    In (txt "filter-mapping-file", UText given) args /\ resolved base_dir given file /\ fs file = Regular bytes
    /\ In (txt "exclude-filter", UTexts exclude) args /\ init_bands stof bytes exclude = Ok (m, ns, cs)
    /\ (missing = true <-> is_given args "missing-photometry-flag")
    /\ (upper = true <-> In (txt "enable-upper-limit", UText (txt "YES")) args)
    /\ number_or args "missing-photometry-flag" (Fin (-99)%Q) missing_flag
    /\ number_or args "upper-limit-use-threshod-flag" (Fin (-99)%Q) upper_flag
    /\ ph_names ph = names m /\ length (ph_values ph) = length m
    /\ forall k f, nth_error m k = Some f ->
       exists n c x, nth_error ns k = Some n /\ nth_error cs k = Some c /\ nth_error (ph_values ph) k = Some x
         /\ filter_entry strtod same mag_flux mag_error missing missing_flag upper upper_flag info r f (snd n) (snd c) x.

Definition redshift_of (r : row) (z : dbl * dbl) : Prop :=
  exists value k c,
    chosen args "spec-z-column-name" "spec-z-column-index" info value /\ column_named info value k
    /\ nth_error (r_values r) k = Some c /\ cast_double strtod c = Ok (fst z)
    /\ (~ is_given args "spec-z-err-column-name" /\ ~ is_given args "spec-z-err-column-index" /\ snd z = Fin 0%Q
        \/ exists err j e, chosen args "spec-z-err-column-name" "spec-z-err-column-index" info err /\ column_named info err j
             /\ nth_error (r_values r) j = Some e /\ cast_double strtod e = Ok (snd z)).

Definition attribute_of (r : row) (e : extra K) (a : attribute K) : Prop :=
  match e, a with
  | WithPhotometry, APhotometry ph => photometry_of r ph
  | WithRedshift, ARedshift z => redshift_of r z
  | WithPdfs calls, APdfs pdfs => pdfs_of strtod calls r pdfs
  | WithRows, ARow r' => r' = r
  | _, _ => False
  end.
End Attributes.

(** What each configuration needs to be initialized. *)
Definition can_start {K} (stof : text -> option dbl) (fs : text -> entry) (base_dir : text) (args : user_values) (info : colinfo) (e : extra K) : Prop :=
  match e with
  | WithPhotometry =>
      exists given file bytes exclude m ns cs,
        In (txt "filter-mapping-file", UText given) args /\ resolved base_dir given file /\ fs file = Regular bytes
        /\ In (txt "exclude-filter", UTexts exclude) args /\ init_bands stof bytes exclude = Ok (m, ns, cs)
        /\ forall f, In f m -> In (fst (snd f)) (names_of info) /\ In (snd (snd f)) (names_of info)
  | WithRedshift =>
      (exists value, chosen args "spec-z-column-name" "spec-z-column-index" info value)
      /\ (~ is_given args "spec-z-err-column-name" /\ ~ is_given args "spec-z-err-column-index"
          \/ exists err, chosen args "spec-z-err-column-name" "spec-z-err-column-index" info err)
  | WithPdfs _ | WithRows => True
  end.

(** The catalog of a program: one source per row of the file, in order, with the
    identifier of the row and one attribute per configuration, in their order. *)
Definition catalog_of {K} (pf pd stof strtod : text -> option dbl) (open_fits : text -> outcome hdu) (same : dbl -> dbl -> bool)
    (mag_flux : dbl -> dbl) (mag_error : dbl -> dbl -> dbl) (fs : text -> entry) (junk base_dir : text) (args : user_values)
    (l : list (extra K)) (sources : list (source (attribute K))) : Prop :=
  exists file bytes fits t column,
    catalog_ready open_fits fs base_dir args junk file bytes fits (t_info t) column
    /\ file_table pf pd open_fits fits bytes = Ok t
    /\ NoDup (ids sources)
    /\ Forall2 (fun r s => id_of_row (t_info t) column r (s_id s)
         /\ Forall2 (attribute_of K stof strtod same mag_flux mag_error fs base_dir args (t_info t) r) l (s_attrs s)) (t_rows t) sources.
