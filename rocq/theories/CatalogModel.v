(** Source catalogs: Configuration/src/lib/PhotometricBandMappingConfig.cpp,
    SourceCatalog/src/lib/Catalog.cpp, CatalogFromTable.cpp,
    PhotometryAttributeFromRow.cpp, Photometry.cpp, FluxErrorPair.cpp,
    SourceCatalog/SourceCatalog/Source.h and
    SourceAttributes/SpectroscopicRedshiftAttributeFromRow.h.
    Messages, logging and the option parsing are not modelled. *)
From Coq Require Import QArith Qabs Bool List Ascii String ZArith Arith.
From Verif Require Import Common DblModel TextModel TableModel AsciiModel.
Import ListNotations.
Local Open Scope nat_scope.

(** *** The band mapping file *)

(** std::getline until it fails: a last line without characters is not read. *)
Definition getlines (s : text) : list text :=
  match rev (lines_of s) with
  | [] :: r => rev r
  | _ => lines_of s
  end.

(** The parts of a text between white space. *)
Definition not_empty (s : text) : bool := match s with [] => false | _ => true end.
Definition words (s : text) : list text := filter not_empty (split_on is_space s).

Definition mapping : Type := list (text * (text * text)).
Definition thresholds : Type := list (text * dbl).
Definition converts : Type := list (text * bool).

Section BandFile.
(** std::stof; [None]: it throws. *)
Variable stof : text -> option dbl.

(** std::stoi (strtol, then the range of int). *)
Definition stoi (s : text) : outcome Z :=
  match strtoll s with
  | None => Throw
  | Some z => if Z.ltb int32_max z || Z.ltb z int32_min then Throw else Ok z
  end.

(** PhotometricBandMappingConfig.cpp:81,88 (regex_match of the whole line
    against three to five groups of characters which are neither white space
    nor '#', separated by white space). *)
Definition match_line (line : text) : option (text * text * text * option text * option text) :=
  if existsb (Ascii.eqb "#"%char) line then None
  else match words line with
       | [a; b; c] => Some (a, b, c, None, None)
       | [a; b; c; d] => Some (a, b, c, Some d, None)
       | [a; b; c; d; e] => Some (a, b, c, Some d, Some e)
       | _ => None
       end.

(** PhotometricBandMappingConfig.cpp:74-112. *)
Definition default_threshold : dbl := Fin 3%Q.
Fixpoint parse_lines (ls : list text) : outcome (mapping * thresholds * converts) :=
  match ls with
  | [] => Ok ([], [], [])
  | l :: r =>
      let line := trim l in
      match line with
      | "#"%char :: _ => parse_lines r
      | _ =>
          match match_line line with
          | None => Throw
          | Some (name, flux, err, n, f) =>
              do th <- (match n with None => Ok default_threshold | Some t => match stof t with None => Throw | Some d => Ok d end end);
              do cv <- (match f with None => Ok false | Some t => do z <- stoi t; Ok (negb (Z.eqb z 0)) end);
              do rest <- parse_lines r;
              let '(m, t, c) := rest in
              Ok ((name, (flux, err)) :: m, (name, th) :: t, (name, cv) :: c)
          end
      end
  end.
Definition parse_file (content : text) : outcome (mapping * thresholds * converts) :=
  parse_lines (getlines content).

(** std::set<std::string>: membership and erase. *)
Definition in_set (x : text) (l : list text) : bool := existsb (text_eqb x) l.
Definition erase (x : text) (l : list text) : list text := filter (fun y => negb (text_eqb x y)) l.

(** PhotometricBandMappingConfig.cpp:139-145: the names found are removed from
    the set, so that a second entry with the same name is kept. *)
Fixpoint keep_mapping (excluded : list text) (m : mapping) : mapping * list text :=
  match m with
  | [] => ([], excluded)
  | p :: r =>
      if in_set (fst p) excluded then keep_mapping (erase (fst p) excluded) r
      else let '(k, e) := keep_mapping excluded r in (p :: k, e)
  end.

(** PhotometricBandMappingConfig.cpp:114-156 (initialize) and the getters
    165-187: the three lists, or the exception. *)
Definition init_bands (content : text) (exclude : list text) : outcome (mapping * thresholds * converts) :=
  do parsed <- parse_file content;
  let '(m, t, c) := parsed in
  let t' := filter (fun p => negb (in_set (fst p) exclude)) t in
  let c' := filter (fun p => negb (in_set (fst p) exclude)) c in
  let '(m', unknown) := keep_mapping exclude m in
  match unknown with
  | [] => Ok (m', t', c')
  | _ => Throw
  end.
End BandFile.

(** *** Catalogs *)

(** Source.h:51. *)
Inductive sid : Type := IdInt (z : Z) | IdText (s : text).
Definition sid_eqb (a b : sid) : bool :=
  match a, b with
  | IdInt x, IdInt y => Z.eqb x y
  | IdText x, IdText y => text_eqb x y
  | _, _ => false
  end.

Section Catalog.
(** The type of the attributes; dynamic_pointer_cast<T> is a partial function on it. *)
Variable A : Type.

(** Source.h:60-61, 92-95. *)
Record source : Type := mkSource { s_id : sid; s_attrs : list A }.

(** _impl/Source.icpp:30-42. *)
Fixpoint get_attribute_from {T : Type} (dcast : A -> option T) (l : list A) : option T :=
  match l with
  | [] => None
  | a :: r => match dcast a with Some t => Some t | None => get_attribute_from dcast r end
  end.
Definition get_attribute {T : Type} (dcast : A -> option T) (s : source) : option T :=
  get_attribute_from dcast (s_attrs s).

(** The members of Catalog: the sources and the map from identifiers to
    positions (an association list; its order is not observable). *)
Record catalog : Type := mkCatalog { c_sources : list source; c_index : list (sid * nat) }.

Definition index_find (m : list (sid * nat)) (i : sid) : option nat :=
  option_map snd (find (fun p => sid_eqb (fst p) i) m).

(** Catalog.cpp:36-46. *)
Fixpoint index_sources (m : list (sid * nat)) (k : nat) (l : list source) : outcome (list (sid * nat)) :=
  match l with
  | [] => Ok m
  | s :: r =>
      match index_find m (s_id s) with
      | Some _ => Throw
      | None => index_sources ((s_id s, k) :: m) (S k) r
      end
  end.
Definition new_catalog (l : list source) : outcome catalog :=
  do m <- index_sources [] 0 l; Ok (mkCatalog l m).

(** Catalog.cpp:51-60; m_source_vector[k] out of range is undefined. *)
Definition catalog_find (c : catalog) (i : sid) : outcome (option source) :=
  match index_find (c_index c) i with
  | None => Ok None
  | Some k => match nth_error (c_sources c) k with Some s => Ok (Some s) | None => UB end
  end.
(** Catalog.h:80-94 (begin, end) and 113-115 (size). *)
Definition catalog_sources (c : catalog) : list source := c_sources c.
Definition catalog_size (c : catalog) : nat := List.length (c_sources c).

(** Source.h:105-128. *)
Definition cast_id (c : cell) : outcome sid :=
  match c with
  | CString s => Ok (IdText s)
  | CInt z | CLong z => Ok (IdInt z)
  | _ => Throw
  end.

(** CatalogFromTable.cpp:34-45. *)
Definition new_from_table (info : colinfo) (id_column : text) : outcome nat :=
  match find_col info id_column with None => Throw | Some k => Ok k end.

(** CatalogFromTable.cpp:51-73; an AttributeFromRow is a function of the row. *)
Definition source_of_row (k : nat) (makers : list (row -> outcome A)) (r : row) : outcome source :=
  do c <- row_at r k;
  do i <- cast_id c;
  do attrs <- map_o (fun mk => mk r) makers;
  Ok (mkSource i attrs).
Definition create_catalog (k : nat) (makers : list (row -> outcome A)) (t : table) : outcome catalog :=
  do l <- map_o (source_of_row k makers) (t_rows t);
  new_catalog l.
End Catalog.
Arguments mkSource {A}. Arguments s_id {A}. Arguments s_attrs {A}.
Arguments get_attribute_from {A T}. Arguments get_attribute {A T}.
Arguments mkCatalog {A}. Arguments c_sources {A}. Arguments c_index {A}.
Arguments index_sources {A}. Arguments new_catalog {A}. Arguments catalog_find {A}.
Arguments catalog_sources {A}. Arguments catalog_size {A}.
Arguments source_of_row {A}. Arguments create_catalog {A}.

(** *** Photometry *)

(** FluxErrorPair.cpp:30-31. *)
Record fep : Type := mkFep { f_flux : dbl; f_error : dbl; f_missing : bool; f_upper : bool }.
(** FluxErrorPair.cpp:33-40. *)
Definition fep_eqb (a b : fep) : bool :=
  (f_missing a && f_missing b)
  || (deq (f_flux a) (f_flux b) && deq (f_error a) (f_error b) && Bool.eqb (f_upper a) (f_upper b)).
Definition fep_neqb (a b : fep) : bool := negb (fep_eqb a b).

(** Photometry.h:157-166. *)
Record photometry : Type := mkPhot { ph_names : list text; ph_values : list fep }.
Definition new_photometry (names : option (list text)) (values : list fep) : outcome photometry :=
  match names with
  | None => Throw
  | Some n => if Nat.eqb (List.length n) (List.length values) then Ok (mkPhot n values) else Throw
  end.
(** Photometry.cpp:34-50: the two iterators advance together; reading past the
    last value is undefined. *)
Fixpoint phot_scan (names : list text) (values : list fep) (name : text) : outcome (option fep) :=
  match names with
  | [] => Ok None
  | n :: r =>
      if text_eqb n name then match values with v :: _ => Ok (Some v) | [] => UB end
      else match values with _ :: vs => phot_scan r vs name | [] => UB end
  end.
Definition phot_find (p : photometry) (name : text) : outcome (option fep) :=
  phot_scan (ph_names p) (ph_values p) name.

(** Division of doubles, without rounding; zero has no sign here, x / 0 takes
    the sign of x. *)
Definition sign_of (d : dbl) : comparison :=
  match d with PInf => Gt | NInf => Lt | NaN => Eq | Fin q => (q ?= 0)%Q end.
Definition ddiv (a b : dbl) : dbl :=
  match a, b with
  | NaN, _ | _, NaN => NaN
  | Fin x, Fin y =>
      if Qeq_bool y 0 then match sign_of a with Gt => PInf | Lt => NInf | Eq => NaN end else Fin (x / y)
  | Fin _, _ => Fin 0%Q
  | _, Fin y => match sign_of a, sign_of b with
                | Gt, Lt => NInf | Gt, _ => PInf
                | _, Lt => PInf | _, _ => NInf
                end
  | _, _ => NaN
  end.
(** std::abs(double). *)
Definition dabs (d : dbl) : dbl :=
  match d with Fin q => Fin (Qabs q) | PInf | NInf => PInf | NaN => NaN end.
Definition dzero : dbl := Fin 0%Q.

Section Photometry.
(** The text to double conversion of CastVisitor. *)
Variable strtod : text -> option dbl.
(** Elements::isEqual: equality up to a few units in the last place. *)
Variable same : dbl -> dbl -> bool.
(** 3.631e9 * pow(10, -0.4 * mag) and 0.4 * flux * mag_err * log(10). *)
Variable mag_flux : dbl -> dbl.
Variable mag_error : dbl -> dbl -> dbl.

(** The members of PhotometryAttributeFromRow. *)
Record pfr : Type := mkPfr {
  p_names : list text; p_columns : list (nat * nat);
  p_missing_on : bool; p_missing_flag : dbl;
  p_upper_on : bool; p_thresholds : thresholds; p_upper_flag : dbl;
  p_converts : converts }.

(** PhotometryAttributeFromRow.cpp:54-65. *)
Fixpoint find_columns (info : colinfo) (m : mapping) : outcome (list (nat * nat)) :=
  match m with
  | [] => Ok []
  | (_, (fl, er)) :: r =>
      match find_col info fl, find_col info er with
      | Some i, Some j => do rest <- find_columns info r; Ok ((i, j) :: rest)
      | _, _ => Throw
      end
  end.
(** PhotometryAttributeFromRow.cpp:39-80. *)
Definition new_pfr (info : colinfo) (m : mapping) (missing_on : bool) (missing_flag : dbl)
    (upper_on : bool) (ns : thresholds) (upper_flag : dbl) (cs : converts) : outcome pfr :=
  do cols <- find_columns info m;
  let cs' := if Nat.eqb (List.length cs) (List.length ns) then cs
             else map (fun p => (fst p, false)) ns in
  Ok (mkPfr (map fst m) cols missing_on missing_flag upper_on ns upper_flag cs').

(** PhotometryAttributeFromRow.cpp:88-103. *)
Definition convert_from_mag (p : pfr) (mag mag_err : dbl) : dbl * dbl :=
  if same mag (p_missing_flag p) || is_nan mag then (p_missing_flag p, dzero)
  else
    let flux := mag_flux mag in
    (flux, if same mag_err (p_upper_flag p) then p_upper_flag p else mag_error flux mag_err).

(** PhotometryAttributeFromRow.cpp:118-201 (one filter). *)
Definition create_entry (p : pfr) (n : dbl) (cv : bool) (flux0 error0 : dbl) : outcome fep :=
  let '(flux, error) := if cv then convert_from_mag p flux0 error0 else (flux0, error0) in
  if is_infinite flux then Throw
  else if p_missing_on p then
    if same flux (p_missing_flag p) || is_nan flux then Ok (mkFep flux dzero true false)
    else if p_upper_on p then
      if deq error dzero then Throw
      else if dlt error dzero then
        let error' := if same error (p_upper_flag p) then ddiv flux n else error in
        if dle flux dzero then Throw
        else Ok (mkFep flux (dabs error') false true)
      else Ok (mkFep flux error false false)
    else if dle error dzero then Throw
    else Ok (mkFep flux error false false)
  else if is_nan flux then Throw
  else if p_upper_on p then
    if deq error dzero then Throw
    else if dlt error dzero then
      let error' := if same error (p_upper_flag p) then ddiv flux n else error in
      if dle flux dzero then Throw
      else Ok (mkFep flux (dabs error') false true)
    else Ok (mkFep flux error false false)
  else if dle error dzero then Throw
  else Ok (mkFep flux error false false).

(** PhotometryAttributeFromRow.cpp:109-204: the iterators over the thresholds
    and the conversions advance with the filters; using them past the end is
    undefined. *)
Fixpoint create_entries (p : pfr) (r : row) (cols : list (nat * nat)) (ns : thresholds) (cs : converts)
    : outcome (list fep) :=
  match cols with
  | [] => Ok []
  | (i, j) :: rest =>
      do fc <- row_at r i;
      do ec <- row_at r j;
      do flux <- cast_double strtod fc;
      do error <- cast_double strtod ec;
      match ns, cs with
      | n :: ns', c :: cs' =>
          do e <- create_entry p (snd n) (snd c) flux error;
          do es <- create_entries p r rest ns' cs';
          Ok (e :: es)
      | _, _ => UB
      end
  end.
(** PhotometryAttributeFromRow.cpp:105-209. *)
Definition create_photometry (p : pfr) (r : row) : outcome photometry :=
  do es <- create_entries p r (p_columns p) (p_thresholds p) (p_converts p);
  new_photometry (Some (p_names p)) es.

(** SpectroscopicRedshiftAttributeFromRow.h:74-90 and 109-123. *)
Record zfr : Type := mkZfr { z_value : nat; z_error : option nat }.
Definition new_zfr (info : colinfo) (value : text) (error : option text) : outcome zfr :=
  match find_col info value, error with
  | None, _ => Throw
  | Some k, None => Ok (mkZfr k None)
  | Some k, Some e => match find_col info e with None => Throw | Some j => Ok (mkZfr k (Some j)) end
  end.
(** SpectroscopicRedshiftAttributeFromRow.h:133-140. *)
Definition create_redshift (f : zfr) (r : row) : outcome (dbl * dbl) :=
  do c <- row_at r (z_value f);
  do z <- cast_double strtod c;
  match z_error f with
  | None => Ok (z, dzero)
  | Some j => do ce <- row_at r j; do e <- cast_double strtod ce; Ok (z, e)
  end.
End Photometry.
