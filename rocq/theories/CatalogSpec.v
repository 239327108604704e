(** Specification vocabulary for the catalogs. *)
From Coq Require Import QArith Bool List Ascii ZArith Arith.
From Verif Require Import Common DblModel TextModel TableModel CatalogModel.
Import ListNotations.
Local Open Scope nat_scope.

(** The names of the lists returned by the configuration, in order. *)
Definition names {B : Type} (l : list (text * B)) : list text := map fst l.

Definition text_dec : forall a b : text, {a = b} + {a <> b} := list_eq_dec ascii_dec.
(** The entries of [l] whose name is not excluded, in order. *)
Definition without {B : Type} (excluded : list text) (l : list (text * B)) : list (text * B) :=
  filter (fun p => if in_dec text_dec (fst p) excluded then false else true) l.

(** A line of the mapping file, as the user writes it: a comment, or a filter
    with the names of its two columns and at most two options. *)
Inductive band_line : Type :=
| Comment (s : text)
| Band (name flux err : text) (options : list text).

(** A word: not empty, without white space and without '#'. *)
Definition is_word (s : text) : Prop := s <> [] /\ ~ In "#"%char s /\ forall c, In c s -> is_space c = false.
(** A separator: blanks and tabs, at least one character. *)
Definition is_gap (s : text) : Prop := s <> [] /\ forall c, In c s -> c = " "%char \/ c = "009"%char.

Definition written (gap : text) (b : band_line) : text :=
  match b with
  | Comment s => "#"%char :: s
  | Band name flux err options => name ++ flat_map (fun w => gap ++ w) (flux :: err :: options)
  end.
Definition file_of (gap : text) (l : list band_line) : text :=
  flat_map (fun b => written gap b ++ ["010"%char]) l.
Definition well_written (b : band_line) : Prop :=
  match b with
  | Comment s => ~ In "010"%char s
  | Band name flux err options => Forall is_word (name :: flux :: err :: options)
  end.

(** What a line stands for: the threshold is 3 and the values are fluxes unless
    the options say otherwise. *)
Inductive stands_for (stof : text -> option dbl) : band_line -> option (text * (text * text) * dbl * bool) -> Prop :=
| sf_comment s : stands_for stof (Comment s) None
| sf_plain a b c : stands_for stof (Band a b c []) (Some (a, (b, c), Fin 3%Q, false))
| sf_threshold a b c n t : stof t = Some n -> stands_for stof (Band a b c [t]) (Some (a, (b, c), n, false))
| sf_convert a b c n t f z : stof t = Some n -> cast_int (CString f) = Ok z ->
    stands_for stof (Band a b c [t; f]) (Some (a, (b, c), n, negb (Z.eqb z 0))).
Definition given {B : Type} (l : list (option B)) : list B :=
  flat_map (fun o => match o with Some x => [x] | None => [] end) l.

(** Photometry. [flux] and [error] are the values of one filter, after the
    conversion from magnitudes when it applies. *)
Section Entry.
Variable same : dbl -> dbl -> bool.
Variables missing_on upper_on : bool.
Variables missing_flag upper_flag : dbl.

Definition is_missing (flux : dbl) : Prop :=
  missing_on = true /\ (same flux missing_flag = true \/ flux = NaN).

(** The documented rejections. *)
Inductive rejected (flux error : dbl) : Prop :=
| rej_infinite : flux = PInf \/ flux = NInf -> rejected flux error
| rej_nan : missing_on = false -> flux = NaN -> rejected flux error
| rej_error : ~ is_missing flux -> upper_on = false -> dle error dzero = true -> rejected flux error
| rej_zero_error : ~ is_missing flux -> upper_on = true -> deq error dzero = true -> rejected flux error
| rej_limit_flux : ~ is_missing flux -> upper_on = true -> dlt error dzero = true ->
    dle flux dzero = true -> rejected flux error.

(** The entry of a filter which is not rejected; [n] is its threshold. *)
Definition is_limit (flux error : dbl) : Prop :=
  ~ is_missing flux /\ upper_on = true /\ dlt error dzero = true.
Definition entry_of (flux error n : dbl) (x : fep) : Prop :=
  f_flux x = flux
  /\ (f_missing x = true <-> is_missing flux)
  /\ (f_upper x = true <-> is_limit flux error)
  /\ (is_missing flux -> f_error x = dzero)
  /\ (is_limit flux error -> same error upper_flag = true -> f_error x = dabs (ddiv flux n))
  /\ (is_limit flux error -> same error upper_flag = false -> f_error x = dabs error)
  /\ (~ is_missing flux -> ~ is_limit flux error -> f_error x = error).
End Entry.

(** The values of a filter after the conversion from magnitudes. *)
Definition converted (same : dbl -> dbl -> bool) (mag_flux : dbl -> dbl) (mag_error : dbl -> dbl -> dbl)
    (missing_flag upper_flag mag mag_err : dbl) (flux error : dbl) : Prop :=
  (same mag missing_flag = true \/ mag = NaN) /\ flux = missing_flag /\ error = dzero
  \/ same mag missing_flag = false /\ mag <> NaN /\ flux = mag_flux mag
     /\ (same mag_err upper_flag = true /\ error = upper_flag
         \/ same mag_err upper_flag = false /\ error = mag_error flux mag_err).

(** The cells of a row at two columns, as numbers. *)
Definition numbers_at (strtod : text -> option dbl) (r : row) (i j : nat) (a b : dbl) : Prop :=
  exists ca cb, nth_error (r_values r) i = Some ca /\ nth_error (r_values r) j = Some cb
                /\ cast_double strtod ca = Ok a /\ cast_double strtod cb = Ok b.

Definition ids {A : Type} (l : list (source A)) : list sid := map s_id l.

Definition positive (d : dbl) : Prop := dlt dzero d = true.

(** The column of a table with a given name. *)
Definition column_named (info : colinfo) (name : text) (i : nat) : Prop :=
  exists d, nth_error info i = Some d /\ cd_name d = name.

(** The photometry of one filter [f] = (name, (flux column, error column)) with
    its threshold [n] and conversion flag [cv], in the row [r]. *)
Definition filter_entry (strtod : text -> option dbl) (same : dbl -> dbl -> bool) (mag_flux : dbl -> dbl)
    (mag_error : dbl -> dbl -> dbl) (missing_on : bool) (missing_flag : dbl) (upper_on : bool) (upper_flag : dbl)
    (info : colinfo) (r : row) (f : text * (text * text)) (n : dbl) (cv : bool) (x : fep) : Prop :=
  exists i j a b flux error,
    column_named info (fst (snd f)) i /\ column_named info (snd (snd f)) j
    /\ numbers_at strtod r i j a b
    /\ (if cv then converted same mag_flux mag_error missing_flag upper_flag a b flux error
        else flux = a /\ error = b)
    /\ ~ rejected same missing_on upper_on missing_flag flux error
    /\ entry_of same missing_on upper_on missing_flag upper_flag flux error n x.
