(** Model of the ASCII table writer and reader.

    Streams. A stream is read line by line only, so an input stream is the list
    of its remaining lines: the text cut at every line feed. An empty list is a
    stream without anything left to read; the empty line a failing getline
    delivers is skipped by every loop of the reader. StreamRewinder puts the
    stream back where it was, so the functions using one are modelled as
    functions of the remaining lines (positions beyond the range of int, where
    AsciiReaderHelper.h:59 truncates, are not modelled).

    Text of floating point numbers: [ff], [fd] are what operator<< prints for a
    float and a double, [pf], [pd] what boost::lexical_cast reads. *)
From Coq Require Import ZArith List Arith Ascii String Bool.
From Verif Require Import Common TextModel DblModel TableModel.
Import ListNotations.
Local Notation length := List.length.

Definition nl : ascii := ascii_of_nat 10.
Definition sp : ascii := " "%char.
Definition dq : ascii := """"%char.
Definition bs : ascii := "\"%char.
Definition is_nl (c : ascii) : bool := Ascii.eqb c nl.
Definition lines_of (s : text) : list text := split_on is_nl s.

(** ** Text functions of the libraries *)

(** std::string::find(ind): position of the first occurrence. *)
Fixpoint find_sub (ind s : text) : option nat :=
  if starts_with s ind then Some 0
  else match s with [] => None | _ :: r => option_map S (find_sub ind r) end.
(** boost::replace_all(s, ind, ""): [skip] characters still belong to an
    occurrence being removed. *)
Fixpoint remove_all_from (ind : text) (skip : nat) (s : text) : text :=
  match s with
  | [] => []
  | c :: r =>
      match skip with
      | S k => remove_all_from ind k r
      | 0 => if starts_with s ind then remove_all_from ind (length ind - 1) r
             else c :: remove_all_from ind 0 r
      end
  end.
Definition remove_all (ind s : text) : text := remove_all_from ind 0 s.

(** Longest prefix satisfying [p], and the rest. *)
Fixpoint span (p : ascii -> bool) (s : text) : text * text :=
  match s with
  | [] => ([], [])
  | c :: r => if p c then let (a, b) := span p r in (c :: a, b) else ([], s)
  end.

(** stream >> std::string. [None]: nothing but white space is left. *)
Definition not_space (c : ascii) : bool := negb (is_space c).
Definition read_plain (s : text) : option (text * text) :=
  match drop_while is_space s with
  | [] => None
  | s1 => Some (span not_space s1)
  end.

(** boost::io::quoted, insertion: the text between quotes, with a backslash
    before each quote and backslash. *)
Definition special (c : ascii) : bool := Ascii.eqb c dq || Ascii.eqb c bs.
Fixpoint escape (s : text) : text :=
  match s with
  | [] => []
  | c :: r => if special c then bs :: c :: escape r else c :: escape r
  end.
(** boost::io::quoted, extraction after the opening quote: the characters up to
    the closing quote, and the rest of the stream unless the quote is not closed. *)
Fixpoint read_in_quotes (s : text) : text * option text :=
  match s with
  | [] => ([], None)
  | c :: r =>
      if Ascii.eqb c bs then
        match r with
        | [] => ([], None)
        | d :: r2 => let (t, o) := read_in_quotes r2 in (d :: t, o)
        end
      else if Ascii.eqb c dq then ([], Some r)
      else let (t, o) := read_in_quotes r in (c :: t, o)
  end.
(** boost::io::quoted, extraction: the token and the rest of the stream; no
    rest when the extraction failed. *)
Definition extract_quoted (s : text) : text * option text :=
  match drop_while is_space s with
  | [] => ([], None)
  | c :: r =>
      if Ascii.eqb c dq then read_in_quotes r
      else let (t, o) := span not_space (c :: r) in (t, Some o)
  end.
Definition read_quoted (s : text) : option (text * text) :=
  match extract_quoted s with (t, Some r) => Some (t, r) | _ => None end.

(** "stream >> quoted(token); while (stream) { ...; stream >> quoted(token); }":
    the tokens read until an extraction fails. Every token consumes a character,
    so the length bounds the number of turns. *)
Fixpoint tokens_fuel (n : nat) (s : text) : list text :=
  match n with
  | 0 => []
  | S k => match read_quoted s with
           | None => []
           | Some (t, r) => t :: tokens_fuel k r
           end
  end.
Definition tokens (s : text) : list text := tokens_fuel (length s) s.

(** Decimal digits (operator<< of the integer types, std::to_string). *)
Definition digit_char (z : Z) : ascii := ascii_of_nat (48 + Z.to_nat z).
Fixpoint digits_fuel (n : nat) (z : Z) (acc : text) : text :=
  match n with
  | 0 => acc
  | S k => let acc' := digit_char (z mod 10) :: acc in
           if Z.ltb z 10 then acc' else digits_fuel k (z / 10) acc'
  end.
Definition digits (z : Z) : text := digits_fuel (Z.to_nat (Z.log2 z) + 1) z [].
Definition int_text (z : Z) : text := if Z.ltb z 0 then "-"%char :: digits (- z) else digits z.

(** boost::lexical_cast to an integer type with the bounds lo and hi. *)
Fixpoint all_digits (acc : Z) (s : text) : option Z :=
  match s with
  | [] => Some acc
  | c :: r => match digit_val c with Some d => all_digits (10 * acc + d) r | None => None end
  end.
Definition unsigned_text (s : text) : option Z :=
  match s with [] => None | _ => all_digits 0 s end.
Definition signed_text (s : text) : option Z :=
  match s with
  | c :: r =>
      if Ascii.eqb c "-" then option_map Z.opp (unsigned_text r)
      else if Ascii.eqb c "+" then unsigned_text r
      else unsigned_text s
  | [] => None
  end.
Definition lexical_int (lo hi : Z) (s : text) : outcome Z :=
  match signed_text s with
  | None => Throw
  | Some z => if Z.leb lo z && Z.leb z hi then Ok z else Throw
  end.

(** ** Writer *)

(** AsciiWriterHelper.cpp:44-91 (typeToKeyword). *)
Definition type_keyword (t : ctype) : text :=
  match t with
  | TBool => txt "bool" | TInt => txt "int" | TLong => txt "long" | TFloat => txt "float"
  | TDouble => txt "double" | TString => txt "string" | TVBool => txt "[bool]"
  | TVInt => txt "[int]" | TVLong => txt "[long]" | TVFloat => txt "[float]"
  | TVDouble => txt "[double]" | TNInt => txt "[int+]" | TNLong => txt "[long+]"
  | TNFloat => txt "[float+]" | TNDouble => txt "[double+]"
  end.

(** AsciiWriterHelper.cpp:111-118 (quoted). *)
Definition needs_quotes (s : text) : bool := existsb (fun c => is_space c || Ascii.eqb c dq) s.
Definition quoted (s : text) : text :=
  if needs_quotes s then dq :: escape s ++ [dq] else s.

Section Floats.
Variables ff fd : dbl -> text.
Variables pf pd : text -> option dbl.

Definition join_comma : list text -> text := join ","%char.
(** Row.cpp:46-56 (operator<< of a vector): the empty vector increments its end
    iterator. *)
Definition vector_text {A} (f : A -> text) (l : list A) : outcome text :=
  match l with [] => UB | _ => Ok (join_comma (map f l)) end.
(** NdArray.icpp:492-510 (operator<< of an NdArray): nothing for an empty one.
    The shape of an array with elements is taken not empty (shape.size() - 1). *)
Definition array_text {A} (f : A -> text) (sh : list Z) (l : list A) : outcome text :=
  match l with
  | [] => Ok []
  | _ => match sh with
         | [] => UB
         | _ => Ok ("<"%char :: join_comma (map int_text sh) ++ ">"%char :: join_comma (map f l))
         end
  end.
(** operator<< of bool without boolalpha. *)
Definition bool_text (b : bool) : text := if b then txt "1" else txt "0".
(** AsciiWriterHelper.h:77-90 (ToStringVisitor). *)
Definition cell_text (c : cell) : outcome text :=
  match c with
  | CBool b => Ok (bool_text b)
  | CInt z | CLong z => Ok (int_text z)
  | CFloat d => Ok (ff d)
  | CDouble d => Ok (fd d)
  | CString s => Ok (quoted s)
  | CVBool l => vector_text bool_text l
  | CVInt l | CVLong l => vector_text int_text l
  | CVFloat l => vector_text ff l
  | CVDouble l => vector_text fd l
  | CNInt sh l | CNLong sh l => array_text int_text sh l
  | CNFloat sh l => array_text ff sh l
  | CNDouble sh l => array_text fd sh l
  end.

(** std::setw(w) << s, right aligned. *)
Definition setw (w : nat) (s : text) : text := repeat sp (w - length s) ++ s.

(** The texts of all the cells of the rows. *)
Definition row_texts (r : row) : outcome (list text) := map_o cell_text (r_values r).
(** AsciiWriterHelper.cpp:100-104: the widths grow to the longest cell. *)
Fixpoint widen (sizes : list nat) (texts : list text) : list nat :=
  match sizes, texts with
  | n :: ns, t :: ts => Nat.max n (length t) :: widen ns ts
  | _, _ => sizes
  end.
(** AsciiWriterHelper.cpp:93-109 (calculateColumnLengths), from the texts of the cells. *)
Definition column_lengths (i : colinfo) (texts : list (list text)) : list nat :=
  map S (fold_left widen texts (map (fun d => length (quoted (cd_name d))) i)).

(** AsciiWriter.h (members); the stream is the text written so far. *)
Record awriter : Type := mkAw {
  aw_ind : text;        (* m_comment *)
  aw_show : bool;       (* m_show_column_info *)
  aw_started : bool;    (* m_writing_started *)
  aw_init : bool;       (* m_initialized *)
  aw_info : option colinfo;  (* TableWriter::m_column_info *)
  aw_out : text }.
Definition new_awriter : awriter := mkAw (txt "#") true false false None [].

(** AsciiWriter.cpp:42-52 (setCommentIndicator). *)
Definition aw_set_comment (w : awriter) (ind : text) : outcome awriter :=
  if aw_started w then Throw
  else match ind with
       | [] => Throw
       | _ => Ok (mkAw ind (aw_show w) (aw_started w) (aw_init w) (aw_info w) (aw_out w))
       end.
(** AsciiWriter.cpp:54-61 (showColumnInfo). *)
Definition aw_show_info (w : awriter) (b : bool) : outcome awriter :=
  if aw_started w then Throw
  else Ok (mkAw (aw_ind w) b (aw_started w) (aw_init w) (aw_info w) (aw_out w)).
(** AsciiWriter.cpp:63-76 (addComment). *)
Definition aw_comment (w : awriter) (message : text) : outcome awriter :=
  if aw_init w then Throw
  else Ok (mkAw (aw_ind w) (aw_show w) true (aw_init w) (aw_info w)
             (aw_out w ++ flat_map (fun l => aw_ind w ++ sp :: l ++ [nl]) (lines_of message))).

(** AsciiWriter.cpp:91-102: the line describing one column. *)
Definition desc_line (ind : text) (d : coldesc) : text :=
  ind ++ txt " Column: " ++ quoted (cd_name d) ++ sp :: type_keyword (cd_type d) ++
  (match cd_unit d with [] => [] | u => txt " (" ++ u ++ txt ")" end) ++
  (match cd_desc d with [] => [] | e => txt " - " ++ e end).
(** Padding each text to the width of its column (AsciiWriter.cpp:109-111, 122-124);
    vector indices out of range are undefined behaviour. *)
Fixpoint padded (ws : list nat) (ts : list text) : outcome text :=
  match ts with
  | [] => Ok []
  | t :: tr =>
      match ws with
      | [] => UB
      | w :: wr => do r <- padded wr tr; Ok (setw w t ++ r)
      end
  end.
(** AsciiWriter.cpp:78-113 (init): what is written before the rows. *)
Definition init_text (w : awriter) (i : colinfo) (texts : list (list text)) : outcome text :=
  do names <- padded (column_lengths i texts) (map (fun d => quoted (cd_name d)) i);
  Ok ((if aw_started w then [nl] else []) ++
      (if aw_show w then flat_map (fun d => desc_line (aw_ind w) d ++ [nl]) i ++ [nl] else []) ++
      aw_ind w ++ names ++ [nl; nl]).
(** AsciiWriter.cpp:115-127 (append): the lines of the rows. *)
Definition add_first (k : nat) (ws : list nat) : list nat :=
  match ws with [] => [] | w :: r => (w + k) :: r end.
Fixpoint rows_text (ws : list nat) (texts : list (list text)) : outcome text :=
  match texts with
  | [] => Ok []
  | ts :: r =>
      do l <- padded ws ts;
      do rest <- rows_text ws r;
      Ok (l ++ nl :: rest)
  end.
(** TableWriter.cpp:31-40 (addData) with the functions above. The texts of the
    cells are computed once (they are pure). *)
Definition aw_add (w : awriter) (t : table) : outcome awriter :=
  let mismatch := match aw_info w with Some i => negb (info_eqb i (t_info t)) | None => false end in
  if mismatch then Throw
  else
    do texts <- map_o row_texts (t_rows t);
    let ws := column_lengths (t_info t) texts in
    do head <- match aw_info w with
               | None => init_text w (t_info t) texts
               | Some _ => Ok []
               end;
    do body <- rows_text (add_first (length (aw_ind w)) ws) texts;
    Ok (mkAw (aw_ind w) (aw_show w) true true
          (match aw_info w with None => Some (t_info t) | i => i end) (aw_out w ++ head ++ body)).

(** ** Reader *)

(** AsciiReaderHelper.cpp:72-105 (keywordToType). *)
Definition is_word (s : string) (k : text) : bool := text_eqb k (txt s).
Definition keyword_type (k : text) : outcome ctype :=
  if is_word "bool" k || is_word "boolean" k then Ok TBool
  else if is_word "int" k || is_word "int32" k then Ok TInt
  else if is_word "long" k || is_word "int64" k then Ok TLong
  else if is_word "float" k then Ok TFloat
  else if is_word "double" k then Ok TDouble
  else if is_word "string" k then Ok TString
  else if is_word "[bool]" k || is_word "[boolean]" k then Ok TVBool
  else if is_word "[int]" k || is_word "[int32]" k then Ok TVInt
  else if is_word "[long]" k || is_word "[int64]" k then Ok TVLong
  else if is_word "[float]" k then Ok TVFloat
  else if is_word "[double]" k then Ok TVDouble
  else if is_word "[int+]" k || is_word "[int32+]" k then Ok TNInt
  else if is_word "[long+]" k || is_word "[int64+]" k then Ok TNLong
  else if is_word "[float+]" k then Ok TNFloat
  else if is_word "[double+]" k then Ok TNDouble
  else Throw.

(** AsciiReader.cpp:206-210, AsciiReaderHelper.cpp:50-54, 333-337, 351-355: the
    line up to the comment indicator, trimmed. *)
Definition clean (ind line : text) : text :=
  trim (match find_sub ind line with Some k => firstn k line | None => line end).

(** AsciiReaderHelper.cpp:42-70 (countColumns). *)
Fixpoint count_columns (ind : text) (lines : list text) : outcome nat :=
  match lines with
  | [] => Throw
  | l :: r =>
      match clean ind l with
      | [] => count_columns ind r
      | c => match length (tokens c) with 0 => Throw | n => Ok n end
      end
  end.

(** The loops of AsciiReaderHelper.cpp:110-119, 164-167 and 179-190, 204-207: the
    comments before the first line of data, without the comment indicators. *)
Fixpoint header (ind : text) (lines : list text) : list text :=
  match lines with
  | [] => []
  | l :: r =>
      match trim l with
      | [] => header ind r
      | c => if starts_with c ind then trim (remove_all ind c) :: header ind r else []
      end
  end.

Definition is_desc (h : text) : bool := starts_with h (txt "Column:").
Definition after_keyword (h : text) : text := trim (skipn 7 h).

(** AsciiReaderHelper.cpp:133-159: what follows the name in a column description. *)
Definition desc_type (toks : list text) : outcome (ctype * list text) :=
  match toks with
  | t :: r =>
      if starts_with t (txt "(") || text_eqb t (txt "-") then Ok (TString, toks)
      else do ty <- keyword_type t; Ok (ty, r)
  | [] => Ok (TString, [])
  end.
Definition desc_unit (toks : list text) : outcome (text * list text) :=
  match toks with
  | t :: r =>
      if starts_with t (txt "(") then
        match tl t with
        | [] => UB (* erase(end() - 1) of an empty string *)
        | u => Ok (removelast u, r)
        end
      else Ok ([], toks)
  | [] => Ok ([], [])
  end.
Definition drop_dash (toks : list text) : list text :=
  match toks with t :: r => if text_eqb t (txt "-") then r else toks | [] => [] end.
Definition desc_rest (toks : list text) : text := trim (flat_map (fun t => t ++ [sp]) toks).
(** AsciiReaderHelper.cpp:123-161: one description, [line] is not empty. *)
Definition parse_desc (line : text) : outcome coldesc :=
  let (name, rest) := extract_quoted line in
  let toks := match rest with Some r => tokens r | None => [] end in
  do p1 <- desc_type toks;
  do p2 <- desc_unit (snd p1);
  new_desc name (fst p1) (fst p2) (desc_rest (drop_dash (snd p2))).
(** AsciiReaderHelper.cpp:107-169 (autoDetectColumnDescriptions); the map as the
    list of its values. *)
Fixpoint find_desc (name : text) (l : list coldesc) : option coldesc :=
  match l with
  | [] => None
  | d :: r => if text_eqb (cd_name d) name then Some d else find_desc name r
  end.
Fixpoint descriptions (acc : list coldesc) (hs : list text) : outcome (list coldesc) :=
  match hs with
  | [] => Ok acc
  | h :: r =>
      if is_desc h then
        match after_keyword h with
        | [] => descriptions acc r
        | line =>
            match find_desc (fst (extract_quoted line)) acc with
            | Some _ => Throw
            | None => do d <- parse_desc line; descriptions (acc ++ [d]) r
            end
        end
      else descriptions acc r
  end.

(** AsciiReaderHelper.cpp:194-203: the name up to the first blank. *)
Definition desc_name (h : text) : text := fst (span (fun c => negb (Ascii.eqb c sp)) (after_keyword h)).
Definition not_empty (s : text) : bool := match s with [] => false | _ => true end.
Fixpoint no_duplicates (seen : list text) (l : list text) : bool :=
  match l with
  | [] => true
  | x :: r => negb (existsb (text_eqb x) seen) && no_duplicates (x :: seen) r
  end.
(** AsciiReaderHelper.cpp:171-245 (autoDetectColumnNames). *)
Definition auto_names (hs : list text) (n : nat) : outcome (list text) :=
  let last_comment := last (filter not_empty hs) [] in
  let desc_names := map desc_name (filter is_desc hs) in
  let names0 := tokens last_comment in
  let names1 := if Nat.eqb (length names0) n then names0 else [] in
  let names2 := match names1 with [] => desc_names | _ => names1 end in
  let names3 := names2 ++
    map (fun k => txt "col" ++ int_text (Z.of_nat k)) (seq (length names2 + 1) (n - length names2)) in
  if no_duplicates [] names3 then Ok names3 else Throw.

(** AsciiReader.h (members). [ar_names], [ar_types] empty: not fixed. *)
Record areader : Type := mkAr {
  ar_ind : text;
  ar_names : list text;
  ar_types : list ctype;
  ar_started : bool;
  ar_info : option colinfo;
  ar_lines : list text }.
Definition new_areader (s : text) : areader := mkAr (txt "#") [] [] false None (lines_of s).

(** AsciiReader.cpp:58-68 (setCommentIndicator). *)
Definition ar_set_comment (a : areader) (ind : text) : outcome areader :=
  if ar_started a then Throw
  else match ind with
       | [] => Throw
       | _ => Ok (mkAr ind (ar_names a) (ar_types a) (ar_started a) (ar_info a) (ar_lines a))
       end.
Definition sizes_differ {A B} (a : list A) (b : list B) : bool :=
  negb (Nat.eqb (length a) 0) && negb (Nat.eqb (length b) 0) && negb (Nat.eqb (length a) (length b)).
(** AsciiReader.cpp:70-97 (fixColumnNames). *)
Definition ar_fix_names (a : areader) (names : list text) : outcome areader :=
  if ar_started a then Throw
  else if negb (forallb not_empty names) then Throw
  else if existsb has_vertical names then Throw
  else if negb (no_duplicates [] names) then Throw
  else if sizes_differ names (ar_types a) then Throw
  else Ok (mkAr (ar_ind a) names (ar_types a) (ar_started a) (ar_info a) (ar_lines a)).
(** AsciiReader.cpp:99-112 (fixColumnTypes). *)
Definition ar_fix_types (a : areader) (types : list ctype) : outcome areader :=
  if ar_started a then Throw
  else if sizes_differ (ar_names a) types then Throw
  else Ok (mkAr (ar_ind a) (ar_names a) types (ar_started a) (ar_info a) (ar_lines a)).

(** AsciiReader.cpp:139-163 with ReaderHelper.cpp:33-35: the description of column [k]. *)
Definition column_at (fixed_names : list text) (fixed_types : list ctype)
    (auto : list text) (descs : list coldesc) (k : nat) : outcome coldesc :=
  do an <- of_option (nth_error auto k);
  do name <- match fixed_names with [] => Ok an | _ => of_option (nth_error fixed_names k) end;
  let found := find_desc an descs in
  do ty <- match fixed_types with
           | [] => Ok (match found with Some d => cd_type d | None => TString end)
           | _ => of_option (nth_error fixed_types k)
           end;
  match found with
  | Some d => new_desc name ty (cd_unit d) (cd_desc d)
  | None => new_desc name ty [] []
  end.
(** AsciiReader.cpp:122-164: the columns from the remaining lines. *)
Definition detect_info (ind : text) (fixed_names : list text) (fixed_types : list ctype)
    (lines : list text) : outcome colinfo :=
  do n <- count_columns ind lines;
  if negb (Nat.eqb (length fixed_names) 0) && negb (Nat.eqb (length fixed_names) n) then Throw
  else if negb (Nat.eqb (length fixed_types) 0) && negb (Nat.eqb (length fixed_types) n) then Throw
  else
    do auto <- auto_names (header ind lines) n;
    do descs <- descriptions [] (header ind lines);
    do cols <- map_o (column_at fixed_names fixed_types auto descs) (seq 0 n);
    new_info cols.
(** AsciiReader.cpp:114-165 (readColumnInfo): the reader afterwards, also when it throws. *)
Definition read_info (a : areader) : outcome colinfo * areader :=
  match ar_info a with
  | Some i => (Ok i, a)
  | None =>
      match detect_info (ar_ind a) (ar_names a) (ar_types a) (ar_lines a) with
      | Ok i => (Ok i, mkAr (ar_ind a) (ar_names a) (ar_types a) true (Some i) (ar_lines a))
      | o => (o, mkAr (ar_ind a) (ar_names a) (ar_types a) true None (ar_lines a))
      end
  end.

(** AsciiReaderHelper.cpp:249-258 (convertStringToVector). *)
Definition read_bool (s : text) : outcome bool :=
  if existsb (fun w => is_word w s) ["true"; "t"; "yes"; "y"; "1"]%string then Ok true
  else if existsb (fun w => is_word w s) ["false"; "f"; "no"; "n"; "0"]%string then Ok false
  else Throw.
Definition read_int (s : text) : outcome Z := lexical_int int32_min int32_max s.
Definition read_long (s : text) : outcome Z := lexical_int int64_min int64_max s.
Definition read_float (s : text) : outcome dbl := match pf s with Some d => Ok d | None => Throw end.
Definition read_double (s : text) : outcome dbl := match pd s with Some d => Ok d | None => Throw end.
Definition read_vector {A} (f : text -> outcome A) (s : text) : outcome (list A) :=
  map_o f (comma_tokens s).
(** AsciiReaderHelper.cpp:260-280 (convertStringToNdArray); the construction
    throws when the number of values is not the product of the shape (computed
    modulo 2^32, NdArray.icpp:159-196). A negative length becomes a huge one. *)
Definition z_product (l : list Z) : Z := fold_left Z.mul l 1%Z.
Definition read_array {A} (f : text -> outcome A) (s : text) : outcome (list Z * list A) :=
  match s with
  | [] => Throw
  | c :: _ =>
      if negb (Ascii.eqb c "<") then Throw
      else match find_char ">"%char s with
           | None => Throw
           | Some k =>
               do sh <- read_vector read_int (firstn (k - 1) (skipn 1 s));
               do l <- read_vector f (skipn (k + 1) s);
               if Z.eqb (Z.modulo (z_product sh) (2 ^ 32)) (Z.of_nat (length l))
               then Ok (map (fun z => Z.modulo z (2 ^ 64)) sh, l) else Throw
           end
  end.
(** AsciiReaderHelper.cpp:284-326 (convertToCellType). *)
Definition read_cell (ty : ctype) (s : text) : outcome cell :=
  match ty with
  | TBool => do b <- read_bool s; Ok (CBool b)
  | TInt => do z <- read_int s; Ok (CInt z)
  | TLong => do z <- read_long s; Ok (CLong z)
  | TFloat => do d <- read_float s; Ok (CFloat d)
  | TDouble => do d <- read_double s; Ok (CDouble d)
  | TString => Ok (CString s)
  | TVBool => do l <- read_vector read_bool s; Ok (CVBool l)
  | TVInt => do l <- read_vector read_int s; Ok (CVInt l)
  | TVLong => do l <- read_vector read_long s; Ok (CVLong l)
  | TVFloat => do l <- read_vector read_float s; Ok (CVFloat l)
  | TVDouble => do l <- read_vector read_double s; Ok (CVDouble l)
  | TNInt => do p <- read_array read_int s; Ok (CNInt (fst p) (snd p))
  | TNLong => do p <- read_array read_long s; Ok (CNLong (fst p) (snd p))
  | TNFloat => do p <- read_array read_float s; Ok (CNFloat (fst p) (snd p))
  | TNDouble => do p <- read_array read_double s; Ok (CNDouble (fst p) (snd p))
  end.

(** AsciiReader.cpp:217-225: the tokens of a line of data; the first one is read
    without looking at quotes. *)
Definition row_tokens (line : text) : list text :=
  match read_plain line with
  | None => []
  | Some (t, r) => t :: tokens r
  end.
Fixpoint read_cells (i : colinfo) (k : nat) (toks : list text) : outcome (list cell) :=
  match toks with
  | [] => Ok []
  | t :: r =>
      if Nat.leb (length i) k then Throw
      else do d <- get_desc i k;
           do c <- read_cell (cd_type d) t;
           do cs <- read_cells i (S k) r;
           Ok (c :: cs)
  end.
(** AsciiReader.cpp:213-226: one line of data. *)
Definition read_line (i : colinfo) (line : text) : outcome row :=
  do cells <- read_cells i 0 (row_tokens line);
  new_row cells (Some i).
(** AsciiReader.cpp:202-228: the rows read and the lines left. *)
Fixpoint read_loop (ind : text) (i : colinfo) (rows : Z) (lines : list text)
  : outcome (list row) * list text :=
  match lines with
  | [] => (Ok [], [])
  | l :: r =>
      if Z.eqb rows 0 then (Ok [], lines)
      else match clean ind l with
           | [] => read_loop ind i rows r
           | c =>
               match read_line i c with
               | Ok w =>
                   let (o, rest) := read_loop ind i (rows - 1) r in
                   (do ws <- o; Ok (w :: ws), rest)
               | Throw => (Throw, r)
               | UB => (UB, r)
               | Diverge => (Diverge, r)
               end
           end
  end.
Definition set_lines (a : areader) (l : list text) : areader :=
  mkAr (ar_ind a) (ar_names a) (ar_types a) (ar_started a) (ar_info a) l.
(** AsciiReader.cpp:198-234 (readImpl). *)
Definition ar_read (a : areader) (rows : Z) : outcome table * areader :=
  match read_info a with
  | (Ok i, a1) =>
      let (o, rest) := read_loop (ar_ind a1) i rows (ar_lines a1) in
      (do ws <- o; match ws with [] => Throw | _ => new_table ws end, set_lines a1 rest)
  | (Throw, a1) => (Throw, a1)
  | (UB, a1) => (UB, a1)
  | (Diverge, a1) => (Diverge, a1)
  end.
(** AsciiReader.cpp:236-252 (skip). *)
Fixpoint skip_loop (ind : text) (rows : Z) (lines : list text) : list text :=
  match lines with
  | [] => []
  | l :: r =>
      if Z.eqb rows 0 then lines
      else match clean ind l with
           | [] => skip_loop ind rows r
           | _ => skip_loop ind (rows - 1) r
           end
  end.
Definition ar_skip (a : areader) (rows : Z) : outcome unit * areader :=
  match read_info a with
  | (Ok i, a1) => (Ok tt, set_lines a1 (skip_loop (ar_ind a1) rows (ar_lines a1)))
  | (Throw, a1) => (Throw, a1)
  | (UB, a1) => (UB, a1)
  | (Diverge, a1) => (Diverge, a1)
  end.
(** AsciiReader.cpp:254-256, AsciiReaderHelper.cpp:328-343 (hasMoreRows). *)
Definition ar_has_more (a : areader) : bool :=
  existsb (fun l => not_empty (clean (ar_ind a) l)) (ar_lines a).
(** AsciiReader.cpp:258-260, AsciiReaderHelper.cpp:345-361 (rowsLeft). *)
Definition ar_rows_left (a : areader) : nat :=
  length (filter (fun l => not_empty (clean (ar_ind a) l)) (ar_lines a)).

(** AsciiReader.cpp:172-196 (getComment): the leading lines starting with the
    indicator are consumed. *)
Fixpoint comment_lines (ind : text) (lines : list text) : list text * list text :=
  match lines with
  | [] => ([], [])
  | l :: r =>
      if starts_with l ind then
        let (c, rest) := comment_lines ind r in (trim (skipn (length ind) l) :: c, rest)
      else ([], lines)
  end.
Definition ar_comment (a : areader) : text * areader :=
  let (c, rest) := comment_lines (ar_ind a) (ar_lines a) in
  (trim (flat_map (fun l => l ++ [nl]) c),
   mkAr (ar_ind a) (ar_names a) (ar_types a) true (ar_info a) rest).
End Floats.
