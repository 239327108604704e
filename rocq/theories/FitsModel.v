(** Model of the FITS tables (Table/src/lib/FitsWriterHelper.cpp,
    FitsReaderHelper.cpp, FitsWriter.cpp, FitsReader.cpp in /repo).

    The library CCfits is modelled as a store of columns: a column has a name, a
    TFORM format, a unit, a TDESC and a TDIM keyword, and one entry per row. What
    is written in a row is what is read from it, except that texts are cut at the
    width of the column and lose their trailing blanks (the FITS standard). The
    limits of the header records (68 characters, trailing blanks) are not modelled:
    names, units and descriptions are stored as they are. Writing a number of
    values other than the repeat count of the column is left open and shows up as
    [UB]. *)
From Coq Require Import QArith ZArith List Arith Ascii String Bool.
From Verif Require Import Common TextModel DblModel TableModel AsciiModel.
Import ListNotations.
Local Open Scope nat_scope.
Local Notation length := List.length.

(** ** The store *)
Inductive fval : Type := VBool (b : bool) | VInt (z : Z) | VReal (d : dbl).
Inductive raw : Type := RVals (l : list fval) | RText (s : text).
Record fcol : Type := mkCol {
  fc_name : text; fc_format : text; fc_unit : text; fc_desc : text; fc_tdim : text;
  fc_data : list raw }.
Definition hdu : Type := list fcol.

(** std::stoi of a text that starts with a digit: the leading digits; throws
    std::out_of_range beyond int. *)
Definition stoi_digits (s : text) : outcome Z :=
  let z := leading_digits 0 s in if Z.ltb int32_max z then Throw else Ok z.

(** FitsReaderHelper.cpp:66-71: the size and the type letter of a format;
    front() of an empty string is UB. *)
Definition format_parts (format : text) : outcome (Z * ascii) :=
  match format with
  | [] => UB
  | c :: _ =>
      match digit_val c with
      | Some _ => do size <- stoi_digits (removelast format); Ok (size, last format zero)
      | None => Ok (1%Z, c)
      end
  end.

(** What is left of a text in a column of that width. *)
Fixpoint drop_blanks (s : text) : text :=
  match s with c :: r => if Ascii.eqb c sp then drop_blanks r else s | [] => [] end.
Definition strip_blanks (s : text) : text := rev (drop_blanks (rev s)).
Definition fits_text (width : nat) (s : text) : text := strip_blanks (firstn width s).

(** Writing one entry at the end of a column. *)
Definition store (c : fcol) (r : raw) : outcome fcol :=
  do p <- format_parts (fc_format c);
  do r' <- match r with
           | RText s => Ok (RText (fits_text (Z.to_nat (fst p)) s))
           | RVals l => if Nat.eqb (length l) (Z.to_nat (fst p)) then Ok r else UB
           end;
  Ok (mkCol (fc_name c) (fc_format c) (fc_unit c) (fc_desc c) (fc_tdim c) (fc_data c ++ [r'])).
Fixpoint store_all (c : fcol) (l : list raw) : outcome fcol :=
  match l with
  | [] => Ok c
  | r :: rest => do c' <- store c r; store_all c' rest
  end.

(** ** Writing *)

(** The cells of a column. *)
Definition column_cells (t : table) (k : nat) : outcome (list cell) :=
  map_o (fun r => row_at r k) (t_rows t).

(** FitsWriterHelper.cpp:47-53 maxWidth, for a column of texts: the lexical cast
    of the variant is the text. boost::get of another type throws. *)
Definition max_width (cells : list cell) : outcome nat :=
  do l <- map_o (fun c => match c with CString s => Ok (length s) | _ => Throw end) cells;
  Ok (fold_right Nat.max 0 l).

(** boost::get<std::vector<T>>: the length of the vector. *)
Definition vec_length (ty : ctype) (c : cell) : outcome nat :=
  match ty, c with
  | TVBool, CVBool l => Ok (length l)
  | TVInt, CVInt l => Ok (length l)
  | TVLong, CVLong l => Ok (length l)
  | TVFloat, CVFloat l => Ok (length l)
  | TVDouble, CVDouble l => Ok (length l)
  | _, _ => Throw
  end.
(** boost::get<NdArray<T>>: shape and number of elements. *)
Definition array_of (ty : ctype) (c : cell) : outcome (list Z * nat) :=
  match ty, c with
  | TNInt, CNInt sh l => Ok (sh, length l)
  | TNLong, CNLong sh l => Ok (sh, length l)
  | TNFloat, CNFloat sh l => Ok (sh, length l)
  | TNDouble, CNDouble sh l => Ok (sh, length l)
  | _, _ => Throw
  end.
Fixpoint z_list_eqb (a b : list Z) : bool :=
  match a, b with
  | [], [] => true
  | x :: r, y :: s => Z.eqb x y && z_list_eqb r s
  | _, _ => false
  end.

(** FitsWriterHelper.cpp:86-95 vectorSize and 97-108 ndArraySize; table[0] of an
    empty table does not happen (Table.cpp:32). *)
Definition vector_size (ty : ctype) (cells : list cell) : outcome nat :=
  do l <- map_o (vec_length ty) cells;
  match l with
  | [] => UB
  | n :: _ => if forallb (Nat.eqb n) l then Ok n else Throw
  end.
Definition array_size (ty : ctype) (cells : list cell) : outcome nat :=
  do l <- map_o (array_of ty) cells;
  match l with
  | [] => UB
  | (sh, n) :: _ => if forallb (fun p => z_list_eqb (fst p) sh) l then Ok n else Throw
  end.

Definition num (n : nat) : text := digits (Z.of_nat n).
(** FitsWriterHelper.cpp:114-157: one turn of getBinaryFormatList. *)
Definition binary_format (ty : ctype) (cells : list cell) : outcome text :=
  match ty with
  | TBool => Ok (txt "L")
  | TInt => Ok (txt "J")
  | TLong => Ok (txt "K")
  | TFloat => Ok (txt "E")
  | TDouble => Ok (txt "D")
  | TString => do w <- max_width cells; Ok (num w ++ txt "A")
  | TVBool => do n <- vector_size ty cells; Ok (num n ++ txt "L")
  | TVInt => do n <- vector_size ty cells; Ok (num n ++ txt "J")
  | TVLong => do n <- vector_size ty cells; Ok (num n ++ txt "K")
  | TVFloat => do n <- vector_size ty cells; Ok (num n ++ txt "E")
  | TVDouble => do n <- vector_size ty cells; Ok (num n ++ txt "D")
  | TNInt => do n <- array_size ty cells; Ok (num n ++ txt "J")
  | TNLong => do n <- array_size ty cells; Ok (num n ++ txt "K")
  | TNFloat => do n <- array_size ty cells; Ok (num n ++ txt "E")
  | TNDouble => do n <- array_size ty cells; Ok (num n ++ txt "D")
  end.

(** FitsWriterHelper.cpp:236-272 getTDIM. A shape without axes has one cell, so
    shape[j] exists when it is read. *)
Definition tdim (ty : ctype) (cells : list cell) : outcome text :=
  match ty with
  | TNInt | TNLong | TNFloat | TNDouble =>
      match cells with
      | [] => UB
      | c :: _ =>
          do p <- array_of ty c;
          if Z.eqb (z_product (fst p)) 1 then Ok []
          else Ok (txt "(" ++ join ","%char (map digits (rev (fst p))) ++ txt ")")
      end
  | _ => Ok []
  end.

(** The entries of FitsWriterHelper.cpp:162-214: vectors and arrays of more than
    one element as they are, otherwise their first element. *)
Definition first_value (l : list fval) : outcome raw :=
  match l with [] => UB | v :: _ => Ok (RVals [v]) end.
Definition first_or_zero (zero : fval) (l : list fval) : outcome raw :=
  match l with [] => Ok (RVals [zero]) | v :: _ => Ok (RVals [v]) end.
(** FitsWriterHelper.cpp:274-308 populateColumn, with 216-234; [many] is the test
    of the first row. *)
Definition entry (ty : ctype) (many : bool) (c : cell) : outcome raw :=
  match ty, c with
  | TBool, CBool b => Ok (RVals [VBool b])
  | TInt, CInt z => Ok (RVals [VInt z])
  | TLong, CLong z => Ok (RVals [VInt z])
  | TFloat, CFloat d => Ok (RVals [VReal d])
  | TDouble, CDouble d => Ok (RVals [VReal d])
  | TString, CString s => Ok (RText s)
  | TVInt, CVInt l => if many then Ok (RVals (map VInt l)) else first_value (map VInt l)
  | TVLong, CVLong l => if many then Ok (RVals (map VInt l)) else first_value (map VInt l)
  | TVFloat, CVFloat l => if many then Ok (RVals (map VReal l)) else first_value (map VReal l)
  | TVDouble, CVDouble l => if many then Ok (RVals (map VReal l)) else first_value (map VReal l)
  | TNInt, CNInt _ l => if many then Ok (RVals (map VInt l)) else first_or_zero (VInt 0) (map VInt l)
  | TNLong, CNLong _ l => if many then Ok (RVals (map VInt l)) else first_or_zero (VInt 0) (map VInt l)
  | TNFloat, CNFloat _ l => if many then Ok (RVals (map VReal l)) else first_or_zero (VReal (Fin 0)) (map VReal l)
  | TNDouble, CNDouble _ l => if many then Ok (RVals (map VReal l)) else first_or_zero (VReal (Fin 0)) (map VReal l)
  | _, _ => Throw
  end.
Definition is_many (ty : ctype) (c : cell) : outcome bool :=
  match ty with
  | TVInt | TVLong | TVFloat | TVDouble => do n <- vec_length ty c; Ok (Nat.ltb 1 n)
  | TNInt | TNLong | TNFloat | TNDouble => do p <- array_of ty c; Ok (Nat.ltb 1 (snd p))
  | TVBool => Throw
  | _ => Ok false
  end.
Definition populate (ty : ctype) (cells : list cell) (c : fcol) : outcome fcol :=
  match cells with
  | [] => UB
  | c0 :: _ =>
      do many <- is_many ty c0;
      do l <- map_o (entry ty many) cells;
      store_all c l
  end.

(** FitsWriter.cpp:74-106 (init) for a new binary table. *)
Fixpoint new_columns (t : table) (k : nat) (info : list coldesc) : outcome hdu :=
  match info with
  | [] => Ok []
  | d :: r =>
      do cells <- column_cells t k;
      do f <- binary_format (cd_type d) cells;
      do dim <- tdim (cd_type d) cells;
      do rest <- new_columns t (S k) r;
      Ok (mkCol (cd_name d) f (cd_unit d) (cd_desc d) dim [] :: rest)
  end.
(** FitsWriter.cpp:127-131 (append). *)
Fixpoint append_columns (t : table) (k : nat) (info : list coldesc) (h : hdu) : outcome hdu :=
  match info, h with
  | [], _ => Ok h
  | d :: r, c :: hr =>
      do cells <- column_cells t k;
      do c' <- populate (cd_type d) cells c;
      do rest <- append_columns t (S k) r hr;
      Ok (c' :: rest)
  | _ :: _, [] => Throw
  end.
(** TableWriter.cpp:31-40 (addData) with the two functions above. *)
Record fwriter : Type := mkFw { fw_info : option colinfo; fw_hdu : hdu }.
Definition fw_add (w : fwriter) (t : table) : outcome fwriter :=
  match fw_info w with
  | None =>
      do h <- new_columns t 0 (t_info t);
      do h' <- append_columns t 0 (t_info t) h;
      Ok (mkFw (Some (t_info t)) h')
  | Some i =>
      if negb (info_eqb i (t_info t)) then Throw
      else do h' <- append_columns t 0 (t_info t) (fw_hdu w);
           Ok (mkFw (Some i) h')
  end.

(** ** Reading *)

(** FitsReaderHelper.cpp:64-127 binaryFormatToType. *)
Definition binary_type (format : text) (shape : list Z) : outcome ctype :=
  do p <- format_parts format;
  let ft := snd p in
  let is c := Ascii.eqb ft c in
  match shape with
  | _ :: _ =>
      if is "B"%char then Ok TNInt else if is "I"%char then Ok TNInt else if is "J"%char then Ok TNInt
      else if is "K"%char then Ok TNLong else if is "E"%char then Ok TNFloat else if is "D"%char then Ok TNDouble
      else Throw
  | [] =>
      if Z.eqb (fst p) 1 then
        if is "L"%char then Ok TBool else if is "B"%char then Ok TInt else if is "I"%char then Ok TInt
        else if is "J"%char then Ok TInt else if is "K"%char then Ok TLong else if is "E"%char then Ok TFloat
        else if is "D"%char then Ok TDouble else Throw
      else
        if is "B"%char then Ok TVInt else if is "I"%char then Ok TVInt else if is "J"%char then Ok TVInt
        else if is "K"%char then Ok TVLong else if is "E"%char then Ok TVFloat else if is "D"%char then Ok TVDouble
        else if is "A"%char then Ok TString else Throw
  end.
(** FitsReaderHelper.cpp:48-62 asciiFormatToType. *)
Definition ascii_type (format : text) : outcome ctype :=
  match format with
  | [] => Throw
  | c :: _ =>
      if Ascii.eqb c "A" then Ok TString else if Ascii.eqb c "I" then Ok TLong
      else if Ascii.eqb c "F" then Ok TDouble else if Ascii.eqb c "E" then Ok TDouble
      else if Ascii.eqb c "D" then Ok TDouble else Throw
  end.
(** FitsWriterHelper.cpp:63-84: one turn of getAsciiFormatList; [widths] and
    [sci_widths] are maxWidth and maxWidthScientific. *)
Definition ascii_format (ty : ctype) (width sci_width : nat) : outcome text :=
  match ty with
  | TBool => Ok (txt "I1")
  | TInt | TLong => Ok (txt "I" ++ num width)
  | TFloat | TDouble => Ok (txt "E" ++ num sci_width)
  | TString => Ok (txt "A" ++ num width)
  | _ => Throw
  end.

(** FitsWriterHelper.cpp:47-53 maxWidth and 55-61 maxWidthScientific: the longest of the
    texts of the cells; a lexical cast prints integers and texts, [sci] is what a stream
    prints in scientific format. *)
Definition plain_text (c : cell) : outcome text :=
  match c with CInt z | CLong z => Ok (int_text z) | CString s => Ok s | _ => Throw end.
Definition sci_text (sci : dbl -> text) (c : cell) : outcome text :=
  match c with CFloat d | CDouble d => Ok (sci d) | _ => Throw end.
Definition longest (cast : cell -> outcome text) (cells : list cell) : outcome nat :=
  do l <- map_o cast cells; Ok (fold_right Nat.max 0 (map (@length ascii) l)).
(** FitsWriterHelper.cpp:63-84: one turn of getAsciiFormatList for the cells of the column. *)
Definition ascii_column (sci : dbl -> text) (ty : ctype) (cells : list cell) : outcome text :=
  match ty with
  | TInt | TLong | TString => do w <- longest plain_text cells; ascii_format ty w 0
  | TFloat | TDouble => do w <- longest (sci_text sci) cells; ascii_format ty 0 w
  | _ => ascii_format ty 0 0
  end.

(** FitsReaderHelper.cpp:129-142 parseTDIM; lexical_cast<size_t>. *)
Definition tdim_size (s : text) : outcome Z :=
  match signed_text s with
  | None => Throw
  | Some z => if Z.ltb (Z.abs z) (2 ^ 64) then Ok (Z.modulo z (2 ^ 64)) else Throw
  end.
Definition parse_tdim (s : text) : outcome (list Z) :=
  match s with
  | [] => Ok []
  | c :: r =>
      if Ascii.eqb c "(" && Ascii.eqb (last s zero) ")" then
        do l <- map_o tdim_size (comma_tokens (removelast r)); Ok (rev l)
      else Ok []
  end.

(** FitsReaderHelper.cpp:36-46 and 144-178, ReaderHelper.cpp:30-38: the columns;
    [fixed] are the names given with fixColumnNames, if any. *)
Fixpoint detect_columns (k : nat) (h : hdu) : outcome (list coldesc) :=
  match h with
  | [] => Ok []
  | c :: r =>
      do sh <- parse_tdim (fc_tdim c);
      do ty <- binary_type (fc_format c) sh;
      do d <- new_desc (match fc_name c with [] => txt "Col" ++ num k | n => n end) ty (fc_unit c) (fc_desc c);
      do rest <- detect_columns (S k) r;
      Ok (d :: rest)
  end.
Definition fits_info (h : hdu) : outcome colinfo :=
  do l <- detect_columns 1 h; new_info l.

(** FitsReaderHelper.cpp:180-250 (translateColumn), one entry. CCfits converts
    between the numeric types; the model only reads values of the matching kind,
    which is what the format of a column says. *)
Fixpoint ints (l : list fval) : outcome (list Z) :=
  match l with
  | [] => Ok []
  | VInt z :: r => do zs <- ints r; Ok (z :: zs)
  | _ => UB
  end.
Fixpoint reals (l : list fval) : outcome (list dbl) :=
  match l with
  | [] => Ok []
  | VReal d :: r => do ds <- reals r; Ok (d :: ds)
  | _ => UB
  end.
(** NdArray.icpp: the constructor throws unless the size matches the shape. *)
Definition array_cell {A} (mk : list Z -> list A -> cell) (sh : list Z) (l : list A) : outcome cell :=
  if Z.eqb (Z.modulo (z_product sh) (2 ^ 32)) (Z.of_nat (length l)) then Ok (mk sh l) else Throw.
Definition read_entry (ty : ctype) (sh : list Z) (r : raw) : outcome cell :=
  match ty, r with
  | TBool, RVals [VBool b] => Ok (CBool b)
  | TInt, RVals [VInt z] => Ok (CInt z)
  | TLong, RVals [VInt z] => Ok (CLong z)
  | TFloat, RVals [VReal d] => Ok (CFloat d)
  | TDouble, RVals [VReal d] => Ok (CDouble d)
  | TString, RText s => Ok (CString s)
  | TVInt, RVals l => do z <- ints l; Ok (CVInt z)
  | TVLong, RVals l => do z <- ints l; Ok (CVLong z)
  | TVFloat, RVals l => do d <- reals l; Ok (CVFloat d)
  | TVDouble, RVals l => do d <- reals l; Ok (CVDouble d)
  | TNInt, RVals l => do z <- ints l; array_cell CNInt sh z
  | TNLong, RVals l => do z <- ints l; array_cell CNLong sh z
  | TNFloat, RVals l => do d <- reals l; array_cell CNFloat sh d
  | TNDouble, RVals l => do d <- reals l; array_cell CNDouble sh d
  | _, _ => UB
  end.
(** The entries first .. first + rows - 1 (counted from 0) of a column. *)
Definition read_column (d : coldesc) (c : fcol) (first rows : nat) : outcome (list cell) :=
  do sh <- parse_tdim (fc_tdim c);
  map_o (read_entry (cd_type d) sh) (firstn rows (skipn first (fc_data c))).
Fixpoint read_columns (i : list coldesc) (h : hdu) (first rows : nat) : outcome (list (list cell)) :=
  match i, h with
  | d :: ir, c :: hr =>
      do x <- read_column d c first rows;
      do rest <- read_columns ir hr first rows;
      Ok (x :: rest)
  | _, [] => Ok []
  | [], _ :: _ => Throw
  end.
(** FitsReader.cpp:147-154: column_data[i] of a shorter column is UB. *)
Definition make_row (info : colinfo) (data : list (list cell)) (k : nat) : outcome row :=
  do cells <- map_o (fun col => of_option (nth_error col k)) data;
  new_row cells (Some info).
(** rows() of the HDU. *)
Definition hdu_rows (h : hdu) : nat := match h with [] => 0 | c :: _ => length (fc_data c) end.

(** FitsReader.h: the state of a reader; m_current_row counts from 1, and
    m_column_info is null before the first call. *)
Record freader : Type := mkFr { fr_info : option colinfo; fr_current : Z; fr_hdu : hdu }.
Definition new_freader (h : hdu) : freader := mkFr None 1 h.
Definition fr_total (r : freader) : Z := Z.of_nat (hdu_rows (fr_hdu r)).
(** FitsReader.cpp:84-110 readColumnInfo. *)
Definition fr_read_info (r : freader) : outcome (colinfo * freader) :=
  match fr_info r with
  | Some i => Ok (i, r)
  | None => do i <- fits_info (fr_hdu r); Ok (i, mkFr (Some i) (fr_current r) (fr_hdu r))
  end.
Definition move (r : freader) (rows : Z) : freader := mkFr (fr_info r) (fr_current r + rows) (fr_hdu r).
(** FitsReader.cpp:122-157 readImpl. What CCfits does with a negative number of
    rows other than -1 is left open. A table of no rows throws (Table.cpp:32). *)
Definition fr_read (r : freader) (rows : Z) : outcome (table * freader) :=
  do p <- fr_read_info r;
  let (i, r1) := p : colinfo * freader in
  let left := (fr_total r1 - fr_current r1 + 1)%Z in
  if Z.ltb (fr_total r1) (fr_current r1) then Throw
  else
    let n := Z.min (if Z.eqb rows (-1) then left else rows) left in
    if Z.ltb n 0 || Z.ltb (fr_current r1) 1 then UB
    else
      do data <- read_columns i (fr_hdu r1) (Z.to_nat (fr_current r1 - 1)) (Z.to_nat n);
      do l <- map_o (make_row i data) (seq 0 (Z.to_nat n));
      do t <- new_table l;
      Ok (t, move r1 n).
(** FitsReader.cpp:159-172 skip, hasMoreRows, rowsLeft (a size_t). *)
Definition fr_skip (r : freader) (rows : Z) : outcome freader :=
  do p <- fr_read_info r; Ok (move (snd p) rows).
Definition fr_has_more (r : freader) : outcome (bool * freader) :=
  do p <- fr_read_info r; Ok (Z.leb (fr_current (snd p)) (fr_total (snd p)), snd p).
Definition fr_rows_left (r : freader) : outcome (Z * freader) :=
  do p <- fr_read_info r;
  Ok (Z.modulo (fr_total (snd p) - fr_current (snd p) + 1) (2 ^ 64), snd p).
