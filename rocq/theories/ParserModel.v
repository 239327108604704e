(** Model of the parsers of dataset files (XYDataset/src/lib/AsciiParser.cpp and
    FitsParser.cpp in /repo).

    A file is given by its contents, or [None] when it cannot be opened. [pd] is
    boost::lexical_cast<double>. The regular expressions are written as the
    matchers they describe; \s is the white space of [is_space] and \w the
    letters, the digits and the underscore. *)
From Coq Require Import QArith ZArith List Arith Ascii String Bool.
From Verif Require Import Common TextModel DblModel TableModel AsciiModel FitsModel XYModel.
Import ListNotations.
Local Open Scope nat_scope.
Local Notation length := List.length.

Definition hash : ascii := "#"%char.
Definition colon : ascii := ":"%char.
Definition semicolon : ascii := ";"%char.

(** What follows [p] in [s]. *)
Fixpoint after_prefix (p s : text) : option text :=
  match p, s with
  | [], _ => Some s
  | x :: p', y :: s' => if Ascii.eqb x y then after_prefix p' s' else None
  | _ :: _, [] => None
  end.
Definition after_blanks (s : text) : text := drop_while is_space s.

(** AsciiParser.cpp:84-85, 93-94: the expression ^\s*#\s*KEY\s*:\s*(.+)\s*$ and the
    trimmed group. The keyword is taken as a literal text that does not begin with
    white space (the code puts it in the expression as it is). *)
Definition key_value (key line : text) : option text :=
  match after_prefix [hash] (after_blanks line) with
  | None => None
  | Some r1 =>
      match after_prefix key (after_blanks r1) with
      | None => None
      | Some r2 =>
          match after_prefix [colon] (after_blanks r2) with
          | None | Some [] => None
          | Some r3 => Some (trim r3)
          end
      end
  end.
(** AsciiParser.cpp:87-100: [value] is what was gathered from the previous lines. *)
Fixpoint gather (key value : text) (lines : list text) : text :=
  match lines with
  | [] => value
  | l :: r =>
      match key_value key l with
      | None => gather key value r
      | Some v => gather key ((match value with [] => [] | _ => value ++ [semicolon] end) ++ v) r
      end
  end.
(** AsciiParser.cpp:77-102 (getParameter). *)
Definition ap_parameter (file : option text) (key : text) : outcome text :=
  match file with
  | None => Throw
  | Some s => Ok (gather key [] (lines_of s))
  end.

(** \w *)
Definition is_word_char (c : ascii) : bool :=
  let n := byte c in
  (Nat.leb 48 n && Nat.leb n 57) || (Nat.leb 65 n && Nat.leb n 90) ||
  (Nat.leb 97 n && Nat.leb n 122) || Nat.eqb n 95.
(** AsciiParser.h:62: the default expression ^\s*#\s*(\w+)\s*$ of the name. *)
Definition name_line (line : text) : option text :=
  match after_prefix [hash] (after_blanks line) with
  | None => None
  | Some r1 =>
      match span is_word_char (after_blanks r1) with
      | ([], _) => None
      | (w, r2) => match after_blanks r2 with [] => Some w | _ => None end
      end
  end.
(** AsciiParser.cpp:57-59: the first line that is not empty, or the last line. *)
Fixpoint first_line (lines : list text) : text :=
  match lines with
  | [] => []
  | [] :: r => first_line r
  | l :: _ => l
  end.
(** AsciiParser.cpp:66-68, FitsParser.cpp:50-52: the name of the file. *)
Definition file_name (path : text) : text := remove_extension (remove_all_before_last_slash path).
(** AsciiParser.cpp:48-75 (getName). *)
Definition ap_name (path : text) (file : option text) : outcome text :=
  do v <- ap_parameter file (txt "NAME");
  match v with
  | [] => Ok (match name_line (first_line (match file with Some s => lines_of s | None => [] end)) with
              | Some w => w
              | None => file_name path
              end)
  | _ => Ok v
  end.

(** boost::get<double>. *)
Definition get_double (c : cell) : outcome dbl := match c with CDouble d => Ok d | _ => Throw end.
(** AsciiParser.cpp:117-119, FitsParser.cpp:98-100. *)
Definition pair_of (r : row) : outcome (dbl * dbl) :=
  do c0 <- row_at r 0;
  do x <- get_double c0;
  do c1 <- row_at r 1;
  do y <- get_double c1;
  Ok (x, y).

Section Numbers.
Variables pf pd : text -> option dbl.

(** AsciiParser.cpp:108-125 (getDataset); [None] is the null pointer. *)
Definition ap_dataset (file : option text) : outcome (option (list (dbl * dbl))) :=
  match file with
  | None => Ok None
  | Some s =>
      do a <- ar_fix_types (new_areader s) [TDouble; TDouble];
      do t <- fst (ar_read pf pd a (-1));
      do l <- map_o pair_of (t_rows t);
      Ok (Some l)
  end.

(** AsciiParser.cpp:135: the expression \s*#.* *)
Definition is_comment (line : text) : bool :=
  match after_prefix [hash] (after_blanks line) with Some _ => true | None => false end.
Definition passed_over (line : text) : bool :=
  match line with [] => true | _ => is_comment line end.
(** AsciiParser.cpp:137-139: the first line that is not passed over, and what is
    left to read. *)
Fixpoint first_data (lines : list text) : option (text * list text) :=
  match lines with
  | [] => None
  | l :: r => if passed_over l then first_data r else Some (l, r)
  end.
(** stream >> word: the empty text when there is none left. *)
Definition next_word (s : text) : text * text :=
  match read_plain s with Some p => p | None => ([], []) end.
(** AsciiParser.cpp:143-153. *)
Definition two_numbers (line : text) : bool :=
  let (d1, r1) := next_word line in
  let (d2, r2) := next_word r1 in
  let (e, _) := next_word r2 in
  match pd d1, pd d2, e with
  | Some _, Some _, [] => true
  | _, _, _ => false
  end.
(** AsciiParser.cpp:127-160 (isDatasetFile). The stream is still good when the line
    was ended by a line feed, that is when there is another piece to read. *)
Definition ap_is_dataset (file : option text) : bool :=
  match file with
  | None => false
  | Some s =>
      match first_data (lines_of s) with
      | Some (l, _ :: _) => two_numbers l
      | _ => false
      end
  end.
End Numbers.

(** ** FITS *)

(** What is found at a path: nothing that can be opened; something that is not a
    FITS file or has no extension; a FITS file whose first extension is an image
    or a table, with its keywords. *)
Inductive fits_file : Type :=
| NoFile
| NoExtension
| ImageExtension (keys : list (text * text))
| TableExtension (keys : list (text * text)) (h : hdu).

Fixpoint find_key (k : text) (l : list (text * text)) : option text :=
  match l with
  | [] => None
  | (k', v) :: r => if text_eqb k' k then Some v else find_key k r
  end.
(** FitsParser.cpp:57-79 (getParameter), for keywords with a text value. *)
Definition fp_parameter (f : fits_file) (key : text) : outcome text :=
  match f with
  | NoFile | NoExtension => Throw
  | ImageExtension keys | TableExtension keys _ =>
      Ok (match find_key key keys with Some v => v | None => [] end)
  end.
(** FitsParser.cpp:44-55 (getName). *)
Definition fp_name (keyword path : text) (f : fits_file) : outcome text :=
  do v <- fp_parameter f keyword;
  match v with [] => Ok (file_name path) | _ => Ok v end.
(** FitsParser.cpp:84-111 (getDataset). The reader of an image throws
    (FitsReader.cpp:90-94). *)
Definition fp_dataset (f : fits_file) : outcome (option (list (dbl * dbl))) :=
  match f with
  | NoFile => Ok None
  | NoExtension | ImageExtension _ => Throw
  | TableExtension _ h =>
      do p <- fr_read (new_freader h) (-1);
      do l <- map_o pair_of (t_rows (fst p));
      Ok (Some l)
  end.
(** FitsParser.cpp:116-126 (isDatasetFile): only the exceptions of CCfits are caught,
    not the std::bad_cast of an extension that is not a table. *)
Definition fp_is_dataset (f : fits_file) : outcome bool :=
  match f with
  | NoFile | NoExtension => Ok false
  | ImageExtension _ => Throw
  | TableExtension _ _ => Ok true
  end.
