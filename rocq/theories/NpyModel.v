(** Model of the npy files (NdArray/NdArray/io/_impl/NpyCommon.h, NpyReader.icpp,
    NpyWriter.icpp, NpyMmap.icpp and AlexandriaKernel/StringUtils.h in /repo).

    Simplifications, valid for the whole file:
    - the platform is little endian;
    - an element is its memory representation, a list of sizeof(T) bytes;
    - a stream is the list of the bytes not yet read; a file is the list of its
      bytes;
    - size_t quantities are [nat] without overflow, except the products of the
      shapes (see NdArrayModel.v) and the 32-bit header length;
    - memory exhaustion is not modelled. *)
From Coq Require Import List Arith NArith ZArith Ascii String Bool.
From Verif Require Import Common TextModel NdArrayModel AsciiModel.
Import ListNotations.
Local Notation length := List.length.
Local Notation concat := (@List.concat _).
Local Open Scope nat_scope.

(** NpyCommon.h:53-104: the types with a specialisation of NpyDtype. *)
Inductive npy_type : Type := I8 | I16 | I32 | I64 | U8 | U16 | U32 | U64 | F32 | F64.
Definition dtype_str (ty : npy_type) : text :=
  txt match ty with
      | I8 => "b" | I16 => "i2" | I32 => "i4" | I64 => "i8"
      | U8 => "B" | U16 => "u2" | U32 => "u4" | U64 => "u8"
      | F32 => "f4" | F64 => "f8"
      end%string.
Definition type_size (ty : npy_type) : nat :=
  match ty with
  | I8 | U8 => 1 | I16 | U16 => 2 | I32 | U32 | F32 => 4 | I64 | U64 | F64 => 8
  end.

(** NpyCommon.h:37, 43, 246. *)
Definition npy_magic : text := ascii_of_nat 147 :: txt "NUMPY".
Definition endian_marker : text := txt "<".
Definition npy_version : text := [ascii_of_nat 2; ascii_of_nat 0].
Definition quote : ascii := "'"%char.
Definition zero_byte : ascii := ascii_of_nat 0.
Definition newline : ascii := ascii_of_nat 10.

(** boost::endian little_uint16_t and little_uint32_t: the first byte is the
    least significant one; conversions to them drop the high bits. *)
Fixpoint le_bytes (k : nat) (n : N) : text :=
  match k with
  | O => []
  | S k' => ascii_of_N (n mod 256) :: le_bytes k' (n / 256)
  end.
Fixpoint le_value (s : text) : N :=
  match s with
  | [] => 0%N
  | c :: r => (N_of_ascii c + 256 * le_value r)%N
  end.

(** * Writing *)

(** NpyCommon.h:253-261 npyShape. *)
Definition npy_shape_text (shape : list nat) : text :=
  txt "(" ++ concat (map (fun s => digits (Z.of_nat s) ++ txt ",") shape) ++ txt ")".

(** NpyCommon.h:263-275 typeDescription. *)
Definition type_description (type : text) (attrs : list text) : text :=
  match attrs with
  | [] => [quote] ++ endian_marker ++ type ++ [quote]
  | _ :: _ =>
      txt "[" ++
      concat (map (fun attr => txt "('" ++ attr ++ txt "', '" ++ endian_marker ++ type ++ txt "'), ") attrs) ++
      txt "]"
  end.

(** NpyCommon.h:288-293: the dictionary. *)
Definition npy_dict (ty : npy_type) (shape : list nat) (attrs : list text) : text :=
  txt "{" ++ txt "'descr': " ++ type_description (dtype_str ty) attrs ++
  txt ", 'fortran_order': False, 'shape': " ++ npy_shape_text shape ++ txt "}".

(** NpyCommon.h:294-303: the dictionary, the padding and the newline. *)
Definition padded_dict (dict : text) : text :=
  let total_length := 6 + 2 + 4 + length dict + 1 in
  let padding := 64 - total_length mod 64 in
  dict ++ repeat " "%char padding ++ [newline].

(** NpyCommon.h:280-315 writeNpyHeader; shape.back() of an empty vector is UB. *)
Definition write_npy_header (ty : npy_type) (shape : list nat) (attrs : list text) : outcome text :=
  do shape' <-
    match attrs with
    | [] => Ok shape
    | _ :: _ =>
        match shape with
        | [] => UB
        | _ :: _ => if negb (Nat.eqb (length attrs) (last shape 0)) then Throw else Ok (removelast shape)
        end
    end;
  let header := padded_dict (npy_dict ty shape' attrs) in
  Ok (npy_magic ++ npy_version ++ le_bytes 4 (N.of_nat (length header)) ++ header).

(** The attribute names of an array as texts. *)
Definition attr_texts (attrs : list string) : list text := map list_ascii_of_string attrs.
Definition attr_strings (attrs : list text) : list string := map string_of_list_ascii attrs.

(** NpyWriter.icpp:38-45 writeNpy: the bytes written. *)
Definition write_npy (ty : npy_type) (h : heap text) (a : ndarray) : outcome text :=
  do header <- write_npy_header ty (nd_shape a) (attr_texts (nd_attrs a));
  do elements <- nd_elements h a;
  Ok (header ++ concat elements).

(** * Reading *)

(** std::string::find of a text. *)
Fixpoint find_text (needle s : text) {struct s} : option nat :=
  if starts_with s needle then Some 0
  else match s with
       | [] => None
       | _ :: r => option_map S (find_text needle r)
       end.
(** find(...) + k: npos is the largest size_t, so npos + k wraps to k - 1. *)
Definition find_plus (needle s : text) (k : nat) : nat :=
  match find_text needle s with Some p => p + k | None => k - 1 end.
(** s.find(c, pos), and s.substr(pos, end - pos) where [None] is npos. *)
Definition find_char_from (c : ascii) (s : text) (pos : nat) : option nat :=
  if Nat.ltb (length s) pos then None
  else option_map (fun k => pos + k) (find_char c (skipn pos s)).
Definition substr (s : text) (pos : nat) (end_ : option nat) : outcome text :=
  if Nat.ltb (length s) pos then Throw
  else Ok match end_ with Some e => firstn (e - pos) (skipn pos s) | None => skipn pos s end.
(** s[pos]: s[s.size()] is the terminating 0, beyond is UB. *)
Definition char_at (s : text) (pos : nat) : outcome ascii :=
  match nth_error s pos with
  | Some c => Ok c
  | None => if Nat.eqb pos (length s) then Ok zero_byte else UB
  end.

(** NpyCommon.h:109-112 parseSingleValue; front() of an empty string is UB. *)
Definition single_value (descr : text) : outcome (bool * text) :=
  match descr with
  | [] => UB
  | c :: r => Ok (Ascii.eqb c ">", r)
  end.

(** The regular expression of NpyCommon.h:123, matched at the start of the text:
    parenthesis, quote, a name without quotes, quote, comma, white space, quote,
    a type without quotes, quote, parenthesis. No choice is left to the matcher,
    since the repeated classes exclude what follows them. *)
Definition expect (p s : text) : option text :=
  if starts_with s p then Some (skipn (length p) s) else None.
Fixpoint until_quote (s : text) : text * text :=
  match s with
  | [] => ([], [])
  | c :: r => if Ascii.eqb c quote then ([], s) else let (a, b) := until_quote r in (c :: a, b)
  end.
Definition match_field (s : text) : option (text * text * text) :=
  match expect (txt "('") s with
  | None => None
  | Some r1 =>
      let (name, r2) := until_quote r1 in
      match expect (txt "',") r2 with
      | None => None
      | Some r3 =>
          match expect (txt "'") (drop_while is_space r3) with
          | None => None
          | Some r4 =>
              let (descr, r5) := until_quote r4 in
              match expect (txt "')") r5 with
              | None => None
              | Some r6 => Some (name, descr, r6)
              end
          end
      end
  end.
(** NpyCommon.h:129 and 142: the successive matches of regex_search. Every turn
    consumes a character, so the length bounds the number of turns. *)
Fixpoint search_fields (fuel : nat) (s : text) : list (text * text) :=
  match fuel with
  | O => []
  | S fuel' =>
      match match_field s with
      | Some (name, descr, r) => (name, descr) :: search_fields fuel' r
      | None => match s with [] => [] | _ :: r => search_fields fuel' r end
      end
  end.

(** NpyCommon.h:129-143: the loop of parseFieldValues; [None] is the
    uninitialised big_endian. *)
Fixpoint field_loop (fields : list (text * text)) (dtype : text) (big_endian : option bool)
    (attrs : list text) : outcome (option bool * text * list text) :=
  match fields with
  | [] => Ok (big_endian, dtype, attrs)
  | (name, descr) :: r =>
      do v <- single_value descr;
      match dtype with
      | [] => field_loop r (snd v) (Some (fst v)) (attrs ++ [name])
      | _ :: _ =>
          do b <- of_option big_endian;
          if negb (text_eqb dtype (snd v)) || negb (Bool.eqb b (fst v)) then Throw
          else field_loop r dtype big_endian (attrs ++ [name])
      end
  end.

(** StringUtils.h:44-55 stringToVector<size_t>. boost::split with
    token_compress_on: consecutive separators count as one. *)
Fixpoint split_compress (p : ascii -> bool) (s : text) : list text :=
  match s with
  | [] => [[]]
  | c :: r =>
      if p c then
        match r with
        | d :: _ => if p d then split_compress p r else [] :: split_compress p r
        | [] => [] :: split_compress p r
        end
      else match split_compress p r with
           | [] => [[c]]
           | h :: t => (c :: h) :: t
           end
  end.
(** boost::lexical_cast<size_t>: a sign is accepted, and a minus sign negates
    modulo 2^64. *)
Definition size_text (s : text) : outcome nat :=
  let value (z : option Z) (minus : bool) : outcome nat :=
    match z with
    | Some z => if (z <? 2 ^ 64)%Z then Ok (Z.to_nat (if minus then (- z) mod 2 ^ 64 else z)) else Throw
    | None => Throw
    end in
  match s with
  | [] => Throw
  | c :: r =>
      if Ascii.eqb c "-" then value (unsigned_text r) true
      else if Ascii.eqb c "+" then value (unsigned_text r) false
      else value (unsigned_text s) false
  end.
Fixpoint map_outcome {A B} (f : A -> outcome B) (l : list A) : outcome (list B) :=
  match l with
  | [] => Ok []
  | x :: r => do y <- f x; do t <- map_outcome f r; Ok (y :: t)
  end.
Definition is_separator (c : ascii) : bool := Ascii.eqb c "," || Ascii.eqb c " ".
Definition string_to_sizes (s : text) : outcome (list nat) :=
  map_outcome size_text (split_compress is_separator (trim s)).

(** NpyCommon.h:180-185: the shape; back() of an empty string is UB. *)
Definition parse_shape (header : text) : outcome (list nat) :=
  let loc := find_plus (txt "shape") header 9 in
  let loc2 := find_char_from ")" header loc in
  do shape_str <- substr header loc loc2;
  match shape_str with
  | [] => UB
  | _ :: _ =>
      string_to_sizes (if Ascii.eqb (last shape_str zero_byte) "," then removelast shape_str else shape_str)
  end.

(** NpyCommon.h:168-178: the description: big_endian, dtype and names. *)
Definition parse_descr (header : text) : outcome (option bool * text * list text) :=
  let loc := find_plus (txt "descr") header 8 in
  do c <- char_at header loc;
  if Ascii.eqb c quote then
    do descr <- substr header (loc + 1) (find_char_from quote header (loc + 1));
    do v <- single_value descr;
    Ok (Some (fst v), snd v, [])
  else if Ascii.eqb c "[" then
    do descr <- substr header (loc + 1) (find_char_from "]" header (loc + 1));
    field_loop (search_fields (length descr) descr) [] None []
  else Throw.

(** NpyCommon.h:165-166. *)
Definition parse_fortran (header : text) : outcome bool :=
  let loc := find_plus (txt "fortran_order") header 16 in
  do s <- substr header loc (Some (loc + 4));
  Ok (text_eqb s (txt "True")).

(** The outputs of parseNpyDict, NpyCommon.h:163-187. *)
Record npy_header : Type := mkHeader {
  np_fortran : bool; np_big : option bool; np_dtype : text; np_shape : list nat;
  np_attrs : list text; np_count : nat }.
Definition parse_npy_dict (header : text) : outcome npy_header :=
  do fortran <- parse_fortran header;
  do d <- parse_descr header;
  do shape <- parse_shape header;
  Ok (mkHeader fortran (fst (fst d)) (snd (fst d)) shape (snd d) (int_product shape)).

(** input.read(buffer, n) on an initialised buffer: what is missing keeps its
    zeros. *)
Definition read_zeros (n : nat) (s : text) : text :=
  firstn n s ++ repeat zero_byte (n - length s).

(** NpyCommon.h:203-241 readNpyHeader: the header and the bytes left. The buffers
    of the magic sequence, version and length are not initialised: a stream that
    ends inside them makes the reader use indeterminate bytes (UB). *)
Definition read_npy_header (input : text) : outcome (npy_header * text) :=
  if Nat.ltb (length input) 6 then UB
  else if negb (text_eqb (firstn 6 input) npy_magic) then Throw
  else
    let s1 := skipn 6 input in
    if Nat.ltb (length s1) 2 then UB
    else
      let version := le_value (firstn 2 s1) in
      let s2 := skipn 2 s1 in
      if (30 <? version)%N then Throw
      else
        let width := if (version mod 256 =? 1)%N then 2 else 4 in
        if Nat.ltb (length s2) width then UB
        else
          let header_len := N.to_nat (le_value (firstn width s2)) in
          let s3 := skipn width s2 in
          do d <- parse_npy_dict (read_zeros header_len s3);
          if np_fortran d then Throw
          else
            do big <- of_option (np_big d);
            if big then Throw
            else Ok (d, skipn header_len s3).

(** n elements of [size] bytes. *)
Fixpoint chunks (size n : nat) (s : text) : list text :=
  match n with
  | O => []
  | S n' => firstn size s :: chunks size n' (skipn size s)
  end.

(** NpyReader.icpp:34-51 readNpy: the array and the bytes left in the stream.
    data[0] of an empty vector is UB. *)
Definition element_count (d : npy_header) : nat :=
  match np_attrs d with [] => np_count d | _ :: _ => np_count d * length (np_attrs d) end.
Definition read_npy (ty : npy_type) (h : heap text) (input : text)
  : outcome (heap text * ndarray * text) :=
  do p <- read_npy_header input;
  let (d, s) := p : npy_header * text in
  if negb (text_eqb (np_dtype d) (dtype_str ty)) then Throw
  else
    let n := element_count d in
    if Nat.eqb n 0 then UB
    else
      let bytes := type_size ty * n in
      do r <- nd_from_data_attrs h (np_shape d) (attr_strings (np_attrs d))
                (chunks (type_size ty) n (read_zeros bytes s));
      Ok (r, skipn bytes s).

(** * Memory-mapped files *)

(** NpyCommon.h:323-371 MappedContainer: the members, and the file the path
    names. The mapping covers [mm_max] bytes; the accesses beyond the end of the
    file or of the mapping are UB. *)
Record mmap : Type := mkMmap {
  mm_type : npy_type; mm_offset : nat; mm_n : nat; mm_max : nat; mm_attrs : list text;
  mm_file : text }.

(** The bytes of the file at a position, and their replacement. *)
Definition get_bytes (s : text) (pos n : nat) : outcome text :=
  if Nat.ltb (length s) (pos + n) then UB else Ok (firstn n (skipn pos s)).
Definition put_bytes (s : text) (pos : nat) (b : text) : outcome text :=
  if Nat.ltb (length s) (pos + length b) then UB
  else Ok (firstn pos s ++ b ++ skipn (pos + length b) s).

(** m_data[i], NpyCommon.h:334 and 340-342, read and written. *)
Definition mm_get (m : mmap) (i : nat) : outcome text :=
  let size := type_size (mm_type m) in
  let pos := mm_offset m + i * size in
  if Nat.ltb (mm_max m) (pos + size) then UB else get_bytes (mm_file m) pos size.
Definition with_file (m : mmap) (f : text) : mmap :=
  mkMmap (mm_type m) (mm_offset m) (mm_n m) (mm_max m) (mm_attrs m) f.
Definition mm_set (m : mmap) (i : nat) (x : text) : outcome mmap :=
  let size := type_size (mm_type m) in
  let pos := mm_offset m + i * size in
  if Nat.ltb (mm_max m) (pos + size) then UB
  else do f <- put_bytes (mm_file m) pos x; Ok (with_file m f).

(** boost::filesystem::resize_file: truncates or extends with zeros. *)
Definition resize_file (s : text) (n : nat) : text := firstn n s ++ repeat zero_byte (n - length s).

(** NpyCommon.h:344-363 resize: the outcome and the object afterwards, since
    the object outlives an exception. *)
Definition with_n (m : mmap) (n : nat) : mmap :=
  mkMmap (mm_type m) (mm_offset m) n (mm_max m) (mm_attrs m) (mm_file m).
Definition mm_resize (m : mmap) (shape : list nat) : outcome unit * mmap :=
  match write_npy_header (mm_type m) shape (mm_attrs m) with
  | Ok header =>
      if negb (Nat.eqb (length header) (mm_offset m)) then (Throw, m)
      else
        let n := u32_product shape in
        let new_size := length header + type_size (mm_type m) * n in
        if Nat.ltb (mm_max m) new_size then (Throw, with_n m n)
        else
          match put_bytes (resize_file (mm_file m) new_size) 0 header with
          | Ok f => (Ok tt, with_file (with_n m n) f)
          | Throw => (Throw, with_n m n)
          | UB => (UB, with_n m n)
          | Diverge => (Diverge, with_n m n)
          end
  | Throw => (Throw, m)
  | UB => (UB, m)
  | Diverge => (Diverge, m)
  end.

(** NpyMmap.icpp:61-91 createMmapNpy: the container over the new file, whose
    bytes are zero before the header is copied. The shape has no attribute axis;
    [appendAttrShape] adds it. *)
Definition create_mmap (ty : npy_type) (shape : list nat) (attrs : list text) (max_size : nat)
  : outcome mmap :=
  do header <- write_npy_header ty (append_attr_shape shape (length attrs)) attrs;
  let n := match attrs with [] => int_product shape | _ :: _ => int_product shape * length attrs end in
  let total_size := length header + n * type_size ty in
  do f <- put_bytes (repeat zero_byte total_size) 0 header;
  Ok (mkMmap ty (length header) n (if Nat.leb total_size max_size then max_size else total_size) attrs f).

(** NpyMmap.icpp:31-59 mmapNpy: the shape without the attribute axis, and the
    container. A max_size of 0 maps the whole file. *)
Definition open_mmap (ty : npy_type) (file : text) (max_size : nat) : outcome (list nat * mmap) :=
  let max' := if Nat.eqb max_size 0 then length file else max_size in
  let mapped := firstn max' file in
  do p <- read_npy_header mapped;
  let (d, s) := p : npy_header * text in
  if negb (text_eqb (np_dtype d) (dtype_str ty)) then Throw
  else Ok (np_shape d, mkMmap ty (length mapped - length s) (element_count d) max' (np_attrs d) file).

(** NdArray::concatenate over this container, after its checks (NdArray.icpp:337-348): resize, then
    copy the elements of the other array behind the old ones. *)
Fixpoint mm_copy (m : mmap) (pos : nat) (data : list text) : outcome mmap :=
  match data with
  | [] => Ok m
  | x :: r => do m' <- mm_set m pos x; mm_copy m' (S pos) r
  end.
Definition mm_append (m : mmap) (new_shape : list nat) (data : list text) : outcome mmap :=
  let old_size := mm_n m in
  match mm_resize m new_shape with
  | (Ok _, m') => mm_copy m' old_size data
  | (Throw, _) => Throw
  | (UB, _) => UB
  | (Diverge, _) => Diverge
  end.
