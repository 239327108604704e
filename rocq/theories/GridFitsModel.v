(** Model of the FITS files of grids (GridContainer/GridContainer/_impl/
    FitsSerialize.icpp in /repo).

    A FITS file is the list of its extensions; the first has the number 1. The tables are
    those of FitsModel. The conversion of the cells to the pixels of the image and back is
    the identity (a negative int8_t, which BYTE_IMG cannot hold, is not considered), and
    so are the limits of int for the loop counters. Adding an image whose name the file
    already has is left open and shows up as [UB]. *)
From Coq Require Import ZArith List Arith Ascii String Bool.
From Verif Require Import Common TextModel DblModel GridModel TableModel AsciiModel FitsModel XYModel.
Import ListNotations.
Local Open Scope nat_scope.
Local Notation length := List.length.

(** The types of knots: the cell types of Table::Row that are single values, and
    QualifiedName. *)
Inductive ktype : Type := KTBool | KTInt | KTLong | KTFloat | KTDouble | KTText | KTName.
Inductive knot : Type :=
| KBool (b : bool) | KInt (z : Z) | KLong (z : Z) | KFloat (d : dbl) | KDouble (d : dbl) | KText (s : text) | KName (q : qname).
(** FitsSerialize.icpp:72-93: GridAxisValueFitsHelper. *)
Definition fits_type (kt : ktype) : ctype :=
  match kt with
  | KTBool => TBool | KTInt => TInt | KTLong => TLong | KTFloat => TFloat | KTDouble => TDouble
  | KTText | KTName => TString
  end.
Definition axis_to_fits (k : knot) : cell :=
  match k with
  | KBool b => CBool b | KInt z => CInt z | KLong z => CLong z | KFloat d => CFloat d | KDouble d => CDouble d
  | KText s => CString s | KName q => CString (q_full q)
  end.
Definition fits_to_axis (kt : ktype) (c : cell) : outcome knot :=
  match kt, c with
  | KTBool, CBool b => Ok (KBool b)
  | KTInt, CInt z => Ok (KInt z)
  | KTLong, CLong z => Ok (KLong z)
  | KTFloat, CFloat d => Ok (KFloat d)
  | KTDouble, CDouble d => Ok (KDouble d)
  | KTText, CString s => Ok (KText s)
  | KTName, CString s => do q <- qn_parse s; Ok (KName q)
  | _, _ => UB
  end.

Section Grid.
(** The type of the cells and its value-initialized element. *)
Variable C : Type.
Variable zero : C.

(** An extension: an image with its axes, the first varying fastest, or a binary table. *)
Inductive ext : Type := Image (name : text) (shape : list nat) (pixels : list C) | BinTable (name : text) (h : hdu).
Definition ext_name (e : ext) : text := match e with Image n _ _ | BinTable n _ => n end.
(** The value of the keyword EXTNAME: a text of at most 68 characters without trailing
    blanks (the FITS standard; CFITSIO cuts the text). *)
Definition extname (s : text) : text := strip_blanks (firstn 68 s).

(** FitsSerialize.icpp:135-148: the pixels. The valarray has grid.size() elements; the
    loop writes one element per turn, and past the end it is UB. *)
Definition grid_pixels (v : view knot) (cells : list C) : outcome (list C) :=
  do out <- visit v cells (S (length cells));
  let n := view_size v in
  if Nat.ltb n (length out) then UB else Ok (map snd out ++ repeat zero (n - length out)).

(** FitsSerialize.icpp:106-118: the table of an axis. *)
Definition axis_info (kt : ktype) : outcome colinfo :=
  new_info [mkDesc (txt "Index") TInt [] []; mkDesc (txt "Value") (fits_type kt) [] []].
Fixpoint axis_rows (info : colinfo) (i : nat) (values : list knot) : outcome (list row) :=
  match values with
  | [] => Ok []
  | x :: r =>
      do row <- new_row [CInt (Z.of_nat i); axis_to_fits x] (Some info);
      do rows <- axis_rows info (S i) r;
      Ok (row :: rows)
  end.
Definition axis_table (kt : ktype) (a : axis knot) : outcome table :=
  do info <- axis_info kt;
  do rows <- axis_rows info 0 (ax_values a);
  new_table rows.

(** FitsWriter.cpp:63-133 for a file that is not overwritten: a table of that name gets
    the rows at its end; dynamic_cast of another kind of extension gives a null pointer,
    which is UB. *)
Fixpoint append_rows (exts : list ext) (name : text) (t : table) : option (outcome (list ext)) :=
  match exts with
  | [] => None
  | e :: r =>
      if text_eqb (ext_name e) name then
        Some (match e with
              | Image _ _ _ => UB
              | BinTable n h => do h' <- append_columns t 0 (t_info t) h; Ok (BinTable n h' :: r)
              end)
      else option_map (fun o => do r' <- o; Ok (e :: r')) (append_rows r name t)
  end.
Definition write_table (exts : list ext) (name : text) (t : table) : outcome (list ext) :=
  match append_rows exts name t with
  | Some o => o
  | None => do w <- fw_add (mkFw None []) t; Ok (exts ++ [BinTable (extname name) (fw_hdu w)])
  end.

(** FitsSerialize.icpp:98-126: the axes in order. [types] are the types of the knots, one
    per axis. *)
Definition text_of (s : string) : text := list_ascii_of_string s.
Fixpoint export_axes (exts : list ext) (hdu_name : text) (types : list ktype) (axes : list (axis knot)) : outcome (list ext) :=
  match types, axes with
  | kt :: tr, a :: ar =>
      do t <- axis_table kt a;
      do exts' <- write_table exts (text_of (ax_name a) ++ txt "_" ++ hdu_name) t;
      export_axes exts' hdu_name tr ar
  | _, _ => Ok exts
  end.

(** FitsSerialize.icpp:128-155: gridFitsExport. *)
Definition add_image (exts : list ext) (name : text) (shape : list nat) (pixels : list C) : outcome (list ext) :=
  if existsb (fun e => text_eqb (ext_name e) name) exts then UB
  else Ok (exts ++ [Image (extname name) shape pixels]).
Definition grid_export (exts : list ext) (hdu_name : text) (types : list ktype) (v : view knot) (cells : list C) : outcome (list ext) :=
  let axes := v_axes_fixed v in
  do pixels <- grid_pixels v cells;
  do exts' <- add_image exts hdu_name (axes_sizes axes) pixels;
  export_axes exts' hdu_name types axes.

(** FITS::extension(int): throws if there is no such extension. *)
Definition get_ext (exts : list ext) (index : Z) : outcome ext :=
  if Z.ltb index 1 then Throw
  else match nth_error exts (Z.to_nat (index - 1)) with Some e => Ok e | None => Throw end.
(** FitsSerialize.icpp:182: the subtraction of sizes wraps around, and substr then takes
    the whole name. *)
Definition axis_name_of (name grid_name : text) : text :=
  if Nat.ltb (length name) (S (length grid_name)) then name else firstn (length name - length grid_name - 1) name.
(** FitsSerialize.icpp:177-195: readAxis. Another extension, a missing column and an
    empty one throw. *)
Definition read_axis (kt : ktype) (grid_name : text) (e : ext) : outcome (axis knot) :=
  match e with
  | Image _ _ _ => Throw
  | BinTable name h =>
      match find (fun c => text_eqb (fc_name c) (txt "Value")) h with
      | None => Throw
      | Some c =>
          if Nat.eqb (length (fc_data c)) 0 then Throw
          else
            do data <- map_o (read_entry (fits_type kt) []) (fc_data c);
            do knots <- map_o (fits_to_axis kt) data;
            Ok (mkAxis (string_of_list_ascii (axis_name_of name grid_name)) knots)
      end
  end.
(** FitsSerialize.icpp:197-207: readAxesTuple, with the types and the extension of the
    last axis first. *)
Fixpoint read_axes (exts : list ext) (grid_name : text) (index : Z) (types_rev : list ktype) : outcome (list (axis knot)) :=
  match types_rev with
  | [] => Ok []
  | kt :: r =>
      do e <- get_ext exts index;
      do a <- read_axis kt grid_name e;
      do previous <- read_axes exts grid_name (index - 1) r;
      Ok (previous ++ [a])
  end.

(** FitsSerialize.icpp:229-232: the loop over the new grid; data[i] past the end is UB. *)
Fixpoint fill_from (h : index_helper) (cells data : list C) (i fuel : nat) (it : iter) : outcome (list C) :=
  match fuel with
  | O => Diverge
  | S fuel' =>
      if Nat.eqb (it_pos it) (length cells) then Ok cells
      else
        do x <- of_option (nth_error data i);
        do cells' <- of_option (list_set cells (it_pos it) x);
        do it' <- iter_incr h (length cells) it;
        fill_from h cells' data (S i) fuel' it'
  end.
(** FitsSerialize.icpp:217-235: gridFitsImport; the axes and the cells of the new grid. *)
Definition grid_import (exts : list ext) (types : list ktype) (hdu_index : Z) : outcome (view knot * list C) :=
  do e <- get_ext exts hdu_index;
  do axes <- read_axes exts (ext_name e) (hdu_index + Z.of_nat (length types)) (rev types);
  let v := new_view axes in
  let cells := repeat zero (alloc_size v) in
  do data <- match e with Image _ _ pixels => Ok pixels | BinTable _ _ => Throw end;
  do it <- view_begin v;
  do cells' <- fill_from (v_helper v) cells data 0 (S (length cells)) it;
  Ok (v, cells').
End Grid.
Arguments Image {C}. Arguments BinTable {C}. Arguments ext_name {C}. Arguments grid_pixels {C}.
Arguments append_rows {C}. Arguments write_table {C}. Arguments export_axes {C}. Arguments add_image {C}.
Arguments grid_export {C}. Arguments get_ext {C}. Arguments read_axis {C}. Arguments read_axes {C}.
Arguments fill_from {C}. Arguments grid_import {C}.
