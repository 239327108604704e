(** Vocabulary of the statements about FITS files of grids. *)
From Coq Require Import ZArith List Arith Ascii String Bool.
From Verif Require Import Common TextModel DblModel GridModel GridSpec TableModel TableSpec AsciiModel FitsModel XYModel XYSpec GridFitsModel.
Import ListNotations.
Local Open Scope nat_scope.
Local Notation length := List.length.

(** The knots of a type. *)
Definition of_type (kt : ktype) (k : knot) : Prop :=
  match kt, k with
  | KTBool, KBool _ | KTInt, KInt _ | KTLong, KLong _ | KTFloat, KFloat _ | KTDouble, KDouble _ | KTText, KText _ | KTName, KName _ => True
  | _, _ => False
  end.
(** Texts that a table can hold: on one line, neither empty nor with a blank at the end;
    the size of a column is an int. *)
Definition storable_text (s : text) : Prop :=
  s <> [] /\ one_line s /\ (forall r, s <> r ++ [" "%char]) /\ (Z.of_nat (length s) <= 2 ^ 31 - 1)%Z.
Definition storable (k : knot) : Prop :=
  match k with
  | KText s => storable_text s
  | KName q => (exists hashf, reachable hashf q) /\ storable_text (q_full q)
  | _ => True
  end.
Definition axis_ok (kt : ktype) (a : axis knot) : Prop :=
  ax_values a <> [] /\ Forall (fun k => of_type kt k /\ storable k) (ax_values a).

(** Equal knots; names are equal if their parts are. *)
Definition same_knot (a b : knot) : Prop :=
  match a, b with KName p, KName q => segments_of p = segments_of q | _, _ => a = b end.
Definition same_axis (a b : axis knot) : Prop :=
  ax_name a = ax_name b /\ Forall2 same_knot (ax_values a) (ax_values b).

(** The name of the table of an axis. *)
Definition axis_hdu (hdu_name : text) (a : axis knot) : text := list_ascii_of_string (ax_name a) ++ "_"%char :: hdu_name.
(** A name for a grid in a file: not empty, no blank at the end, the names of the tables
    fit a keyword, no two axes have the same name, and no name is used in the file. *)
Definition good_name {C} (exts : list (ext C)) (hdu_name : text) (axes : list (axis knot)) : Prop :=
  hdu_name <> [] /\ (forall r, hdu_name <> r ++ [" "%char]) /\ length hdu_name <= 68
  /\ Forall (fun a => length (axis_hdu hdu_name a) <= 68) axes
  /\ NoDup (map ax_name axes)
  /\ forall e, In e exts -> ext_name e <> hdu_name /\ forall a, In a axes -> ext_name e <> axis_hdu hdu_name a.

(** The number of a pixel in an image, the first coordinate varying fastest. *)
Fixpoint pixel_number (shape coords : list nat) : nat :=
  match shape, coords with
  | n :: r, c :: cr => c + n * pixel_number r cr
  | _, _ => 0
  end.
(** The table of an axis: the positions and the knots. *)
Definition knot_entry (k : knot) : raw :=
  match k with
  | KBool b => RVals [VBool b] | KInt z | KLong z => RVals [VInt z] | KFloat d | KDouble d => RVals [VReal d]
  | KText s => RText s | KName q => RText (q_full q)
  end.
Definition is_axis_table {C} (hdu_name : text) (a : axis knot) (e : ext C) : Prop :=
  exists c1 c2, e = BinTable (axis_hdu hdu_name a) [c1; c2]
    /\ fc_name c1 = txt "Index" /\ fc_data c1 = map (fun i => RVals [VInt (Z.of_nat i)]) (seq 0 (length (ax_values a)))
    /\ fc_name c2 = txt "Value" /\ fc_data c2 = map knot_entry (ax_values a).
