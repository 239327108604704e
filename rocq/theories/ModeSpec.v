(** Vocabulary of the properties of mode extraction. *)
From Coq Require Import QArith List ZArith Bool Arith.
From Verif Require Import Common DblModel CumulModel CumulSpec ModeModel.
Import ListNotations.
Local Open Scope nat_scope.

Definition val (l : list Q) (i : nat) : Q := nth i l 0%Q.

(** A pdf sampled at rising abscissae, with non-negative values. *)
Definition is_pdf (xs ys : list Q) : Prop :=
  length xs = length ys /\ 3 <= length xs /\ strictly_rising xs /\ forall y, In y ys -> (0 <= y)%Q.

(** The width of the cell of a sample: up to the middle of the neighbours, the
    whole step at both ends. *)
Definition cell (xs : list Q) (i : nat) : Q :=
  if Nat.eqb i 0 then (val xs 1 - val xs 0)%Q
  else if Nat.eqb i (length xs - 1) then (val xs i - val xs (i - 1))%Q
  else ((val xs (i + 1) - val xs (i - 1)) / 2)%Q.
(** Sum of value times width, and of position times value times width, over the
    samples lo..hi. *)
Definition area_between (xs ys : list Q) (lo hi : nat) : Q :=
  total_of (map (fun i => val ys i * cell xs i)%Q (seq lo (hi + 1 - lo))).
Definition moment_between (xs ys : list Q) (lo hi : nat) : Q :=
  total_of (map (fun i => val xs i * val ys i * cell xs i)%Q (seq lo (hi + 1 - lo))).
Definition pdf_area (xs ys : list Q) : Q := area_between xs ys 0 (length xs - 1).

(** [c] is the first of the highest samples. *)
Definition highest (ys : list Q) (c : nat) : Prop :=
  c < length ys /\ (forall i, i < length ys -> (val ys i <= val ys c)%Q) /\ forall i, i < c -> (val ys i < val ys c)%Q.

(** Going away from the peak the values are below the threshold at [i] and do not
    fall any more. *)
Definition valley_left (ys : list Q) (thr : Q) (i : nat) : Prop := (val ys i < thr)%Q /\ (val ys i <= val ys (i - 1))%Q.
Definition valley_right (ys : list Q) (thr : Q) (i : nat) : Prop := (val ys i < thr)%Q /\ (val ys i <= val ys (i + 1))%Q.
(** Where the peak of [c] starts: at the border only if the peak is there;
    otherwise at the first valley, after the first zero, or at position 1. *)
Definition left_end (ys : list Q) (thr : Q) (c lo : nat) : Prop :=
  (c = 0 /\ lo = 0) \/
  (1 <= lo <= c /\ (forall i, lo <= i <= c -> ~ (val ys i == 0)%Q) /\ (forall i, lo < i <= c -> ~ valley_left ys thr i) /\
   (lo = 1 \/ (val ys (lo - 1) == 0)%Q \/ valley_left ys thr lo)).
Definition right_end (ys : list Q) (thr : Q) (c hi : nat) : Prop :=
  (c = length ys - 1 /\ hi = length ys - 1) \/
  (c <= hi /\ hi + 2 <= length ys /\ (forall i, c <= i <= hi -> ~ (val ys i == 0)%Q) /\
   (forall i, c <= i < hi -> ~ valley_right ys thr i) /\
   (hi + 2 = length ys \/ (val ys (hi + 1) == 0)%Q \/ valley_right ys thr hi)).
(** The samples lo..hi are those of the mode with its peak at [c]; everything when
    only zeros are left. *)
Definition mode_range (ys : list Q) (merge_ratio : Q) (c lo hi : nat) : Prop :=
  ((val ys c == 0)%Q /\ lo = 0 /\ hi = length ys - 1) \/
  (~ (val ys c == 0)%Q /\ left_end ys ((1 - merge_ratio) * val ys c)%Q c lo /\ right_end ys ((1 - merge_ratio) * val ys c)%Q c hi).

(** [m] describes the samples lo..hi with the peak at [c]. *)
Definition describes (xs ys : list Q) (c lo hi : nat) (m : mode) : Prop :=
  m_sample m = val xs c /\ (m_area m == area_between xs ys lo hi)%Q /\
  match m_mean m with
  | None => (m_area m == 0)%Q
  | Some q => ~ (m_area m == 0)%Q /\ (q * m_area m == moment_between xs ys lo hi)%Q
  end /\
  (val xs 0 <= m_interp m <= val xs (length xs - 1))%Q.
(** [ys'] is [ys] with zeros at lo..hi. *)
Definition zeroed (ys : list Q) (lo hi : nat) (ys' : list Q) : Prop :=
  length ys' = length ys /\
  forall i, i < length ys -> val ys' i = if (lo <=? i) && (i <=? hi) then 0%Q else val ys i.

Definition mode_areas (l : list mode) : Q := total_of (map m_area l).
(** Areas never grow along the list. *)
Definition by_area (l : list mode) : Prop :=
  forall i j a b, i < j -> nth_error l i = Some a -> nth_error l j = Some b -> (m_area b <= m_area a)%Q.
(** The vertex of the parabola A x^2 + B x + C through three points. *)
Definition vertex_of (x0 y0 x1 y1 x2 y2 v : Q) : Prop :=
  exists A B C : Q, ~ (A == 0)%Q /\ (y0 == A * x0 * x0 + B * x0 + C)%Q /\ (y1 == A * x1 * x1 + B * x1 + C)%Q /\
    (y2 == A * x2 * x2 + B * x2 + C)%Q /\ (2 * A * v + B == 0)%Q.
