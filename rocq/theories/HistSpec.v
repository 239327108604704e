(** Vocabulary of the histogram properties. *)
From Coq Require Import QArith List ZArith Bool Arith.
From Verif Require Import Common DblModel HistModel.
Import ListNotations.
Local Open Scope nat_scope.

(** At least two edges, none above a later one. *)
Definition ordered (edges : list dbl) : Prop :=
  2 <= length edges /\
  forall i j a b, i < j -> nth_error edges i = Some a -> nth_error edges j = Some b -> dle a b = true.

(** [v] is in the bin [i] of the edges: at or above edge i and below edge i+1,
    or on the upper edge of the last bin. *)
Definition in_bin (edges : list dbl) (i : nat) (v : dbl) : Prop :=
  exists lo hi, nth_error edges i = Some lo /\ nth_error edges (i + 1) = Some hi /\
    dle lo v = true /\
    (dlt v hi = true \/ (i + 2 = length edges /\ deq v hi = true)).

(** [v] is below all the edges or above all of them. *)
Definition outside (edges : list dbl) (v : dbl) : Prop :=
  (forall e, In e edges -> dlt v e = true) \/ (forall e, In e edges -> dlt e v = true).

Definition qsum (l : list Q) : Q := fold_right Qplus 0%Q l.

(** The weights of the data selected by [p]. *)
Definition weight_of {V} (p : V -> bool) (data : list V) (weights : list Q) : Q :=
  qsum (map snd (filter (fun x => p (fst x)) (combine data weights))).

(** The index of [v] is [i]. *)
Definition has_index {V} (b : binning V) (i : Z) (v : V) : bool :=
  match b_index b v with Ok z => Z.eqb z i | _ => false end.
(** The index of [v] is that of a bin. *)
Definition in_range {V} (b : binning V) (v : V) : bool :=
  match b_index b v with Ok z => (0 <=? z)%Z && (z <? Z.of_nat (b_count b))%Z | _ => false end.
(** Every value has an index. *)
Definition indexed {V} (b : binning V) (data : list V) : Prop := forall v, In v data -> exists z, b_index b v = Ok z.

(** A sequence of calls of clip. *)
Fixpoint clips {V} (gt : V -> V -> bool) (h : hist V) (l : list (V * V)) : outcome (hist V) :=
  match l with
  | [] => Ok h
  | (a, b) :: r => do h' <- clip gt h a b; clips gt h' r
  end.

(** The bin of [v] is one of the bins shown. *)
Definition shows {V} (h : hist V) (v : V) : Prop :=
  exists z, b_index (h_binning h) v = Ok z /\ (h_left h <= z <= h_right h)%Z.

(** The visible bins are bins of the histogram, and there is at least one. *)
Definition valid {V} (h : hist V) : Prop :=
  (0 <= h_left h <= h_right h)%Z /\ (h_right h < Z.of_nat (length (h_counts h)))%Z /\
  length (h_counts h) = b_count (h_binning h).

(** The total of the counts of the [n] bins from [i] on. *)
Definition mass (counts : list Q) (i n : nat) : Q := qsum (firstn n (skipn i counts)).

(** Total of count * f(centre) over pairs (count, centre). *)
Definition weighted (f : Q -> Q) (l : list (Q * Q)) : Q := qsum (map (fun p => fst p * f (snd p))%Q l).

(** The counts of the visible bins with the centres of the bins. *)
Definition centred (h : hist Q) (l : list (Q * Q)) : Prop :=
  map fst l = get_counts h /\
  forall k c x, nth_error l k = Some (c, x) -> b_center (h_binning h) (Z.to_nat (h_left h) + k) = Ok x.

(** Every value of the data has a bin, and is between the edges of its bin,
    below the upper one unless the bin is the last one. *)
Definition covers (b : binning Q) (data : list Q) : Prop :=
  forall v, In v data -> exists i lo hi,
    b_index b v = Ok (Z.of_nat i) /\ i < b_count b /\ b_bin_edges b i = Ok (lo, hi) /\
    (lo <= v)%Q /\ ((v < hi)%Q \/ (i + 1 = b_count b /\ (v <= hi)%Q)).

(** All the edges exist. *)
Definition has_edges {V} (b : binning V) : Prop := forall i, i <= b_count b -> exists e, b_edge b i = Ok e.
