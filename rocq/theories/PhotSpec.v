(** Vocabulary of the properties of photometry objects. *)
From Coq Require Import List Arith.
From Verif Require Import TextModel CatalogModel PhotModel.
Import ListNotations.

(** No vector of names gets another length after its creation. *)
Definition keeps_sizes (h : list pop) : Prop := forall r l, ~ In (PReplace r l) h.
(** The object number k and the names it points to. *)
Definition object_is (s : pstate) (k r : nat) (names : list text) (values : list fep) : Prop :=
  nth_error (ps_objects s) k = Some (mkPObject r values) /\ nth_error (ps_names s) r = Some names.
(** m is l with the element i replaced by a. *)
Definition replaced {A} (l : list A) (i : nat) (a : A) (m : list A) : Prop :=
  length m = length l /\ i < length l /\ nth_error m i = Some a /\ forall j, j <> i -> nth_error m j = nth_error l j.
