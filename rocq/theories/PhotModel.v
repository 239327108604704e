(** Model of photometry objects and their iterators
    (SourceCatalog/SourceCatalog/SourceAttributes/Photometry.h, SourceCatalog/SourceCatalog/_impl/Photometry.icpp,
    SourceCatalog/src/lib/Photometry.cpp).

    The vector of filter names is shared: objects hold a pointer to it. Vectors of names are numbered in
    the order of their creation and never freed. CatalogModel.photometry is one object alone. *)
From Coq Require Import ZArith List Arith Bool.
From Verif Require Import Common TextModel CatalogModel.
Import ListNotations.

(** Photometry.h:217-221: m_filter_name_vector_ptr and m_value_vector. *)
Record pobject : Type := mkPObject { po_ptr : nat; po_values : list fep }.
(** The vectors of filter names and the objects of a program. *)
Record pstate : Type := mkPState { ps_names : list (list text); ps_objects : list pobject }.
Definition pempty : pstate := mkPState [] [].

Fixpoint set_at {A} (l : list A) (i : nat) (a : A) : option (list A) :=
  match l, i with
  | [], _ => None
  | _ :: r, O => Some (a :: r)
  | b :: r, S j => match set_at r j a with Some r' => Some (b :: r') | None => None end
  end.

(** What a program does: it makes a vector of names; constructs an object from a pointer, null or not, and values; copies
    an object; assigns through a non-const iterator that was advanced [i] times from begin(); assigns one name through the shared pointer; replaces
    the names behind the pointer (push_back, erase and others). *)
Inductive pop : Type :=
| PNames (l : list text)
| PNew (ptr : option nat) (values : list fep)
| PCopy (k : nat)
| PWrite (k i : nat) (v : fep)
| PRename (r i : nat) (n : text)
| PReplace (r : nat) (l : list text).

(** Photometry.h:157-166, the implicit copy constructor, Photometry.icpp:32-57. A constructor that throws makes no object. Using a pointer, object or
    position that does not exist is undefined. *)
Definition pstep (s : pstate) (o : pop) : outcome pstate :=
  match o with
  | PNames l => Ok (mkPState (ps_names s ++ [l]) (ps_objects s))
  | PNew None _ => Ok s
  | PNew (Some r) values =>
      do names <- of_option (nth_error (ps_names s) r);
      if Nat.eqb (length names) (length values) then Ok (mkPState (ps_names s) (ps_objects s ++ [mkPObject r values])) else Ok s
  | PCopy k => do b <- of_option (nth_error (ps_objects s) k); Ok (mkPState (ps_names s) (ps_objects s ++ [b]))
  | PWrite k i v =>
      do b <- of_option (nth_error (ps_objects s) k);
      do values <- of_option (set_at (po_values b) i v);
      do objects <- of_option (set_at (ps_objects s) k (mkPObject (po_ptr b) values));
      Ok (mkPState (ps_names s) objects)
  | PRename r i n =>
      do names <- of_option (nth_error (ps_names s) r);
      do names' <- of_option (set_at names i n);
      do vectors <- of_option (set_at (ps_names s) r names');
      Ok (mkPState vectors (ps_objects s))
  | PReplace r l =>
      do vectors <- of_option (set_at (ps_names s) r l);
      Ok (mkPState vectors (ps_objects s))
  end.
Fixpoint prun (s : pstate) (h : list pop) : outcome pstate :=
  match h with
  | [] => Ok s
  | o :: r => do s' <- pstep s o; prun s' r
  end.

(** Photometry.h:140-141: the positions of the two iterators. *)
Record piter : Type := mkPIter { pi_filter : nat; pi_value : nat }.
(** Photometry.h:171-193. *)
Definition pbegin : piter := mkPIter 0 0.
Definition pend (names : list text) (values : list fep) : piter := mkPIter (length names) (length values).
(** Photometry.icpp:32-37. An iterator that is advanced past the end of its vector is undefined. *)
Definition pnext (names : list text) (values : list fep) (it : piter) : outcome piter :=
  if (pi_filter it <? length names) && (pi_value it <? length values) then Ok (mkPIter (S (pi_filter it)) (S (pi_value it))) else UB.
(** Photometry.icpp:39-47. *)
Definition peq (a b : piter) : bool := Nat.eqb (pi_filter a) (pi_filter b).
(** Photometry.icpp:49-57. *)
Definition pget (values : list fep) (it : piter) : outcome fep := of_option (nth_error values (pi_value it)).
(** Photometry.icpp:59-62. *)
Definition pminus (a b : piter) : Z := (Z.of_nat (pi_value a) - Z.of_nat (pi_value b))%Z.
(** Photometry.icpp:64-67. *)
Definition pname (names : list text) (it : piter) : outcome text := of_option (nth_error names (pi_filter it)).

(** for (auto it = begin(); it != end(); ++it) visits it.filterName() and *it. *)
Fixpoint pvisit (fuel : nat) (names : list text) (values : list fep) (it : piter) : outcome (list (text * fep)) :=
  match fuel with
  | O => Diverge
  | S f =>
      if peq it (pend names values) then Ok []
      else
        do n <- pname names it; do v <- pget values it;
        do it' <- pnext names values it;
        do r <- pvisit f names values it';
        Ok ((n, v) :: r)
  end.
(** The names an object points to. *)
Definition pnames (s : pstate) (b : pobject) : outcome (list text) := of_option (nth_error (ps_names s) (po_ptr b)).
Definition piterate (s : pstate) (k : nat) : outcome (list (text * fep)) :=
  do b <- of_option (nth_error (ps_objects s) k); do names <- pnames s b;
  pvisit (S (length names)) names (po_values b) pbegin.
(** Photometry.h:199-201. *)
Definition psize (s : pstate) (k : nat) : outcome nat :=
  do b <- of_option (nth_error (ps_objects s) k); do names <- pnames s b; Ok (length names).
(** end() - begin(). *)
Definition pdistance (s : pstate) (k : nat) : outcome Z :=
  do b <- of_option (nth_error (ps_objects s) k); do names <- pnames s b; Ok (pminus (pend names (po_values b)) pbegin).
(** Photometry.cpp:34-50: the result is a copy. Advancing photometry_iter past the end of the values is undefined. *)
Fixpoint pfind_from (names : list text) (values : list fep) (name : text) : outcome (option fep) :=
  match names with
  | [] => Ok None
  | n :: r =>
      if text_eqb n name then match values with v :: _ => Ok (Some v) | [] => UB end
      else match values with _ :: vs => pfind_from r vs name | [] => UB end
  end.
Definition pfind (s : pstate) (k : nat) (name : text) : outcome (option fep) :=
  do b <- of_option (nth_error (ps_objects s) k); do names <- pnames s b; pfind_from names (po_values b) name.
(** Photometry.icpp:39-42: == between the iterators at position i of the object j and at position l of the object k. Iterators into different
    vectors of names must not be compared. *)
Definition psame (s : pstate) (j i k l : nat) : outcome bool :=
  do a <- of_option (nth_error (ps_objects s) j); do b <- of_option (nth_error (ps_objects s) k);
  if Nat.eqb (po_ptr a) (po_ptr b) then Ok (peq (mkPIter i i) (mkPIter l l)) else UB.
