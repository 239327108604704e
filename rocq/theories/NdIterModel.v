(** Model of the remaining operators of the iterators of NdArray (NdArray/NdArray/NdArray.h and
    _impl/NdArray.icpp in /repo); NdArrayModel.v has the others. *)
From Coq Require Import List Arith.
From Verif Require Import Common NdArrayModel.

(** NdArray.icpp:77-81 and 124-128: writing through the reference that operator* and operator[]
    return. *)
Definition ni_set {T} (h : heap T) (it : nditer) (i : nat) (x : T) : outcome (heap T) :=
  container_set h (ni_container it) (ni_offset it + (ni_i it + i) * ni_stride it) x.
(** NdArray.icpp:136-141 operator< and 143-148 operator> (the assert is compiled out). *)
Definition ni_less (a b : nditer) : bool := Nat.ltb (ni_i a) (ni_i b).
Definition ni_greater (a b : nditer) : bool := Nat.ltb (ni_i b) (ni_i a).
(** NdArray.icpp:89-94 operator+= and 103-108 operator-=: the iterator afterwards. *)
Definition ni_advance (it : nditer) (n : nat) : nditer :=
  mkNdIter (ni_container it) (ni_offset it) (ni_row_size it) (ni_stride it) (ni_i it + n).
Definition ni_retreat (it : nditer) (n : nat) : outcome nditer :=
  if Nat.leb n (ni_i it) then Ok (mkNdIter (ni_container it) (ni_offset it) (ni_row_size it) (ni_stride it) (ni_i it - n))
  else UB.
