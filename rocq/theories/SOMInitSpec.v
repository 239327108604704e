(** Vocabulary for the initialization of the weights of a self-organizing map. *)
From Coq Require Import ZArith Reals List Arith.
From Verif Require Import Common SOMModel SOMSpec FloatModel SOMInitModel.
Import ListNotations.
Local Open Scope nat_scope.

(** The state of a closure after [k] calls, and the value of call number [k] (from 0). *)
Fixpoint state_after (f : init_func) (k : nat) : st f :=
  match k with O => state f | S j => snd (call f (state_after f j)) end.
Definition value_number (f : init_func) (k : nat) : double := fst (call f (state_after f k)).

(** The weights of a map of [x] times [y] cells with [nd] weights are the values number [k], [k + 1], ... of [f]: the
    weights of a cell follow each other, the cells with the same y follow each other by increasing x. *)
Definition weights_from (f : init_func) (k nd x y : nat) (m : som (list double)) : Prop :=
  sx m = x /\ sy m = y /\ length (cells m) = x * y /\
  forall a b, a < x -> b < y -> exists w, cell_at m a b = Some w /\ length w = nd /\
    forall i, i < nd -> nth_error w i = Some (value_number f (k + (a + b * x) * nd + i)).

(** The number of times the program calls the function itself; it does not assign the variable. *)
Definition calls (h : list act) : nat := length (filter (fun a => match a with Call => true | _ => false end) h).
Definition no_assignment (h : list act) : Prop := forall f, ~ In (Assign f) h.
Definition only_builds (h : list act) : Prop := forall a, In a h -> exists nd x y, a = Build nd x y.
(** What a program sees at its end. *)
Definition seen_last (h : list act) (f : init_func) : seen := last (fst (perform_all h f)) Nothing.
(** All the weights of a map. *)
Definition all_weights (P : double -> Prop) (m : som (list double)) : Prop := forall w v, In w (cells m) -> In v w -> P v.

(** The values a generator of standard normal values gives from a state: number [k]. *)
Fixpoint drawn {S : Type} (next : S -> double * S) (s : S) (k : nat) : double :=
  match k with O => fst (next s) | S j => drawn next (snd (next s)) j end.

(** Value number [j] of the engine std::minstd_rand0, and the number between 0 and 1 that values number 2k+1 and 2k+2
    stand for: two digits in the base 2147483646. *)
Definition engine_value (j : nat) : Z := ((16807 ^ Z.of_nat j) mod 2147483647)%Z.
Definition unit_value (k : nat) : R :=
  ((IZR (engine_value (2 * k + 1) - 1) + IZR (engine_value (2 * k + 2) - 1) * 2147483646) / (2147483646 * 2147483646))%R.
