(** Texts shared by the models of the modules handling strings. A std::string
    is a list of bytes. The functions model the standard library and boost
    functions the code calls. *)
From Coq Require Import List Arith Ascii String Bool.
From Verif Require Import Common.
Import ListNotations.

Definition text : Type := list ascii.
(** Literals. *)
Definition txt (s : string) : text := list_ascii_of_string s.

(** std::string operator== and operator< (byte-wise, unsigned). *)
Fixpoint text_eqb (a b : text) : bool :=
  match a, b with
  | [], [] => true
  | x :: r, y :: s => Ascii.eqb x y && text_eqb r s
  | _, _ => false
  end.
Definition byte (c : ascii) : nat := nat_of_ascii c.
Fixpoint text_ltb (a b : text) : bool :=
  match a, b with
  | [], _ :: _ => true
  | x :: r, y :: s =>
      if Nat.ltb (byte x) (byte y) then true
      else if Nat.ltb (byte y) (byte x) then false else text_ltb r s
  | _, [] => false
  end.

(** boost::split without token compression: never empty. *)
Fixpoint split_on (p : ascii -> bool) (s : text) : list text :=
  match s with
  | [] => [[]]
  | c :: r =>
      if p c then [] :: split_on p r
      else match split_on p r with
           | [] => [[c]]
           | h :: t => (c :: h) :: t
           end
  end.

(** boost::starts_with. *)
Fixpoint starts_with (s prefix : text) : bool :=
  match prefix, s with
  | [], _ => true
  | x :: r, y :: t => Ascii.eqb x y && starts_with t r
  | _ :: _, [] => false
  end.

(** find(c): position of the first occurrence. *)
Fixpoint find_char (c : ascii) (s : text) : option nat :=
  match s with
  | [] => None
  | x :: r => if Ascii.eqb x c then Some 0 else option_map S (find_char c r)
  end.
Definition contains_char (c : ascii) (s : text) : bool :=
  match find_char c s with Some _ => true | None => false end.

(** find_first_not_of / find_last_not_of / find_last_of for one character. *)
Fixpoint find_first_not_of (c : ascii) (s : text) : option nat :=
  match s with
  | [] => None
  | x :: r => if Ascii.eqb x c then option_map S (find_first_not_of c r) else Some 0
  end.
Definition from_end (n : nat) (o : option nat) : option nat := option_map (fun k => n - 1 - k) o.
Definition find_last_not_of (c : ascii) (s : text) : option nat :=
  from_end (List.length s) (find_first_not_of c (rev s)).
Definition find_last_of (c : ascii) (s : text) : option nat :=
  from_end (List.length s) (find_char c (rev s)).

(** substr(pos): throws when pos > size(); [None] stands for npos. *)
Definition substr_from (s : text) (pos : option nat) : outcome text :=
  match pos with
  | Some k => if Nat.leb k (List.length s) then Ok (skipn k s) else Throw
  | None => Throw
  end.

(** boost::trim in the classic locale. *)
Definition is_space (c : ascii) : bool :=
  let n := byte c in Nat.eqb n 32 || (Nat.leb 9 n && Nat.leb n 13).
Fixpoint drop_while (p : ascii -> bool) (s : text) : text :=
  match s with
  | [] => []
  | c :: r => if p c then drop_while p r else s
  end.
Definition trim (s : text) : text := rev (drop_while is_space (rev (drop_while is_space s))).

Definition slash : ascii := "/"%char.
Definition is_slash (c : ascii) : bool := Ascii.eqb c slash.

(** boost::join with a one character separator. *)
Fixpoint join (sep : ascii) (l : list text) : text :=
  match l with
  | [] => []
  | [x] => x
  | x :: r => x ++ sep :: join sep r
  end.
