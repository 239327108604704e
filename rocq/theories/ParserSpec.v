(** Vocabulary of the statements about the parsers of dataset files. *)
From Coq Require Import QArith ZArith List Arith Ascii String Bool.
From Verif Require Import Common TextModel DblModel TableModel TableSpec AsciiModel FitsModel ParserModel.
Import ListNotations.
Local Open Scope nat_scope.
Local Notation length := List.length.

Definition all_space (s : text) : Prop := Forall (fun c => is_space c = true) s.
Definition no_space_first (s : text) : Prop := forall c r, s = c :: r -> is_space c = false.
Definition no_space_last (s : text) : Prop := forall c r, s = r ++ [c] -> is_space c = false.
(** [v] is [s] without the white space around it. *)
Definition stripped (s v : text) : Prop :=
  exists a b, s = a ++ v ++ b /\ all_space a /\ all_space b /\ no_space_first v /\ no_space_last v.

(** A line that gives the value [v] to the keyword: # KEY : v, with any white space. *)
Definition key_line (key line v : text) : Prop :=
  exists a b c r, line = a ++ "#"%char :: b ++ key ++ c ++ ":"%char :: r /\
    all_space a /\ all_space b /\ all_space c /\ r <> [] /\ stripped r v.
(** The values of the keyword in the lines, in order. *)
Inductive values_of (key : text) : list text -> list text -> Prop :=
| values_nil : values_of key [] []
| values_here l v ls vs : key_line key l v -> values_of key ls vs -> values_of key (l :: ls) (v :: vs)
| values_other l ls vs : (forall v, ~ key_line key l v) -> values_of key ls vs -> values_of key (l :: ls) vs.
(** Without the empty texts at the beginning. *)
Fixpoint drop_empty (l : list text) : list text :=
  match l with [] :: r => drop_empty r | _ => l end.

(** A letter, a digit or an underscore. *)
Definition word_char (c : ascii) : Prop := In c (txt "ABCDEFGHIJKLMNOPQRSTUVWXYZabcdefghijklmnopqrstuvwxyz0123456789_").
(** A line that only has a word behind the hash. *)
Definition word_line (line w : text) : Prop :=
  exists a b c, line = a ++ "#"%char :: b ++ w ++ c /\ all_space a /\ all_space b /\ all_space c /\
    w <> [] /\ Forall word_char w.

(** The words of a line. *)
Definition words (s : text) : list text := filter not_empty (split_on is_space s).
(** The part of a line before the first hash. *)
Fixpoint uncommented (s : text) : text :=
  match s with
  | [] => []
  | c :: r => if Ascii.eqb c "#" then [] else c :: uncommented r
  end.
Definition has_data (l : text) : bool := match words (uncommented l) with [] => false | _ => true end.
(** The lines of data, and the lines before the first of them. *)
Definition dlines (s : text) : list text := filter has_data (lines_of s).
Fixpoint before_data (lines : list text) : list text :=
  match lines with
  | [] => []
  | l :: r => if has_data l then [] else l :: before_data r
  end.
(** A comment that says nothing about the columns: its words, without the hashes,
    are not a description of a column and not the same name twice. *)
Definition says_nothing (l : text) : Prop :=
  let ws := words (filter (fun c => negb (Ascii.eqb c "#")) l) in
  (forall w, ws <> [w; w]) /\ (forall w r, ws = w :: r -> starts_with w (txt "Column:") = false).
(** A line with two numbers before the hash. *)
Definition number_line (pd : text -> option dbl) (l : text) (p : dbl * dbl) : Prop :=
  exists a b, words (uncommented l) = [a; b] /\ pd a = Some (fst p) /\ pd b = Some (snd p).

(** A line passed over by the test: empty, or a comment. *)
Definition skipped (l : text) : Prop := l = [] \/ exists a r, l = a ++ "#"%char :: r /\ all_space a.

(** The two first cells of a row. *)
Definition row_pair (cells : list cell) (p : dbl * dbl) : Prop :=
  exists rest, cells = CDouble (fst p) :: CDouble (snd p) :: rest.
