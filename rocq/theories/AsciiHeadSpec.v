(** Vocabulary for the statements about the columns of ASCII files. *)
From Coq Require Import ZArith List Arith Ascii String Bool.
From Verif Require Import Common TextModel DblModel TableModel TableSpec AsciiModel AsciiSpec.
Import ListNotations.
Local Notation length := List.length.

Definition white (s : text) : Prop := forall c, In c s -> In c white_space.
(** The text is made of these words, separated by white space; there may be more white
    space before and after them. *)
Inductive spaced : text -> list text -> Prop :=
| spaced_end b : white b -> spaced b []
| spaced_word b w s ws : white b -> word w -> (forall c r, s = c :: r -> In c white_space) ->
    spaced s ws -> spaced (b ++ w ++ s) (w :: ws).

(** A comment that says nothing about the columns. *)
Definition plain_comment (ind h : text) : Prop :=
  avoids ind h /\ ~ In nl h /\ starts_with (trim h) (txt "Column:") = false.
(** The types, with all their spellings. *)
Definition spellings : list (string * ctype) :=
  [("bool", TBool); ("boolean", TBool); ("int", TInt); ("int32", TInt); ("long", TLong); ("int64", TLong);
   ("float", TFloat); ("double", TDouble); ("string", TString);
   ("[bool]", TVBool); ("[boolean]", TVBool); ("[int]", TVInt); ("[int32]", TVInt);
   ("[long]", TVLong); ("[int64]", TVLong); ("[float]", TVFloat); ("[double]", TVDouble);
   ("[int+]", TNInt); ("[int32+]", TNInt); ("[long+]", TNLong); ("[int64+]", TNLong);
   ("[float+]", TNFloat); ("[double+]", TNDouble)]%string.
(** The description of a column by its name and type. *)
Record described : Type := mkDescribed { de_name : text; de_spelling : string; de_type : ctype }.
Definition described_ok (ind : text) (d : described) : Prop :=
  word (de_name d) /\ In (de_spelling d, de_type d) spellings /\
  avoids ind (de_name d) /\ avoids ind (txt (de_spelling d)).
Definition description (d : described) : text :=
  txt " Column: " ++ de_name d ++ txt " " ++ txt (de_spelling d).

(** A file: comments, the first line of data, anything. *)
Definition ascii_file (ind : text) (comments : list text) (line rest : text) : text :=
  flat_map (fun h => ind ++ h ++ [nl]) comments ++ line ++ nl :: rest.
(** The first line of data has these words. *)
Definition first_line (ind line : text) (ws : list text) : Prop :=
  spaced line ws /\ ws <> [] /\ avoids ind line /\ ~ In nl line.

(** A reader of the file, with the names and types fixed by the user (none: not fixed). *)
Definition configured (ind file : text) (names : list text) (types : list ctype) (a : areader) : Prop :=
  exists a0 a1, open_reader ind file = Ok a0 /\ ar_fix_names a0 names = Ok a1 /\ ar_fix_types a1 types = Ok a.
Definition chosen {A} (fixed found : list A) : list A := match fixed with [] => found | _ => fixed end.
(** The number of fixed names or types is the number of columns. *)
Definition as_many {A} (fixed : list A) (n : nat) : Prop := fixed = [] \/ length fixed = n.

(** The names given to the columns from number [m + 1] to number [n]. *)
Definition default_name (k : nat) : text := txt "col" ++ int_text (Z.of_nat k).
Definition default_names (m n : nat) : list text := map default_name (seq (S m) (n - m)).

(** The names a user may fix. *)
Definition good_names (names : list text) : Prop :=
  Forall (fun s => s <> [] /\ one_line s) names /\ NoDup names.
(** A text that boost::lexical_cast takes for an integer: a sign and digits. *)
Definition is_integer (s : text) (v : Z) : Prop :=
  exists sign ds w, s = sign ++ ds /\ ds <> [] /\ decimal ds w /\
    ((sign = [] \/ sign = txt "+") /\ v = w \/ sign = txt "-" /\ v = (- w)%Z).
(** The text is the list of these parts, separated by commas; the parts may be empty. *)
Inductive comma_list : text -> list text -> Prop :=
| comma_list_one p : ~ In ","%char p -> comma_list p [p]
| comma_list_more p s ps : ~ In ","%char p -> comma_list s ps -> comma_list (p ++ ","%char :: s) (p :: ps).
(** The parts that are not empty. *)
Definition given (ps : list text) : list text := filter (fun p => match p with [] => false | _ => true end) ps.
(** The product of the lengths of an array. *)
Fixpoint lengths_product (sh : list Z) : Z := match sh with [] => 1 | n :: r => n * lengths_product r end%Z.
