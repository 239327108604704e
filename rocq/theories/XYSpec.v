(** Vocabulary of the XYDataset statements. *)
From Coq Require Import List Arith Ascii String Bool.
From Verif Require Import Common TextModel XYModel.
Import ListNotations.

(** What a group or dataset name must look like. *)
Definition valid_segment (g : text) : Prop := g <> [] /\ ~ In slash g.

(** Every slash of the text has another character, not a slash, on both sides. *)
Definition well_slashed (s : text) : Prop :=
  s <> [] /\
  forall a b, s = a ++ slash :: b ->
    (exists a' c, a = a' ++ [c] /\ c <> slash) /\ (exists c b', b = c :: b' /\ c <> slash).

(** The objects a program can hold: made by a constructor, hash() called any
    number of times (directly or by comparisons), copied. *)
Inductive reachable (hashf : text -> nat) : qname -> Prop :=
| reach_make gs n q : qn_make gs n = Ok q -> reachable hashf q
| reach_parse s q : qn_parse s = Ok q -> reachable hashf q
| reach_hash q : reachable hashf q -> reachable hashf (qn_touch hashf q).

Definition segments_of (q : qname) : list text := q_groups q ++ [q_name q].

(** Slashes removed at both ends. *)
Definition strip_slashes (g s : text) : Prop :=
  exists a b, g = repeat slash a ++ s ++ repeat slash b /\
    (s = [] \/ (hd slash s <> slash /\ last s slash <> slash)).

(** All the files below a directory. *)
Fixpoint all_files (dir : path) (x : node) : list path :=
  match x with
  | File _ => [dir]
  | Dir entries =>
      (fix go (l : list (text * node)) : list path :=
         match l with
         | [] => []
         | (n, y) :: r => all_files (dir ++ [n]) y ++ go r
         end) entries
  end.

Definition files_below (dir : path) (entries : list (text * node)) : list path :=
  flat_map (fun e => all_files (dir ++ [fst e]) (snd e)) entries.

(** Lines of order.txt after removing comments and blanks, the empty ones dropped. *)
Definition order_names (entries : list (text * node)) : list text :=
  filter (fun l => negb (is_nil l)) (map clean_line (order_lines entries)).

(** A directory tree in which names are what a file system allows, and in
    which each order.txt names direct entries at most once (names denoting
    nothing at all are allowed). *)
Inductive plain : node -> Prop :=
| plain_file lines : plain (File lines)
| plain_dir entries :
    NoDup (map fst entries) ->
    (forall n, In n (map fst entries) -> valid_segment n /\ n <> txt ".") ->
    (forall l, In l (order_names entries) ->
       In l (map fst entries) \/ resolve (Dir entries) (split_on is_slash l) = None) ->
    NoDup (filter (fun l => mem_text l (map fst entries)) (order_names entries)) ->
    (forall n x, In (n, x) entries -> plain x) ->
    plain (Dir entries).
