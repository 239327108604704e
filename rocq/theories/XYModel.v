(** Model of the XYDataset module: QualifiedName, CachedProvider,
    FileSystemProvider and the string helpers. *)
From Coq Require Import List Arith Ascii String Bool.
From Verif Require Import Common TextModel.
Import ListNotations.

(** ** QualifiedName *)

(** QualifiedName.h:197-201: the members; [q_hash] is the mutable cache m_hash. *)
Record qname : Type := mkQ { q_groups : list text; q_name : text; q_full : text; q_hash : nat }.

Definition is_nil (s : text) : bool := match s with [] => true | _ => false end.

(** QualifiedName.cpp:35-41: the loop over the groups, [acc] is m_qualified_name. *)
Fixpoint append_groups (acc : text) (groups : list text) : outcome text :=
  match groups with
  | [] => Ok acc
  | g :: r =>
      if is_nil g || contains_char slash g then Throw
      else append_groups (acc ++ g ++ [slash]) r
  end.
(** QualifiedName.cpp:33-46. *)
Definition qn_make (groups : list text) (name : text) : outcome qname :=
  do acc <- append_groups [] groups;
  if is_nil name || contains_char slash name then Throw
  else Ok (mkQ groups name (acc ++ name) 0).
(** QualifiedName.cpp:48-63. *)
Definition qn_parse (s : text) : outcome qname :=
  let parts := split_on is_slash s in
  qn_make (removelast parts) (last parts []).

(** QualifiedName.cpp:77-83; [std_equal] is std::equal over the first range,
    the second one being long enough. *)
Fixpoint std_equal (a b : list text) : bool :=
  match a, b with
  | [], _ => true
  | x :: r, y :: s => text_eqb x y && std_equal r s
  | _ :: _, [] => false
  end.
Definition belongs_in_group (q group : qname) : outcome bool :=
  if Nat.ltb (List.length (q_groups q)) (List.length (q_groups group) + 1) then Ok false
  else if std_equal (q_groups group) (q_groups q) then
    match nth_error (q_groups q) (List.length (q_groups group)) with
    | Some g => Ok (text_eqb (q_name group) g)
    | None => Throw
    end
  else Ok false.

Section Hash.
  (** std::hash<std::string>, any function. *)
  Variable hashf : text -> nat.

  (** QualifiedName.cpp:85-91: the result of hash() and the object afterwards. *)
  Definition qn_hash (q : qname) : nat :=
    if Nat.eqb (q_hash q) 0 then hashf (q_full q) else q_hash q.
  Definition qn_touch (q : qname) : qname :=
    mkQ (q_groups q) (q_name q) (q_full q) (qn_hash q).
  (** QualifiedName.cpp:93-111 (both operators call hash() on both sides). *)
  Definition qn_ltb (a b : qname) : bool :=
    if negb (Nat.eqb (qn_hash a) (qn_hash b)) then Nat.ltb (qn_hash a) (qn_hash b)
    else text_ltb (q_full a) (q_full b).
  Definition qn_eqb (a b : qname) : bool :=
    if negb (Nat.eqb (qn_hash a) (qn_hash b)) then false
    else text_eqb (q_full a) (q_full b).
End Hash.
(** QualifiedName.h:187-195 AlphabeticalComparator. *)
Definition qn_alphabetical (a b : qname) : bool := text_ltb (q_full a) (q_full b).

(** ** CachedProvider *)

(** std::map: keys are the same when neither is less than the other. *)
Definition same_key {K} (ltb : K -> K -> bool) (a b : K) : bool := negb (ltb a b) && negb (ltb b a).
Fixpoint map_find {K V} (ltb : K -> K -> bool) (m : list (K * V)) (k : K) : option V :=
  match m with
  | [] => None
  | (k', v) :: r => if same_key ltb k' k then Some v else map_find ltb r k
  end.

(** CachedProvider.cpp:31-50: look the key up; when it is absent ask the
    wrapped provider and remember its answer, a null dataset included. An
    exception of the wrapped provider leaves the map unchanged. The result is
    the answer, the new map and whether the wrapped provider was called. *)
Definition memo {K V} (ltb : K -> K -> bool) (provider : K -> outcome V) (m : list (K * V)) (k : K)
  : outcome V * list (K * V) * bool :=
  match map_find ltb m k with
  | Some v => (Ok v, m, false)
  | None => match provider k with
            | Ok v => (Ok v, (k, v) :: m, true)
            | o => (o, m, true)
            end
  end.

Section Cached.
  (** [D]: datasets. The wrapped provider may answer differently at each call:
      its answers depend on the number of calls it has received before. *)
  Context {D : Type}.
  Variable hashf : text -> nat.
  Variable p_list : nat -> text -> outcome (list qname).
  Variable p_data : nat -> qname -> outcome (option D).
  Variable p_param : nat -> qname -> text -> outcome text.

  Inductive request : Type :=
  | ListContents (group : text)
  | GetDataset (q : qname)
  | GetParameter (q : qname) (key : text).
  Inductive answer : Type :=
  | AList (o : outcome (list qname))
  | AData (o : outcome (option D))
  | AParam (o : outcome text).

  (** CachedProvider.h:91-93; [cp_calls] records the calls of the wrapped provider, in order. *)
  Record cached : Type := mkCached {
    cp_list : list (text * list qname);
    cp_data : list (qname * option D);
    cp_calls : list request
  }.
  Definition cached_init : cached := mkCached [] [] [].

  Definition cached_step (s : cached) (r : request) : answer * cached :=
    let n := List.length (cp_calls s) in
    let log (called : bool) := if called then cp_calls s ++ [r] else cp_calls s in
    match r with
    | ListContents g =>
        let '(o, m, called) := memo text_ltb (p_list n) (cp_list s) g in
        (AList o, mkCached m (cp_data s) (log called))
    | GetDataset q =>
        let '(o, m, called) := memo (qn_ltb hashf) (p_data n) (cp_data s) q in
        (AData o, mkCached (cp_list s) m (log called))
    | GetParameter q k =>   (* CachedProvider.cpp:52-54 *)
        (AParam (p_param n q k), mkCached (cp_list s) (cp_data s) (log true))
    end.
  Fixpoint cached_run (s : cached) (rs : list request) : list answer * cached :=
    match rs with
    | [] => ([], s)
    | r :: rest =>
        let '(a, s1) := cached_step s r in
        let '(l, s2) := cached_run s1 rest in (a :: l, s2)
    end.
End Cached.

(** ** String helpers (StringFunctions.cpp) *)

(** StringFunctions.cpp:34-47. *)
Definition check_begin_slashes (s : text) : outcome text :=
  match find_first_not_of slash s with
  | Some (S k) => do r <- substr_from s (Some (S k)); Ok (slash :: r)
  | _ => Ok (slash :: s)
  end.
(** StringFunctions.cpp:52-67: [pos != 0] includes npos, for which substr throws. *)
Definition check_no_begin_slashes (s : text) : outcome text :=
  match s with
  | [] => Ok []
  | _ => match find_first_not_of slash s with
         | Some O => Ok s
         | o => substr_from s o
         end
  end.
(** StringFunctions.cpp:72-86: with npos, pos + 1 is 0; length() - 1 is npos for the empty text. *)
Definition check_end_slashes (s : text) : text :=
  match find_last_not_of slash s with
  | Some k => if Nat.eqb (S k) (List.length s) then s ++ [slash] else firstn (S k) s ++ [slash]
  | None => match s with [] => [slash] | _ => [slash] end
  end.
(** StringFunctions.cpp:91-106. *)
Definition remove_extension (s : text) : text :=
  match find_last_of "."%char s with Some k => firstn k s | None => s end.
(** StringFunctions.cpp:111-126. *)
Definition remove_all_before_last_slash (s : text) : text :=
  match find_last_of slash s with Some k => skipn (S k) s | None => s end.

(** ** FileSystemProvider *)

(** Directory trees. A file carries its lines; symbolic links and special
    files are not modelled. *)
Inductive node : Type :=
| File (lines : list text)
| Dir (entries : list (text * node)).

Fixpoint lookup (entries : list (text * node)) (name : text) : option node :=
  match entries with
  | [] => None
  | (n, x) :: r => if text_eqb n name then Some x else lookup r name
  end.
(** Resolution of dir / line. Empty and "." components stay in place; ".."
    components are not modelled (the path is taken as missing). *)
Fixpoint resolve (x : node) (segments : list text) : option node :=
  match segments with
  | [] => Some x
  | s :: r =>
      match x with
      | File _ => None
      | Dir entries =>
          if is_nil s || text_eqb s (txt ".") then resolve x r
          else match lookup entries s with
               | Some y => resolve y r
               | None => None
               end
      end
  end.

(** FileSystemProvider.cpp:63-67: cut the comment and trim. *)
Definition clean_line (l : text) : text :=
  trim (match find_char "#"%char l with Some k => firstn k l | None => l end).
(** Lines of order.txt; a directory of that name has none. *)
Definition order_lines (entries : list (text * node)) : list text :=
  match lookup entries (txt "order.txt") with Some (File lines) => lines | _ => [] end.

Definition path : Type := list text.
(** FileSystemProvider.cpp:58-78: names of order.txt that exist, with what they denote. *)
Definition ordered_part (entries : list (text * node)) : list (text * node) :=
  flat_map (fun l =>
    let line := clean_line l in
    if is_nil line then []
    else match resolve (Dir entries) (split_on is_slash line) with
         | Some x => [(line, x)]
         | None => []
         end) (order_lines entries).
Fixpoint mem_text (s : text) (l : list text) : bool :=
  match l with [] => false | x :: r => text_eqb x s || mem_text s r end.
(** FileSystemProvider.cpp:82-92: std::set of the other entries, in the order of their names. *)
Fixpoint insert_entry (e : text * node) (l : list (text * node)) : list (text * node) :=
  match l with
  | [] => [e]
  | f :: r => if text_ltb (fst e) (fst f) then e :: f :: r else f :: insert_entry e r
  end.
Definition remaining_part (entries : list (text * node)) : list (text * node) :=
  fold_right insert_entry []
    (filter (fun e => negb (mem_text (fst e) (map fst (ordered_part entries)))) entries).
(** FileSystemProvider.cpp:52-95. *)
Definition get_order (entries : list (text * node)) : list (text * node) :=
  ordered_part entries ++ remaining_part entries.

(** FileSystemProvider.cpp:97-109, paths relative to the root. The recursion
    is bounded by fuel. *)
Fixpoint concat_outcome {A} (l : list (outcome (list A))) : outcome (list A) :=
  match l with
  | [] => Ok []
  | o :: r => do x <- o; do y <- concat_outcome r; Ok (x ++ y)
  end.
Fixpoint listing (fuel : nat) (dir : path) (entries : list (text * node)) : outcome (list path) :=
  match fuel with
  | O => Diverge
  | S fuel' =>
      concat_outcome (map (fun e =>
        let p := dir ++ split_on is_slash (fst e) in
        match snd e with
        | Dir sub => listing fuel' p sub
        | File _ => Ok [p]
        end) (get_order entries))
  end.

Section Provider.
  (** The file parser: which files are datasets and the name of each. *)
  Variable is_dataset : path -> bool.
  Variable name_of : path -> text.
  Variable hashf : text -> nat.

  (** FileSystemProvider.cpp:132-158, over the files already listed; the
      result lists (m_order_names with the file of each) in order. *)
  Fixpoint register (files : list path) (known : list (qname * path)) : outcome (list (qname * path)) :=
    match files with
    | [] => Ok known
    | f :: r =>
        if is_dataset f then
          if is_nil (name_of f) then register r known
          else
            do q <- qn_make (removelast f) (name_of f);
            match map_find (qn_ltb hashf) known q with
            | Some _ => Throw
            | None => register r (known ++ [(q, f)])
            end
        else register r known
    end.
  (** FileSystemProvider.cpp:115-162. *)
  Definition provider_new (fuel : nat) (root : node) : outcome (list (qname * path)) :=
    match root with
    | File _ => Throw
    | Dir entries => do files <- listing fuel [] entries; register files []
    end.
  (** FileSystemProvider.cpp:202-206: the file read, if any. *)
  Definition provider_find (p : list (qname * path)) (q : qname) : option path :=
    map_find (qn_ltb hashf) p q.
End Provider.

(** FileSystemProvider.cpp:170-182. *)
Definition normalize_group (g : text) : outcome text :=
  let g1 := rev (drop_while is_slash (rev g)) in
  do g2 <- match g1, find_first_not_of slash g1 with
           | [], _ => Ok []
           | _, Some O => Ok g1
           | _, o => substr_from g1 o
           end;
  match g2 with [] => Ok [] | _ => Ok (g2 ++ [slash]) end.
(** FileSystemProvider.cpp:168-196. *)
Definition list_contents (names : list qname) (g : text) : outcome (list qname) :=
  do prefix <- normalize_group g;
  Ok (filter (fun q => starts_with (q_full q) prefix) names).

(** XYDataset.cpp:56-73. *)
Definition dataset_from_vectors {A B} (xs : list A) (ys : list B) : outcome (list (A * B)) :=
  if negb (Nat.eqb (List.length xs) (List.length ys)) then Throw else Ok (combine xs ys).
