(** Properties of XYDataset: qualified names, the caching provider, the file
    system provider and the string helpers. *)
From Coq Require Import List Arith Ascii String Bool Lia Permutation Sorted.
From Verif Require Import Common TextModel TextProofs XYModel XYSpec XYProofs XYProofs2 XYProofs3.
Import ListNotations.
Local Notation length := List.length.
Local Notation concat := List.concat.

(** ** C51: qualified names *)

(** A name and its groups are accepted exactly when none is empty or has a
    slash; the object prints as them joined by slashes. *)
Theorem C51_construction : forall groups name,
  (Forall valid_segment (groups ++ [name]) ->
     exists q, qn_make groups name = Ok q /\ segments_of q = groups ++ [name] /\ q_full q = join slash (groups ++ [name])) /\
  (~ Forall valid_segment (groups ++ [name]) -> qn_make groups name = Throw).
Proof.
  intros gs n. destruct (qn_make_spec gs n) as (H1 & H2). split; [|exact H2].
  intros H. eexists. split; [apply H1; exact H|]. split; reflexivity.
Qed.

(** A text is accepted exactly when every slash has a non-slash character on
    both sides; the object prints as that text. *)
Theorem C51_parsing : forall s,
  (well_slashed s -> exists q, qn_parse s = Ok q /\ q_full q = s /\ join slash (segments_of q) = s /\ Forall valid_segment (segments_of q)) /\
  (~ well_slashed s -> qn_parse s = Throw).
Proof.
  intros s. destruct (qn_parse_spec s) as (H1 & H2). split; [|exact H2].
  intros H. eexists. split; [apply H1; exact H|]. split; [reflexivity|].
  assert (R : reachable (fun _ => 0) (mkQ (removelast (split_on is_slash s)) (last (split_on is_slash s) []) s 0))
    by (apply reach_parse with s; apply H1; exact H).
  destruct (reachable_inv _ _ R) as (F & E & _). split; [symmetry; exact E|exact F].
Qed.

(** Printing any qualified name and parsing the text gives the same groups and name. *)
Theorem C51_round_trip : forall hashf q, reachable hashf q ->
  exists q', qn_parse (q_full q) = Ok q' /\ q_groups q' = q_groups q /\ q_name q' = q_name q /\ qn_eqb hashf q q' = true.
Proof.
  intros h q H. pose proof (round_trip h q H) as R. eexists. split; [exact R|]. split; [reflexivity|]. split; [reflexivity|].
  apply (order_spec h q (mkQ (q_groups q) (q_name q) (q_full q) 0) q H); [apply reach_parse with (q_full q); exact R|exact H|reflexivity].
Qed.

Theorem C51_printing_is_injective : forall hashf q r, reachable hashf q -> reachable hashf r ->
  q_full q = q_full r -> q_groups q = q_groups r /\ q_name q = q_name r.
Proof. exact full_injective. Qed.

(** Whatever the hash function does (collisions included), == holds exactly
    for the same path and < is a strict total order compatible with it. *)
Theorem C51_order : forall hashf a b c, reachable hashf a -> reachable hashf b -> reachable hashf c ->
  (qn_eqb hashf a b = true <-> segments_of a = segments_of b) /\
  qn_ltb hashf a a = false /\
  (qn_ltb hashf a b = true -> qn_ltb hashf b c = true -> qn_ltb hashf a c = true) /\
  (qn_ltb hashf a b = true \/ qn_eqb hashf a b = true \/ qn_ltb hashf b a = true) /\
  (qn_eqb hashf a b = true -> qn_ltb hashf a b = false /\ qn_ltb hashf b a = false).
Proof. exact order_spec. Qed.

(** The hash is a function of the printed text, cached or not. *)
Theorem C51_hash : forall hashf q, reachable hashf q -> qn_hash hashf q = hashf (q_full q).
Proof. exact hash_ok. Qed.

Definition filters : qname := mkQ [txt "EUCLID"; txt "2020"] (txt "vis") (txt "EUCLID/2020/vis") 0.
Example C51_case :
  reachable (fun _ => 7) filters /\ qn_parse (txt "EUCLID/2020/vis") = Ok filters /\
  qn_parse (txt "EUCLID//vis") = Throw /\ qn_parse (txt "/vis") = Throw /\ qn_parse (txt "vis/") = Throw /\ qn_parse (txt "") = Throw.
Proof. split; [apply reach_parse with (txt "EUCLID/2020/vis"); reflexivity|]. repeat split. Qed.

(** ** C52: membership of a group *)
Theorem C52_belongs_in_group : forall q g,
  exists b, belongs_in_group q g = Ok b /\
    (b = true <-> exists rest, rest <> [] /\ segments_of q = segments_of g ++ rest).
Proof. exact belongs_spec. Qed.
Theorem C52_belongs_in_group_text : forall hashf q g, reachable hashf q -> reachable hashf g ->
  (belongs_in_group q g = Ok true <-> exists tail, q_full q = q_full g ++ slash :: tail).
Proof.
  intros h q g Hq Hg. destruct (belongs_spec q g) as (b & E & H). rewrite E.
  pose proof (belongs_text h q g Hq Hg) as T. rewrite starts_with_iff in T.
  split.
  - intros Eb. injection Eb as ->. destruct H as (H & _). specialize (H eq_refl). apply T in H. destruct H as (r & Hr).
    exists r. rewrite Hr, <- app_assoc. reflexivity.
  - intros (r & Hr). f_equal. apply H. apply T. exists r. rewrite Hr, <- app_assoc. reflexivity.
Qed.
Example C52_case :
  belongs_in_group filters (mkQ [] (txt "EUCLID") (txt "EUCLID") 0) = Ok true /\
  belongs_in_group filters (mkQ [] (txt "EU") (txt "EU") 0) = Ok false /\
  belongs_in_group filters filters = Ok false.
Proof. repeat split. Qed.

(** ** C53: the caching provider *)

(** A dataset handed out is the one returned by the wrapped provider's only
    successful call for that path; no call for it comes later, and every later
    request gets the same dataset. *)
Theorem C53_datasets_are_cached : forall {D} hashf p_list (p_data : nat -> qname -> outcome (option D)) p_param rs ans s',
  cached_run hashf p_list p_data p_param cached_init rs = (ans, s') ->
  (forall q, In (GetDataset q) rs -> reachable hashf q) ->
  forall i q v, nth_error rs i = Some (GetDataset q) -> nth_error ans i = Some (AData (Ok v)) ->
    (exists n q0, nth_error (cp_calls s') n = Some (GetDataset q0) /\ segments_of q0 = segments_of q /\ p_data n q0 = Ok v /\
       forall m q1, nth_error (cp_calls s') m = Some (GetDataset q1) -> segments_of q1 = segments_of q ->
         m <= n /\ (m < n -> forall v', p_data m q1 <> Ok v')) /\
    (forall j q', i < j -> nth_error rs j = Some (GetDataset q') -> segments_of q' = segments_of q ->
       nth_error ans j = Some (AData (Ok v))).
Proof.
  intros D h pl pd pp rs ans s' H Hr. apply (cached_dataset h pl pd pp rs ans s' H).
  apply Forall_forall. intros [g|q|q k] Hi; simpl; auto.
Qed.
Theorem C53_listings_are_cached : forall {D} hashf p_list (p_data : nat -> qname -> outcome (option D)) p_param rs ans s',
  cached_run hashf p_list p_data p_param cached_init rs = (ans, s') ->
  (forall q, In (GetDataset q) rs -> reachable hashf q) ->
  forall i g v, nth_error rs i = Some (ListContents g) -> nth_error ans i = Some (AList (Ok v)) ->
    (exists n, nth_error (cp_calls s') n = Some (ListContents g) /\ p_list n g = Ok v /\
       forall m, nth_error (cp_calls s') m = Some (ListContents g) ->
         m <= n /\ (m < n -> forall v', p_list m g <> Ok v')) /\
    (forall j, i < j -> nth_error rs j = Some (ListContents g) -> nth_error ans j = Some (AList (Ok v))).
Proof.
  intros D h pl pd pp rs ans s' H Hr. apply (cached_list h pl pd pp rs ans s' H).
  apply Forall_forall. intros [g|q|q k] Hi; simpl; auto.
Qed.
(** Every answer, successful or not, is one the wrapped provider gave for the
    same request; requests are forwarded at most once each. *)
Theorem C53_answers_come_from_the_provider : forall {D} hashf p_list (p_data : nat -> qname -> outcome (option D)) p_param rs ans s',
  cached_run hashf p_list p_data p_param cached_init rs = (ans, s') ->
  (forall q, In (GetDataset q) rs -> reachable hashf q) ->
  length ans = length rs /\ length (cp_calls s') <= length rs /\
  forall i a, nth_error ans i = Some a ->
    match nth_error rs i, a with
    | Some (ListContents g), AList o => exists n, nth_error (cp_calls s') n = Some (ListContents g) /\ p_list n g = o
    | Some (GetDataset q), AData o => exists n q0, nth_error (cp_calls s') n = Some (GetDataset q0) /\ segments_of q0 = segments_of q /\ p_data n q0 = o
    | Some (GetParameter q k), AParam o => exists n, nth_error (cp_calls s') n = Some (GetParameter q k) /\ p_param n q k = o
    | _, _ => False
    end.
Proof.
  intros D h pl pd pp rs ans s' H Hr.
  assert (Hg : Forall (good h) rs) by (apply Forall_forall; intros [g|q|q k] Hi; simpl; auto).
  exact (cached_from_provider h pl pd pp rs ans s' H Hg).
Qed.

Definition flaky (n : nat) (q : qname) : outcome (option nat) := if Nat.eqb n 0 then Throw else Ok (Some n).
Example C53_case :
  cached_run (fun _ => 5) (fun n g => Ok [filters]) flaky (fun _ _ _ => Throw) cached_init
    [GetDataset filters; ListContents (txt "EUCLID"); GetDataset filters; GetDataset filters; ListContents (txt "EUCLID")]
  = ([AData Throw; AList (Ok [filters]); AData (Ok (Some 2)); AData (Ok (Some 2)); AList (Ok [filters])],
     mkCached [(txt "EUCLID", [filters])] [(filters, Some 2)]
       [GetDataset filters; ListContents (txt "EUCLID"); GetDataset filters]).
Proof. vm_compute. reflexivity. Qed.

(** ** C54: listContents of the file system provider *)

(** Slashes around the group do not matter; the answer keeps the provider's
    order and holds exactly the names strictly below the group. *)
Theorem C54_list_contents : forall hashf names g s, Forall (reachable hashf) names -> strip_slashes g s ->
  exists f, list_contents names g = Ok (filter f names) /\
    forall q, In q names ->
      (f q = true <-> s = [] \/ exists rest, rest <> [] /\ segments_of q = split_on is_slash s ++ rest).
Proof. exact list_contents_spec. Qed.
Theorem C54_every_group_has_a_core : forall g, exists s, strip_slashes g s.
Proof. exact strip_exists. Qed.
Print Assumptions C54_every_group_has_a_core.
(** For a group that is a qualified name the test is belongsInGroup. *)
Theorem C54_agrees_with_belongs_in_group : forall hashf names g s gq, Forall (reachable hashf) names ->
  strip_slashes g s -> qn_parse s = Ok gq ->
  exists f, list_contents names g = Ok (filter f names) /\
    forall q, In q names -> belongs_in_group q gq = Ok (f q).
Proof.
  intros h names g s gq Hn Hs Hp. destruct (list_contents_spec h names g s Hn Hs) as (f & E & F). exists f. split; [exact E|].
  intros q Hq. destruct (belongs_spec q gq) as (b & Eb & Hb). rewrite Eb. f_equal.
  destruct (qn_parse_spec s) as (P1 & P2).
  assert (Rg : reachable h gq) by (apply reach_parse with s; exact Hp).
  assert (Es : segments_of gq = split_on is_slash s).
  { rewrite <- (segments_split h gq Rg). f_equal. destruct (C51_parsing s) as (A & B).
    unfold qn_parse in Hp. destruct (qn_make_ok _ _ _ Hp) as (_ & ->). cbn [q_full].
    rewrite split_removelast_last. apply join_split_slash. }
  assert (Hs0 : s <> []) by (intros ->; vm_compute in Hp; discriminate).
  rewrite Es in Hb. destruct (F q Hq) as (F1 & F2).
  destruct b, (f q); try reflexivity.
  - destruct (F2 (or_intror (proj1 Hb eq_refl))). reflexivity.
  - destruct (F1 eq_refl) as [H|H]; [congruence|]. symmetry. symmetry. apply Hb. exact H.
Qed.
Example C54_case :
  let other := mkQ [txt "EUCLID"] (txt "2020vis") (txt "EUCLID/2020vis") 0 in
  list_contents [other; filters] (txt "/EUCLID/2020//") = Ok [filters] /\
  list_contents [other; filters] (txt "EUCLID") = Ok [other; filters] /\
  list_contents [other; filters] (txt "//") = Ok [other; filters] /\
  strip_slashes (txt "/EUCLID/2020//") (txt "EUCLID/2020").
Proof.
  split; [reflexivity|]. split; [reflexivity|]. split; [reflexivity|].
  exists 1, 2. split; [reflexivity|right]. split; vm_compute; discriminate.
Qed.

(** ** C55: order of the datasets of a directory tree *)

(** In each directory the entries named by order.txt come first, in that
    order, then the others sorted by name. *)
Theorem C55_directory_order : forall entries, plain (Dir entries) ->
  exists first rest, get_order entries = first ++ rest /\
    map fst first = filter (fun l => mem_text l (map fst entries)) (order_names entries) /\
    StronglySorted (fun e f => text_ltb (fst e) (fst f) = true \/ fst e = fst f) rest /\
    Permutation (first ++ rest) entries.
Proof.
  intros entries Hp. inversion Hp as [|? Hd Hv Ho Hn Hs]; subst.
  exists (ordered_part entries), (remaining_part entries). split; [reflexivity|].
  split; [apply (ordered_spec entries Hd Hv Ho)|]. split; [apply insertion_sorted|].
  apply (get_order_perm entries Hd Hv Ho Hn).
Qed.
(** Every file of the tree is listed exactly once; the files of each entry
    are together, the entries in the order above. *)
Theorem C55_listing : forall entries, plain (Dir entries) ->
  exists depth, forall fuel, depth <= fuel ->
    exists parts, listing fuel [] entries = Ok (concat parts) /\
      Permutation (concat parts) (files_below [] entries) /\
      Forall2 (fun e part => Permutation part (all_files [fst e] (snd e))) (get_order entries) parts.
Proof.
  intros entries Hp. exists (height (Dir entries)). intros fuel Hf.
  destruct (listing_spec fuel entries [] Hp Hf) as (ls & E & F). exists ls. split; [exact E|].
  destruct (listing_perm fuel entries Hp Hf) as (l & E2 & P). split; [|exact F].
  replace (concat ls) with l by congruence. exact P.
Qed.
Definition tree : list (text * node) :=
  [(txt "b.txt", File []); (txt "sub", Dir [(txt "y", File []); (txt "x", File [])]);
   (txt "a.txt", File []); (txt "order.txt", File [txt " sub  # first"; txt ""; txt "gone.txt"; txt "b.txt"])].
Lemma tree_plain : plain (Dir tree).
Proof.
  apply plain_dir.
  - repeat constructor; simpl; intuition discriminate.
  - intros n Hn. simpl in Hn. decompose [or] Hn; try contradiction; subst n;
      (split; [split; [discriminate|intros Hc; simpl in Hc; decompose [or] Hc; try contradiction; discriminate]|discriminate]).
  - intros l Hl. vm_compute in Hl. decompose [or] Hl; try contradiction; subst l; [left|right; reflexivity|left]; simpl; auto.
  - vm_compute. repeat constructor; simpl; intuition discriminate.
  - intros n x Hn. simpl in Hn. decompose [or] Hn; try contradiction;
      match goal with H : (_, _) = _ |- _ => injection H as <- <- end; try apply plain_file.
    apply plain_dir.
    + repeat constructor; simpl; intuition discriminate.
    + intros n Hn'. simpl in Hn'. decompose [or] Hn'; try contradiction; subst n;
        (split; [split; [discriminate|intros Hc; simpl in Hc; decompose [or] Hc; try contradiction; discriminate]|discriminate]).
    + intros l Hl. vm_compute in Hl. contradiction.
    + vm_compute. constructor.
    + intros n x Hn'. simpl in Hn'. decompose [or] Hn'; try contradiction;
        match goal with H : (_, _) = _ |- _ => injection H as <- <- end; apply plain_file.
Qed.
Example C55_case : plain (Dir tree) /\
  listing 5 [] tree = Ok [[txt "sub"; txt "x"]; [txt "sub"; txt "y"]; [txt "b.txt"]; [txt "a.txt"]; [txt "order.txt"]].
Proof. split; [apply tree_plain|]. vm_compute. reflexivity. Qed.

(** Without the restriction of [plain] the claim fails: a repeated line lists a file twice. *)
Theorem C55_repeated_line_refuted : exists entries fuel l,
  listing fuel [] entries = Ok l /\ ~ NoDup l /\ NoDup (files_below [] entries).
Proof.
  exists [(txt "a", File []); (txt "order.txt", File [txt "a"; txt "a"])], 1, [[txt "a"]; [txt "a"]; [txt "order.txt"]].
  split; [reflexivity|]. split.
  - intros H. inversion H as [|? ? Hn _]. apply Hn. left. reflexivity.
  - vm_compute. repeat constructor; simpl; intuition discriminate.
Qed.
(** A line with a single dot makes the construction recurse for ever. *)
Theorem C55_dot_line_diverges_refuted : exists entries, forall fuel, listing fuel [] entries = Diverge.
Proof. exists [(txt "a", File []); (txt "order.txt", File [txt "."])]. intros fuel. apply dot_diverges. Qed.

(** ** C69: building the provider *)

(** The files that are datasets with a non-empty name get the qualified name
    made of their directories and their name, in order. Construction succeeds
    exactly when these are valid and distinct. *)
Theorem C69_registration : forall is_dataset name_of hashf files,
  let kept := filter (fun f => is_dataset f && negb (is_nil (name_of f))) files in
  let qualified f := removelast f ++ [name_of f] in
  (Forall (Forall valid_segment) (map qualified kept) /\ NoDup (map qualified kept) ->
     exists p, register is_dataset name_of hashf files [] = Ok p /\
       map snd p = kept /\ map (fun e => segments_of (fst e)) p = map qualified kept /\
       Forall (fun e => reachable hashf (fst e)) p) /\
  (~ (Forall (Forall valid_segment) (map qualified kept) /\ NoDup (map qualified kept)) ->
     register is_dataset name_of hashf files [] = Throw).
Proof. exact registration. Qed.

(** Looking up a name gives the file registered under the same path, if any. *)
Theorem C69_lookup : forall is_dataset name_of hashf files p q f,
  register is_dataset name_of hashf files [] = Ok p -> reachable hashf q ->
  (provider_find hashf p q = Some f <->
   In f files /\ is_dataset f = true /\ name_of f <> [] /\ removelast f ++ [name_of f] = segments_of q).
Proof. exact provider_lookup. Qed.

(** A provider is built on a directory only; it then knows the dataset files below it,
    each once, unless two of them get the same name or one an invalid name. *)
Theorem C69_construction : forall is_dataset name_of hashf,
  (forall fuel content, provider_new is_dataset name_of hashf fuel (File content) = Throw) /\
  (forall entries, plain (Dir entries) ->
    let kept := filter (fun f => is_dataset f && negb (is_nil (name_of f))) (files_below [] entries) in
    let qualified f := removelast f ++ [name_of f] in
    exists depth, forall fuel, depth <= fuel ->
    (Forall (Forall valid_segment) (map qualified kept) /\ NoDup (map qualified kept) ->
       exists p, provider_new is_dataset name_of hashf fuel (Dir entries) = Ok p /\
         Permutation (map snd p) kept /\
         Forall (fun e => segments_of (fst e) = qualified (snd e) /\ reachable hashf (fst e)) p) /\
    (~ (Forall (Forall valid_segment) (map qualified kept) /\ NoDup (map qualified kept)) ->
       provider_new is_dataset name_of hashf fuel (Dir entries) = Throw)).
Proof.
  intros is_dataset name_of hashf. split; [reflexivity|]. intros entries Hp kept qualified.
  destruct (C55_listing entries Hp) as (depth & H). exists depth. intros fuel Hf.
  destruct (H fuel Hf) as (parts & E & P & _). cbn [provider_new]. rewrite E. cbn [bind].
  destruct (C69_registration is_dataset name_of hashf (concat parts)) as (R1 & R2). cbv zeta in R1, R2.
  set (kept' := filter (fun f => is_dataset f && negb (is_nil (name_of f))) (concat parts)) in *.
  assert (PK : Permutation kept' kept) by
    (unfold kept', kept; clear - P; induction P; cbn [filter];
     repeat match goal with |- context [if ?b then _ else _] => destruct b end; eauto using Permutation).
  assert (PQ : Permutation (map qualified kept') (map qualified kept)) by (apply Permutation_map; exact PK).
  split.
  - intros (F & N). destruct R1 as (p & Ep & S1 & S2 & S3).
    { split; [|apply (Permutation_NoDup (Permutation_sym PQ)); exact N].
      apply (Permutation_Forall (Permutation_sym PQ)). exact F. }
    exists p. split; [exact Ep|]. split; [rewrite S1; exact PK|].
    apply Forall_forall. intros e He. split; [|rewrite Forall_forall in S3; apply S3; exact He].
    rewrite <- S1, map_map in S2. exact (ext_in_map S2 e He).
  - intros N. apply R2. intros (F & D). apply N.
    split; [apply (Permutation_Forall PQ); exact F | apply (Permutation_NoDup PQ); exact D].
Qed.
Print Assumptions C69_construction.

Definition ends_txt (f : path) : bool := match last f [] with c :: _ => negb (Ascii.eqb c "o"%char) | [] => false end.
Example C69_case :
  let files := [[txt "sub"; txt "x.txt"]; [txt "order.txt"]; [txt "a.txt"]] in
  let name f := remove_extension (last f []) in
  register ends_txt name (fun _ => 3) files [] =
    Ok [(mkQ [txt "sub"] (txt "x") (txt "sub/x") 0, [txt "sub"; txt "x.txt"]); (mkQ [] (txt "a") (txt "a") 0, [txt "a.txt"])] /\
  register ends_txt name (fun _ => 3) (files ++ [[txt "a.dat"]]) [] = Throw.
Proof. split; reflexivity. Qed.

(** ** C70: string helpers *)
Theorem C70_end_slashes : forall a n, (a = [] \/ last a slash <> slash) ->
  check_end_slashes (a ++ repeat slash n) = a ++ [slash].
Proof. exact check_end_spec. Qed.
Theorem C70_begin_slashes : forall n b, hd slash b <> slash -> check_begin_slashes (repeat slash n ++ b) = Ok (slash :: b).
Proof. exact check_begin_spec. Qed.
Print Assumptions C70_begin_slashes.
(** A text of slashes only gets one more instead of being reduced to one. *)
Theorem C70_begin_slashes_refuted : forall n, check_begin_slashes (repeat slash n) = Ok (repeat slash (S n)).
Proof. exact check_begin_all. Qed.
Print Assumptions C70_begin_slashes_refuted.
Theorem C70_no_begin_slashes : forall n b, hd slash b <> slash -> check_no_begin_slashes (repeat slash n ++ b) = Ok b.
Proof. exact check_no_begin_spec. Qed.
Print Assumptions C70_no_begin_slashes.
(** A text of slashes only is not reduced to the empty text: the call throws. *)
Theorem C70_no_begin_slashes_refuted : forall n, check_no_begin_slashes (repeat slash (S n)) = Throw.
Proof. exact check_no_begin_all. Qed.
Print Assumptions C70_no_begin_slashes_refuted.
Theorem C70_remove_extension :
  (forall a b, ~ In "."%char b -> remove_extension (a ++ "."%char :: b) = a) /\
  (forall s, ~ In "."%char s -> remove_extension s = s).
Proof. split; [exact remove_extension_spec|exact remove_extension_none]. Qed.
Print Assumptions C70_remove_extension.
Theorem C70_remove_before_last_slash :
  (forall a b, ~ In slash b -> remove_all_before_last_slash (a ++ slash :: b) = b) /\
  (forall s, ~ In slash s -> remove_all_before_last_slash s = s).
Proof. split; [exact remove_before_slash_spec|exact remove_before_slash_none]. Qed.
Print Assumptions C70_remove_before_last_slash.
Example C70_case :
  check_end_slashes (txt "/data//") = txt "/data/" /\ check_end_slashes [] = [slash] /\
  remove_extension (txt "vis.v2.txt") = txt "vis.v2" /\ remove_all_before_last_slash (txt "a/b/c.txt") = txt "c.txt" /\
  check_no_begin_slashes (txt "//a/b") = Ok (txt "a/b") /\ check_begin_slashes (txt "a") = Ok (txt "/a").
Proof. repeat split; reflexivity. Qed.

(** ** C81: datasets from vectors *)
(** Two vectors make a dataset exactly when they have the same length; the dataset then
    has them as its x and y values, in order. Otherwise the factory throws. *)
Theorem C81_dataset_from_vectors : forall A B (xs : list A) (ys : list B),
  (forall d, dataset_from_vectors xs ys = Ok d <-> map fst d = xs /\ map snd d = ys) /\
  (length xs = length ys -> exists d, dataset_from_vectors xs ys = Ok d) /\
  (length xs <> length ys -> dataset_from_vectors xs ys = Throw).
Proof.
  intros A B xs ys. unfold dataset_from_vectors.
  assert (C : forall (xs : list A) (ys : list B), length xs = length ys ->
    map fst (combine xs ys) = xs /\ map snd (combine xs ys) = ys).
  { clear. induction xs as [|x xs IH]; intros [|y ys] L; try discriminate; [split; reflexivity|].
    injection L as L. destruct (IH ys L) as [H1 H2]. cbn [combine map fst snd]. rewrite H1, H2. split; reflexivity. }
  destruct (Nat.eqb_spec (length xs) (length ys)) as [E|E]; cbn [negb].
  - split; [|split; [eauto | congruence]]. intros d. split.
    + intros H. injection H as <-. apply C. exact E.
    + intros [<- <-]. f_equal. clear. induction d as [|[x y] d IH]; [reflexivity|]. cbn [map combine fst snd]. rewrite IH. reflexivity.
  - split; [|split; [congruence | reflexivity]]. intros d. split; [discriminate|].
    intros [<- <-]. rewrite !map_length in E. congruence.
Qed.
Example C81_case : dataset_from_vectors [1; 2] [3; 4] = Ok [(1, 3); (2, 4)] /\ dataset_from_vectors [1] [3; 4] = Throw.
Proof. split; reflexivity. Qed.

Print Assumptions C81_dataset_from_vectors.
Print Assumptions C51_construction.
Print Assumptions C51_parsing.
Print Assumptions C51_round_trip.
Print Assumptions C51_printing_is_injective.
Print Assumptions C51_order.
Print Assumptions C51_hash.
Print Assumptions C52_belongs_in_group.
Print Assumptions C52_belongs_in_group_text.
Print Assumptions C53_datasets_are_cached.
Print Assumptions C53_listings_are_cached.
Print Assumptions C53_answers_come_from_the_provider.
Print Assumptions C54_list_contents.
Print Assumptions C54_agrees_with_belongs_in_group.
Print Assumptions C55_directory_order.
Print Assumptions C55_listing.
Print Assumptions C55_repeated_line_refuted.
Print Assumptions C55_dot_line_diverges_refuted.
Print Assumptions C69_registration.
Print Assumptions C69_lookup.
Print Assumptions C70_end_slashes.
