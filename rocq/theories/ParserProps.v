(** Properties of the parsers of dataset files (XYDataset AsciiParser and FitsParser). *)
From Coq Require Import QArith ZArith List Arith Ascii String Bool Lia.
From Verif Require Import Common TextModel TextProofs DblModel TableModel TableSpec TableProofs AsciiModel AsciiSpec
  AsciiProofs AsciiProofs2 AsciiProofs3 FitsModel FitsSpec FitsProps XYModel XYProofs2 ParserModel ParserSpec ParserProofs ParserProofs2.
Import ListNotations.
Local Open Scope nat_scope.
Local Notation length := List.length.

(** ** C101: the parameters of a file *)

(** The parameter is the list of the values of the keyword, in the order of the
    lines and separated by semicolons; the empty values at the beginning leave no
    trace. Every file has such a list of values. *)
Theorem C101_parameter : forall key s vs,
  no_space_first key -> values_of key (lines_of s) vs ->
  ap_parameter (Some s) key = Ok (join ";"%char (drop_empty vs)).
Proof.
  intros key s vs N H. unfold ap_parameter. f_equal. exact (gather_values key (lines_of s) vs N H []).
Qed.
Print Assumptions C101_parameter.

Theorem C101_values : forall key s, no_space_first key -> exists vs, values_of key (lines_of s) vs.
Proof. intros key s N. apply values_exist. exact N. Qed.
Print Assumptions C101_values.

Theorem C101_missing_file : forall key, ap_parameter None key = Throw.
Proof. reflexivity. Qed.
Print Assumptions C101_missing_file.

(** Not always one entry per line: a first line with an empty value is lost. *)
Theorem C101_all_values_refuted : exists key s vs,
  no_space_first key /\ values_of key (lines_of s) vs /\ length vs = 2 /\ ap_parameter (Some s) key = Ok (txt "b").
Proof.
  exists (txt "K"), (txt "# K: " ++ nl :: txt "# K: b" ++ [nl]), [[]; txt "b"].
  split; [intros c r H; injection H as <- _; reflexivity|]. split; [|split; [reflexivity | vm_compute; reflexivity]].
  assert (N : no_space_first (txt "K")) by (intros c r H; injection H as <- _; reflexivity).
  change (lines_of (txt "# K: " ++ nl :: txt "# K: b" ++ [nl])) with [txt "# K: "; txt "# K: b"; []].
  apply values_here; [apply key_value_iff; [exact N | reflexivity]|].
  apply values_here; [apply key_value_iff; [exact N | reflexivity]|].
  apply values_other; [|constructor]. intros v H. apply key_value_iff in H; [discriminate | exact N].
Qed.
Print Assumptions C101_all_values_refuted.

Example C101_example :
  ap_parameter (Some (txt "# FILTERS : u g r" ++ nl :: txt "1 2" ++ nl :: txt " #FILTERS: i  " ++ [nl])) (txt "FILTERS") =
  Ok (txt "u g r;i").
Proof. vm_compute. reflexivity. Qed.

(** ** C102: the name of a dataset *)

(** The NAME parameter when it is not empty. *)
Theorem C102_parameter : forall path s v vs,
  values_of (txt "NAME") (lines_of s) vs -> join ";"%char (drop_empty vs) = v -> v <> [] ->
  ap_name path (Some s) = Ok v.
Proof.
  intros path s v vs H E N. unfold ap_name. rewrite (C101_parameter (txt "NAME") s vs) by (try exact H; intros c r K; injection K as <- _; reflexivity).
  rewrite E. cbn [bind]. destruct v; [congruence | reflexivity].
Qed.
Print Assumptions C102_parameter.

Lemma name_no_space : no_space_first (txt "NAME").
Proof. intros c r H. injection H as <- _. reflexivity. Qed.
Lemma first_line_spec lines : (Forall (fun l => l = []) lines /\ first_line lines = []) \/
  exists before l after, lines = before ++ l :: after /\ Forall (fun l => l = []) before /\ l <> [] /\ first_line lines = l.
Proof.
  induction lines as [|l lines IH]; [left; split; [constructor | reflexivity]|].
  destruct l as [|c l].
  - destruct IH as [[F E]|[b [x [a [E [F [N G]]]]]]].
    + left. split; [constructor; auto | exact E].
    + right. exists ([] :: b), x, a. split; [cbn; f_equal; exact E|]. split; [constructor; auto|]. split; assumption.
  - right. exists [], (c :: l), lines. split; [reflexivity|]. split; [constructor|]. split; [discriminate | reflexivity].
Qed.

(** Otherwise the word of the first line that is not empty, when the line only has
    a word behind the hash. *)
Theorem C102_first_line : forall path s before l after w,
  (forall vs, values_of (txt "NAME") (lines_of s) vs -> join ";"%char (drop_empty vs) = []) ->
  lines_of s = before ++ l :: after -> Forall (fun x => x = []) before -> word_line l w ->
  ap_name path (Some s) = Ok w.
Proof.
  intros path s before l after w H E F W. unfold ap_name.
  destruct (values_exist (txt "NAME") (lines_of s) name_no_space) as [vs V].
  rewrite (C101_parameter _ _ _ name_no_space V), (H vs V). cbn [bind].
  assert (L : first_line (lines_of s) = l).
  { assert (N : l <> []). { intros ->. destruct W as [a [b [c [W _]]]]. destruct a; discriminate. }
    rewrite E. clear - F N. induction F as [|x before -> F IH]; [destruct l; [congruence | reflexivity] | exact IH]. }
  rewrite L. apply name_line_iff in W. rewrite W. reflexivity.
Qed.
Print Assumptions C102_first_line.

(** Otherwise the name of the file. *)
Theorem C102_file_name : forall path s,
  (forall vs, values_of (txt "NAME") (lines_of s) vs -> join ";"%char (drop_empty vs) = []) ->
  (forall before l after w, lines_of s = before ++ l :: after -> Forall (fun x => x = []) before -> ~ word_line l w) ->
  ap_name path (Some s) = Ok (file_name path).
Proof.
  intros path s H G. unfold ap_name.
  destruct (values_exist (txt "NAME") (lines_of s) name_no_space) as [vs V].
  rewrite (C101_parameter _ _ _ name_no_space V), (H vs V). cbn [bind].
  destruct (first_line_spec (lines_of s)) as [[_ ->]|[b [l [a [E [F [N L]]]]]]]; [reflexivity|].
  rewrite L. destruct (name_line l) as [w|] eqn:W; [|reflexivity].
  apply name_line_iff in W. exfalso. apply (G b l a w E F W).
Qed.
Print Assumptions C102_file_name.

(** The name of a file is what stands between the last slash and the last dot. *)
Theorem C102_path : forall dir stem ext,
  ~ In "/"%char stem -> ~ In "/"%char ext -> ~ In "."%char ext ->
  file_name (dir ++ "/"%char :: stem ++ "."%char :: ext) = stem /\
  file_name (stem ++ "."%char :: ext) = stem /\
  (~ In "."%char stem -> file_name (dir ++ "/"%char :: stem) = stem /\ file_name stem = stem).
Proof.
  intros dir stem ext S1 S2 D.
  assert (N : ~ In slash (stem ++ "."%char :: ext)).
  { rewrite in_app_iff. intros [H|[H|H]]; [contradiction | discriminate | contradiction]. }
  unfold file_name. split; [|split; [|intros D2; split]].
  - change "/"%char with slash. rewrite remove_before_slash_spec by exact N. apply remove_extension_spec. exact D.
  - rewrite remove_before_slash_none by exact N. apply remove_extension_spec. exact D.
  - change "/"%char with slash. rewrite remove_before_slash_spec by exact S1. apply remove_extension_none. exact D2.
  - rewrite remove_before_slash_none by exact S1. apply remove_extension_none. exact D2.
Qed.
Print Assumptions C102_path.

(** The name can be empty. *)
Theorem C102_nonempty_refuted : exists path s, path <> [] /\ ap_name path (Some s) = Ok [].
Proof. exists (txt "seds/.sed"), (txt "1 2" ++ [nl]). split; [discriminate | vm_compute; reflexivity]. Qed.
Print Assumptions C102_nonempty_refuted.

Example C102_example :
  ap_name (txt "seds/M31.sed") (Some (txt "# NAME: Andromeda" ++ nl :: txt "1 2" ++ [nl])) = Ok (txt "Andromeda") /\
  ap_name (txt "seds/M31.sed") (Some (nl :: txt "# NGC224 " ++ nl :: txt "1 2" ++ [nl])) = Ok (txt "NGC224") /\
  ap_name (txt "seds/M31.sed") (Some (txt "# two words" ++ nl :: txt "1 2" ++ [nl])) = Ok (txt "M31").
Proof. repeat split; vm_compute; reflexivity. Qed.

(** ** C103: is it a dataset file? *)

(** Exactly the files that can be opened, in which the first line that is neither
    empty nor a comment has two words, both numbers, and is ended by a line feed. *)
Theorem C103_is_dataset : forall pd file, pd [] = None ->
  (ap_is_dataset pd file = true <->
   exists s before x after, file = Some s /\ lines_of s = before ++ x :: after /\ after <> [] /\
     Forall skipped before /\ ~ skipped x /\ exists a b, words x = [a; b] /\ pd a <> None /\ pd b <> None).
Proof. exact is_dataset_iff. Qed.
Print Assumptions C103_is_dataset.

(** Files that the parser reads and does not recognise: the line feed at the end
    is missing; a line of blanks comes before the data; the first line of data has a
    comment behind it. *)
Theorem C103_readable_files_refuted : exists (pd : text -> option dbl) s1 s2 s3,
  pd [] = None /\
  Forall (fun s => ap_is_dataset pd (Some s) = false /\ exists l, l <> [] /\ ap_dataset pd pd (Some s) = Ok (Some l)) [s1; s2; s3].
Proof.
  exists (fun t => if text_eqb t (txt "1") then Some (Fin 1) else None).
  exists (txt "1 1"), (txt " " ++ nl :: txt "1 1" ++ [nl]), (txt "1 1 # first" ++ nl :: txt "1 1" ++ [nl]).
  split; [reflexivity|].
  apply Forall_cons; [split; [vm_compute; reflexivity|]; exists [(Fin 1, Fin 1)]; split; [discriminate|]; vm_compute; reflexivity|].
  apply Forall_cons; [split; [vm_compute; reflexivity|]; exists [(Fin 1, Fin 1)]; split; [discriminate|]; vm_compute; reflexivity|].
  apply Forall_cons; [|constructor].
  split; [vm_compute; reflexivity|]. exists [(Fin 1, Fin 1); (Fin 1, Fin 1)]. split; [discriminate|]. vm_compute. reflexivity.
Qed.
Print Assumptions C103_readable_files_refuted.

(** A file that the parser recognises and cannot read. *)
Theorem C103_recognised_files_refuted : exists (pd : text -> option dbl) s,
  pd [] = None /\ ap_is_dataset pd (Some s) = true /\ ap_dataset pd pd (Some s) = Throw.
Proof.
  exists (fun t => if text_eqb t (txt "1") then Some (Fin 1) else None), (txt "1 1" ++ nl :: txt "1" ++ [nl]).
  split; [reflexivity|]. split; vm_compute; reflexivity.
Qed.
Print Assumptions C103_recognised_files_refuted.

Example C103_example :
  let pd := fun t => if text_eqb t (txt "1") then Some (Fin 1) else None in
  ap_is_dataset pd (Some (nl :: txt "# a comment" ++ nl :: txt " 1	1 " ++ [nl])) = true /\
  ap_is_dataset pd (Some (txt "1 1 1" ++ [nl])) = false /\ ap_is_dataset pd (Some (txt "1 x" ++ [nl])) = false /\
  ap_is_dataset pd None = false.
Proof. repeat split; vm_compute; reflexivity. Qed.

(** ** C104: the dataset of an ASCII file *)

(** The dataset has one pair per line of data, in order. Files without quotes, with
    harmless comments before the data; anything can follow a hash in the rest. *)
Theorem C104_dataset : forall pf pd s pairs,
  ~ In dq s -> Forall says_nothing (before_data (lines_of s)) ->
  (ap_dataset pf pd (Some s) = Ok (Some pairs) <-> pairs <> [] /\ Forall2 (number_line pd) (dlines s) pairs).
Proof.
  intros pf pd s pairs Q H. destruct (dataset_outcome pf pd s Q H) as [[p [N [F E]]]|[B E]]; rewrite E.
  - split; [intros K; injection K as <-; split; assumption|]. intros [_ G].
    rewrite (number_lines_det pd _ _ _ F G). reflexivity.
  - split; [discriminate|]. intros [N G]. exfalso. apply (B pairs N G).
Qed.
Print Assumptions C104_dataset.

(** A line of data that is not two numbers, or no data at all, is an error. *)
Theorem C104_malformed : forall pf pd s,
  ~ In dq s -> Forall says_nothing (before_data (lines_of s)) ->
  (dlines s = [] \/ exists l, In l (dlines s) /\ forall p, ~ number_line pd l p) ->
  ap_dataset pf pd (Some s) = Throw.
Proof.
  intros pf pd s Q H D. destruct (dataset_outcome pf pd s Q H) as [[p [N [F E]]]|[B E]]; [|exact E].
  exfalso. destruct D as [D|[l [I D]]].
  - rewrite D in F. inversion F; subst. congruence.
  - clear - F I D. induction F as [|x y ls ps X F IH]; [destruct I|]. destruct I as [<-|I]; [apply (D y X) | apply IH; exact I].
Qed.
Print Assumptions C104_malformed.

Theorem C104_missing_file : forall pf pd, ap_dataset pf pd None = Ok None.
Proof. reflexivity. Qed.
Print Assumptions C104_missing_file.

(** The comments before the data do matter: two equal words are read as the names
    of the columns. *)
Theorem C104_any_comment_refuted : exists (pd : text -> option dbl) s,
  ~ In dq s /\ (exists pairs, pairs <> [] /\ Forall2 (number_line pd) (dlines s) pairs) /\
  ap_is_dataset pd (Some s) = true /\ ap_dataset pd pd (Some s) = Throw.
Proof.
  exists (fun t => if text_eqb t (txt "1") then Some (Fin 1) else None), (txt "# flux flux" ++ nl :: txt "1 1" ++ [nl]).
  split; [intros I; vm_compute in I; repeat (destruct I as [I|I]; [discriminate|]); destruct I|].
  split; [|split; vm_compute; reflexivity]. exists [(Fin 1, Fin 1)]. split; [discriminate|].
  change (dlines (txt "# flux flux" ++ nl :: txt "1 1" ++ [nl])) with [txt "1 1"].
  constructor; [|constructor]. exists (txt "1"), (txt "1"). repeat split.
Qed.
Print Assumptions C104_any_comment_refuted.

Example C104_example :
  let pd := fun t => if text_eqb t (txt "1") then Some (Fin 1) else if text_eqb t (txt "2.5") then Some (Fin 2.5) else None in
  let s := txt "# wavelength (A) flux" ++ nl :: nl :: txt "1 2.5" ++ nl :: txt "   # in the middle" ++ nl :: txt "2.5   1 # end" ++ [nl] in
  ~ In dq s /\ Forall says_nothing (before_data (lines_of s)) /\
  ap_dataset pd pd (Some s) = Ok (Some [(Fin 1, Fin 2.5); (Fin 2.5, Fin 1)]).
Proof.
  cbv zeta. split; [intros I; vm_compute in I; repeat (destruct I as [I|I]; [discriminate|]); destruct I|]. split; [|vm_compute; reflexivity].
  match goal with |- Forall _ ?l => let x := eval vm_compute in l in change l with x end.
  repeat (apply Forall_cons; [split; [intros w H; vm_compute in H; discriminate | intros w r H; vm_compute in H; try discriminate; injection H as <- <-; reflexivity]|]).
  apply Forall_nil.
Qed.

(** ** C105: FITS files *)

Lemma pair_of_row cells i p : row_pair cells p -> pair_of (mkRow cells i) = Ok p.
Proof. intros [rest ->]. destruct p. reflexivity. Qed.
Lemma pair_of_ok cells i p : pair_of (mkRow cells i) = Ok p -> row_pair cells p.
Proof.
  unfold pair_of, row_at, row_pair. cbn [r_values]. destruct cells as [|c0 [|c1 rest]]; cbn; try discriminate.
  - destruct c0; discriminate.
  - destruct c0; try discriminate. cbn. destruct c1; try discriminate. cbn. intros H. injection H as <-. exists rest. reflexivity.
Qed.
Lemma pair_of_outcomes r : (exists p, pair_of r = Ok p) \/ pair_of r = Throw.
Proof.
  unfold pair_of, row_at. destruct (r_values r) as [|c0 [|c1 rest]]; cbn; [auto| |].
  - destruct c0; cbn; auto.
  - destruct c0; cbn; auto. destruct c1; cbn; eauto.
Qed.
Lemma pairs_of_rows rows : (exists l, map_o pair_of rows = Ok l /\ Forall2 row_pair (map r_values rows) l) \/
  (map_o pair_of rows = Throw /\ forall l, ~ Forall2 row_pair (map r_values rows) l).
Proof.
  induction rows as [|[v i] rows IH]; [left; exists []; split; [reflexivity | constructor]|]. cbn [map_o map r_values].
  destruct (pair_of_outcomes (mkRow v i)) as [[p E]|E]; rewrite E; cbn [bind].
  - apply pair_of_ok in E. destruct IH as [[l [M F]]|[M B]]; rewrite M; cbn [bind].
    + left. exists (p :: l). split; [reflexivity | constructor; assumption].
    + right. split; [reflexivity|]. intros l F. inversion F; subst. eapply B. eassumption.
  - right. split; [reflexivity|]. intros l F. inversion F as [|? p ? ? R]; subst. apply (pair_of_row _ i) in R. congruence.
Qed.
Lemma row_pairs_det rows l m : Forall2 row_pair rows l -> Forall2 row_pair rows m -> l = m.
Proof.
  intros F. revert m. induction F as [|c [x y] rows l [r E] F IH]; intros m G; inversion G as [|? [x' y'] ? m' [r' E'] G']; subst; [reflexivity|].
  cbn in E'. injection E' as <- <- _. f_equal. apply IH. exact G'.
Qed.

(** The dataset of a FITS file written by the library: the first two columns, which
    must be columns of doubles; an error otherwise. *)
Theorem C105_dataset : forall keys t0 ts w,
  writable t0 ts -> fw_add_all new_fwriter (t0 :: ts) = Ok w ->
  (forall pairs, fp_dataset (TableExtension keys (fw_hdu w)) = Ok (Some pairs) <-> Forall2 row_pair (all_values (t0 :: ts)) pairs) /\
  ((forall pairs, ~ Forall2 row_pair (all_values (t0 :: ts)) pairs) -> fp_dataset (TableExtension keys (fw_hdu w)) = Throw).
Proof.
  intros keys t0 ts w W E.
  assert (P : 0 < length (all_values (t0 :: ts))).
  { destruct W as [B _]. inversion B as [|? ? B0 _]; subst. unfold all_values. rewrite map_length. cbn [flat_map]. rewrite app_length.
    destruct B0 as [_ [_ [B0 _]]]. apply new_table_ok in B0. destruct B0 as [r0 [rest [B0 _]]]. rewrite B0. cbn. lia. }
  destruct (C100_read t0 ts w 0 (new_freader (fw_hdu w)) (-1) W E (consumed_none _) P (or_introl eq_refl)) as [t [r' [R [_ [V _]]]]].
  change (Z.eqb (-1) (-1)) with true in V. cbn [skipn] in V. unfold fp_dataset. rewrite R. cbn [bind fst]. rewrite <- V.
  destruct (pairs_of_rows (t_rows t)) as [[l [M F]]|[M B]]; rewrite M; cbn [bind].
  - split.
    + intros pairs. split; [intros H; injection H as <-; exact F|]. intros G. rewrite (row_pairs_det _ _ _ F G). reflexivity.
    + intros B. exfalso. apply (B l F).
  - split; [|reflexivity]. intros pairs. split; [discriminate|]. intros F. exfalso. apply (B pairs F).
Qed.
Print Assumptions C105_dataset.

Lemma find_key_in keys k v : NoDup (map fst keys) -> In (k, v) keys -> find_key k keys = Some v.
Proof.
  induction keys as [|[k' v'] keys IH]; intros N I; [destruct I|]. cbn [map fst] in N. inversion N as [|? ? N1 N2]; subst. cbn [find_key].
  destruct I as [I|I].
  - injection I as -> ->. replace (text_eqb k k) with true by (symmetry; apply text_eqb_iff; reflexivity). reflexivity.
  - destruct (text_eqb k' k) eqn:E; [|apply IH; assumption]. apply text_eqb_iff in E. subst k'.
    exfalso. apply N1. apply (in_map fst) in I. exact I.
Qed.
Lemma find_key_none keys k : ~ In k (map fst keys) -> find_key k keys = None.
Proof.
  induction keys as [|[k' v'] keys IH]; intros N; [reflexivity|]. cbn [find_key]. destruct (text_eqb k' k) eqn:E.
  - apply text_eqb_iff in E. subst k'. exfalso. apply N. left. reflexivity.
  - apply IH. intros I. apply N. right. exact I.
Qed.

(** The name of the dataset is the value of the keyword, or the name of the file
    when there is no such keyword or its value is empty. *)
Theorem C105_name : forall keyword path keys h, NoDup (map fst keys) ->
  (forall v, In (keyword, v) keys -> v <> [] -> fp_name keyword path (TableExtension keys h) = Ok v) /\
  (~ In keyword (map fst keys) \/ In (keyword, []) keys -> fp_name keyword path (TableExtension keys h) = Ok (file_name path)).
Proof.
  intros keyword path keys h N. unfold fp_name, fp_parameter. split.
  - intros v I Nv. rewrite (find_key_in keys keyword v N I). cbn [bind]. destruct v; [congruence | reflexivity].
  - intros [I|I].
    + rewrite find_key_none by exact I. reflexivity.
    + rewrite (find_key_in keys keyword [] N I). reflexivity.
Qed.
Print Assumptions C105_name.

(** Without a file, or without an extension in it, there is no name: the request throws.
    A missing file is no dataset, a file without an extension throws, and neither is
    recognised. *)
Theorem C105_no_extension : forall keyword path,
  fp_name keyword path NoFile = Throw /\ fp_name keyword path NoExtension = Throw /\
  fp_dataset NoFile = Ok None /\ fp_dataset NoExtension = Throw /\
  fp_is_dataset NoFile = Ok false /\ fp_is_dataset NoExtension = Ok false.
Proof. intros. repeat split. Qed.
Print Assumptions C105_no_extension.

(** What the parser reads it recognises. *)
Theorem C105_recognised : forall f pairs, fp_dataset f = Ok (Some pairs) -> fp_is_dataset f = Ok true.
Proof. intros f pairs H. destruct f; try discriminate. reflexivity. Qed.
Print Assumptions C105_recognised.

(** An extension that is not a table is not reported as such: the test throws. *)
Theorem C105_image_refuted : exists f, fp_is_dataset f = Throw.
Proof. exists (ImageExtension []). reflexivity. Qed.
Print Assumptions C105_image_refuted.

(** Columns of floats are not read, though the file is recognised. *)
Definition float_info : colinfo := [mkDesc (txt "x") TFloat [] []; mkDesc (txt "y") TFloat [] []].
Definition float_table : table := mkTable [mkRow [CFloat (Fin 1); CFloat (Fin 2)] float_info] float_info.
Theorem C105_floats_refuted : exists t0 w, fw_add_all new_fwriter [t0] = Ok w /\
  fp_is_dataset (TableExtension [] (fw_hdu w)) = Ok true /\ fp_dataset (TableExtension [] (fw_hdu w)) = Throw.
Proof. exists float_table. eexists. split; [vm_compute; reflexivity|]. split; vm_compute; reflexivity. Qed.
Print Assumptions C105_floats_refuted.

Definition xy_info : colinfo := [mkDesc (txt "x") TDouble [] []; mkDesc (txt "y") TDouble [] []].
Definition xy_table : table :=
  mkTable [mkRow [CDouble (Fin 1); CDouble (Fin 2)] xy_info; mkRow [CDouble (Fin 3); CDouble PInf] xy_info] xy_info.
Example C105_example : writable xy_table [] /\ exists w, fw_add_all new_fwriter [xy_table] = Ok w /\
  fp_dataset (TableExtension [(txt "NAME", txt "M31")] (fw_hdu w)) = Ok (Some [(Fin 1, Fin 2); (Fin 3, PInf)]) /\
  fp_name (txt "NAME") (txt "dir/file.fits") (TableExtension [(txt "NAME", txt "M31")] (fw_hdu w)) = Ok (txt "M31").
Proof.
  split.
  - split; [|split; [constructor|]].
    + apply Forall_cons; [|apply Forall_nil]. split; [vm_compute; reflexivity|]. split; [repeat (apply Forall_cons; [vm_compute; reflexivity|]); apply Forall_nil|].
      split; [vm_compute; reflexivity|]. repeat (apply Forall_cons; [vm_compute; reflexivity|]); apply Forall_nil.
    + intros k Hk. exists Single. split; [exact I|]. split; [|exact I].
      destruct k as [|[|k]]; [| |cbn in Hk; lia]; vm_compute; repeat (apply Forall_cons; [exact I|]); apply Forall_nil.
  - eexists. split; [vm_compute; reflexivity|]. split; vm_compute; reflexivity.
Qed.
