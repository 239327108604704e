(** C161: photometry objects that share their filter names. *)
From Coq Require Import ZArith List Arith Bool Lia Ascii QArith.
Open Scope nat_scope.
From Verif Require Import Common TextModel DblModel CatalogModel PhotModel PhotSpec PhotProofs.
Import ListNotations.

(** After any history in which no vector of names gets another length, an object can be iterated: the loop visits every
    name of the shared vector, in order, with the value of the object at the same position; size() is the number of visits, and end() - begin() too. *)
Theorem C161_iteration h s k r names values : keeps_sizes h -> prun pempty h = Ok s -> object_is s k r names values ->
  exists l, piterate s k = Ok l /\ map fst l = names /\ map snd l = values /\ psize s k = Ok (length l) /\ pdistance s k = Ok (Z.of_nat (length l)).
Proof.
  intros K H [O N]. destruct (sized_run h pempty s sized_empty K H k _ O) as (n' & N' & L). cbn in N', L. rewrite N in N'. injection N' as <-.
  exists (combine names values). unfold piterate, psize, pdistance, pnames. rewrite O. cbn [of_option bind po_ptr po_values]. rewrite N. cbn [of_option bind].
  unfold pbegin. rewrite (visit_ok names values L) by lia. cbn [skipn]. rewrite combine_length, <- L, Nat.min_id. repeat split.
  - clear -L. revert values L. induction names as [|a r IH]; intros [|v vs] L; try discriminate; [reflexivity|]. cbn. f_equal. apply IH. cbn in L. lia.
  - clear -L. revert values L. induction names as [|a r IH]; intros [|v vs] L; try discriminate; [reflexivity|]. cbn. f_equal. apply IH. cbn in L. lia.
  - unfold pminus, pend. cbn. f_equal. lia.
Qed.
Print Assumptions C161_iteration.

(** Every object points to a vector of names. *)
Theorem C161_objects h s k b : keeps_sizes h -> prun pempty h = Ok s -> nth_error (ps_objects s) k = Some b ->
  exists r names values, object_is s k r names values /\ length names = length values.
Proof.
  intros K H O. destruct (sized_run h pempty s sized_empty K H k _ O) as (n & N & L). exists (po_ptr b), n, (po_values b). split; [|exact L]. split; [destruct b; exact O|exact N].
Qed.
Print Assumptions C161_objects.

(** find() gives the value at the first position of the name, or nothing if the name is not in the vector. *)
Theorem C161_find h s k r names values name : keeps_sizes h -> prun pempty h = Ok s -> object_is s k r names values ->
  (exists i v, nth_error names i = Some name /\ (forall j, j < i -> nth_error names j <> Some name) /\ nth_error values i = Some v /\ pfind s k name = Ok (Some v)) \/
  (~ In name names /\ pfind s k name = Ok None).
Proof.
  intros K H [O N]. destruct (sized_run h pempty s sized_empty K H k _ O) as (n' & N' & L). cbn in N', L. rewrite N in N'. injection N' as <-.
  unfold pfind, pnames. rewrite O. cbn [of_option bind po_ptr po_values]. rewrite N. cbn [of_option bind].
  destruct (find_from_ok names values name L) as [(i & v & A & B & C & D)|[A B]]; [left; exists i, v; repeat split; assumption|right; split; assumption].
Qed.
Print Assumptions C161_find.

(** A constructor makes an object exactly when its pointer is not null and the sizes agree; the object has these values. *)
Theorem C161_construction s ptr values : (forall r, ptr = Some r -> r < length (ps_names s)) ->
  exists s', pstep s (PNew ptr values) = Ok s' /\ ps_names s' = ps_names s /\
    ((exists r names, ptr = Some r /\ nth_error (ps_names s) r = Some names /\ length names = length values /\ ps_objects s' = ps_objects s ++ [mkPObject r values]) \/
     ((ptr = None \/ exists r names, ptr = Some r /\ nth_error (ps_names s) r = Some names /\ length names <> length values) /\ s' = s)).
Proof.
  intros R. destruct ptr as [r|]; cbn [pstep].
  - specialize (R r eq_refl). destruct (nth_error (ps_names s) r) as [names|] eqn:E; [|apply nth_error_None in E; lia]. cbn [of_option bind]. destruct (Nat.eqb_spec (length names) (length values)) as [Q|Q].
    + eexists. split; [reflexivity|]. split; [reflexivity|]. left. exists r, names. repeat split; assumption.
    + exists s. split; [reflexivity|]. split; [reflexivity|]. right. split; [right; exists r, names; repeat split; assumption|reflexivity].
  - exists s. repeat split. right. split; [left; reflexivity|reflexivity].
Qed.
Print Assumptions C161_construction.

(** Assigning through an iterator of an object replaces the value at this position of this object, and changes no name and no
    other object: not its copies either. It is defined for every position before end(). *)
Theorem C161_write s k r names values i v : object_is s k r names values -> length names = length values ->
  (i < length names -> exists s', pstep s (PWrite k i v) = Ok s') /\
  (forall s', pstep s (PWrite k i v) = Ok s' -> ps_names s' = ps_names s /\ length (ps_objects s') = length (ps_objects s) /\
     (exists values', object_is s' k r names values' /\ replaced values i v values') /\
     forall j, j <> k -> nth_error (ps_objects s') j = nth_error (ps_objects s) j).
Proof.
  intros [O N] L. cbn [pstep]. rewrite O. cbn [of_option bind po_values po_ptr]. split.
  - intro I. destruct (set_at_some values i v ltac:(lia)) as [m E]. rewrite E. cbn [of_option bind]. destruct (set_at_some (ps_objects s) k (mkPObject r m)) as [m' E']; [apply nth_error_Some; congruence|]. rewrite E'. eexists. reflexivity.
  - intros s' H. bind_ok H. bind_ok H. injection H as <-. destruct (set_at_spec _ _ _ _ E0) as (L1 & I & G & Q). cbn. split; [reflexivity|]. split; [exact L1|]. split; [|exact Q].
    exists a. split; [split; assumption|]. exact (set_at_spec _ _ _ _ E).
Qed.
Print Assumptions C161_write.

(** A copy points to the same names and has the same values. *)
Theorem C161_copy s k r names values : object_is s k r names values ->
  exists s', pstep s (PCopy k) = Ok s' /\ ps_names s' = ps_names s /\ ps_objects s' = ps_objects s ++ [mkPObject r values] /\ object_is s' (length (ps_objects s)) r names values.
Proof.
  intros [O N]. cbn [pstep]. rewrite O. eexists. split; [reflexivity|]. split; [reflexivity|]. split; [reflexivity|]. split; [|exact N]. cbn. rewrite nth_error_app2, Nat.sub_diag by lia. reflexivity.
Qed.
Print Assumptions C161_copy.

(** Assigning a name through the pointer of one object renames the filter of every object that shares the vector, and of no other; no value changes. *)
Theorem C161_rename s r i n s' : pstep s (PRename r i n) = Ok s' ->
  ps_objects s' = ps_objects s /\
  (forall k names values, object_is s k r names values -> exists names', object_is s' k r names' values /\ replaced names i n names') /\
  (forall k r' names values, r' <> r -> object_is s k r' names values -> object_is s' k r' names values).
Proof.
  cbn [pstep]. intro H. bind_ok H. bind_ok H. bind_ok H. injection H as <-. destruct (set_at_spec _ _ _ _ E1) as (L1 & I & G & Q). cbn. split; [reflexivity|]. split.
  - intros k names values [O N]. rewrite N in E. injection E as <-. exists a0. split; [split; [exact O|exact G]|]. exact (set_at_spec _ _ _ _ E0).
  - intros k r' names values NE [O N]. split; [exact O|]. cbn. rewrite (Q r' NE). exact N.
Qed.
Print Assumptions C161_rename.

(** The pointer gives a vector that is not const. If it gets longer after the construction the loop reads past the values, and so does find(). *)
Theorem C161_longer_names_refuted : exists h s a b v, prun pempty h = Ok s /\ object_is s 0 0 [a; b] [v] /\
  piterate s 0 = UB /\ pfind s 0 b = UB /\ psize s 0 = Ok 2 /\ pdistance s 0 = Ok 1%Z.
Proof.
  exists [PNames [["a"%char]]; PNew (Some 0) [mkFep (Fin (inject_Z 1)) (Fin (inject_Z 2)) false false]; PReplace 0 [["a"%char]; ["b"%char]]], (mkPState [[["a"%char]; ["b"%char]]] [mkPObject 0 [mkFep (Fin (inject_Z 1)) (Fin (inject_Z 2)) false false]]), ["a"%char], ["b"%char], (mkFep (Fin (inject_Z 1)) (Fin (inject_Z 2)) false false).
  repeat split; reflexivity.
Qed.
Print Assumptions C161_longer_names_refuted.

(** If it gets shorter, size() is less than end() - begin() and the loop misses values. *)
Theorem C161_shorter_names_refuted : exists h s v, prun pempty h = Ok s /\ object_is s 0 0 [] [v] /\
  piterate s 0 = Ok [] /\ psize s 0 = Ok 0 /\ pdistance s 0 = Ok 1%Z.
Proof.
  exists [PNames [["a"%char]]; PNew (Some 0) [mkFep (Fin (inject_Z 1)) (Fin (inject_Z 2)) false false]; PReplace 0 []], (mkPState [[]] [mkPObject 0 [mkFep (Fin (inject_Z 1)) (Fin (inject_Z 2)) false false]]), (mkFep (Fin (inject_Z 1)) (Fin (inject_Z 2)) false false).
  repeat split; reflexivity.
Qed.
Print Assumptions C161_shorter_names_refuted.

(** Iterators of objects that share their names compare equal at the same position, also when the objects are different and
    the values too: equal iterators need not refer to the same element. *)
Theorem C161_equal_iterators_refuted : exists h s v w, keeps_sizes h /\ prun pempty h = Ok s /\ v <> w /\
  object_is s 0 0 [["a"%char]] [v] /\ object_is s 1 0 [["a"%char]] [w] /\ psame s 0 0 1 0 = Ok true.
Proof.
  exists [PNames [["a"%char]]; PNew (Some 0) [mkFep (Fin (inject_Z 1)) (Fin (inject_Z 2)) false false]; PNew (Some 0) [mkFep (Fin (inject_Z 1)) (Fin (inject_Z 2)) true false]], (mkPState [[["a"%char]]] [mkPObject 0 [mkFep (Fin (inject_Z 1)) (Fin (inject_Z 2)) false false]; mkPObject 0 [mkFep (Fin (inject_Z 1)) (Fin (inject_Z 2)) true false]]), (mkFep (Fin (inject_Z 1)) (Fin (inject_Z 2)) false false), (mkFep (Fin (inject_Z 1)) (Fin (inject_Z 2)) true false).
  repeat split; try reflexivity; [|discriminate]. intros r l [H|[H|[H|[]]]]; discriminate.
Qed.
Print Assumptions C161_equal_iterators_refuted.

(** Among the iterators of one object, == holds exactly at the same position. *)
Theorem C161_equal_iterators s k b i l : nth_error (ps_objects s) k = Some b -> exists t, psame s k i k l = Ok t /\ (t = true <-> i = l).
Proof. intro O. unfold psame. rewrite O. cbn [of_option bind]. rewrite Nat.eqb_refl. eexists. split; [reflexivity|]. unfold peq. cbn. apply Nat.eqb_eq. Qed.
Print Assumptions C161_equal_iterators.

(** Two objects share two names; the second is a copy whose value is then changed; a name is changed. *)
Example C161_two_objects : exists s,
  prun pempty [PNames [["a"%char]; ["b"%char]]; PNew None []; PNew (Some 0) [mkFep (Fin (inject_Z 1)) (Fin (inject_Z 2)) false false]; PNew (Some 0) [mkFep (Fin (inject_Z 1)) (Fin (inject_Z 2)) false false; mkFep (Fin (inject_Z 3)) (Fin (inject_Z 4)) false false]; PCopy 0; PWrite 1 1 (mkFep (Fin (inject_Z 5)) (Fin (inject_Z 6)) true false); PRename 0 0 ["c"%char]] = Ok s /\
  object_is s 0 0 [["c"%char]; ["b"%char]] [mkFep (Fin (inject_Z 1)) (Fin (inject_Z 2)) false false; mkFep (Fin (inject_Z 3)) (Fin (inject_Z 4)) false false] /\
  object_is s 1 0 [["c"%char]; ["b"%char]] [mkFep (Fin (inject_Z 1)) (Fin (inject_Z 2)) false false; mkFep (Fin (inject_Z 5)) (Fin (inject_Z 6)) true false] /\
  piterate s 1 = Ok [(["c"%char], mkFep (Fin (inject_Z 1)) (Fin (inject_Z 2)) false false); (["b"%char], mkFep (Fin (inject_Z 5)) (Fin (inject_Z 6)) true false)].
Proof. eexists. repeat split; reflexivity. Qed.
