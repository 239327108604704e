From Coq Require Import Reals List Arith Bool ZArith Lia Lra.
From Verif Require Import Common CumulModel CumulProofs FunModel FunSpec FunProofs FunProofs2 InterpModel InterpSpec InterpProofs GridInterpModel GridInterpSpec.
Import ListNotations.
Local Open Scope R_scope.

Definition cell (e : bool) (ks : list R) (i : nat) (x : R) : Prop :=
  el ks i <= x <= el ks (S i) \/ e = true /\ (i = 0%nat /\ x < el ks 0 \/ i = (length ks - 2)%nat /\ el ks (length ks - 1) < x).

(** Two cells with the same abscissa share it. *)
Lemma cell_share e ks i j x : strictly_sorted ks -> (i < j)%nat -> (S j < length ks)%nat -> cell e ks i x -> cell e ks j x -> j = S i /\ x = el ks j.
Proof.
  intros SR H L CI CJ. pose proof (strict_sorted ks SR) as SS.
  pose proof (el_sorted ks (S i) j SS ltac:(lia) ltac:(lia)) as LE. pose proof (el_sorted ks 0 i SS ltac:(lia) ltac:(lia)) as L0. pose proof (el_strict ks i (S i) SR ltac:(lia) ltac:(lia)) as L1. pose proof (el_strict ks j (S j) SR ltac:(lia) ltac:(lia)) as L2.
  pose proof (el_sorted ks (S j) (length ks - 1) SS ltac:(lia) ltac:(lia)) as L3.
  assert (XI : x <= el ks (S i)) by (destruct CI as [C|(_ & [(_ & C)|(C & _)])]; [lra|lra|lia]). assert (XJ : el ks j <= x) by (destruct CJ as [C|(_ & [(C & _)|(_ & C)])]; [lra|lia|lra]).
  split; [|lra]. destruct (Nat.eq_dec j (S i)) as [E|N]; [exact E|]. pose proof (el_strict ks (S i) j SR ltac:(lia) ltac:(lia)). lra.
Qed.
Lemma line_left x0 y0 x1 y1 : line x0 y0 x1 y1 x0 = y0.
Proof. unfold line. replace (x0 - x0) with 0 by ring. unfold Rdiv. ring. Qed.
Lemma line_right x0 y0 x1 y1 : x0 <> x1 -> line x0 y0 x1 y1 x1 = y1.
Proof. intro N. unfold line. field. lra. Qed.
Lemma cell_line e ks i j x (Y : nat -> R) : strictly_sorted ks -> (S i < length ks)%nat -> (S j < length ks)%nat -> cell e ks i x -> cell e ks j x ->
  line (el ks i) (Y i) (el ks (S i)) (Y (S i)) x = line (el ks j) (Y j) (el ks (S j)) (Y (S j)) x.
Proof.
  intros SR LI LJ CI CJ. destruct (lt_eq_lt_dec i j) as [[H|H]|H]; [|subst; reflexivity|].
  - destruct (cell_share e ks i j x SR H LJ CI CJ) as [-> ->]. rewrite line_left. apply line_right. apply Rlt_not_eq, el_strict; auto; lia.
  - destruct (cell_share e ks j i x SR H LI CJ CI) as [-> ->]. rewrite line_left. symmetry. apply line_right. apply Rlt_not_eq, el_strict; auto; lia.
Qed.

(** simple_interpolation finds a cell. *)
Lemma inside_cell ks x : strictly_sorted ks -> (2 <= length ks)%nat -> el ks 0 <= x <= el ks (length ks - 1) -> exists i, (S i < length ks)%nat /\ el ks i <= x <= el ks (S i).
Proof.
  intros SR L X. destruct (Req_dec x (el ks 0)) as [->|N]; [exists 0%nat; split; [lia|]; pose proof (el_strict ks 0 1 SR ltac:(lia) ltac:(lia)); lra|].
  destruct (locate ks (length ks - 1) x ltac:(lia) ltac:(lra)) as (i & Hi & XI). exists i. split; [lia|lra].
Qed.
Lemma simple_cell e ks vs x i : strictly_sorted ks -> length ks = length vs -> (S i < length ks)%nat -> cell e ks i x ->
  simple_interpolation x ks vs e = Ok (line (el ks i) (el vs i) (el ks (S i)) (el vs (S i)) x).
Proof.
  intros SR L Hi C. pose proof (strict_sorted ks SR) as SS. pose proof (el_strict ks 0 1 SR ltac:(lia) ltac:(lia)) as D0. pose proof (el_strict ks (length ks - 2) (length ks - 1) SR ltac:(lia) ltac:(lia)) as D1.
  destruct C as [C|(-> & [(-> & C)|(-> & C)])].
  - destruct (Req_dec x (el ks (S i))) as [->|N]; [|apply simple_inside; auto; lra].
    destruct (Nat.eq_dec (S i) (length ks - 1)) as [E|N].
    + rewrite (simple_end ks vs e (el ks (S i)) L SS) by (try lia; try lra; left; f_equal; lia). replace (length ks - 2)%nat with i by lia. replace (length ks - 1)%nat with (S i) by lia. reflexivity.
    + pose proof (el_strict ks (S i) (S (S i)) SR ltac:(lia) ltac:(lia)). rewrite (simple_inside (el ks (S i)) ks vs e (S i)) by (auto; try lia; lra). rewrite line_left. rewrite line_right; [reflexivity|].
      apply Rlt_not_eq, el_strict; auto; lia.
  - rewrite (simple_below ks vs true x L) by (try lia; lra). reflexivity.
  - replace (S (length ks - 2)) with (length ks - 1)%nat by lia. apply simple_end; auto; lia.
Qed.
Lemma simple_outside ks vs x : strictly_sorted ks -> length ks = length vs -> (0 < length ks)%nat -> x < el ks 0 \/ el ks (length ks - 1) < x -> simple_interpolation x ks vs false = Ok 0.
Proof.
  intros SR L P X. destruct (Nat.eq_dec (length ks) 1) as [E|N].
  - destruct ks as [|k [|k' ks]]; cbn in E; try lia. destruct vs as [|v [|v' vs]]; cbn in L; try lia. unfold el in X. cbn in X. cbn [simple_interpolation length Nat.eqb negb nth_error of_option bind orb].
    destruct (req k x) eqn:Q; rtest Q; [subst; lra|reflexivity].
  - destruct X as [X|X]; [rewrite simple_below by (auto; try lia; apply el_strict; auto; lia); reflexivity|apply simple_above; auto; [apply strict_sorted; exact SR|lia]].
Qed.

(** The node's choice is a cell. *)
Lemma upper_index_cell e ks x : strictly_sorted ks -> (2 <= length ks)%nat -> el ks 0 <= x <= el ks (length ks - 1) \/ e = true ->
  exists j, upper_index ks x = S j /\ (S j < length ks)%nat /\ cell e ks j x.
Proof.
  intros SR L X. pose proof (strict_sorted ks SR) as SS. unfold upper_index, lower_bound. destruct (count_while_spec (fun k => rlt k x) ks) as (C1 & C2 & C3). set (n := count_while _ _) in *. clearbody n.
  destruct (Nat.eqb n 0) eqn:E0; [apply Nat.eqb_eq in E0|apply Nat.eqb_neq in E0].
  - exists 0%nat. split; [lia|]. split; [lia|]. subst n. specialize (C3 _ (el_nth ks 0 ltac:(lia))). rtest C3. unfold cell. pose proof (el_strict ks 0 1 SR ltac:(lia) ltac:(lia)). destruct X as [X|X]; [left; lra|].
    destruct (Req_dec x (el ks 0)) as [->|N]; [left; lra|right; split; [exact X|left; split; [reflexivity|lra]]].
  - pose proof (C2 (n - 1)%nat _ ltac:(lia) (el_nth ks (n - 1) ltac:(lia))) as B. rtest B.
    destruct (Nat.eqb n (length ks)) eqn:EL; [apply Nat.eqb_eq in EL|apply Nat.eqb_neq in EL].
    + exists (length ks - 2)%nat. split; [lia|]. split; [lia|]. rewrite EL in B. right. destruct X as [X|X]; [lra|]. split; [exact X|]. right. split; [reflexivity|lra].
    + exists (n - 1)%nat. split; [lia|]. split; [lia|]. left. replace (S (n - 1)) with n by lia. specialize (C3 _ (el_nth ks n ltac:(lia))). rtest C3. lra.
Qed.

Lemma find_key_spec ks k : forall i, NoDup ks -> forall j, nth_error ks j = Some k -> find_key ks k i = Some (i + j)%nat.
Proof.
  induction ks as [|a r IH]; intros i ND j Hj; [destruct j; discriminate|]. inversion ND as [|a' r' NI ND']; subst. cbn [find_key]. destruct j as [|j]; cbn in Hj.
  - injection Hj as ->. rewrite Z.eqb_refl. f_equal. lia.
  - destruct (Z.eqb a k) eqn:E; [apply Z.eqb_eq in E; subst; exfalso; apply NI; apply nth_error_In in Hj; exact Hj|]. rewrite (IH (S i) ND' j Hj). f_equal. lia.
Qed.
Lemma find_key_none ks k : forall i, ~ In k ks -> find_key ks k i = None.
Proof. induction ks as [|a r IH]; intros i N; [reflexivity|]. cbn [find_key]. destruct (Z.eqb a k) eqn:E; [apply Z.eqb_eq in E; exfalso; apply N; left; exact E|]. apply IH. intro H. apply N. right. exact H. Qed.

(** *** Every suitable call has a value *)
Lemma value_suits e grid values args y : grid_value e grid values args y -> Forall2 suits grid args.
Proof.
  induction 1; constructor; auto; cbn.
  - apply nth_error_In in H. exact H.
  - destruct ks; [cbn in H; lia|discriminate].
  - discriminate.
  - destruct ks; [cbn in H0; lia|discriminate].
Qed.
Lemma value_exists e grid args : Forall proper grid -> Forall2 suits grid args -> forall values, exists y, grid_value e grid values args y.
Proof.
  intros P F2. revert P. induction F2 as [|a c grid args H F2 IH]; intros P values; [eexists; constructor|]. inversion P as [|a' g' PA PG]; subst. specialize (IH PG).
  destruct a as [ks|ks], c as [x|k]; cbn in H; try contradiction; cbn in PA.
  - assert (OUT : e = false -> x < el ks 0 \/ el ks (length ks - 1) < x -> exists y, grid_value e (Cont ks :: grid) values (Num x :: args) y).
    { intros E X. eexists. apply GOutside; auto. destruct ks; [congruence|cbn; lia]. }
    destruct ks as [|k [|k' ks]]; [congruence| |].
    + destruct (Req_dec x k) as [->|N]; [destruct (IH (fun c => values (c ++ [0%nat]))) as (y & Hy); exists y; apply GOnly; auto|].
      destruct e; [destruct (IH (fun c => values (c ++ [0%nat]))) as (y & Hy); exists y; apply GOnly; auto|]. apply OUT; [reflexivity|]. unfold el; cbn. lra.
    + set (l := k :: k' :: ks) in *. assert (L : (2 <= length l)%nat) by (unfold l; cbn; lia).
      destruct (Rlt_dec x (el l 0)) as [B|B].
      { destruct e; [|apply OUT; auto]. destruct (IH (fun c => values (c ++ [0%nat]))) as (y1 & H1). destruct (IH (fun c => values (c ++ [1%nat]))) as (y2 & H2). eexists. eapply (GCell true l 0); eauto. }
      destruct (Rlt_dec (el l (length l - 1)) x) as [A|A].
      { destruct e; [|apply OUT; auto]. destruct (IH (fun c => values (c ++ [(length l - 2)%nat]))) as (y1 & H1). destruct (IH (fun c => values (c ++ [S (length l - 2)]))) as (y2 & H2). eexists. eapply (GCell true l (length l - 2)); eauto. lia. }
      destruct (inside_cell l x PA L ltac:(lra)) as (i & Hi & XI). destruct (IH (fun c => values (c ++ [i]))) as (y1 & H1). destruct (IH (fun c => values (c ++ [S i]))) as (y2 & H2). eexists. eapply (GCell e l i); eauto.
  - destruct (In_nth_error _ _ H) as (i & Hi). destruct (IH (fun c => values (c ++ [i]))) as (y & Hy). exists y. eapply GKey; eauto.
Qed.

(** *** Construction *)
Lemma build_all_ok {T} (f : nat -> outcome T) : forall n i, (forall j, (i <= j < i + n)%nat -> exists t, f j = Ok t) ->
  exists ts, build_all f i n = Ok ts /\ length ts = n /\ forall j t, nth_error ts j = Some t -> f (i + j)%nat = Ok t.
Proof.
  induction n as [|n IH]; intros i H; cbn [build_all].
  - exists []. split; [reflexivity|]. split; [reflexivity|]. intros [|j] t Hj; discriminate.
  - destruct (H i ltac:(lia)) as (t & E). destruct (IH (S i)) as (ts & E2 & L & N); [intros j Hj; apply H; lia|]. exists (t :: ts). rewrite E, E2. cbn [bind]. split; [reflexivity|]. split; [cbn; lia|].
    intros [|j] u Hj; cbn in Hj; [injection Hj as <-; rewrite Nat.add_0_r; exact E|]. replace (i + S j)%nat with (S i + j)%nat by lia. apply N. exact Hj.
Qed.
Lemma sorted_increasing l : sorted l -> increasing l = true.
Proof. intro H. apply increasing_sorted. exact H. Qed.

Lemma build_cons a b rest shape values e :
  build (a :: b :: rest) (shape ++ [axis_size a]) values e =
  if negb (Nat.eqb (length (shape ++ [axis_size a])) (length (a :: b :: rest))) then Throw else if negb (in_order a) then Throw
  else do subs <- build_all (fun i => build (b :: rest) shape (fun c => values (c ++ [i])) e) 0 (axis_size a); Ok (Node a subs e).
Proof.
  cbn [build]. rewrite last_last, removelast_last, Nat.eqb_refl. cbn [negb]. reflexivity.
Qed.

Definition represents (e : bool) (grid : list axis) (values : list nat -> R) (t : interp) : Prop :=
  forall args y, grid_value e grid values args y -> call t args = Ok y.

Lemma leaf_ok a values e : proper a -> represents e [a] values (Leaf a (map (fun j => values [j]) (seq 0 (axis_size a))) e).
Proof.
  intros P args y H. assert (EV : forall ks i, el (map (fun j => values [j]) (seq 0 ks)) i = if Nat.ltb i ks then values [i] else 0).
  { intros n i. unfold el. destruct (Nat.ltb i n) eqn:E; [apply Nat.ltb_lt in E|apply Nat.ltb_ge in E; apply nth_overflow; rewrite map_length, seq_length; exact E].
    rewrite (nth_indep _ 0 (values [0%nat])) by (rewrite map_length, seq_length; exact E). rewrite (map_nth (fun j => values [j])). rewrite seq_nth by exact E. reflexivity. }
  inversion H as [|ks i k g v args' y' Hk HS|ks i x g v args' y1 y2 Hi C HS1 HS2|k x g v args' y' C HS|ks x g v args' EE PL X HS]; subst; cbn in P.
  - inversion HS; subst. cbn [call leaf_value]. rewrite (find_key_spec ks k 0 P i Hk). cbn [of_option bind Nat.add axis_size]. rewrite nth_error_map. replace (nth_error (seq 0 (length ks)) i) with (Some i); [reflexivity|].
    symmetry. assert (i < length ks)%nat by (apply nth_error_Some; congruence). rewrite (nth_error_nth' _ 0%nat) by (rewrite seq_length; assumption). rewrite seq_nth by assumption. reflexivity.
  - inversion HS1; subst. inversion HS2; subst. cbn [call leaf_value axis_size]. rewrite (simple_cell e ks _ x i P) by (auto; rewrite map_length, seq_length; reflexivity). rewrite !EV. replace (Nat.ltb i (length ks)) with true by (symmetry; apply Nat.ltb_lt; lia). replace (Nat.ltb (S i) (length ks)) with true by (symmetry; apply Nat.ltb_lt; lia). reflexivity.
  - inversion HS; subst. cbn [call leaf_value axis_size length seq map simple_interpolation Nat.eqb negb nth_error of_option bind]. destruct C as [C|C]; [rewrite C; reflexivity|]. subst x. destruct (req k k) eqn:Q; rtest Q; [|contradiction]. rewrite orb_true_r. reflexivity.
  - inversion HS; subst. cbn [call leaf_value axis_size]. apply simple_outside; auto. rewrite map_length, seq_length. reflexivity.
Qed.

Lemma node_ok a grid values e subs : proper a -> Forall proper grid -> length subs = axis_size a ->
  (forall i t, nth_error subs i = Some t -> represents e grid (fun c => values (c ++ [i])) t) -> represents e (a :: grid) values (Node a subs e).
Proof.
  intros P PG L RS args y H.
  assert (SUB : forall i, (i < axis_size a)%nat -> exists t, nth_error subs i = Some t /\ represents e grid (fun c => values (c ++ [i])) t).
  { intros i Hi. destruct (nth_error subs i) as [t|] eqn:E; [exists t; split; [reflexivity|apply RS; exact E]|]. apply nth_error_None in E. lia. }
  inversion H as [|ks i k g v args' y' Hk HS|ks i x g v args' y1 y2 Hi C HS1 HS2|k x g v args' y' C HS|ks x g v args' EE PL X HS]; subst; cbn in P; cbn [axis_size] in *.
  - cbn [call]. rewrite (find_key_spec ks k 0 P i Hk). cbn [of_option bind Nat.add]. assert (i < length ks)%nat as Hi by (apply nth_error_Some; congruence). destruct (SUB i Hi) as (t & E & R). rewrite E. cbn [of_option bind]. apply R. exact HS.
  - cbn [call]. destruct ks as [|first ks']; [cbn in Hi; lia|]. set (ks := first :: ks') in *.
    assert (IN : el ks 0 <= x <= el ks (length ks - 1) \/ e = true).
    { destruct C as [C|[C _]]; [left|right; exact C]. pose proof (strict_sorted ks P) as SS. pose proof (el_sorted ks 0 i SS ltac:(lia) ltac:(lia)). pose proof (el_sorted ks (S i) (length ks - 1) SS ltac:(lia) ltac:(lia)). lra. }
    replace ((rlt x first || rlt (last ks first) x) && negb e) with false.
    2:{ symmetry. destruct IN as [IN|IN]; [|rewrite IN; rewrite andb_false_r; reflexivity]. rewrite (last_el ks first) by discriminate. change first with (el ks 0). destruct (rlt x (el ks 0)) eqn:Q1; rtest Q1; [lra|]. destruct (rlt (el ks (length ks - 1)) x) eqn:Q2; rtest Q2; [lra|reflexivity]. }
    replace (Nat.eqb (length ks) 1) with false by (symmetry; apply Nat.eqb_neq; lia).
    destruct (upper_index_cell e ks x P ltac:(lia) IN) as (j & EU & HJ & CJ). rewrite EU. replace (S j - 1)%nat with j by lia.
    pose proof (value_suits _ _ _ _ _ HS1) as ST.
    destruct (SUB j ltac:(lia)) as (t1 & E1 & R1). destruct (SUB (S j) HJ) as (t2 & E2 & R2). destruct (value_exists e grid args' PG ST (fun c => values (c ++ [j]))) as (z1 & HZ1). destruct (value_exists e grid args' PG ST (fun c => values (c ++ [S j]))) as (z2 & HZ2).
    rewrite E1. cbn [of_option bind]. rewrite (R1 _ _ HZ1). cbn [bind]. rewrite E2. cbn [of_option bind]. rewrite (R2 _ _ HZ2). cbn [bind]. rewrite (el_nth ks j), (el_nth ks (S j)) by lia. cbn [of_option bind].
    rewrite (simple_cell e [el ks j; el ks (S j)] [z1; z2] x 0); [| |reflexivity|cbn; lia|].
    + set (Y := fun n => match nth_error subs n with Some t => match call t args' with Ok v => v | _ => 0 end | None => 0 end).
      assert (YV : forall n z, (n < length ks)%nat -> grid_value e grid (fun c => values (c ++ [n])) args' z -> Y n = z).
      { intros n z Hn HZ. unfold Y. destruct (SUB n Hn) as (t & E & R). rewrite E, (R _ _ HZ). reflexivity. }
      pose proof (YV i y1 ltac:(lia) HS1) as Q1. pose proof (YV (S i) y2 Hi HS2) as Q2. pose proof (YV j z1 ltac:(lia) HZ1) as Q3. pose proof (YV (S j) z2 HJ HZ2) as Q4.
      change (Ok (line (el ks j) z1 (el ks (S j)) z2 x) = Ok (line (el ks i) y1 (el ks (S i)) y2 x)). rewrite <- Q1, <- Q2, <- Q3, <- Q4. apply f_equal. apply (cell_line e ks); auto.
    + apply strict_el. intros [|n] Hn; cbn in Hn; [|lia]. change (el ks j < el ks (S j)). apply el_strict; auto; lia.
    + unfold cell in *. change (el [el ks j; el ks (S j)] 0) with (el ks j). change (el [el ks j; el ks (S j)] 1) with (el ks (S j)). cbn [length Nat.sub]. destruct CJ as [CJ|(-> & [(-> & CJ)|(-> & CJ)])]; [left; exact CJ|right; split; [reflexivity|left; split; [reflexivity|exact CJ]]|right; split; [reflexivity|right; split; [reflexivity|]]].
      change (el [el ks (length ks - 2); el ks (S (length ks - 2))] 1) with (el ks (S (length ks - 2))). replace (S (length ks - 2)) with (length ks - 1)%nat by lia. exact CJ.
  - cbn [call last length Nat.eqb]. replace ((rlt x k || rlt k x) && negb e) with false.
    2:{ symmetry. destruct C as [C|C]; [rewrite C; apply andb_false_r|]. subst x. destruct (rlt k k) eqn:Q; rtest Q; [lra|reflexivity]. }
    destruct (SUB 0%nat ltac:(cbn; lia)) as (t & E & R). rewrite E. cbn [of_option bind]. apply R. exact HS.
  - cbn [call]. destruct ks as [|first ks']; [cbn in PL; lia|]. rewrite (last_el (first :: ks') first) by discriminate. change (el (first :: ks') 0) with first in X. replace ((rlt x first || rlt (el (first :: ks') (length (first :: ks') - 1)) x) && negb false) with true; [reflexivity|].
    symmetry. cbn [negb]. rewrite andb_true_r. apply orb_true_iff. destruct X as [X|X]; [left; apply rlt_iff; exact X|right; apply rlt_iff; exact X].
Qed.

Lemma build_ok e grid : forall values, grid <> [] -> Forall proper grid -> exists t, build grid (rev (map axis_size grid)) values e = Ok t /\ represents e grid values t.
Proof.
  induction grid as [|a grid IH]; intros values N P; [congruence|]. inversion P as [|a' g' PA PG]; subst. destruct grid as [|b grid].
  - cbn [build map rev app]. rewrite Nat.eqb_refl. cbn [negb]. eexists. split; [reflexivity|]. apply leaf_ok. exact PA.
  - change (rev (map axis_size (a :: b :: grid))) with (rev (map axis_size (b :: grid)) ++ [axis_size a]). rewrite build_cons.
    rewrite app_length, rev_length, map_length. replace (Nat.eqb (length (b :: grid) + length [axis_size a]) (length (a :: b :: grid))) with true by (symmetry; apply Nat.eqb_eq; cbn; lia). cbn [negb].
    replace (in_order a) with true by (symmetry; destruct a as [ks|ks]; [apply sorted_increasing, strict_sorted, PA|reflexivity]). cbn [negb].
    destruct (build_all_ok (fun i => build (b :: grid) (rev (map axis_size (b :: grid))) (fun c => values (c ++ [i])) e) (axis_size a) 0) as (subs & E & L & NS).
    { intros j _. destruct (IH (fun c => values (c ++ [j])) ltac:(discriminate) PG) as (t & Et & _). exists t. exact Et. }
    rewrite E. cbn [bind]. eexists. split; [reflexivity|]. apply node_ok; auto. intros i t Ht. specialize (NS i t Ht). cbn [Nat.add] in NS. destruct (IH (fun c => values (c ++ [i])) ltac:(discriminate) PG) as (t' & Et & R). rewrite Et in NS. injection NS as <-. exact R.
Qed.
