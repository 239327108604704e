(** The comparisons made by the extraction of modes in double precision. *)
From Coq Require Import ZArith Reals List Arith Bool Lia Lra.
From Flocq Require Import Core IEEE754.BinarySingleNaN.
From Verif Require Import Common CumulModel CumulProofs FloatModel FloatProofs DoubleProofs DoubleProofs2 DInterpModel DInterpProofs DInterpProofs2 DSOMProofs DSOMProofs2 DPieceSpec DPieceProofs
  DSplineSpec DModeModel DModeSpec.
Import ListNotations.
Local Open Scope nat_scope.

Lemma at_val l i : i < length l -> at_ l i = Ok (dval l i).
Proof. intro H. unfold at_, dval. rewrite (nth_error_nth' l d0 H). reflexivity. Qed.
Lemma val_nth_error l i a : nth_error l i = Some a -> dval l i = a.
Proof. intro H. unfold dval. apply nth_error_nth. exact H. Qed.
Lemma val_some l i : i < length l -> nth_error l i = Some (dval l i).
Proof. intro H. apply nth_error_nth'. exact H. Qed.
Lemma val_in l i : i < length l -> In (dval l i) l.
Proof. apply nth_In. Qed.
Lemma num_dle (a b : double) : dle a b = true -> num a /\ num b.
Proof. apply dle_nums. Qed.
Lemma ok_inj {A} (a b : A) : Ok a = Ok b -> a = b.
Proof. congruence. Qed.
Lemma some_inj {A} (a b : A) : Some a = Some b -> a = b.
Proof. congruence. Qed.
Lemma bool_not b : b = false -> ~ b = true. Proof. intros ->. discriminate. Qed.

(** *** The highest sample *)
Lemma max_from_spec l : Forall num l -> forall index max mi, num max ->
  let r := dmax_index_from l index max mi in
  (r = mi /\ forall i, i < length l -> dle (dval l i) max = true) \/
  (exists k, r = index + k /\ k < length l /\ dlt max (dval l k) = true /\ (forall i, i < length l -> dle (dval l i) (dval l k) = true) /\ forall i, i < k -> dlt (dval l i) (dval l k) = true).
Proof.
  induction l as [|v r IH]; intros NL index max mi NM; cbn [dmax_index_from].
  - left. split; [reflexivity|]. cbn. lia.
  - inversion_clear NL as [|? ? NV NR]. specialize (IH NR). destruct (dlt max v) eqn:E.
    + right. destruct (IH (S index) v index NV) as [[H1 H2]|(k & H1 & H2 & H3 & H4 & H5)].
      * exists 0. rewrite H1. split; [lia|]. split; [cbn; lia|]. split; [exact E|]. split; [|intros i Hi; lia].
        intros [|i] Hi; [apply dle_iff; [exact NV|exact NV|apply Rle_refl]|]. cbn in Hi. apply (H2 i). lia.
      * exists (S k). rewrite H1. split; [lia|]. split; [cbn; lia|]. unfold dval in *. cbn [nth]. split; [exact (dlt_le_trans _ _ _ E (dlt_le _ _ H3))|]. split.
        -- intros [|i] Hi; cbn [nth]; [apply dlt_le, H3|]. cbn in Hi. apply H4. lia.
        -- intros [|i] Hi; cbn [nth]; [exact H3|]. apply H5. lia.
    + apply not_lt_le in E; [|exact NM|exact NV]. destruct (IH (S index) max mi NM) as [[H1 H2]|(k & H1 & H2 & H3 & H4 & H5)].
      * left. split; [exact H1|]. intros [|i] Hi; [exact E|]. cbn in Hi. apply (H2 i). lia.
      * right. exists (S k). rewrite H1. split; [lia|]. split; [cbn; lia|]. unfold dval in *. cbn [nth]. split; [exact H3|]. split.
        -- intros [|i] Hi; cbn [nth]; [exact (dle_trans _ _ _ E (dlt_le _ _ H3))|]. cbn in Hi. apply H4. lia.
        -- intros [|i] Hi; cbn [nth]; [exact (dle_lt_trans _ _ _ E H3)|]. apply H5. lia.
Qed.
Lemma max_from_lt l : forall index max mi, mi < index + length l -> dmax_index_from l index max mi < index + length l.
Proof.
  induction l as [|v r IH]; intros index max mi H; cbn [dmax_index_from length] in *; [exact H|].
  destruct (dlt max v); (replace (index + S (length r)) with (S index + length r) by lia); apply IH; lia.
Qed.
Lemma max_index_lt ys : ys <> [] -> dfind_maximum_index ys < length ys.
Proof. intro H. apply (max_from_lt ys 0). destruct ys; [congruence|cbn; lia]. Qed.
Lemma max_index_highest ys : ys <> [] -> (forall y, In y ys -> dle d0 y = true) -> dhighest ys (dfind_maximum_index ys).
Proof.
  intros N P. assert (NL : Forall num ys) by (apply Forall_forall; intros y Hy; apply (dle_nums _ _ (P y Hy))).
  unfold dfind_maximum_index. destruct (max_from_spec ys NL 0 (d2 (-1) 0) 0 eq_refl) as [[H1 H2]|(k & H1 & H2 & H3 & H4 & H5)].
  - exfalso. destruct ys as [|y r]; [congruence|]. specialize (H2 0 ltac:(cbn; lia)). specialize (P y (or_introl eq_refl)). unfold dval in H2. cbn [nth] in H2.
    pose proof (dle_trans _ _ _ P H2) as X. vm_compute in X. discriminate.
  - rewrite H1. cbn [plus]. split; [exact H2|]. split; assumption.
Qed.

(** *** The range *)
Lemma catch_left_ok ys thr : forall pos mn, pos < length ys ->
  exists lo, dcatch_left ys thr pos mn = Ok lo /\ (lo = mn \/ 1 <= lo <= pos).
Proof.
  induction pos as [|below IH]; intros mn H; cbn [dcatch_left]; [eexists; split; [reflexivity|auto]|].
  rewrite (at_val ys (S below)) by lia. cbn [bind]. destruct (deq _ d0); [eexists; split; [reflexivity|auto]|].
  rewrite (at_val ys below) by lia. cbn [bind]. destruct (_ && _); [eexists; split; [reflexivity|right; lia]|].
  destruct (IH (S below) ltac:(lia)) as (lo & E & B). exists lo. split; [exact E|]. right. lia.
Qed.
Lemma catch_right_ok ys thr : forall todo pos mx, pos + todo + 1 = length ys ->
  exists hi, dcatch_right ys thr todo pos mx = Ok hi /\ (hi = mx \/ pos <= hi /\ hi + 2 <= length ys).
Proof.
  induction todo as [|t IH]; intros pos mx H; cbn [dcatch_right]; [eexists; split; [reflexivity|auto]|].
  rewrite (at_val ys pos) by lia. cbn [bind]. destruct (deq _ d0); [eexists; split; [reflexivity|auto]|].
  rewrite (at_val ys (S pos)) by lia. cbn [bind]. destruct (_ && _); [eexists; split; [reflexivity|right; lia]|].
  destruct (IH (S pos) pos ltac:(lia)) as (hi & E & B). exists hi. split; [exact E|]. right. lia.
Qed.
Lemma catch_left_spec ys thr : forall pos lo, pos < length ys -> dcatch_left ys thr pos (S pos) = Ok lo ->
  lo <= S pos /\ 1 <= lo /\
  (forall i, lo <= i <= pos -> ~ is_zero (dval ys i)) /\ (forall i, lo < i <= pos -> ~ dvalley_left ys thr i) /\
  (lo = 1 \/ is_zero (dval ys (lo - 1)) \/ lo <= pos /\ dvalley_left ys thr lo).
Proof.
  induction pos as [|below IH]; intros lo H E; cbn [dcatch_left] in E.
  - injection E as <-. split; [lia|]. split; [lia|]. split; [intros; lia|]. split; [intros; lia|auto].
  - rewrite (at_val ys (S below)) in E by lia. cbn [bind] in E. destruct (deq (dval ys (S below)) d0) eqn:Z.
    + injection E as <-.  split; [lia|]. split; [lia|]. split; [intros; lia|]. split; [intros; lia|].
      right. left. replace (S (S below) - 1) with (S below) by lia. exact Z.
    + apply bool_not in Z. rewrite (at_val ys below) in E by lia. cbn [bind] in E.
      destruct (dlt (dval ys (S below)) thr && dle (dval ys (S below)) (dval ys below)) eqn:V.
      * injection E as <-. apply andb_true_iff in V. destruct V as [V1 V2]. 
        split; [lia|]. split; [lia|]. split; [intros i Hi; replace i with (S below) by lia; exact Z|]. split; [intros; lia|].
        right. right. split; [lia|]. split; [exact V1|]. replace (S below - 1) with below by lia. exact V2.
      * destruct (IH lo ltac:(lia) E) as (A & A1 & B & C & D). split; [lia|]. split; [exact A1|]. split; [|split].
        -- intros i Hi. destruct (Nat.eq_dec i (S below)) as [->|]; [exact Z|apply B; lia].
        -- intros i Hi. destruct (Nat.eq_dec i (S below)) as [->|]; [|apply C; lia].
           intros [V1 V2]. replace (S below - 1) with below in V2 by lia.
            rewrite V1, V2 in V. discriminate.
        -- destruct D as [D|[D|[D1 D2]]]; [auto|auto|]. right. right. split; [lia|exact D2].
Qed.
Lemma catch_right_spec ys thr : forall todo pos hi, pos + todo + 1 = length ys -> 1 <= pos -> dcatch_right ys thr todo pos (pos - 1) = Ok hi ->
  pos <= hi + 1 /\ hi + 2 <= length ys /\
  (forall i, pos <= i <= hi -> ~ is_zero (dval ys i)) /\ (forall i, pos <= i < hi -> ~ dvalley_right ys thr i) /\
  (hi + 2 = length ys \/ is_zero (dval ys (hi + 1)) \/ pos <= hi /\ dvalley_right ys thr hi).
Proof.
  induction todo as [|t IH]; intros pos hi H P E; cbn [dcatch_right] in E.
  - injection E as <-. split; [lia|]. split; [lia|]. split; [intros; lia|]. split; [intros; lia|]. left; lia.
  - rewrite (at_val ys pos) in E by lia. cbn [bind] in E. destruct (deq (dval ys pos) d0) eqn:Z.
    + injection E as <-.  split; [lia|]. split; [lia|]. split; [intros; lia|]. split; [intros; lia|].
      right. left. replace (pos - 1 + 1) with pos by lia. exact Z.
    + apply bool_not in Z. rewrite (at_val ys (S pos)) in E by lia. cbn [bind] in E.
      destruct (dlt (dval ys pos) thr && dle (dval ys pos) (dval ys (S pos))) eqn:V.
      * injection E as <-. apply andb_true_iff in V. destruct V as [V1 V2]. 
        split; [lia|]. split; [lia|]. split; [intros i Hi; replace i with pos by lia; exact Z|]. split; [intros; lia|].
        right. right. split; [lia|]. split; [exact V1|]. replace (pos + 1) with (S pos) by lia. exact V2.
      * destruct (IH (S pos) hi ltac:(lia) ltac:(lia)) as (A & A1 & B & C & D); [replace (S pos - 1) with pos by lia; exact E|].
        split; [lia|]. split; [exact A1|]. split; [|split].
        -- intros i Hi. destruct (Nat.eq_dec i pos) as [->|]; [exact Z|apply B; lia].
        -- intros i Hi. destruct (Nat.eq_dec i pos) as [->|]; [|apply C; lia].
           intros [V1 V2]. replace (pos + 1) with (S pos) in V2 by lia.
            rewrite V1, V2 in V. discriminate.
        -- destruct D as [D|[D|[D1 D2]]]; [auto|auto|]. right. right. split; [lia|exact D2].
Qed.
Lemma catch_peak_ok ys c merge : c < length ys ->
  exists lo hi, dcatch_peak ys c merge = Ok (lo, hi) /\ lo <= c /\ c <= hi /\ hi < length ys.
Proof.
  intro H. unfold dcatch_peak. rewrite (at_val ys c H). cbn [bind]. cbv zeta.
  destruct (catch_left_ok ys (dmul (dsub d1 merge) (dval ys c)) c 0 H) as (lo & E & B). rewrite E. cbn [bind].
  destruct (catch_right_ok ys (dmul (dsub d1 merge) (dval ys c)) (length ys - 1 - c) c (length ys - 1) ltac:(lia)) as (hi & E2 & B2). rewrite E2. cbn [bind].
  exists lo, hi. split; [reflexivity|]. lia.
Qed.
Lemma catch_peak_range ys c merge lo hi : c < length ys -> dcatch_peak ys c merge = Ok (lo, hi) -> dmode_range ys merge c lo hi.
Proof.
  intros H E. unfold dcatch_peak in E. rewrite (at_val ys c H) in E. cbn [bind] in E. cbv zeta in E.
  set (thr := (dmul (dsub d1 merge) (dval ys c))) in *.
  destruct (dcatch_left ys thr c 0) as [l| | |] eqn:EL; cbn [bind] in E; try discriminate.
  destruct (dcatch_right ys thr (length ys - 1 - c) c (length ys - 1)) as [h| | |] eqn:ER; cbn [bind] in E; try discriminate.
  injection E as <- <-. destruct (deq (dval ys c) d0) eqn:Z.
  - left. split; [exact Z|]. split.
    + destruct c; cbn [dcatch_left] in EL; [injection EL as <-; reflexivity|]. rewrite (at_val ys (S c) H) in EL. cbn [bind] in EL. rewrite Z in EL. injection EL as <-. reflexivity.
    + destruct (length ys - 1 - c); cbn [dcatch_right] in ER; [injection ER as <-; reflexivity|]. rewrite (at_val ys c H) in ER. cbn [bind] in ER. rewrite Z in ER. injection ER as <-. reflexivity.
  - right. pose proof (bool_not _ Z) as NZ. split; [exact NZ|]. split.
    + destruct c as [|b]; cbn [dcatch_left] in EL; [injection EL as <-; left; auto|]. right.
      assert (EL' : dcatch_left ys thr (S b) (S (S b)) = Ok l).
      { cbn [dcatch_left]. rewrite (at_val ys (S b) H) in EL |- *. cbn [bind] in EL |- *. rewrite Z in EL |- *. exact EL. }
      destruct (catch_left_spec ys thr (S b) l H EL') as (A & A1 & B & C & D).
      assert (l <= S b).
      { destruct (Nat.eq_dec l (S (S b))) as [->|]; [exfalso|lia]. destruct D as [D|[D|[D _]]]; [lia| |lia].
        replace (S (S b) - 1) with (S b) in D by lia. contradiction. }
      split; [lia|]. split; [exact B|]. split; [exact C|]. destruct D as [D|[D|[_ D]]]; auto.
    + unfold dright_end. remember (length ys - 1 - c) as t eqn:Et. destruct t as [|t]; cbn [dcatch_right] in ER; [injection ER as <-; left; lia|]. right.
      rewrite (at_val ys c H) in ER. cbn [bind] in ER. rewrite Z in ER. rewrite (at_val ys (S c)) in ER by lia. cbn [bind] in ER.
      destruct (dlt (dval ys c) thr && dle (dval ys c) (dval ys (S c))) eqn:V.
      * injection ER as <-. apply andb_true_iff in V. destruct V as [V1 V2]. 
        split; [lia|]. split; [lia|]. split; [intros i Hx; replace i with c by lia; exact NZ|]. split; [intros; lia|].
        right. right. split; [exact V1|]. replace (c + 1) with (S c) by lia. exact V2.
      * destruct (catch_right_spec ys thr t (S c) h ltac:(lia) ltac:(lia)) as (A & A1 & B & C & D); [replace (S c - 1) with c by lia; exact ER|].
        split; [lia|]. split; [exact A1|]. split; [|split].
        -- intros i Hx. destruct (Nat.eq_dec i c) as [->|]; [exact NZ|apply B; lia].
        -- intros i Hx. destruct (Nat.eq_dec i c) as [->|]; [|apply C; lia].
           intros [V1 V2]. change (dlt (dval ys c) thr = true) in V1. replace (c + 1) with (S c) in V2 by lia.
            rewrite V1, V2 in V. discriminate.
        -- destruct D as [D|[D|[_ D]]]; auto.
Qed.

Lemma delta_x_cell xs i : 2 <= length xs -> i < length xs -> ddelta_x xs i = Ok (dcell xs i).
Proof.
  intros L H. unfold ddelta_x, dcell. destruct (Nat.eqb i 0) eqn:E0.
  - apply Nat.eqb_eq in E0. subst i. rewrite (at_val xs (0 + 1)), (at_val xs 0) by lia. reflexivity.
  - apply Nat.eqb_neq in E0. destruct (Nat.eqb i (length xs - 1)) eqn:E1.
    + rewrite (at_val xs i), (at_val xs (i - 1)) by lia. reflexivity.
    + apply Nat.eqb_neq in E1. rewrite (at_val xs (i + 1)), (at_val xs (i - 1)) by lia. reflexivity.
Qed.
(** *** Flattening *)
Lemma set_range_spec : forall l n k, k + n <= length l ->
  exists l', dset_range l k n d0 = Ok l' /\ length l' = length l /\ forall i, i < length l -> dval l' i = if (k <=? i) && (i <? k + n) then d0 else dval l i.
Proof.
  induction l as [|a r IH]; intros n k H.
  - cbn in H. assert (n = 0) by lia. subst n. exists []. cbn. split; [reflexivity|]. split; [reflexivity|]. intros; lia.
  - cbn [length] in H. destruct n as [|n].
    + exists (a :: r). split; [reflexivity|]. split; [reflexivity|]. intros i Hi. destruct ((k <=? i) && (i <? k + 0)) eqn:E; [|reflexivity].
      apply andb_true_iff in E. destruct E as [E1 E2]. apply Nat.leb_le in E1. apply Nat.ltb_lt in E2. lia.
    + destruct k as [|k]; cbn [dset_range].
      * destruct (IH n 0 ltac:(lia)) as (t & E & L & V). rewrite E. cbn [bind]. exists (d0 :: t). split; [reflexivity|]. split; [cbn; lia|].
        intros [|i] Hi; [reflexivity|]. cbn [length] in Hi. unfold dval in *. cbn [nth]. rewrite V by lia. reflexivity.
      * destruct (IH (S n) k ltac:(lia)) as (t & E & L & V). rewrite E. cbn [bind]. exists (a :: t). split; [reflexivity|]. split; [cbn; lia|].
        intros [|i] Hi; [reflexivity|]. cbn [length] in Hi. unfold dval in *. cbn [nth]. rewrite V by lia. reflexivity.
Qed.
Lemma flatten_spec ys lo hi : lo <= hi -> hi < length ys -> exists ys', dflattern_peak ys lo hi d0 = Ok ys' /\ dzeroed ys lo hi ys'.
Proof.
  intros A B. unfold dflattern_peak. destruct (set_range_spec ys (hi + 1 - lo) lo ltac:(lia)) as (l & E & L & V).
  exists l. split; [exact E|]. split; [exact L|]. intros i Hi. rewrite (V i Hi).
  replace (lo + (hi + 1 - lo)) with (S hi) by lia. destruct (lo <=? i); [|reflexivity]. cbn [andb].
  destruct (i <? S hi) eqn:X, (i <=? hi) eqn:Y; auto; exfalso.
  - apply Nat.ltb_lt in X. apply Nat.leb_gt in Y. lia.
  - apply Nat.ltb_ge in X. apply Nat.leb_le in Y. lia.
Qed.


(** *** Areas *)
Lemma area_loop_spec xs ys : length xs = length ys -> 2 <= length xs -> forall n i num area, i + n <= length xs ->
  darea_loop xs ys n i num area =
    Ok (fold_left dadd (map (fun i => dmul (dmul (dval xs i) (dval ys i)) (dcell xs i)) (seq i n)) num,
        fold_left dadd (map (fun i => dmul (dval ys i) (dcell xs i)) (seq i n)) area).
Proof.
  intros LE L2. induction n as [|n IH]; intros i num area H; cbn [darea_loop seq map fold_left]; [reflexivity|].
  rewrite (delta_x_cell xs i) by lia. rewrite (at_val xs i), (at_val ys i) by lia. cbn [bind]. apply IH. lia.
Qed.
Lemma avg_area_spec xs ys lo hi : length xs = length ys -> 2 <= length xs -> lo <= hi -> hi < length xs ->
  davg_area xs ys lo hi = Ok (ddiv (dmoment_between xs ys lo hi) (darea_between xs ys lo hi), darea_between xs ys lo hi).
Proof. intros LE L2 H1 H2. unfold davg_area. rewrite (area_loop_spec xs ys LE L2) by lia. reflexivity. Qed.

(** *** Interpolation *)
Lemma front_val (xs : list double) : xs <> [] -> front xs = Ok (dval xs 0).
Proof. destruct xs; [congruence|reflexivity]. Qed.
Lemma back_val (xs : list double) : xs <> [] -> back xs = Ok (dval xs (length xs - 1)).
Proof. intro H. apply back_last. apply val_some. destruct xs; [congruence|cbn; lia]. Qed.
Lemma interpolation_value xs ys c : length xs = length ys -> 3 <= length xs -> c < length xs ->
  exists v, dinterpolation_around xs ys c = Ok (if dlt v (dval xs 0) then dval xs 0 else if dlt (dval xs (length xs - 1)) v then dval xs (length xs - 1) else v).
Proof.
  intros LE L3 H. unfold dinterpolation_around.
  assert (N : xs <> []) by (intros ->; cbn in L3; lia).
  destruct (length xs <=? c) eqn:A; [apply Nat.leb_le in A; lia|].
  set (i := if Nat.eqb c 0 then c + 1 else if Nat.eqb (c + 1) (length xs) then c - 1 else c).
  assert (I : 1 <= i /\ i + 2 <= length xs).
  { unfold i. destruct (Nat.eqb c 0) eqn:C0; [apply Nat.eqb_eq in C0; lia|]. apply Nat.eqb_neq in C0.
    destruct (Nat.eqb (c + 1) (length xs)) eqn:C1; [apply Nat.eqb_eq in C1; lia|apply Nat.eqb_neq in C1; lia]. }
  clearbody i. destruct I as [I1 I2]. cbv zeta.
  destruct (Nat.eqb i 0) eqn:Z; [apply Nat.eqb_eq in Z; lia|].
  rewrite !at_val by lia. cbn [bind]. rewrite front_val, back_val by exact N. cbn [bind]. eexists. reflexivity.
Qed.
Lemma clamp_range (a b v : double) : dle a b = true ->
  let r := if dlt v a then a else if dlt b v then b else v in is_nan r = true \/ dle a r = true /\ dle r b = true.
Proof.
  intro H. cbv zeta. destruct (dle_nums _ _ H) as [NA NB].
  assert (RA : dle a a = true) by (apply dle_iff; auto using Rle_refl). assert (RB : dle b b = true) by (apply dle_iff; auto using Rle_refl).
  destruct (dlt v a) eqn:A; [auto|]. destruct (dlt b v) eqn:B; [auto|]. destruct (is_nan v) eqn:NV; [auto|right].
  split; apply not_lt_le; assumption.
Qed.

(** *** One round *)
Lemma next_mode_ok xs ys merge : length xs = length ys -> 3 <= length xs ->
  exists m ys' lo hi, let c := dfind_maximum_index ys in dnext_mode xs ys merge = Ok (m, ys') /\ length ys' = length ys /\
    dmode_range ys merge c lo hi /\ lo <= c <= hi /\ hi < length ys /\
    dzeroed ys lo hi ys' /\ dm_sample m = dval xs c /\ dm_area m = darea_between xs ys lo hi /\
    dm_mean m = ddiv (dmoment_between xs ys lo hi) (darea_between xs ys lo hi) /\
    (dle (dval xs 0) (dval xs (length xs - 1)) = true -> is_nan (dm_interp m) = true \/ dle (dval xs 0) (dm_interp m) = true /\ dle (dm_interp m) (dval xs (length xs - 1)) = true).
Proof.
  intros LE L3. unfold dnext_mode. cbv zeta. assert (N : ys <> []) by (intros ->; cbn in LE; lia).
  pose proof (max_index_lt ys N) as HC. set (c := dfind_maximum_index ys) in *.
  destruct (catch_peak_ok ys c merge HC) as (lo & hi & E & B1 & B2 & B3). rewrite E. cbn [bind fst snd].
  rewrite (avg_area_spec xs ys lo hi LE ltac:(lia) ltac:(lia) ltac:(lia)). cbn [bind fst snd].
  destruct (interpolation_value xs ys c LE L3 ltac:(lia)) as (v & EI). rewrite EI. cbn [bind].
  rewrite (at_val xs c) by lia. cbn [bind]. destruct (flatten_spec ys lo hi ltac:(lia) B3) as (ys' & EF & ZF). rewrite EF. cbn [bind].
  eexists _, ys', lo, hi. split; [reflexivity|]. split; [apply ZF|]. split; [apply catch_peak_range; auto|]. split; [lia|]. split; [exact B3|].
  cbn [dm_sample dm_area dm_mean dm_interp]. split; [exact ZF|]. split; [reflexivity|]. split; [reflexivity|]. split; [reflexivity|apply clamp_range].
Qed.
Lemma next_mode_spec xs ys merge : is_dpdf xs ys ->
  exists m ys' c lo hi, dnext_mode xs ys merge = Ok (m, ys') /\ dhighest ys c /\ dmode_range ys merge c lo hi /\ lo <= c <= hi /\ hi < length ys /\
    ddescribes xs ys c lo hi m /\ dzeroed ys lo hi ys'.
Proof.
  intros (LE & L3 & FX & SR & P). assert (N : ys <> []) by (intros ->; cbn in LE; lia).
  destruct (next_mode_ok xs ys merge LE L3) as (m & ys' & lo & hi & E & _ & MR & B & B3 & Z & S1 & S2 & S3 & S4).
  exists m, ys', (dfind_maximum_index ys), lo, hi. split; [exact E|]. split; [apply max_index_highest; auto|].
  split; [exact MR|]. split; [exact B|]. split; [exact B3|]. split; [|exact Z].
  split; [exact S1|]. split; [exact S2|]. split; [exact S3|]. apply S4. apply dlt_le. apply SR; lia.
Qed.
Lemma zeroed_pdf xs ys lo hi ys' : is_dpdf xs ys -> dzeroed ys lo hi ys' -> is_dpdf xs ys'.
Proof.
  intros (LE & L3 & FX & SR & P) (L & V). split; [lia|]. split; [exact L3|]. split; [exact FX|]. split; [exact SR|]. intros y Hy.
  apply In_nth with (d := d0) in Hy. destruct Hy as (i & Hi & <-). fold (dval ys' i). rewrite V by lia.
  destruct (_ && _); [reflexivity|]. apply P. apply val_in. lia.
Qed.
Lemma highest_ok xs merge : forall n ys, length xs = length ys -> 3 <= length xs -> exists l, dhighest_modes xs ys merge n = Ok l /\ length l = n.
Proof.
  induction n as [|n IH]; intros ys LE L3; [exists []; auto|]. cbn [dhighest_modes].
  destruct (next_mode_ok xs ys merge LE L3) as (m & ys' & lo & hi & E & LL & _). rewrite E. cbn [bind fst snd].
  destruct (IH ys' ltac:(lia) L3) as (l & E2 & L). rewrite E2. cbn [bind]. exists (m :: l). split; [reflexivity|cbn; lia].
Qed.
Lemma highest_step xs ys merge n l : is_dpdf xs ys -> dhighest_modes xs ys merge (S n) = Ok l ->
  exists m r ys' c lo hi, l = m :: r /\ dhighest ys c /\ dmode_range ys merge c lo hi /\ lo <= c <= hi /\ hi < length ys /\
    ddescribes xs ys c lo hi m /\ dzeroed ys lo hi ys' /\ is_dpdf xs ys' /\ dhighest_modes xs ys' merge n = Ok r.
Proof.
  intros I E. cbn [dhighest_modes] in E. destruct (next_mode_spec xs ys merge I) as (m & ys' & c & lo & hi & EN & H1 & H2 & H3 & H4 & H5 & H6).
  rewrite EN in E. cbn [bind fst snd] in E. destruct (dhighest_modes xs ys' merge n) as [r| | |] eqn:ER; cbn [bind] in E; try discriminate.
  exists m, r, ys', c, lo, hi. apply ok_inj in E. subst l. repeat (split; [assumption || reflexivity|]). split; [eapply zeroed_pdf; eauto|exact ER].
Qed.

(** *** The biggest modes *)
Lemma insert_in m : forall l size n x, In x (dinsert_mode m l size n) -> x = m \/ In x l.
Proof.
  induction l as [|a r IH]; intros size n x H; cbn [dinsert_mode] in H.
  - destruct (size <? n); [destruct H as [<-|[]]; auto|destruct H].
  - destruct (dlt _ _); [destruct H as [<-|H]; auto|]. destruct H as [<-|H]; [right; left; auto|]. destruct (IH _ _ _ H); [auto|right; right; auto].
Qed.
Lemma insert_keeps m : forall l size n x, In x l -> In x (dinsert_mode m l size n).
Proof.
  induction l as [|a r IH]; intros size n x H; [destruct H|]. cbn [dinsert_mode]. destruct (dlt _ _); [right; exact H|].
  destruct H as [<-|H]; [left; auto|right; auto].
Qed.
Lemma insert_new m : forall l size n, (In m (dinsert_mode m l size n) /\ length (dinsert_mode m l size n) = S (length l) /\
    (size < n \/ exists a, In a l /\ dlt (dm_area a) (dm_area m) = true)) \/
  (n <= size /\ dinsert_mode m l size n = l /\ forall a, In a l -> dlt (dm_area a) (dm_area m) = false).
Proof.
  induction l as [|a r IH]; intros size n; cbn [dinsert_mode].
  - destruct (size <? n) eqn:E; [left; split; [left; auto|split; [reflexivity|left; apply Nat.ltb_lt; exact E]]|].
    right. apply Nat.ltb_ge in E. split; [exact E|]. split; [reflexivity|]. intros ? [].
  - destruct (dlt (dm_area a) (dm_area m)) eqn:E.
    { left; split; [left; auto|split; [reflexivity|]]. right. exists a. split; [left; auto|exact E]. }
    destruct (IH size n) as [(H1 & H2 & H3)|(H1 & H2 & H3)].
    + left; split; [right; auto|split; [cbn [length]; rewrite H2; reflexivity|]]. destruct H3 as [H3|(b & H3 & H4)]; [auto|right; exists b; split; [right; auto|auto]].
    + right. split; [exact H1|]. split; [rewrite H2; reflexivity|]. intros b [<-|Hb]; auto.
Qed.
Lemma by_area_cons a l : dby_area (a :: l) <-> (forall b, In b l -> dlt (dm_area a) (dm_area b) = false) /\ dby_area l.
Proof.
  split.
  - intro H. split.
    + intros b Hb. apply In_nth_error in Hb. destruct Hb as (i & Hi). apply (H 0 (S i)); [lia|reflexivity|exact Hi].
    + intros i j x y Hij Hx Hy. apply (H (S i) (S j)); [lia|exact Hx|exact Hy].
  - intros [H1 H2] i j x y Hij Hx Hy. destruct j as [|j]; [lia|]. cbn in Hy. destruct i as [|i].
    + cbn in Hx. apply some_inj in Hx. subst x. apply H1. eapply nth_error_In. exact Hy.
    + apply (H2 i j); [lia|exact Hx|exact Hy].
Qed.
Lemma lt_trans_false (a m c : double) : dlt a m = true -> dlt a c = false -> dlt m c = false.
Proof.
  intros A B. destruct (dlt m c) eqn:C; [|reflexivity]. rewrite (dlt_le_trans _ _ _ A (dlt_le _ _ C)) in B. discriminate.
Qed.
Lemma lt_asym (a m : double) : dlt a m = true -> dlt m a = false.
Proof. intros A. destruct (dlt m a) eqn:C; [|reflexivity]. pose proof (dlt_le_trans _ _ _ A (dlt_le _ _ C)) as X. destruct (dlt_nums _ _ X) as [N _]. apply dlt_iff in X; [|exact N|exact N]. lra. Qed.
Lemma insert_sorted m : forall l size n, dby_area l -> dby_area (dinsert_mode m l size n).
Proof.
  induction l as [|a r IH]; intros size n H; cbn [dinsert_mode].
  - destruct (size <? n); [|exact H]. apply by_area_cons. split; [intros b []|exact H].
  - pose proof (proj1 (by_area_cons a r) H) as [H1 H2]. destruct (dlt (dm_area a) (dm_area m)) eqn:E.
    + apply by_area_cons. split; [|exact H]. intros b [<-|Hb]; [apply lt_asym, E|]. exact (lt_trans_false _ _ _ E (H1 b Hb)).
    + apply by_area_cons. split; [|apply IH; exact H2]. intros b Hb. destruct (insert_in _ _ _ _ _ Hb) as [->|Hb']; [exact E|auto].
Qed.
Lemma insert_length m l size n : length l <= length (dinsert_mode m l size n) <= S (length l).
Proof. destruct (insert_new m l size n) as [(_ & H & _)|(_ & H & _)]; rewrite H; lia. Qed.
Lemma mode_back (l : list dmode) : l <> [] -> exists b, back l = Ok b.
Proof.
  intro N. assert (L : length l - 1 < length l) by (destruct l; [congruence|cbn; lia]). destruct (nth_ok l _ L) as (b & Hb).
  exists b. apply back_last; exact Hb.
Qed.
Lemma biggest_loop_ok xs merge n : 1 <= n -> forall fuel ys loop total result,
  length xs = length ys -> 3 <= length xs -> 3 * n + 2 <= fuel + loop -> Nat.min loop n <= length result -> dby_area result -> length result <= loop ->
  loop <= 3 * n + 1 ->
  exists l, dbiggest_loop fuel xs ys merge n loop total result = Ok l /\ n <= length l /\ length l <= 3 * n + 2 /\ dby_area l.
Proof.
  intro N1. induction fuel as [|fuel IH]; intros ys loop total result LE L3 F LR SR LM LB; [lia|]. cbn [dbiggest_loop].
  destruct (next_mode_ok xs ys merge LE L3) as (m & ys' & lo & hi & E & LL & _). rewrite E. cbn [bind fst snd]. cbv zeta.
  pose proof (insert_sorted m result (length result) n SR) as SI. pose proof (insert_length m result (length result) n) as LI.
  pose proof (insert_new m result (length result) n) as NI. set (res := dinsert_mode m result (length result) n) in *. clearbody res.
  assert (LN : Nat.min (S loop) n <= length res) by (destruct NI as [(_ & H & _)|(H & H1 & _)]; [lia|subst res; lia]).
  destruct (n <=? length res) eqn:A.
  - apply Nat.leb_le in A. destruct (mode_back res) as (b & Eb); [intros ->; cbn in A; lia|]. rewrite Eb. cbn [bind].
    destruct (dlt (dsub total (dm_area m)) (dm_area b) || (3 * n <? loop)) eqn:O.
    + exists res. split; [reflexivity|]. split; [exact A|]. split; [lia|exact SI].
    + apply orb_false_iff in O. destruct O as [_ O]. apply Nat.ltb_ge in O. apply IH; auto; lia.
  - apply Nat.leb_gt in A. apply IH; auto; lia.
Qed.

Section Biggest.
  Variables (xs ys0 : list double) (merge : double) (n : nat).
  Hypothesis L3 : 3 <= length xs.
  (** After [r] rounds the modes [done] were found and [ys] is left. *)
  Definition dreached (r : nat) (done : list dmode) (ys : list double) : Prop :=
    length xs = length ys /\ forall k, dhighest_modes xs ys0 merge (r + k) = do t <- dhighest_modes xs ys merge k; Ok (done ++ t).
  Definition dkept (done result : list dmode) : Prop :=
    (forall m, In m result -> In m done) /\
    forall m, In m done -> In m result \/ n <= length result /\ forall a, In a result -> dlt (dm_area a) (dm_area m) = false.
  Lemma biggest_loop_spec : forall fuel ys loop total result done l,
    dreached loop done ys -> dkept done result -> dbiggest_loop fuel xs ys merge n loop total result = Ok l -> loop <= 3 * n + 1 -> Nat.min loop n <= length result ->
    exists r done' ys', r <= 3 * n + 2 /\ dreached r done' ys' /\ dkept done' l.
  Proof.
    induction fuel as [|fuel IH]; intros ys loop total result done l RE KE E LB LM; [discriminate|]. cbn [dbiggest_loop] in E.
    destruct RE as [LE RE]. destruct (next_mode_ok xs ys merge LE L3) as (m & ys' & lo & hi & EN & LL & _).
    rewrite EN in E. cbn [bind fst snd] in E. cbv zeta in E.
    pose proof (insert_new m result (length result) n) as NI.
    pose proof (insert_in m result (length result) n) as II. pose proof (insert_keeps m result (length result) n) as IK.
    set (res := dinsert_mode m result (length result) n) in *.
    assert (LR : length result <= length res) by (pose proof (insert_length m result (length result) n); unfold res; lia). clearbody res.
    assert (RE' : dreached (S loop) (done ++ [m]) ys').
    { split; [lia|]. intro k. replace (S loop + k) with (loop + S k) by lia. rewrite RE. cbn [dhighest_modes]. rewrite EN. cbn [bind fst snd].
      destruct (dhighest_modes xs ys' merge k); cbn [bind]; try reflexivity. rewrite <- app_assoc. reflexivity. }
    assert (KE' : dkept (done ++ [m]) res).
    { destruct KE as [K1 K2]. split.
      - intros x Hx. apply in_or_app. destruct (II x Hx) as [->|Hx']; [right; left; auto|left; auto].
      - intros x Hx. apply in_app_or in Hx. destruct Hx as [Hx|[<-|[]]].
        + destruct (K2 x Hx) as [Hr|[Hr1 Hr2]]; [left; auto|]. right. split; [lia|]. intros a Ha.
          destruct (II a Ha) as [->|Ha']; [|auto]. destruct NI as [(H1 & H2 & [H3|(a0 & H3 & H4)])|(H1 & H2 & H3)].
          * lia.
          * exact (lt_trans_false _ _ _ H4 (Hr2 a0 H3)).
          * rewrite H2 in Ha. auto.
        + destruct NI as [[H1 _]|(H1 & H2 & H3)]; [left; auto|]. right. rewrite H2. split; auto. }
    assert (LN : Nat.min (S loop) n <= length res) by (destruct NI as [(_ & H & _)|(H & H1 & _)]; [lia|subst res; lia]).
    destruct (n <=? length res) eqn:A.
    - destruct (back res) as [b| | |]; cbn [bind] in E; try discriminate.
      destruct (dlt (dsub total (dm_area m)) (dm_area b) || (3 * n <? loop)) eqn:O.
      + apply ok_inj in E. subst l. exists (S loop), (done ++ [m]), ys'. split; [lia|]. split; [exact RE'|exact KE'].
      + apply orb_false_iff in O. destruct O as [_ O]. apply Nat.ltb_ge in O. eapply IH; eauto. lia.
    - apply Nat.leb_gt in A. eapply IH; eauto; lia.
  Qed.

  Lemma biggest_spec fuel l : length xs = length ys0 -> dbiggest_modes fuel xs ys0 merge n = Ok l ->
    exists r done, r <= 3 * n + 2 /\ dhighest_modes xs ys0 merge r = Ok done /\
      (forall m, In m l -> In m done) /\
      (forall m, In m done -> In m l \/ forall a, In a l -> dlt (dm_area a) (dm_area m) = false).
  Proof.
    intros LE E. unfold dbiggest_modes in E. destruct xs as [|x0 xr] eqn:EX; [cbn in L3; lia|]. rewrite <- EX in *.
    rewrite (avg_area_spec xs ys0 0 (length xs - 1) LE ltac:(lia) ltac:(lia) ltac:(lia)) in E. cbn [bind snd] in E.
    destruct (biggest_loop_spec fuel ys0 0 (darea_between xs ys0 0 (length xs - 1)) [] [] l) as (r & done & ys' & R1 & (I' & R2) & (K1 & K2)); [| |exact E|lia|cbn; lia|].
    - split; [exact LE|]. intro k. cbn [plus]. destruct (dhighest_modes xs ys0 merge k); reflexivity.
    - split; intros m [].
    - exists r, done. split; [exact R1|]. split; [|split; [exact K1|intros m Hm; destruct (K2 m Hm) as [|[_ ?]]; auto]].
      specialize (R2 0); rewrite Nat.add_0_r in R2; rewrite R2; cbn [dhighest_modes bind]; rewrite app_nil_r; reflexivity.
  Qed.
End Biggest.
