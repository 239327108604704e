From Coq Require Import QArith List ZArith Bool Arith Lia Lqa.
From Verif Require Import Common DblModel DblProofs CumulModel CumulSpec CumulProofs ModeModel ModeSpec.
Import ListNotations.
Local Open Scope nat_scope.

Lemma at_val l i : i < length l -> at_ l i = Ok (val l i).
Proof. intro H. unfold at_, val. rewrite (nth_error_nth' l 0%Q H). reflexivity. Qed.
Lemma val_nth_error l i a : nth_error l i = Some a -> val l i = a.
Proof. intro H. unfold val. apply nth_error_nth. exact H. Qed.
Lemma val_some l i : i < length l -> nth_error l i = Some (val l i).
Proof. intro H. apply nth_error_nth'. exact H. Qed.
Lemma val_in l i : i < length l -> In (val l i) l.
Proof. apply nth_In. Qed.
Lemma qltb_not a b : Qlt_b a b = false -> (b <= a)%Q.
Proof. intro H. apply Qnot_lt_le. intro X. apply Qlt_b_iff in X. congruence. Qed.
Lemma qeqb_not a b : Qeq_bool a b = false -> ~ (a == b)%Q.
Proof. intros H X. apply Qeq_bool_iff in X. congruence. Qed.

(** *** The highest sample *)
Lemma max_from_spec l : forall index max mi,
  let r := max_index_from l index max mi in
  (r = mi /\ forall i, i < length l -> (val l i <= max)%Q) \/
  (exists k, r = index + k /\ k < length l /\ (max < val l k)%Q /\ (forall i, i < length l -> (val l i <= val l k)%Q) /\ forall i, i < k -> (val l i < val l k)%Q).
Proof.
  induction l as [|v r IH]; intros index max mi; cbn [max_index_from].
  - left. split; [reflexivity|]. cbn. lia.
  - destruct (Qlt_b max v) eqn:E.
    + apply Qlt_b_iff in E. right. destruct (IH (S index) v index) as [[H1 H2]|(k & H1 & H2 & H3 & H4 & H5)].
      * exists 0. rewrite H1. split; [lia|]. split; [cbn; lia|]. split; [exact E|]. split; [|intros i Hi; lia].
        intros [|i] Hi; [apply Qle_refl|]. cbn in Hi. apply (H2 i). lia.
      * exists (S k). rewrite H1. split; [lia|]. split; [cbn; lia|]. unfold val in *. cbn [nth]. split; [lra|]. split.
        -- intros [|i] Hi; cbn [nth]; [lra|]. cbn in Hi. apply H4. lia.
        -- intros [|i] Hi; cbn [nth]; [lra|]. apply H5. lia.
    + apply qltb_not in E. destruct (IH (S index) max mi) as [[H1 H2]|(k & H1 & H2 & H3 & H4 & H5)].
      * left. split; [exact H1|]. intros [|i] Hi; [exact E|]. cbn in Hi. apply (H2 i). lia.
      * right. exists (S k). rewrite H1. split; [lia|]. split; [cbn; lia|]. unfold val in *. cbn [nth]. split; [exact H3|]. split.
        -- intros [|i] Hi; cbn [nth]; [lra|]. cbn in Hi. apply H4. lia.
        -- intros [|i] Hi; cbn [nth]; [lra|]. apply H5. lia.
Qed.
Lemma max_index_lt ys : ys <> [] -> find_maximum_index ys < length ys.
Proof.
  intro H. unfold find_maximum_index. destruct (max_from_spec ys 0 (-1)%Q 0) as [[H1 _]|(k & H1 & H2 & _)].
  - rewrite H1. destruct ys; [congruence|cbn; lia].
  - rewrite H1. lia.
Qed.
Lemma max_index_highest ys : ys <> [] -> (forall y, In y ys -> (0 <= y)%Q) -> highest ys (find_maximum_index ys).
Proof.
  intros N P. unfold find_maximum_index. destruct (max_from_spec ys 0 (-1)%Q 0) as [[H1 H2]|(k & H1 & H2 & H3 & H4 & H5)].
  - exfalso. destruct ys as [|y r]; [congruence|]. specialize (H2 0 ltac:(cbn; lia)). specialize (P y (or_introl eq_refl)). cbn in H2. lra.
  - rewrite H1. cbn [plus]. split; [exact H2|]. split; assumption.
Qed.

(** *** The range *)
Lemma catch_left_ok ys thr : forall pos mn, pos < length ys ->
  exists lo, catch_left ys thr pos mn = Ok lo /\ (lo = mn \/ 1 <= lo <= pos).
Proof.
  induction pos as [|below IH]; intros mn H; cbn [catch_left]; [eexists; split; [reflexivity|auto]|].
  rewrite (at_val ys (S below)) by lia. cbn [bind]. destruct (Qeq_bool _ 0); [eexists; split; [reflexivity|auto]|].
  rewrite (at_val ys below) by lia. cbn [bind]. destruct (_ && _); [eexists; split; [reflexivity|right; lia]|].
  destruct (IH (S below) ltac:(lia)) as (lo & E & B). exists lo. split; [exact E|]. right. lia.
Qed.
Lemma catch_right_ok ys thr : forall todo pos mx, pos + todo + 1 = length ys ->
  exists hi, catch_right ys thr todo pos mx = Ok hi /\ (hi = mx \/ pos <= hi /\ hi + 2 <= length ys).
Proof.
  induction todo as [|t IH]; intros pos mx H; cbn [catch_right]; [eexists; split; [reflexivity|auto]|].
  rewrite (at_val ys pos) by lia. cbn [bind]. destruct (Qeq_bool _ 0); [eexists; split; [reflexivity|auto]|].
  rewrite (at_val ys (S pos)) by lia. cbn [bind]. destruct (_ && _); [eexists; split; [reflexivity|right; lia]|].
  destruct (IH (S pos) pos ltac:(lia)) as (hi & E & B). exists hi. split; [exact E|]. right. lia.
Qed.
Lemma catch_left_spec ys thr : forall pos lo, pos < length ys -> catch_left ys thr pos (S pos) = Ok lo ->
  lo <= S pos /\ 1 <= lo /\
  (forall i, lo <= i <= pos -> ~ (val ys i == 0)%Q) /\ (forall i, lo < i <= pos -> ~ valley_left ys thr i) /\
  (lo = 1 \/ (val ys (lo - 1) == 0)%Q \/ lo <= pos /\ valley_left ys thr lo).
Proof.
  induction pos as [|below IH]; intros lo H E; cbn [catch_left] in E.
  - injection E as <-. split; [lia|]. split; [lia|]. split; [intros; lia|]. split; [intros; lia|auto].
  - rewrite (at_val ys (S below)) in E by lia. cbn [bind] in E. destruct (Qeq_bool (val ys (S below)) 0) eqn:Z.
    + injection E as <-. apply Qeq_bool_iff in Z. split; [lia|]. split; [lia|]. split; [intros; lia|]. split; [intros; lia|].
      right. left. replace (S (S below) - 1) with (S below) by lia. exact Z.
    + apply qeqb_not in Z. rewrite (at_val ys below) in E by lia. cbn [bind] in E.
      destruct (Qlt_b (val ys (S below)) thr && Qle_bool (val ys (S below)) (val ys below)) eqn:V.
      * injection E as <-. apply andb_true_iff in V. destruct V as [V1 V2]. apply Qlt_b_iff in V1. apply Qle_bool_iff in V2.
        split; [lia|]. split; [lia|]. split; [intros i Hi; replace i with (S below) by lia; exact Z|]. split; [intros; lia|].
        right. right. split; [lia|]. split; [exact V1|]. replace (S below - 1) with below by lia. exact V2.
      * destruct (IH lo ltac:(lia) E) as (A & A1 & B & C & D). split; [lia|]. split; [exact A1|]. split; [|split].
        -- intros i Hi. destruct (Nat.eq_dec i (S below)) as [->|]; [exact Z|apply B; lia].
        -- intros i Hi. destruct (Nat.eq_dec i (S below)) as [->|]; [|apply C; lia].
           intros [V1 V2]. replace (S below - 1) with below in V2 by lia.
           apply Qlt_b_iff in V1. apply Qle_bool_iff in V2. rewrite V1, V2 in V. discriminate.
        -- destruct D as [D|[D|[D1 D2]]]; [auto|auto|]. right. right. split; [lia|exact D2].
Qed.
Lemma catch_right_spec ys thr : forall todo pos hi, pos + todo + 1 = length ys -> 1 <= pos -> catch_right ys thr todo pos (pos - 1) = Ok hi ->
  pos <= hi + 1 /\ hi + 2 <= length ys /\
  (forall i, pos <= i <= hi -> ~ (val ys i == 0)%Q) /\ (forall i, pos <= i < hi -> ~ valley_right ys thr i) /\
  (hi + 2 = length ys \/ (val ys (hi + 1) == 0)%Q \/ pos <= hi /\ valley_right ys thr hi).
Proof.
  induction todo as [|t IH]; intros pos hi H P E; cbn [catch_right] in E.
  - injection E as <-. split; [lia|]. split; [lia|]. split; [intros; lia|]. split; [intros; lia|]. left; lia.
  - rewrite (at_val ys pos) in E by lia. cbn [bind] in E. destruct (Qeq_bool (val ys pos) 0) eqn:Z.
    + injection E as <-. apply Qeq_bool_iff in Z. split; [lia|]. split; [lia|]. split; [intros; lia|]. split; [intros; lia|].
      right. left. replace (pos - 1 + 1) with pos by lia. exact Z.
    + apply qeqb_not in Z. rewrite (at_val ys (S pos)) in E by lia. cbn [bind] in E.
      destruct (Qlt_b (val ys pos) thr && Qle_bool (val ys pos) (val ys (S pos))) eqn:V.
      * injection E as <-. apply andb_true_iff in V. destruct V as [V1 V2]. apply Qlt_b_iff in V1. apply Qle_bool_iff in V2.
        split; [lia|]. split; [lia|]. split; [intros i Hi; replace i with pos by lia; exact Z|]. split; [intros; lia|].
        right. right. split; [lia|]. split; [exact V1|]. replace (pos + 1) with (S pos) by lia. exact V2.
      * destruct (IH (S pos) hi ltac:(lia) ltac:(lia)) as (A & A1 & B & C & D); [replace (S pos - 1) with pos by lia; exact E|].
        split; [lia|]. split; [exact A1|]. split; [|split].
        -- intros i Hi. destruct (Nat.eq_dec i pos) as [->|]; [exact Z|apply B; lia].
        -- intros i Hi. destruct (Nat.eq_dec i pos) as [->|]; [|apply C; lia].
           intros [V1 V2]. replace (pos + 1) with (S pos) in V2 by lia.
           apply Qlt_b_iff in V1. apply Qle_bool_iff in V2. rewrite V1, V2 in V. discriminate.
        -- destruct D as [D|[D|[D1 D2]]]; [auto|auto|]. right. right. split; [lia|exact D2].
Qed.
Lemma catch_peak_ok ys c merge : c < length ys ->
  exists lo hi, catch_peak ys c merge = Ok (lo, hi) /\ lo <= c /\ c <= hi /\ hi < length ys.
Proof.
  intro H. unfold catch_peak. rewrite (at_val ys c H). cbn [bind]. cbv zeta.
  destruct (catch_left_ok ys ((1 - merge) * val ys c) c 0 H) as (lo & E & B). rewrite E. cbn [bind].
  destruct (catch_right_ok ys ((1 - merge) * val ys c) (length ys - 1 - c) c (length ys - 1) ltac:(lia)) as (hi & E2 & B2). rewrite E2. cbn [bind].
  exists lo, hi. split; [reflexivity|]. lia.
Qed.
Lemma catch_peak_range ys c merge lo hi : c < length ys -> catch_peak ys c merge = Ok (lo, hi) -> highest ys c -> mode_range ys merge c lo hi.
Proof.
  intros H E (_ & Hi & Lo). unfold catch_peak in E. rewrite (at_val ys c H) in E. cbn [bind] in E. cbv zeta in E.
  set (thr := ((1 - merge) * val ys c)%Q) in *.
  destruct (catch_left ys thr c 0) as [l| | |] eqn:EL; cbn [bind] in E; try discriminate.
  destruct (catch_right ys thr (length ys - 1 - c) c (length ys - 1)) as [h| | |] eqn:ER; cbn [bind] in E; try discriminate.
  injection E as <- <-. destruct (Qeq_bool (val ys c) 0) eqn:Z.
  - left. split; [apply Qeq_bool_iff; exact Z|]. split.
    + destruct c; cbn [catch_left] in EL; [injection EL as <-; reflexivity|]. rewrite (at_val ys (S c) H) in EL. cbn [bind] in EL. rewrite Z in EL. injection EL as <-. reflexivity.
    + destruct (length ys - 1 - c); cbn [catch_right] in ER; [injection ER as <-; reflexivity|]. rewrite (at_val ys c H) in ER. cbn [bind] in ER. rewrite Z in ER. injection ER as <-. reflexivity.
  - right. pose proof (qeqb_not _ _ Z) as NZ. split; [exact NZ|]. split.
    + destruct c as [|b]; cbn [catch_left] in EL; [injection EL as <-; left; auto|]. right.
      assert (EL' : catch_left ys thr (S b) (S (S b)) = Ok l).
      { cbn [catch_left]. rewrite (at_val ys (S b) H) in EL |- *. cbn [bind] in EL |- *. rewrite Z in EL |- *. exact EL. }
      destruct (catch_left_spec ys thr (S b) l H EL') as (A & A1 & B & C & D).
      assert (l <= S b).
      { destruct (Nat.eq_dec l (S (S b))) as [->|]; [exfalso|lia]. destruct D as [D|[D|[D _]]]; [lia| |lia].
        replace (S (S b) - 1) with (S b) in D by lia. contradiction. }
      split; [lia|]. split; [exact B|]. split; [exact C|]. destruct D as [D|[D|[_ D]]]; auto.
    + unfold right_end. remember (length ys - 1 - c) as t eqn:Et. destruct t as [|t]; cbn [catch_right] in ER; [injection ER as <-; left; lia|]. right.
      rewrite (at_val ys c H) in ER. cbn [bind] in ER. rewrite Z in ER. rewrite (at_val ys (S c)) in ER by lia. cbn [bind] in ER.
      destruct (Qlt_b (val ys c) thr && Qle_bool (val ys c) (val ys (S c))) eqn:V.
      * injection ER as <-. apply andb_true_iff in V. destruct V as [V1 V2]. apply Qlt_b_iff in V1. apply Qle_bool_iff in V2.
        split; [lia|]. split; [lia|]. split; [intros i Hx; replace i with c by lia; exact NZ|]. split; [intros; lia|].
        right. right. split; [exact V1|]. replace (c + 1) with (S c) by lia. exact V2.
      * destruct (catch_right_spec ys thr t (S c) h ltac:(lia) ltac:(lia)) as (A & A1 & B & C & D); [replace (S c - 1) with c by lia; exact ER|].
        split; [lia|]. split; [exact A1|]. split; [|split].
        -- intros i Hx. destruct (Nat.eq_dec i c) as [->|]; [exact NZ|apply B; lia].
        -- intros i Hx. destruct (Nat.eq_dec i c) as [->|]; [|apply C; lia].
           intros [V1 V2]. change (val ys c < thr)%Q in V1. replace (c + 1) with (S c) in V2 by lia.
           apply Qlt_b_iff in V1. apply Qle_bool_iff in V2. rewrite V1, V2 in V. discriminate.
        -- destruct D as [D|[D|[_ D]]]; auto.
Qed.

(** *** Areas *)
Lemma delta_x_cell xs i : 2 <= length xs -> i < length xs -> delta_x xs i = Ok (cell xs i).
Proof.
  intros L H. unfold delta_x, cell. destruct (Nat.eqb i 0) eqn:E0.
  - apply Nat.eqb_eq in E0. subst i. rewrite (at_val xs (0 + 1)), (at_val xs 0) by lia. reflexivity.
  - apply Nat.eqb_neq in E0. destruct (Nat.eqb i (length xs - 1)) eqn:E1.
    + rewrite (at_val xs i), (at_val xs (i - 1)) by lia. reflexivity.
    + apply Nat.eqb_neq in E1. rewrite (at_val xs (i + 1)), (at_val xs (i - 1)) by lia. reflexivity.
Qed.
Lemma area_loop_spec xs ys : length xs = length ys -> 2 <= length xs -> forall n i num area, i + n <= length xs ->
  exists num' area', area_loop xs ys n i num area = Ok (num', area') /\
    (num' == num + total_of (map (fun i => val xs i * val ys i * cell xs i)%Q (seq i n)))%Q /\
    (area' == area + total_of (map (fun i => val ys i * cell xs i)%Q (seq i n)))%Q.
Proof.
  intros LE L2. induction n as [|n IH]; intros i num area H; cbn [area_loop seq map].
  - exists num, area. split; [reflexivity|]. unfold total_of. cbn [fold_right]. split; ring.
  - rewrite (delta_x_cell xs i) by lia. rewrite (at_val xs i), (at_val ys i) by lia. cbn [bind].
    destruct (IH (S i) (num + val xs i * val ys i * cell xs i)%Q (area + val ys i * cell xs i)%Q ltac:(lia)) as (n' & a' & E & E1 & E2).
    exists n', a'. split; [exact E|]. unfold total_of in *. cbn [fold_right]. split; [rewrite E1|rewrite E2]; ring.
Qed.
Lemma avg_area_spec xs ys lo hi : length xs = length ys -> 2 <= length xs -> lo <= hi -> hi < length xs ->
  exists mean area, avg_area xs ys lo hi = Ok (mean, area) /\ (area == area_between xs ys lo hi)%Q /\
   match mean with None => (area == 0)%Q | Some q => ~ (area == 0)%Q /\ (q * area == moment_between xs ys lo hi)%Q end.
Proof.
  intros LE L2 H1 H2. unfold avg_area. destruct (area_loop_spec xs ys LE L2 (hi + 1 - lo) lo 0%Q 0%Q ltac:(lia)) as (n' & a' & E & E1 & E2).
  rewrite E. cbn [bind fst snd]. eexists _, a'. split; [reflexivity|]. split; [unfold area_between; rewrite E2; ring|].
  destruct (Qeq_bool a' 0) eqn:Z; [apply Qeq_bool_iff; exact Z|]. pose proof (qeqb_not _ _ Z) as NZ. split; [exact NZ|].
  unfold moment_between. rewrite Qplus_0_l in E1. rewrite <- E1. field. exact NZ.
Qed.

(** *** Interpolation *)
Lemma front_val xs : xs <> [] -> front xs = Ok (val xs 0).
Proof. destruct xs; [congruence|reflexivity]. Qed.
Lemma back_val xs : xs <> [] -> back xs = Ok (val xs (length xs - 1)).
Proof. intro H. apply back_last. apply val_some. destruct xs; [congruence|cbn; lia]. Qed.
Definition parabola (x0 y0 x1 y1 x2 y2 : Q) : Q :=
  let denom := (2 * ((x1 - x0) * y2 - (x2 - x0) * y1 + (x2 - x1) * y0))%Q in
  let num := ((x1 * x1 - x0 * x0) * y2 - (x2 * x2 - x0 * x0) * y1 + (x2 * x2 - x1 * x1) * y0)%Q in
  if Qeq_bool denom 0 then x1 else (num / denom)%Q.
Lemma interpolation_value xs ys c : length xs = length ys -> 3 <= length xs -> c < length xs ->
  let i := if Nat.eqb c 0 then 1 else if Nat.eqb (c + 1) (length xs) then c - 1 else c in
  let v := parabola (val xs (i - 1)) (val ys (i - 1)) (val xs i) (val ys i) (val xs (i + 1)) (val ys (i + 1)) in
  1 <= i /\ i + 2 <= length xs /\
  interpolation_around xs ys c = Ok (if Qlt_b v (val xs 0) then val xs 0 else if Qlt_b (val xs (length xs - 1)) v then val xs (length xs - 1) else v).
Proof.
  intros LE L3 H. cbv zeta. unfold interpolation_around.
  assert (N : xs <> []) by (intros ->; cbn in L3; lia).
  destruct (length xs <=? c) eqn:A; [apply Nat.leb_le in A; lia|].
  set (i := if Nat.eqb c 0 then c + 1 else if Nat.eqb (c + 1) (length xs) then c - 1 else c).
  assert (Ei : (if Nat.eqb c 0 then 1 else if Nat.eqb (c + 1) (length xs) then c - 1 else c) = i).
  { unfold i. destruct (Nat.eqb c 0) eqn:C0; [apply Nat.eqb_eq in C0; subst c; reflexivity|reflexivity]. }
  rewrite Ei. assert (I : 1 <= i /\ i + 2 <= length xs).
  { unfold i. destruct (Nat.eqb c 0) eqn:C0; [apply Nat.eqb_eq in C0; lia|]. apply Nat.eqb_neq in C0.
    destruct (Nat.eqb (c + 1) (length xs)) eqn:C1; [apply Nat.eqb_eq in C1; lia|apply Nat.eqb_neq in C1; lia]. }
  clearbody i. destruct I as [I1 I2]. split; [exact I1|]. split; [exact I2|]. cbv zeta.
  destruct (Nat.eqb i 0) eqn:Z; [apply Nat.eqb_eq in Z; lia|].
  rewrite !at_val by lia. cbn [bind]. rewrite front_val, back_val by exact N. cbn [bind]. reflexivity.
Qed.
Lemma clamp_range a b v : (a <= b)%Q -> (a <= (if Qlt_b v a then a else if Qlt_b b v then b else v) <= b)%Q.
Proof.
  intro H. destruct (Qlt_b v a) eqn:A; [lra|]. apply qltb_not in A. destruct (Qlt_b b v) eqn:B; [lra|]. apply qltb_not in B. lra.
Qed.
Lemma strict_val xs i j : strictly_rising xs -> i < j -> j < length xs -> (val xs i < val xs j)%Q.
Proof. intros H A B. apply (H i j); [exact A|apply val_some; lia|apply val_some; lia]. Qed.
Lemma strict_val_le xs i j : strictly_rising xs -> i <= j -> j < length xs -> (val xs i <= val xs j)%Q.
Proof. intros H A B. destruct (Nat.eq_dec i j) as [->|]; [lra|]. apply Qlt_le_weak. apply strict_val; auto; lia. Qed.

Lemma parabola_between x0 y0 x1 y1 x2 y2 : (x0 < x1)%Q -> (x1 < x2)%Q -> (y0 <= y1)%Q -> (y2 <= y1)%Q ->
  ((x0 + x1) / 2 <= parabola x0 y0 x1 y1 x2 y2 <= (x1 + x2) / 2)%Q.
Proof.
  intros A B C D. setoid_replace ((x0 + x1) / 2)%Q with ((x0 + x1) * (1 # 2))%Q by field.
  setoid_replace ((x1 + x2) / 2)%Q with ((x1 + x2) * (1 # 2))%Q by field. unfold parabola. cbv zeta.
  match goal with |- context [Qeq_bool ?d 0] => set (denom := d) end.
  assert (Ed : (denom == - (2 * ((x1 - x0) * (y1 - y2) + (x2 - x1) * (y1 - y0))))%Q) by (unfold denom; ring).
  destruct (Qeq_bool denom 0) eqn:Z; [lra|]. apply qeqb_not in Z.
  assert (P1 : (0 <= (x1 - x0) * (y1 - y2))%Q) by (apply Qmult_le_0_compat; lra).
  assert (P2 : (0 <= (x2 - x1) * (y1 - y0))%Q) by (apply Qmult_le_0_compat; lra).
  assert (Neg : (denom < 0)%Q) by (destruct (Qlt_le_dec denom 0); [auto|exfalso; apply Z; lra]).
  match goal with |- context [(?n / denom)%Q] => set (num := n) end.
  assert (Q1 : (0 <= (x2 - x1) * (y1 - y0) * (x2 - x0))%Q) by (apply Qmult_le_0_compat; lra).
  assert (Q2 : (0 <= (x1 - x0) * (y1 - y2) * (x2 - x0))%Q) by (apply Qmult_le_0_compat; lra).
  assert (E1 : (num - denom * ((x0 + x1) * (1 # 2)) == - ((x2 - x1) * (y1 - y0) * (x2 - x0)))%Q) by (unfold num, denom; ring).
  assert (E2 : (num - denom * ((x1 + x2) * (1 # 2)) == (x1 - x0) * (y1 - y2) * (x2 - x0))%Q) by (unfold num, denom; ring).
  assert (EN : (num / denom == - num / - denom)%Q) by (field; auto).
  assert (PD : (0 < - denom)%Q) by lra.
  split.
  - rewrite EN. apply Qle_shift_div_l; [exact PD|]. clearbody num denom. lra.
  - rewrite EN. apply Qle_shift_div_r; [exact PD|]. clearbody num denom. lra.
Qed.
Lemma parabola_vertex x0 y0 x1 y1 x2 y2 : (x0 < x1)%Q -> (x1 < x2)%Q ->
  ~ ((x1 - x0) * (y2 - y1) == (x2 - x1) * (y1 - y0))%Q ->
  vertex_of x0 y0 x1 y1 x2 y2 (parabola x0 y0 x1 y1 x2 y2).
Proof.
  intros A B N. unfold parabola. cbv zeta.
  match goal with |- context [Qeq_bool ?d 0] => set (denom := d) end.
  match goal with |- context [(?n / denom)%Q] => set (num := n) end.
  destruct (Qeq_bool denom 0) eqn:Z.
  { exfalso. apply N. apply Qeq_bool_iff in Z. unfold denom in Z. lra. }
  apply qeqb_not in Z.
  set (V := ((x1 - x0) * (x2 - x0) * (x2 - x1))%Q).
  assert (N1 : ~ (x1 - x0 == 0)%Q) by lra. assert (N2 : ~ (x2 - x0 == 0)%Q) by lra. assert (N3 : ~ (x2 - x1 == 0)%Q) by lra.
  assert (HV : ~ (V == 0)%Q).
  { unfold V. intro X. apply Qmult_integral in X. destruct X as [X|X]; [apply Qmult_integral in X; destruct X; auto|auto]. }
  exists (denom / (2 * V))%Q, (- num / V)%Q,
    ((y0 * x1 * x2 * (x2 - x1) - y1 * x0 * x2 * (x2 - x0) + y2 * x0 * x1 * (x1 - x0)) / V)%Q.
  split; [|split; [|split; [|split]]].
  - intro X. apply Z. rewrite <- (Qmult_0_l (2 * V)), <- X. field. exact HV.
  - unfold denom, num, V. field. auto.
  - unfold denom, num, V. field. auto.
  - unfold denom, num, V. field. auto.
  - field. auto.
Qed.

(** *** Flattening *)
Lemma set_range_spec : forall l n k, k + n <= length l ->
  exists l', set_range l k n 0%Q = Ok l' /\ length l' = length l /\ forall i, i < length l -> val l' i = if (k <=? i) && (i <? k + n) then 0%Q else val l i.
Proof.
  induction l as [|a r IH]; intros n k H.
  - cbn in H. assert (n = 0) by lia. subst n. exists []. cbn. split; [reflexivity|]. split; [reflexivity|]. intros; lia.
  - cbn [length] in H. destruct n as [|n].
    + exists (a :: r). split; [reflexivity|]. split; [reflexivity|]. intros i Hi. destruct ((k <=? i) && (i <? k + 0)) eqn:E; [|reflexivity].
      apply andb_true_iff in E. destruct E as [E1 E2]. apply Nat.leb_le in E1. apply Nat.ltb_lt in E2. lia.
    + destruct k as [|k]; cbn [set_range].
      * destruct (IH n 0 ltac:(lia)) as (t & E & L & V). rewrite E. cbn [bind]. exists (0%Q :: t). split; [reflexivity|]. split; [cbn; lia|].
        intros [|i] Hi; [reflexivity|]. cbn [length] in Hi. unfold val in *. cbn [nth]. rewrite V by lia. reflexivity.
      * destruct (IH (S n) k ltac:(lia)) as (t & E & L & V). rewrite E. cbn [bind]. exists (a :: t). split; [reflexivity|]. split; [cbn; lia|].
        intros [|i] Hi; [reflexivity|]. cbn [length] in Hi. unfold val in *. cbn [nth]. rewrite V by lia. reflexivity.
Qed.
Lemma flatten_spec ys lo hi : lo <= hi -> hi < length ys -> exists ys', flattern_peak ys lo hi 0%Q = Ok ys' /\ zeroed ys lo hi ys'.
Proof.
  intros A B. unfold flattern_peak. destruct (set_range_spec ys (hi + 1 - lo) lo ltac:(lia)) as (l & E & L & V).
  exists l. split; [exact E|]. split; [exact L|]. intros i Hi. rewrite (V i Hi).
  replace (lo + (hi + 1 - lo)) with (S hi) by lia. destruct (lo <=? i); [|reflexivity]. cbn [andb].
  destruct (i <? S hi) eqn:X, (i <=? hi) eqn:Y; auto; exfalso.
  - apply Nat.ltb_lt in X. apply Nat.leb_gt in Y. lia.
  - apply Nat.ltb_ge in X. apply Nat.leb_le in Y. lia.
Qed.

(** *** One round *)
Lemma next_mode_ok xs ys merge : length xs = length ys -> 3 <= length xs ->
  exists m ys' lo hi, next_mode xs ys merge = Ok (m, ys') /\ length ys' = length ys /\
    catch_peak ys (find_maximum_index ys) merge = Ok (lo, hi) /\ lo <= find_maximum_index ys <= hi /\ hi < length ys /\
    zeroed ys lo hi ys' /\ m_sample m = val xs (find_maximum_index ys) /\ (m_area m == area_between xs ys lo hi)%Q /\
    match m_mean m with None => (m_area m == 0)%Q | Some q => ~ (m_area m == 0)%Q /\ (q * m_area m == moment_between xs ys lo hi)%Q end /\
    interpolation_around xs ys (find_maximum_index ys) = Ok (m_interp m).
Proof.
  intros LE L3. unfold next_mode. cbv zeta. assert (N : ys <> []) by (intros ->; cbn in LE; lia).
  pose proof (max_index_lt ys N) as HC. set (c := find_maximum_index ys) in *.
  destruct (catch_peak_ok ys c merge HC) as (lo & hi & E & B1 & B2 & B3). rewrite E. cbn [bind fst snd].
  destruct (avg_area_spec xs ys lo hi LE ltac:(lia) ltac:(lia) ltac:(lia)) as (mean & area & EA & A1 & A2). rewrite EA. cbn [bind fst snd].
  destruct (interpolation_value xs ys c LE L3 ltac:(lia)) as (_ & _ & EI). rewrite EI. cbn [bind].
  rewrite (at_val xs c) by lia. cbn [bind]. destruct (flatten_spec ys lo hi ltac:(lia) B3) as (ys' & EF & ZF). rewrite EF. cbn [bind].
  eexists _, ys', lo, hi. split; [reflexivity|]. split; [apply ZF|]. split; [reflexivity|]. split; [lia|]. split; [exact B3|].
  cbn [m_sample m_area m_mean m_interp]. split; [exact ZF|]. split; [reflexivity|]. split; [exact A1|]. split; [exact A2|reflexivity].
Qed.
Lemma next_mode_spec xs ys merge : is_pdf xs ys ->
  exists m ys' c lo hi, next_mode xs ys merge = Ok (m, ys') /\ highest ys c /\ mode_range ys merge c lo hi /\ lo <= c <= hi /\ hi < length ys /\
    describes xs ys c lo hi m /\ zeroed ys lo hi ys' /\ interpolation_around xs ys c = Ok (m_interp m).
Proof.
  intros (LE & L3 & SR & P). assert (N : ys <> []) by (intros ->; cbn in LE; lia).
  destruct (next_mode_ok xs ys merge LE L3) as (m & ys' & lo & hi & E & _ & EC & B & B3 & Z & S1 & S2 & S3 & S4).
  pose proof (max_index_highest ys N P) as HH.
  exists m, ys', (find_maximum_index ys), lo, hi. split; [exact E|]. split; [exact HH|].
  split; [apply catch_peak_range; auto; apply HH|]. split; [exact B|]. split; [exact B3|]. split; [|auto].
  split; [exact S1|]. split; [exact S2|]. split; [exact S3|].
  destruct (interpolation_value xs ys (find_maximum_index ys) LE L3 ltac:(lia)) as (_ & _ & EI). rewrite EI in S4. injection S4 as <-.
  apply clamp_range. apply strict_val_le; auto; lia.
Qed.
Lemma zeroed_pdf xs ys lo hi ys' : is_pdf xs ys -> zeroed ys lo hi ys' -> is_pdf xs ys'.
Proof.
  intros (LE & L3 & SR & P) (L & V). split; [lia|]. split; [exact L3|]. split; [exact SR|]. intros y Hy.
  apply In_nth with (d := 0%Q) in Hy. destruct Hy as (i & Hi & <-). fold (val ys' i). rewrite V by lia.
  destruct (_ && _); [lra|]. apply P. apply val_in. lia.
Qed.
