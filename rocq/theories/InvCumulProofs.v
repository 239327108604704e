From Coq Require Import Reals List Arith Bool Lia Lra Psatz.
From Verif Require Import Common CumulModel CumulProofs FunModel FunSpec FunProofs FunProofs2 InterpModel InterpSpec InterpProofs InvCumulModel InvCumulSpec.
Import ListNotations.
Local Open Scope R_scope.

(** *** The quadratic *)
Definition tol : R := / 10 ^ 8.
Lemma tol_pos : 0 < tol.
Proof. unfold tol. apply Rinv_0_lt_compat. apply pow_lt. lra. Qed.

Lemma segment_inverse x0 x1 p0 p1 c0 c1 u : x0 < x1 -> p0 <> p1 -> 0 <= p0 -> 0 <= p1 -> c1 = c0 + (x1 - x0) * (p0 + p1) / 2 -> c0 < u < c1 ->
  let a := (p1 - p0) / (x1 - x0) in let b := p0 - a * x0 in let c := c0 - a / 2 * (x0 * x0) - b * x0 in
  exists s q, solve_square (a / 2) b c u = Ok s /\ x0 <= q <= x1 /\ c0 + (q - x0) * (p0 + line x0 p0 x1 p1 q) / 2 = u /\
    ((fst s = q /\ x0 - tol <= fst s <= x1 + tol) \/ (snd s = q /\ fst s <= x0 /\ (x0 - tol <= fst s -> Rabs (fst s - q) <= 2 * tol))).
Proof.
  intros X NP P0 P1 EC U a b c. assert (NA : a <> 0) by (unfold a; intro Z; apply NP; assert (p1 - p0 = 0) by (replace (p1 - p0) with ((p1 - p0) / (x1 - x0) * (x1 - x0)) by (field; lra); rewrite Z; ring); lra).
  set (al := p0 / a). set (be := p1 / a). assert (EP0 : p0 = a * al) by (unfold al; field; exact NA). assert (EP1 : p1 = a * be) by (unfold be; field; exact NA).
  assert (EX : be - al = x1 - x0) by (unfold al, be, a; field; split; [lra|intro; apply NP; lra]).
  assert (EL : forall q, line x0 p0 x1 p1 q = p0 + a * (q - x0)) by (intro q; unfold line, a; field; lra).
  unfold solve_square. replace (req (a / 2) 0) with false by (symmetry; destruct (req (a / 2) 0) eqn:E; rtest E; [exfalso; apply NA; lra|reflexivity]). cbn [negb].
  assert (EV : b / (2 * (a / 2)) = al - x0) by (unfold b, al; field; exact NA). rewrite EV.
  set (rho := (u - c) / (a / 2) + (al - x0) * (al - x0)).
  assert (ER : rho = al * al + 2 * (u - c0) / a). { unfold rho, c, b. rewrite EP0. field. exact NA. }
  assert (EB : be * be = al * al + 2 * (c1 - c0) / a). { rewrite EC, EP0, EP1. replace (x1 - x0) with (be - al). field. exact NA. }
  assert (GQ : forall w q, w * w = rho -> q - x0 = w - al \/ q - x0 = - w - al -> c0 + (q - x0) * (p0 + line x0 p0 x1 p1 q) / 2 = u).
  { intros w q W Q. rewrite EL. replace u with (c0 + a * (rho - al * al) / 2) by (rewrite ER; field; exact NA). rewrite <- W, EP0. destruct Q as [Q|Q]; rewrite Q; field. }
  destruct (Rlt_le_dec 0 a) as [A|A].
  - assert (IA : 0 < / a) by (apply Rinv_0_lt_compat; exact A). assert (AL : 0 <= al) by (unfold al, Rdiv; apply Rmult_le_pos; lra). assert (BE : 0 <= be) by (unfold be, Rdiv; apply Rmult_le_pos; lra).
    assert (R1 : al * al < rho) by (rewrite ER; assert (0 < 2 * (u - c0) / a) by (unfold Rdiv; apply Rmult_lt_0_compat; lra); lra).
    assert (R2 : rho < be * be). { rewrite ER, EB. assert (2 * (u - c0) / a < 2 * (c1 - c0) / a) by (unfold Rdiv; apply Rmult_lt_compat_r; lra). lra. }
    assert (AA : 0 <= al * al) by (apply Rmult_le_pos; exact AL).
    replace (rlt rho 0) with false by (symmetry; destruct (rlt rho 0) eqn:E; rtest E; [lra|reflexivity]). set (w := sqrt rho). assert (W : w * w = rho) by (unfold w; apply sqrt_sqrt; lra). assert (W0 : 0 <= w) by (unfold w; apply sqrt_pos).
    assert (W1 : al < w) by nra. assert (W2 : w < be) by nra.
    exists (- w - (al - x0), w - (al - x0)), (w - (al - x0)). cbn [fst snd]. split; [reflexivity|]. split; [lra|]. split; [apply (GQ w); [exact W|left; ring]|].
    right. split; [reflexivity|]. split; [lra|]. intro T. rewrite Rabs_left1 by lra. lra.
  - assert (A' : a < 0) by lra. assert (IA : / a < 0) by (apply Rinv_lt_0_compat; exact A'). assert (AL : al <= 0) by (unfold al, Rdiv; nra). assert (BE : be <= 0) by (unfold be, Rdiv; nra).
    assert (R1 : rho < al * al) by (rewrite ER; assert (2 * (u - c0) / a < 0) by (unfold Rdiv; nra); lra).
    assert (R2 : be * be < rho). { rewrite ER, EB. assert (2 * (c1 - c0) / a < 2 * (u - c0) / a) by (unfold Rdiv; nra). lra. }
    assert (BB : 0 <= be * be) by nra.
    replace (rlt rho 0) with false by (symmetry; destruct (rlt rho 0) eqn:E; rtest E; [lra|reflexivity]). set (w := sqrt rho). assert (W : w * w = rho) by (unfold w; apply sqrt_sqrt; lra). assert (W0 : 0 <= w) by (unfold w; apply sqrt_pos).
    assert (W1 : w < - al) by nra. assert (W2 : - be < w) by nra.
    exists (- w - (al - x0), w - (al - x0)), (- w - (al - x0)). cbn [fst snd]. split; [reflexivity|]. split; [lra|]. split; [apply (GQ w); [exact W|right; ring]|].
    left. split; [reflexivity|]. pose proof tol_pos. lra.
Qed.

(** *** The cumulative *)
Lemma cdf_from_spec : forall pdf knots k0 p0 c0, length knots = length pdf ->
  exists r, cdf_from k0 p0 c0 knots pdf = Ok r /\ length r = length pdf /\
    forall i, (i < length pdf)%nat -> el (c0 :: r) (S i) = el (c0 :: r) i + (el (k0 :: knots) (S i) - el (k0 :: knots) i) * (el (p0 :: pdf) i + el (p0 :: pdf) (S i)) / 2.
Proof.
  induction pdf as [|p1 pdf IH]; intros knots k0 p0 c0 L; cbn [cdf_from].
  - exists []. split; [reflexivity|]. split; [reflexivity|]. intros i Hi. cbn in Hi. lia.
  - destruct knots as [|k1 knots]; [cbn in L; lia|]. set (c1 := (k1 - k0) * (p1 + p0) / 2 + c0). destruct (IH knots k1 p1 c1 ltac:(cbn in L; lia)) as (r & E & LR & N). rewrite E. cbn [bind]. exists (c1 :: r). split; [reflexivity|]. split; [cbn; lia|].
    intros [|i] Hi; [unfold el; cbn [nth]; unfold c1; field|]. cbn in Hi. specialize (N i ltac:(lia)).
    change (el (c0 :: c1 :: r) (S (S i))) with (el (c1 :: r) (S i)). change (el (c0 :: c1 :: r) (S i)) with (el (c1 :: r) i). rewrite N. reflexivity.
Qed.

Lemma el_app_left (l l' : list R) i : (i < length l)%nat -> el (l ++ l') i = el l i.
Proof. intro H. unfold el. apply app_nth1. exact H. Qed.
Lemma el_app_right (l : list R) a : el (l ++ [a]) (length l) = a.
Proof. unfold el. rewrite app_nth2 by lia. rewrite Nat.sub_diag. reflexivity. Qed.
Lemma el_firstn (l : list R) n i : (i < n)%nat -> el (firstn n l) i = el l i.
Proof. unfold el. revert n i. induction l as [|a l IH]; intros n i H; [rewrite firstn_nil; reflexivity|]. destruct n; [lia|]. destruct i; [reflexivity|]. cbn. apply IH. lia. Qed.

Lemma trim_spec : forall cdf knots, cdf <> [] -> length knots = length cdf ->
  exists m, (m < length cdf)%nat /\ trim (rev cdf) (rev knots) = Ok (rev (firstn (S m) cdf), rev (firstn (S m) knots)) /\ el cdf m = el cdf (length cdf - 1).
Proof.
  intro cdf. induction cdf as [|a cdf IH] using rev_ind; intros knots N L; [congruence|]. clear N. rewrite app_length in L |- *. cbn [length] in L |- *.
  destruct knots as [|k knots _] using rev_ind; [cbn in L; lia|]. rewrite app_length in L. cbn [length] in L. assert (LK : length knots = length cdf) by lia. rewrite !rev_app_distr. cbn [rev app trim].
  assert (FULL : trim (a :: rev cdf) (k :: rev knots) = Ok (a :: rev cdf, k :: rev knots) -> exists m, (m < length cdf + 1)%nat /\ trim (a :: rev cdf) (k :: rev knots) = Ok (rev (firstn (S m) (cdf ++ [a])), rev (firstn (S m) (knots ++ [k]))) /\ el (cdf ++ [a]) m = el (cdf ++ [a]) (length cdf + 1 - 1)).
  { intro E. exists (length cdf). split; [lia|]. split; [|f_equal; lia]. rewrite E. rewrite !firstn_all2 by (rewrite app_length; cbn; lia). rewrite !rev_app_distr. reflexivity. }
  cbn [trim] in FULL. destruct (rev cdf) as [|b rc] eqn:RC; [apply FULL; reflexivity|]. destruct (req a b) eqn:Q; [|apply FULL; reflexivity]. rtest Q. subst b.
  assert (CN : cdf <> []) by (intro H; subst; discriminate). destruct (IH knots CN LK) as (m & Hm & E & EM). exists m. split; [lia|]. rewrite E. split.
  - rewrite !firstn_app. replace (S m - length cdf)%nat with 0%nat by lia. replace (S m - length knots)%nat with 0%nat by lia. cbn [firstn]. rewrite !app_nil_r. reflexivity.
  - rewrite el_app_left by exact Hm. replace (length cdf + 1 - 1)%nat with (length cdf) by lia. rewrite el_app_right. rewrite EM. assert (cdf = rev rc ++ [a]) as -> by (rewrite <- (rev_involutive cdf), RC; reflexivity). rewrite app_length. cbn [length]. replace (length (rev rc) + 1 - 1)%nat with (length (rev rc)) by lia. apply el_app_right.
Qed.

Section Inverse.
  Variables (ks pdf : list R).
  Hypothesis LP : length ks = length pdf.
  Hypothesis NE : pdf <> [].
  Hypothesis SK : sorted ks.
  Hypothesis NN : forall i, 0 <= el pdf i.

  Lemma area_mono i j : (i <= j)%nat -> (j < length ks)%nat -> area ks pdf i <= area ks pdf j.
  Proof.
    induction 1 as [|j H IH]; intro L; [lra|]. specialize (IH ltac:(lia)). cbn [area]. pose proof (el_sorted ks j (S j) SK ltac:(lia) L) as E. pose proof (NN j). pose proof (NN (S j)).
    assert (0 <= (el ks (S j) - el ks j) * (el pdf j + el pdf (S j))) by (apply Rmult_le_pos; lra). lra.
  Qed.
  Lemma new_inverse_spec : exists m, (m < length ks)%nat /\ area ks pdf m = area ks pdf (length ks - 1) /\
    exists cdf, length cdf = S m /\ (forall i, (i <= m)%nat -> el cdf i = el pdf 0 + area ks pdf i) /\
    new_inverse ks pdf = Ok {| i_knots := firstn (S m) ks; i_pdf := pdf; i_cdf := cdf; i_min := el pdf 0; i_range := area ks pdf m |}.
  Proof.
    unfold new_inverse. replace (increasing ks) with true by (symmetry; apply increasing_sorted; exact SK). cbn [negb].
    destruct pdf as [|p0 pdf'] eqn:EP; [congruence|]. destruct ks as [|k0 ks'] eqn:EK; [cbn in LP; lia|]. rewrite <- EP, <- EK in *.
    destruct (cdf_from_spec pdf' ks' k0 p0 p0 ltac:(rewrite EP, EK in LP; cbn in LP; lia)) as (r & E & LR & N). rewrite E. cbn [bind]. assert (LC : length (p0 :: r) = length ks) by (rewrite LP, EP; cbn; lia).
    assert (CA : forall i, (i < length ks)%nat -> el (p0 :: r) i = el pdf 0 + area ks pdf i).
    { induction i as [|i IH]; intro Hi; [rewrite EP; unfold el; cbn; ring|]. rewrite (N i) by (rewrite LP, EP in Hi; cbn in Hi; lia). rewrite IH by lia. cbn [area]. rewrite <- EK, <- EP. ring. }
    destruct (trim_spec (p0 :: r) ks ltac:(discriminate) ltac:(symmetry; exact LC)) as (m & Hm & ET & EM). rewrite ET. cbn [bind fst snd]. rewrite !rev_involutive. exists m. rewrite LC in Hm, EM. split; [exact Hm|].
    assert (AM : area ks pdf m = area ks pdf (length ks - 1)) by (rewrite !CA in EM by lia; lra). split; [exact AM|].
    exists (firstn (S m) (p0 :: r)). split; [rewrite firstn_length; lia|]. assert (CF : forall i, (i <= m)%nat -> el (firstn (S m) (p0 :: r)) i = el pdf 0 + area ks pdf i) by (intros i Hi; rewrite el_firstn by lia; apply CA; lia).
    split; [exact CF|]. cbn [firstn nth_error of_option bind]. apply f_equal. assert (EM0 : p0 = el pdf 0) by (rewrite EP; reflexivity). rewrite <- EM0. f_equal. change (p0 :: firstn m r) with (firstn (S m) (p0 :: r)). rewrite (last_el (firstn (S m) (p0 :: r)) 0) by discriminate.
    replace (length (firstn (S m) (p0 :: r)) - 1)%nat with m by (rewrite firstn_length; lia). rewrite CF by lia. rewrite <- EM0. ring.
  Qed.

  Lemma end_quantile p m : (m < length ks)%nat -> (2 <= length ks)%nat -> area ks pdf m = p * area ks pdf (length ks - 1) -> quantile ks pdf p (el ks m).
  Proof.
    intros Hm L2 E. destruct m as [|m].
    - exists 0%nat. split; [lia|]. split; [pose proof (el_sorted ks 0 1 SK ltac:(lia) ltac:(lia)); lra|]. unfold area_to. rewrite E. replace (el ks 0 - el ks 0) with 0 by ring. unfold Rdiv. ring.
    - exists m. split; [lia|]. pose proof (el_sorted ks m (S m) SK ltac:(lia) ltac:(lia)) as SE. split; [lra|]. unfold area_to. rewrite <- E. cbn [area]. destruct (Req_dec (el ks m) (el ks (S m))) as [Q|Q].
      + rewrite Q. replace (el ks (S m) - el ks (S m)) with 0 by ring. unfold Rdiv. ring.
      + unfold density, line. replace ((el ks (S m) - el ks m) / (el ks (S m) - el ks m)) with 1 by (field; lra). field.
  Qed.

  Lemma inverse_spec p : 0 <= p <= 1 -> (2 <= length ks)%nat ->
    exists t r q, new_inverse ks pdf = Ok t /\ find_inverse t p = Ok r /\ quantile ks pdf p q /\ Rabs (r - q) <= 2 * tol /\ (forall k, In k ks -> q <= k -> r <= k) /\ el ks 0 - tol <= r.
  Proof.
    intros P L2. destruct new_inverse_spec as (m & Hm & AM & cdf & LC & CF & E). rewrite E. pose proof tol_pos as TP. assert (EXACT : forall q, Rabs (q - q) <= 2 * tol) by (intro q; replace (q - q) with 0 by ring; rewrite Rabs_R0; lra).
    assert (KM : forall i, (i <= m)%nat -> nth_error (firstn (S m) ks) i = Some (el ks i)) by (intros i Hi; rewrite (el_nth (firstn (S m) ks)) by (rewrite firstn_length; lia); rewrite el_firstn by lia; reflexivity).
    assert (CM : forall i, (i <= m)%nat -> nth_error cdf i = Some (el pdf 0 + area ks pdf i)) by (intros i Hi; rewrite (el_nth cdf) by lia; rewrite CF by exact Hi; reflexivity).
    assert (LCd : last cdf 0 = el pdf 0 + area ks pdf m) by (rewrite last_el by (destruct cdf; [cbn in LC; lia|discriminate]); rewrite LC; replace (S m - 1)%nat with m by lia; apply CF; lia).
    assert (LKn : last (firstn (S m) ks) 0 = el ks m). { assert (LF : length (firstn (S m) ks) = S m) by (rewrite firstn_length; lia). rewrite last_el by (destruct (firstn (S m) ks); [cbn in LF; lia|discriminate]). rewrite LF. replace (S m - 1)%nat with m by lia. apply el_firstn. lia. }
    assert (AMp : 0 <= area ks pdf m) by (pose proof (area_mono 0 m ltac:(lia) Hm) as Q; cbn [area] in Q; exact Q).
    unfold find_inverse. match goal with |- context [Ok ?T = Ok _] => exists T end. cbn [i_knots i_pdf i_cdf i_min i_range]. replace (rlt p 0 || rlt 1 p) with false by (symmetry; destruct (rlt p 0) eqn:Q1; rtest Q1; [lra|]; destruct (rlt 1 p) eqn:Q2; rtest Q2; [lra|reflexivity]).
    rewrite (CM 0%nat), (KM 0%nat) by lia. cbn [of_option bind]. rewrite LCd, LKn. set (u := p * area ks pdf m + el pdf 0).
    assert (F0 : forall k, In k ks -> el ks 0 <= k) by (intros k I; destruct (In_nth_error _ _ I) as (j & Hj); apply (sorted_le ks 0 j (el ks 0) k SK ltac:(lia)); [apply el_nth; lia|exact Hj]).
    destruct (rle u (el pdf 0 + area ks pdf 0)) eqn:U0; rtest U0.
    { exists (el ks 0), (el ks 0). split; [reflexivity|]. split; [reflexivity|]. split; [|split; [apply EXACT|split; [intros; auto|lra]]]. apply end_quantile; [lia|exact L2|]. cbn [area] in U0 |- *. rewrite <- AM. unfold u in U0. assert (0 <= p * area ks pdf m) by (apply Rmult_le_pos; lra). lra. }
    destruct (rle (el pdf 0 + area ks pdf m) u) eqn:U1; rtest U1.
    { exists (el ks m), (el ks m). split; [reflexivity|]. split; [reflexivity|]. split; [|split; [apply EXACT|split; [intros; auto|pose proof (el_sorted ks 0 m SK ltac:(lia) Hm); lra]]]. apply end_quantile; [exact Hm|exact L2|]. rewrite <- AM. unfold u in U1. assert (0 <= (1 - p) * area ks pdf m) by (apply Rmult_le_pos; lra). lra. }
    cbn [area] in U0.
    assert (SC : sorted cdf). { intros i j x y Hij Hx Hy. assert (j < S m)%nat by (rewrite <- LC; apply nth_error_Some; congruence). rewrite CM in Hx by lia. rewrite CM in Hy by lia. injection Hx as <-. injection Hy as <-. pose proof (area_mono i j ltac:(lia) ltac:(lia)). lra. }
    (* the segment *)
    unfold upper_bound. destruct (count_while_spec (fun k => rle k u) cdf) as (C1 & C2 & C3). set (n := count_while _ _) in *. clearbody n.
    assert (N0 : n <> 0%nat) by (intro Z; subst n; specialize (C3 _ (CM 0%nat ltac:(lia))); rtest C3; cbn [area] in C3; lra).
    assert (NM : (n <= m)%nat) by (destruct (Nat.eq_dec n (S m)) as [Q|Q]; [subst n; specialize (C2 m _ ltac:(lia) (CM m ltac:(lia))); rtest C2; lra|lia]).
    pose proof (C2 (n - 1)%nat _ ltac:(lia) (CM (n - 1)%nat ltac:(lia))) as B1. pose proof (C3 _ (CM n NM)) as B2. rtest B1. rtest B2. set (i := (n - 1)%nat) in *. assert (EN : n = S i) by lia. rewrite EN in *. clear EN.
    rewrite !(KM i), !(KM (S i)), !(CM i), !(CM (S i)) by lia. rewrite (el_nth pdf i), (el_nth pdf (S i)) by lia. cbn [of_option bind].
    assert (AI : area ks pdf (S i) = area ks pdf i + (el ks (S i) - el ks i) * (el pdf i + el pdf (S i)) / 2) by reflexivity.
    pose proof (el_sorted ks i (S i) SK ltac:(lia) ltac:(lia)) as SX. assert (X : el ks i < el ks (S i)). { destruct (Req_dec (el ks i) (el ks (S i))) as [Q|Q]; [|lra]. rewrite Q in AI. replace (el ks (S i) - el ks (S i)) with 0 in AI by ring. unfold Rdiv in AI. rewrite Rmult_0_l, Rmult_0_l in AI. lra. }
    assert (UA : u - el pdf 0 = p * area ks pdf (length ks - 1)) by (rewrite <- AM; unfold u; ring).
    assert (UPPER : forall k q r, In k ks -> el ks i < q -> q <= k -> r <= el ks (S i) -> r <= k).
    { intros k q r I Q1 Q2 R1. destruct (In_nth_error _ _ I) as (j & Hj). destruct (le_lt_dec (S i) j) as [LE|LT].
      - pose proof (sorted_le ks (S i) j (el ks (S i)) k SK LE (el_nth ks (S i) ltac:(lia)) Hj). lra.
      - pose proof (sorted_le ks j i k (el ks i) SK ltac:(lia) Hj (el_nth ks i ltac:(lia))). lra. }
    pose proof (el_sorted ks 0 i SK ltac:(lia) ltac:(lia)) as SX0.
    destruct (Req_dec u (el pdf 0 + area ks pdf i)) as [UE|UN].
    { (* exactly at the knot *)
      exists (el ks i), (el ks i). split; [reflexivity|]. split; [|split; [apply end_quantile; [lia|exact L2|lra]|split; [apply EXACT|split; [intros; auto|lra]]]].
      destruct (req (el pdf i) (el pdf (S i))) eqn:QP; [apply f_equal; rewrite UE; unfold Rdiv; ring|]. rewrite UE. replace (rle (el pdf 0 + area ks pdf i) (el pdf 0 + area ks pdf i)) with true by (symmetry; apply rle_iff; lra). rewrite !orb_true_r. reflexivity. }
    destruct (req (el pdf i) (el pdf (S i))) eqn:QP; rtest QP.
    - rewrite <- QP in AI. assert (D : area ks pdf (S i) - area ks pdf i = (el ks (S i) - el ks i) * el pdf i) by lra. assert (PP : 0 < el pdf i) by (destruct (Req_dec (el pdf i) 0) as [Q|Q]; [rewrite Q in D; lra|pose proof (NN i); lra]).
      set (q := (el ks (S i) - el ks i) * ((u - (el pdf 0 + area ks pdf i)) / (el pdf 0 + area ks pdf (S i) - (el pdf 0 + area ks pdf i))) + el ks i).
      assert (EQ : q - el ks i = (u - (el pdf 0 + area ks pdf i)) / el pdf i). { unfold q. replace (el pdf 0 + area ks pdf (S i) - (el pdf 0 + area ks pdf i)) with ((el ks (S i) - el ks i) * el pdf i) by lra. field. lra. }
      assert (Q0 : 0 < q - el ks i) by (rewrite EQ; unfold Rdiv; apply Rmult_lt_0_compat; [lra|apply Rinv_0_lt_compat; exact PP]).
      assert (Q1 : q - el ks i <= el ks (S i) - el ks i). { rewrite EQ. apply (Rmult_le_reg_r (el pdf i)); [exact PP|]. unfold Rdiv. rewrite Rmult_assoc, Rinv_l by lra. lra. }
      exists q, q. split; [reflexivity|]. split; [reflexivity|]. split; [|split; [apply EXACT|split; [intros; auto|lra]]]. exists i. split; [lia|]. split; [lra|]. unfold area_to, density, line. rewrite <- QP, EQ, <- UA. field. lra.
    - replace (req (el ks (S i)) (el ks i)) with false by (symmetry; destruct (req (el ks (S i)) (el ks i)) eqn:Q; rtest Q; [lra|reflexivity]). replace (req (el pdf 0 + area ks pdf i) (el pdf 0 + area ks pdf (S i))) with false by (symmetry; destruct (req (el pdf 0 + area ks pdf i) (el pdf 0 + area ks pdf (S i))) eqn:Q; rtest Q; [lra|reflexivity]).
      replace (rle u (el pdf 0 + area ks pdf i)) with false by (symmetry; destruct (rle u (el pdf 0 + area ks pdf i)) eqn:Q; rtest Q; [lra|reflexivity]). cbn [orb].
      destruct (segment_inverse (el ks i) (el ks (S i)) (el pdf i) (el pdf (S i)) (el pdf 0 + area ks pdf i) (el pdf 0 + area ks pdf (S i)) u X QP (NN i) (NN (S i)) ltac:(rewrite AI; ring) ltac:(lra)) as (s & q & ES & XQ & GQ & CS).
      rewrite ES. cbn [bind]. fold tol. assert (QU : quantile ks pdf p q) by (exists i; split; [lia|]; split; [exact XQ|]; unfold area_to, density; lra).
      assert (QI : el ks i < q) by (destruct (Req_dec q (el ks i)) as [Q|Q]; [rewrite Q in GQ; replace (el ks i - el ks i) with 0 in GQ by ring; unfold Rdiv in GQ; lra|lra]).
      destruct CS as [[FQ FR]|[SQ [FL FT]]].
      + replace (rle (el ks i - tol) (fst s)) with true by (symmetry; apply rle_iff; lra). replace (rle (fst s) (el ks (S i) + tol)) with true by (symmetry; apply rle_iff; lra). cbn [andb]. exists (fst s), q. split; [reflexivity|]. split; [reflexivity|]. split; [exact QU|]. rewrite FQ. split; [apply EXACT|]. split; [auto|lra].
      + destruct (rle (el ks i - tol) (fst s)) eqn:T; rtest T.
        * replace (rle (fst s) (el ks (S i) + tol)) with true by (symmetry; apply rle_iff; lra). cbn [andb]. exists (fst s), q. split; [reflexivity|]. split; [reflexivity|]. split; [exact QU|]. split; [apply FT; exact T|]. split; [|lra]. intros k I Q. lra.
        * cbn [andb]. rewrite SQ. replace (rle (el ks i - tol) q) with true by (symmetry; apply rle_iff; lra). replace (rle q (el ks (S i) + tol)) with true by (symmetry; apply rle_iff; lra). cbn [andb]. exists q, q. split; [reflexivity|]. split; [reflexivity|]. split; [exact QU|]. split; [apply EXACT|]. split; [auto|lra].
  Qed.
End Inverse.
