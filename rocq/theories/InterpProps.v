(** Properties of the interpolation of points: C39, C40, C92. Values are real
    numbers. [lowest] and [highest] are the limits of double; [junk] stands for
    the coefficients the program gets by dividing by zero. *)
From Coq Require Import Reals List Arith Bool Lia Lra.
From Coquelicot Require Import Coquelicot.
From Verif Require Import Common CumulModel CumulProofs FunModel FunSpec FunProofs FunProofs2 FunProps InterpModel InterpSpec InterpProofs.
Import ListNotations.
Local Open Scope R_scope.

(** ** C39: linear interpolation *)

(** For strictly increasing abscissae the function passes through the points, is
    the line between neighbouring points, between their values, zero outside the
    range and continuous inside it. *)
Theorem C39_linear lowest highest junk xs ys : length xs = length ys -> (2 <= length xs)%nat -> strictly_sorted xs ->
  exists f, interpolate lowest highest junk xs ys Linear false = Ok f /\ usable f /\
    (forall i, (i < length xs)%nat -> value f (el xs i) = el ys i) /\
    (forall i x, (S i < length xs)%nat -> el xs i <= x <= el xs (S i) ->
       value f x = line (el xs i) (el ys i) (el xs (S i)) (el ys (S i)) x /\ Rmin (el ys i) (el ys (S i)) <= value f x <= Rmax (el ys i) (el ys (S i))) /\
    (forall x, x < el xs 0 \/ el xs (length xs - 1) < x -> value f x = 0) /\
    (forall x, el xs 0 < x < el xs (length xs - 1) -> continuous (value f) x).
Proof.
  intros L L2 SR. pose proof (strict_sorted xs SR) as SS. rewrite interpolate_clean by (auto; apply strict_distinct; exact SR).
  exists (Piece xs (linear_pieces junk xs ys)). split; [apply (linear_result lowest highest junk xs ys false L L2 SS)|].
  pose proof (linear_pieces_are junk xs xs ys L L2 eq_refl) as PA. pose proof (lp_join junk xs ys SR) as J. pose proof (linear_pieces_length junk xs ys L) as LP. rewrite <- LP in J.
  assert (V : forall i x, (S i < length xs)%nat -> el xs i <= x <= el xs (S i) -> value (Piece xs (linear_pieces junk xs ys)) x = line (el xs i) (el ys i) (el xs (S i)) (el ys (S i)) x).
  { intros i x Hi X. rewrite (pieces_closed xs _ (lp junk xs ys) i x PA SR J ltac:(lia) X). apply lp_line. pose proof (el_strict xs i (S i) SR ltac:(lia) Hi). lra. }
  split; [apply (pieces_usable _ _ _ PA SS)|]. split; [|split; [|split]].
  - intros i Hi. destruct (Nat.eq_dec i (length xs - 1)) as [->|N].
    + pose proof (el_strict xs (length xs - 2) (length xs - 1) SR ltac:(lia) ltac:(lia)) as D. pose proof (V (length xs - 2)%nat (el xs (length xs - 1)) ltac:(lia)) as VV.
      replace (S (length xs - 2)) with (length xs - 1)%nat in VV by lia. rewrite VV by lra. apply line_right. lra.
    + rewrite (V i) by (try lia; pose proof (el_strict xs i (S i) SR ltac:(lia) ltac:(lia)); lra). apply line_left.
  - intros i x Hi X. rewrite (V i x Hi X). split; [reflexivity|]. apply line_between; [apply el_strict; auto; lia|exact X].
  - intros x [X|X]; [apply (pieces_below _ _ _ x PA X)|apply (pieces_above _ _ _ x PA SS); rewrite LP; exact X].
  - intros x X. apply (pieces_continuous xs _ (lp junk xs ys) x PA SR J); [|rewrite LP; exact X]. intros i t Hi.
    apply (continuous_ext (line (el xs i) (el ys i) (el xs (S i)) (el ys (S i)))); [|apply line_continuous]. intro s. symmetry. apply lp_line. pose proof (el_strict xs i (S i) SR ltac:(lia) ltac:(lia)). lra.
Qed.
Print Assumptions C39_linear.

(** When extrapolating, the lines of the first and the last two points go on
    outside the range, up to the limits of double. *)
Theorem C39_extrapolated lowest highest junk xs ys : length xs = length ys -> (2 <= length xs)%nat -> strictly_sorted xs -> (forall x, In x xs -> lowest < x < highest) ->
  exists f, interpolate lowest highest junk xs ys Linear true = Ok f /\ usable f /\
    (forall i x, (S i < length xs)%nat -> el xs i <= x <= el xs (S i) -> value f x = line (el xs i) (el ys i) (el xs (S i)) (el ys (S i)) x) /\
    (forall x, lowest <= x <= el xs 0 -> value f x = line (el xs 0) (el ys 0) (el xs 1) (el ys 1) x) /\
    (forall x, el xs (length xs - 1) <= x <= highest ->
       value f x = line (el xs (length xs - 2)) (el ys (length xs - 2)) (el xs (length xs - 1)) (el ys (length xs - 1)) x).
Proof.
  intros L L2 SR B. pose proof (strict_sorted xs SR) as SS. rewrite interpolate_clean by (auto; apply strict_distinct; exact SR).
  pose proof (replace_strict lowest highest xs L2 SR B) as SK. pose proof (strict_sorted _ SK) as SSK.
  exists (Piece (knots lowest highest true xs) (linear_pieces junk xs ys)). split; [apply (linear_result lowest highest junk xs ys true L L2 SSK)|].
  pose proof (linear_pieces_are junk (knots lowest highest true xs) xs ys L L2 (knots_length lowest highest true xs)) as PA. split; [apply (pieces_usable _ _ _ PA SSK)|].
  destruct (extrapolated_value lowest highest xs _ _ L2 PA SR B (lp_join junk xs ys SR)) as (V1 & V2 & V3). split; [|split].
  - intros i x Hi X. rewrite (V1 i x Hi X). apply lp_line. pose proof (el_strict xs i (S i) SR ltac:(lia) Hi). lra.
  - intros x X. rewrite (V2 x X). apply lp_line. pose proof (el_strict xs 0 1 SR ltac:(lia) ltac:(lia)). lra.
  - intros x X. rewrite (V3 x X). pose proof (el_strict xs (length xs - 2) (length xs - 1) SR ltac:(lia) ltac:(lia)) as D. rewrite lp_line; replace (S (length xs - 2)) with (length xs - 1)%nat by lia; [reflexivity|lra].
Qed.
Print Assumptions C39_extrapolated.

(** Points with the same abscissa and different values make steps: at the step the
    function has the earlier value, after it the later one. The first two
    abscissae must differ. *)
Theorem C39_steps lowest highest junk xs ys : length xs = length ys -> (2 <= length xs)%nat -> sorted xs -> el xs 0 < el xs 1 ->
  (forall i, (S i < length xs)%nat -> el xs i = el xs (S i) -> el ys i <> el ys (S i)) ->
  exists f, interpolate lowest highest junk xs ys Linear false = Ok f /\ usable f /\ value f (el xs 0) = el ys 0 /\
    forall i x, (S i < length xs)%nat -> el xs i < x <= el xs (S i) -> value f x = line (el xs i) (el ys i) (el xs (S i)) (el ys (S i)) x.
Proof.
  intros L L2 SS D01 D. rewrite interpolate_clean by auto.
  exists (Piece xs (linear_pieces junk xs ys)). split; [apply (linear_result lowest highest junk xs ys false L L2 SS)|].
  pose proof (linear_pieces_are junk xs xs ys L L2 eq_refl) as PA. pose proof (linear_pieces_length junk xs ys L) as LP.
  split; [apply (pieces_usable _ _ _ PA SS)|]. split.
  - rewrite (pieces_first xs _ _ PA). rewrite lp_line by lra. apply line_left.
  - intros i x Hi X. rewrite (pieces_inside xs _ _ i x PA SS ltac:(lia) X). apply lp_line. lra.
Qed.
Print Assumptions C39_steps.

(** A point given twice in a row counts once, when at least two points remain. *)
Theorem C39_repeated_points lowest highest junk xs1 ys1 x y xs2 ys2 type extrapolate : length xs1 = length ys1 -> (1 <= length (xs1 ++ xs2))%nat ->
  interpolate lowest highest junk (xs1 ++ x :: x :: xs2) (ys1 ++ y :: y :: ys2) type extrapolate = interpolate lowest highest junk (xs1 ++ x :: xs2) (ys1 ++ y :: ys2) type extrapolate.
Proof.
  intros L N. rewrite app_length in N. unfold interpolate. rewrite !app_length. cbn [length].
  replace (Nat.eqb (length xs1 + S (S (length xs2))) (length ys1 + S (S (length ys2)))) with (Nat.eqb (length xs1 + S (length xs2)) (length ys1 + S (length ys2))).
  2:{ rewrite L. destruct (Nat.eqb (length ys1 + S (length xs2)) (length ys1 + S (length ys2))) eqn:E; symmetry; [apply Nat.eqb_eq in E; apply Nat.eqb_eq; lia|apply Nat.eqb_neq in E; apply Nat.eqb_neq; lia]. }
  destruct (Nat.eqb (length xs1 + S (length xs2)) (length ys1 + S (length ys2))); [|reflexivity]. cbn [negb].
  replace (Nat.eqb (length xs1 + S (S (length xs2))) 1) with false by (symmetry; apply Nat.eqb_neq; lia). replace (Nat.eqb (length xs1 + S (length xs2)) 1) with false by (symmetry; apply Nat.eqb_neq; lia). cbn [andb].
  destruct xs1 as [|a xs1], ys1 as [|b ys1]; try discriminate; cbn [app].
  - rewrite clean_dup0. reflexivity.
  - rewrite clean_dup by (cbn in L; lia). reflexivity.
Qed.
Print Assumptions C39_repeated_points.

(** Vectors of different sizes and decreasing abscissae throw. *)
Theorem C39_throws lowest highest junk xs ys type extrapolate :
  (length xs <> length ys -> interpolate lowest highest junk xs ys type extrapolate = Throw) /\
  (forall i, length xs = length ys -> (S i < length xs)%nat -> el xs (S i) < el xs i -> interpolate lowest highest junk xs ys type extrapolate = Throw).
Proof.
  split.
  - intro H. unfold interpolate. apply Nat.eqb_neq in H. rewrite H. reflexivity.
  - intros i L Hi H. unfold interpolate. rewrite L, Nat.eqb_refl. cbn [negb]. replace (Nat.eqb (length ys) 1) with false by (symmetry; apply Nat.eqb_neq; lia). cbn [andb].
    destruct xs as [|x0 xs]; [cbn in Hi; lia|]. destruct ys as [|y0 ys]; [discriminate|]. rewrite (clean_throws xs ys x0 y0 i); [reflexivity|cbn in L; lia|cbn in Hi; lia|exact H].
Qed.
Print Assumptions C39_throws.

(** Contrary to the documentation, points with the same abscissa and different
    values are accepted; when they are the first ones, the value at the first
    abscissa depends on a division by zero. *)
Theorem C39_steps_refuted lowest highest : exists xs ys, length xs = length ys /\ el xs 0 = el xs 1 /\ el ys 0 <> el ys 1 /\
  exists f g, interpolate lowest highest [1] xs ys Linear false = Ok f /\ interpolate lowest highest [2] xs ys Linear false = Ok g /\
    value f (el xs 0) = 1 /\ value g (el xs 0) = 2.
Proof.
  exists [0; 0; 1], [0; 5; 6]. split; [reflexivity|]. split; [reflexivity|]. split; [unfold el; cbn; lra|].
  assert (SS : sorted [0; 0; 1]).
  { intros [|[|[|i]]] [|[|[|j]]] x y H Hx Hy; cbn in Hx, Hy; try lia; try discriminate; try (destruct i; discriminate); try (destruct j; discriminate); injection Hx as <-; injection Hy as <-; lra. }
  assert (D : forall i, (S i < length [0; 0; 1])%nat -> el [0; 0; 1] i = el [0; 0; 1] (S i) -> el [0; 5; 6] i <> el [0; 5; 6] (S i)).
  { intros [|[|i]] Hi; cbn in Hi; try lia; unfold el; cbn; intros; lra. }
  do 2 eexists. split; [rewrite interpolate_clean by (auto; cbn; lia); apply (linear_result lowest highest _ [0; 0; 1] [0; 5; 6] false eq_refl ltac:(cbn; lia) SS)|].
  split; [rewrite interpolate_clean by (auto; cbn; lia); apply (linear_result lowest highest _ [0; 0; 1] [0; 5; 6] false eq_refl ltac:(cbn; lia) SS)|].
  split; (erewrite pieces_first by (apply linear_pieces_are; [reflexivity|cbn; lia|reflexivity])); unfold lp, linear_piece; cbn [el nth]; change (el [0; 0; 1] 0) with 0; change (el [0; 0; 1] 1) with 0;
    (destruct (req 0 0) eqn:E; rtest E; [|lra]); unfold value; cbn [eval]; unfold poly_eval; cbn; ring.
Qed.
Print Assumptions C39_steps_refuted.

(** No points at all: the first one is read nevertheless. *)
Theorem C39_no_points_refuted lowest highest junk type extrapolate : interpolate lowest highest junk [] [] type extrapolate = UB.
Proof. reflexivity. Qed.
Print Assumptions C39_no_points_refuted.

(** One point without extrapolation gives a function that cannot be evaluated at
    the point. *)
Theorem C39_one_point_refuted lowest highest junk x y : exists f, interpolate lowest highest junk [x] [y] Linear false = Ok f /\ eval f x = UB.
Proof. exists (Piece [x] []). split; [reflexivity|]. cbn [eval piece_index]. destruct (rlt x x) eqn:E; rtest E; [lra|]. destruct (req x x) eqn:E1; rtest E1; [reflexivity|contradiction]. Qed.
Print Assumptions C39_one_point_refuted.

(** One point with extrapolation is constant; the same point given twice is zero
    below the largest double. *)
Theorem C39_one_point_twice_refuted lowest highest junk x y : exists f g,
  interpolate lowest highest junk [x] [y] Linear true = Ok f /\ interpolate lowest highest junk [x; x] [y; y] Linear true = Ok g /\
  forall t, t < highest -> value f t = y /\ value g t = 0.
Proof.
  exists (Other (fun _ => y)), (Piece [highest] []). split; [reflexivity|]. split.
  - unfold interpolate. cbn [length Nat.eqb negb andb]. rewrite clean_dup0. reflexivity.
  - intros t T. split; [reflexivity|]. unfold value. rewrite (eval_below [highest] [] t highest eq_refl T). reflexivity.
Qed.
Print Assumptions C39_one_point_twice_refuted.

Example C39_example : strictly_sorted [0; 1; 3] /\ line 1 2 3 6 2 = 4 /\ (forall x, In x [0; 1; 3] -> -1000 < x < 1000) /\
  sorted [0; 1; 1; 2] /\ el [0; 1; 1; 2] 0 < el [0; 1; 1; 2] 1 /\ (forall i, (S i < 4)%nat -> el [0; 1; 1; 2] i = el [0; 1; 1; 2] (S i) -> el [5; 6; 7; 8] i <> el [5; 6; 7; 8] (S i)).
Proof.
  split; [apply sorted3; lra|]. split; [unfold line; lra|]. split; [intros x [<-|[<-|[<-|[]]]]; lra|]. split; [|split; [unfold el; cbn; lra|]].
  - apply increasing_sorted. cbn [increasing]; dec; reflexivity.
  - intros [|[|[|i]]] Hi; try lia; unfold el; cbn [nth]; intros Q1 Q2; lra.
Qed.

(** ** C40: cubic splines *)

(** For strictly increasing abscissae the function is the natural cubic spline
    through the points, and zero outside their range. *)
Theorem C40_spline lowest highest junk xs ys : length xs = length ys -> (2 <= length xs)%nat -> strictly_sorted xs ->
  exists f p, interpolate lowest highest junk xs ys CubicSpline false = Ok f /\ usable f /\ natural_spline xs ys p /\
    (forall i x, (S i < length xs)%nat -> el xs i <= x <= el xs (S i) -> value f x = p i x) /\
    (forall x, x < el xs 0 \/ el xs (length xs - 1) < x -> value f x = 0).
Proof.
  intros L L2 SR. pose proof (strict_sorted xs SR) as SS. rewrite interpolate_clean by (auto; apply strict_distinct; exact SR).
  eexists _, (sps xs ys). split; [apply (spline_result lowest highest xs ys false L2 SS)|]. pose proof (spline_pieces_are xs xs ys L2 eq_refl) as PA.
  assert (LP : length (map (spline_piece (el xs) (el ys) (length xs - 1)) (seq 0 (length xs - 1))) = (length xs - 1)%nat) by (rewrite map_length, seq_length; reflexivity).
  split; [apply (pieces_usable _ _ _ PA SS)|]. split; [apply sps_natural; auto|]. split.
  - intros i x Hi X. apply (pieces_closed xs _ _ i x PA SR); [rewrite LP; apply sps_join; auto|rewrite LP; lia|exact X].
  - intros x [X|X]; [apply (pieces_below _ _ _ x PA X)|apply (pieces_above _ _ _ x PA SS); rewrite LP; exact X].
Qed.
Print Assumptions C40_spline.

(** Inside the range the function has a derivative, which has a derivative, which
    is continuous. *)
Theorem C40_smooth lowest highest junk xs ys : length xs = length ys -> (2 <= length xs)%nat -> strictly_sorted xs ->
  exists f (f1 f2 : R -> R), interpolate lowest highest junk xs ys CubicSpline false = Ok f /\
    forall x, el xs 0 < x < el xs (length xs - 1) -> is_derive (value f) x (f1 x) /\ is_derive f1 x (f2 x) /\ continuous f2 x.
Proof.
  intros L L2 SR. pose proof (strict_sorted xs SR) as SS. rewrite interpolate_clean by (auto; apply strict_distinct; exact SR).
  set (n := (length xs - 1)%nat). set (p1 := sp1 (el xs) (el ys) n). set (p2 := sp2 (el xs) (el ys) n).
  set (g1 := map (fun i => Other (p1 i)) (seq 0 n)). set (g2 := map (fun i => Other (p2 i)) (seq 0 n)).
  eexists _, (value (Piece xs g1)), (value (Piece xs g2)). split; [apply (spline_result lowest highest xs ys false L2 SS)|]. pose proof (spline_pieces_are xs xs ys L2 eq_refl) as PA. fold n in PA |- *.
  assert (PA1 : pieces_are xs g1 p1) by (apply index_pieces_are; [unfold n; lia|unfold n; lia|]; intros i Hi; split; [constructor|reflexivity]).
  assert (PA2 : pieces_are xs g2 p2) by (apply index_pieces_are; [unfold n; lia|unfold n; lia|]; intros i Hi; split; [constructor|reflexivity]).
  assert (LP : forall A (g : nat -> A), length (map g (seq 0 n)) = n) by (intros; rewrite map_length, seq_length; reflexivity).
  assert (X : forall i, (i < n)%nat -> el xs i < el xs (S i)) by (intros i Hi; apply el_strict; [exact SR|lia|unfold n in Hi; lia]).
  assert (J : forall j, (S j < n)%nat -> sps xs ys j (el xs (S j)) = sps xs ys (S j) (el xs (S j))) by (apply sps_join; auto).
  assert (J1 : forall j, (S j < n)%nat -> p1 j (el xs (S j)) = p1 (S j) (el xs (S j))) by (intros j Hj; apply sp1_join; auto).
  assert (J2 : forall j, (S j < n)%nat -> p2 j (el xs (S j)) = p2 (S j) (el xs (S j))) by (intros j Hj; unfold p2; rewrite sp2_join by (auto; lia); rewrite sp2_left; reflexivity).
  intros x Hx. split; [|split].
  - apply (pieces_derive xs _ g1 (sps xs ys) p1 x PA PA1 SR); rewrite ?LP; auto. intros i t _. apply sp_derive.
  - apply (pieces_derive xs g1 g2 p1 p2 x PA1 PA2 SR); unfold g1; rewrite ?LP; auto. intros i t _. apply sp1_derive.
  - apply (pieces_continuous xs g2 p2 x PA2 SR); unfold g2; rewrite ?LP; auto. intros i t _. apply (ex_derive_continuous (p2 i)). eexists. apply sp2_derive.
Qed.
Print Assumptions C40_smooth.

(** When extrapolating, the first and the last cubic go on outside the range. *)
Theorem C40_extrapolated lowest highest junk xs ys : length xs = length ys -> (2 <= length xs)%nat -> strictly_sorted xs -> (forall x, In x xs -> lowest < x < highest) ->
  exists f p, interpolate lowest highest junk xs ys CubicSpline true = Ok f /\ usable f /\ natural_spline xs ys p /\
    (forall i x, (S i < length xs)%nat -> el xs i <= x <= el xs (S i) -> value f x = p i x) /\
    (forall x, lowest <= x <= el xs 0 -> value f x = p 0%nat x) /\ (forall x, el xs (length xs - 1) <= x <= highest -> value f x = p (length xs - 2)%nat x).
Proof.
  intros L L2 SR B. pose proof (strict_sorted xs SR) as SS. rewrite interpolate_clean by (auto; apply strict_distinct; exact SR).
  pose proof (strict_sorted _ (replace_strict lowest highest xs L2 SR B)) as SSK. eexists _, (sps xs ys). split; [apply (spline_result lowest highest xs ys true L2 SSK)|].
  pose proof (spline_pieces_are (knots lowest highest true xs) xs ys L2 (knots_length lowest highest true xs)) as PA. split; [apply (pieces_usable _ _ _ PA SSK)|]. split; [apply sps_natural; auto|].
  apply (extrapolated_value lowest highest xs _ _ L2 PA SR B (sps_join xs ys L2 SR)).
Qed.
Print Assumptions C40_extrapolated.

(** A spline through (0,0), (1,1), (2,0). *)
Example C40_example lowest highest junk : strictly_sorted [0; 1; 2] /\
  exists f, interpolate lowest highest junk [0; 1; 2] [0; 1; 0] CubicSpline false = Ok f /\ value f (1/2) = 11/16.
Proof.
  assert (SR : strictly_sorted [0; 1; 2]) by (apply sorted3; lra). split; [exact SR|]. pose proof (strict_sorted _ SR) as SS.
  eexists. split; [rewrite interpolate_clean by (auto; try (cbn; lia); apply strict_distinct; exact SR); apply (spline_result lowest highest [0; 1; 2] [0; 1; 0] false ltac:(cbn; lia) SS)|].
  eapply eq_trans; [apply (pieces_closed [0; 1; 2] _ _ 0 (1/2) (spline_pieces_are [0; 1; 2] [0; 1; 2] [0; 1; 0] ltac:(cbn; lia) eq_refl) SR)|].
  - intros j Hj. apply (sps_join [0; 1; 2] [0; 1; 0]); [cbn; lia|exact SR|cbn in Hj; cbn; lia].
  - cbn. lia.
  - unfold el. cbn. lra.
  - unfold sps, sp, sb, sd, sc, c_down. cbn [length Nat.sub muz]. unfold sg, sh, el. cbn [nth fst snd]. unfold sh, el. cbn [nth]. field.
Qed.

(** ** C92: simple_interpolation *)

(** For strictly increasing abscissae simple_interpolation gives the value of the
    function returned by interpolate, with and without extrapolation. *)
Theorem C92_same_as_interpolate lowest highest junk xs ys extrapolate : length xs = length ys -> (2 <= length xs)%nat -> strictly_sorted xs -> (forall x, In x xs -> lowest < x < highest) ->
  exists f, interpolate lowest highest junk xs ys Linear extrapolate = Ok f /\
    forall x, lowest <= x <= highest -> simple_interpolation x xs ys extrapolate = Ok (value f x).
Proof.
  intros L L2 SR B. pose proof (strict_sorted xs SR) as SS. pose proof (el_strict xs 0 1 SR ltac:(lia) ltac:(lia)) as D0. pose proof (el_strict xs (length xs - 2) (length xs - 1) SR ltac:(lia) ltac:(lia)) as D1.
  assert (LOC : forall x, el xs 0 <= x < el xs (length xs - 1) -> exists i, (S i < length xs)%nat /\ el xs i <= x < el xs (S i)).
  { intros x X. destruct (Req_dec x (el xs 0)) as [->|N]; [exists 0%nat; split; [lia|lra]|]. destruct (locate xs (length xs - 1) x ltac:(lia) ltac:(lra)) as (i & Hi & XI).
    destruct (Req_dec x (el xs (S i))) as [E|NE]; [|exists i; split; [lia|lra]]. assert (S i < length xs - 1)%nat by (destruct (Nat.eq_dec (S i) (length xs - 1)) as [Q|Q]; [rewrite <- Q in X; lra|lia]).
    exists (S i). split; [lia|]. pose proof (el_strict xs (S i) (S (S i)) SR ltac:(lia) ltac:(lia)). lra. }
  destruct extrapolate.
  - destruct (C39_extrapolated lowest highest junk xs ys L L2 SR B) as (f & E & U & V1 & V2 & V3). exists f. split; [exact E|]. intros x X.
    destruct (Rlt_dec x (el xs 0)) as [A|A]; [rewrite (simple_below xs ys true x L L2 A D0), (V2 x) by lra; reflexivity|].
    destruct (Rlt_dec x (el xs (length xs - 1))) as [A'|A'].
    + destruct (LOC x ltac:(lra)) as (i & Hi & XI). rewrite (simple_inside x xs ys true i L SS Hi XI), (V1 i x Hi ltac:(lra)). reflexivity.
    + rewrite (simple_end xs ys true x L SS L2 D1), (V3 x) by (destruct (Req_dec x (el xs (length xs - 1))); [left; auto|right; split; [auto|lra]] || lra). reflexivity.
  - destruct (C39_linear lowest highest junk xs ys L L2 SR) as (f & E & U & P & V & Z & _). exists f. split; [exact E|]. intros x X.
    destruct (Rlt_dec x (el xs 0)) as [A|A]; [rewrite (simple_below xs ys false x L L2 A D0), (Z x) by (left; auto); reflexivity|].
    destruct (Rlt_dec x (el xs (length xs - 1))) as [A'|A'].
    + destruct (LOC x ltac:(lra)) as (i & Hi & XI). rewrite (simple_inside x xs ys false i L SS Hi XI). destruct (V i x Hi ltac:(lra)) as [-> _]. reflexivity.
    + destruct (Req_dec x (el xs (length xs - 1))) as [->|N].
      * rewrite (simple_end xs ys false _ L SS L2 D1) by (left; reflexivity). rewrite P by lia. rewrite line_right by lra. reflexivity.
      * rewrite (simple_above xs ys x L SS L2 ltac:(lra)), (Z x) by (right; lra). reflexivity.
Qed.
Print Assumptions C92_same_as_interpolate.

(** No points, or different numbers of abscissae and values, throw. One point has
    its value everywhere when extrapolating and at its abscissa otherwise. *)
Theorem C92_degenerate x xs ys extrapolate :
  ((xs = [] \/ length xs <> length ys) -> simple_interpolation x xs ys extrapolate = Throw) /\
  (forall a b, xs = [a] -> ys = [b] ->
     (extrapolate = true \/ x = a -> simple_interpolation x xs ys extrapolate = Ok b) /\ (extrapolate = false /\ x <> a -> simple_interpolation x xs ys extrapolate = Ok 0)).
Proof.
  split.
  - intros H. destruct xs as [|a xs]; [reflexivity|]. destruct H as [H|H]; [discriminate|]. unfold simple_interpolation. apply Nat.eqb_neq in H. rewrite H. reflexivity.
  - intros a b -> ->. cbn [simple_interpolation length Nat.eqb negb nth_error of_option bind]. split.
    + intros [E|E]; subst; [reflexivity|]. destruct (req a a) eqn:E; rtest E; [|contradiction]. rewrite orb_true_r. reflexivity.
    + intros [-> N]. destruct (req a x) eqn:E; rtest E; [congruence|]. reflexivity.
Qed.
Print Assumptions C92_degenerate.

(** With the last abscissa repeated the result at its position mixes up an abscissa
    and a value. *)
Theorem C92_repeated_end_refuted : exists x xs ys, length xs = length ys /\ sorted xs /\ (forall i, (i < length ys)%nat -> el ys i = 4) /\
  simple_interpolation x xs ys false = Ok (5/2).
Proof.
  exists 1, [0; 1; 1], [4; 4; 4]. split; [reflexivity|]. split; [apply increasing_sorted; cbn [increasing]; dec; reflexivity|]. split; [intros [|[|[|i]]] Hi; cbn in Hi; try lia; reflexivity|].
  rewrite simple_unfold by (cbn; auto). unfold upper_bound, el. cbn [count_while nth length Nat.sub]. dec. cbn [length Nat.eqb Nat.sub negb andb].
  unfold segment_at. cbn [nth_error of_option bind Nat.sub]. unfold segment. destruct (req 1 1) eqn:E9; rtest E9; [|contradiction]. apply f_equal. lra.
Qed.
Print Assumptions C92_repeated_end_refuted.

Example C92_example : (forall x, In x [0; 1; 3] -> -1000 < x < 1000) /\ simple_interpolation 2 [0; 1; 3] [0; 2; 6] false = Ok 4.
Proof.
  split; [intros x [<-|[<-|[<-|[]]]]; lra|]. rewrite (simple_inside 2 [0; 1; 3] [0; 2; 6] false 1); [|reflexivity|apply strict_sorted, sorted3; lra|cbn; lia|unfold el; cbn; lra].
  apply f_equal. unfold line, el. cbn [nth]. field.
Qed.
