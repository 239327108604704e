(** Properties of the distances of the self-organizing maps: C123, C124. Values are real
    numbers; the axioms of the standard library's reals appear below. *)
From Coq Require Import Reals List Arith Lia Lra.
From Verif Require Import Common DistModel DistSpec DistProofs.
Import ListNotations.
Local Open Scope R_scope.

(** ** C123: L2 is the Euclidean distance *)

(** The result is the non-negative number whose square is the sum of the squares of the
    differences. *)
Theorem C123_value nd left right : length left = nd -> length right = nd ->
  exists d, distance (L2 nd) left right = Ok d /\ 0 <= d /\ d ^ 2 = squares left right.
Proof.
  intros <- L. exists (sqrt (squares left right)). split; [unfold distance; cbn [L2 two_points]; rewrite l2_eq by auto; reflexivity|]. split; [apply sqrt_pos|].
  rewrite <- Rsqr_pow2. apply Rsqr_sqrt, squares_nonneg.
Qed.
Print Assumptions C123_value.

(** It is a metric: zero exactly between equal points, symmetric, with the triangle
    inequality. *)
Theorem C123_metric nd a b c : length a = nd -> length b = nd -> length c = nd ->
  exists ab ba ac bc, distance (L2 nd) a b = Ok ab /\ distance (L2 nd) b a = Ok ba /\ distance (L2 nd) a c = Ok ac /\ distance (L2 nd) b c = Ok bc /\
    (ab = 0 <-> a = b) /\ ab = ba /\ ac <= ab + bc.
Proof.
  intros A B C. unfold distance; cbn [L2 two_points].   assert (V : forall x y, length x = nd -> length y = nd -> l2 nd x y = sqrt (squares x y)) by (intros x y X Y; rewrite <- X; apply l2_eq; congruence).
  rewrite !V by assumption. do 4 eexists. do 4 (split; [reflexivity|]).
  split; [|split].
  - split; [intros E; apply squares_zero; [congruence|]; apply sqrt_eq_0 in E; [exact E|apply squares_nonneg]|]. intros ->. rewrite squares_refl. apply sqrt_0.
  - rewrite squares_sym. reflexivity.
  - apply triangle; congruence.
Qed.
Print Assumptions C123_metric.

(** No coordinate differs by more than the distance. *)
Theorem C123_coordinates nd left right i x y d : length left = nd -> length right = nd -> nth_error left i = Some x -> nth_error right i = Some y ->
  distance (L2 nd) left right = Ok d -> Rabs (x - y) <= d.
Proof.
  intros <- L X Y E. unfold distance in E; cbn [L2 two_points] in E. rewrite l2_eq in E by auto. injection E as <-. rewrite <- sqrt_Rsqr_abs. apply sqrt_le_1; [apply Rle_0_sqr|apply squares_nonneg|].
  clear L. revert right i X Y. induction left as [|a l IH]; intros [|b r] [|i] X Y; try discriminate; cbn [nth_error squares] in *.
  - injection X as ->. injection Y as ->. rewrite Rsqr_pow2. pose proof (squares_nonneg l r). lra.
  - specialize (IH r i X Y). pose proof (pow2_ge_0 (a - b)). lra.
Qed.
Print Assumptions C123_coordinates.

Example C123_example : distance (L2 2) [1; 2] [4; 6] = Ok 5.
Proof.
  unfold distance; cbn [L2 two_points]. change 2%nat with (length [1; 2]). rewrite l2_eq by reflexivity. cbn [squares]. f_equal. replace ((1 - 4) ^ 2 + ((2 - 6) ^ 2 + 0)) with (Rsqr 5) by (unfold Rsqr; ring). apply sqrt_Rsqr. lra.
Qed.

(** ** C124: L2 with uncertainties *)

(** With uncertainties other than zero the result is the root of chi square: each
    difference counts in units of its uncertainty, whatever its sign. *)
Theorem C124_value nd left right uncertainties : length left = nd -> length right = nd -> length uncertainties = nd -> (forall s, In s uncertainties -> s <> 0) ->
  exists d, distance_uncertain (L2 nd) left right uncertainties = Ok (Real d) /\ 0 <= d /\ d ^ 2 = chi2 left right uncertainties.
Proof.
  intros <- L LU NZ. exists (sqrt (chi2 left right uncertainties)). split; [unfold distance_uncertain; cbn [L2 own_uncertain]; rewrite l2u_eq by auto; reflexivity|]. split; [apply sqrt_pos|].
  rewrite <- Rsqr_pow2. apply Rsqr_sqrt, chi2_nonneg.
Qed.
Print Assumptions C124_value.

(** For fixed uncertainties it is a metric as well. *)
Theorem C124_metric nd u a b c : length a = nd -> length b = nd -> length c = nd -> length u = nd -> (forall s, In s u -> s <> 0) ->
  exists ab ba ac bc, distance_uncertain (L2 nd) a b u = Ok (Real ab) /\ distance_uncertain (L2 nd) b a u = Ok (Real ba) /\
    distance_uncertain (L2 nd) a c u = Ok (Real ac) /\ distance_uncertain (L2 nd) b c u = Ok (Real bc) /\
    (ab = 0 <-> a = b) /\ ab = ba /\ ac <= ab + bc.
Proof.
  intros A B C U NZ. unfold distance_uncertain; cbn [L2 own_uncertain].
  assert (V : forall x y, length x = nd -> length y = nd -> l2u nd x y u = Real (sqrt (squares (scaled x u) (scaled y u)))).
  { intros x y X Y. rewrite <- X at 1. rewrite l2u_eq by (auto; congruence). rewrite chi2_squares by (auto; congruence). reflexivity. }
  rewrite !V by assumption. do 4 eexists. do 4 (split; [reflexivity|]).
  pose proof (scaled_length a u ltac:(congruence)). pose proof (scaled_length b u ltac:(congruence)). pose proof (scaled_length c u ltac:(congruence)). split; [|split].
  - split; [intros E; apply (scaled_inj a b u); [congruence|congruence|exact NZ|]; apply squares_zero; [congruence|]; apply sqrt_eq_0 in E; [exact E|apply squares_nonneg]|]. intros ->. rewrite squares_refl. apply sqrt_0.
  - rewrite squares_sym. reflexivity.
  - apply triangle; congruence.
Qed.
Print Assumptions C124_metric.

(** Uncertainties of one give the distance without; a common factor divides the distance;
    larger uncertainties give no larger distance. *)
Theorem C124_one nd left right : length left = nd -> length right = nd ->
  exists d, distance (L2 nd) left right = Ok d /\ distance_uncertain (L2 nd) left right (repeat 1 nd) = Ok (Real d).
Proof.
  intros A B. eexists. split; [reflexivity|]. unfold distance_uncertain; cbn [L2 own_uncertain two_points]. rewrite <- A.
  rewrite l2u_eq; [|congruence|apply repeat_length|intros s I; apply repeat_spec in I; lra]. rewrite l2_eq by congruence. do 3 f_equal.
  assert (L : length left = length right) by congruence. clear A B. revert right L. induction left as [|a l IH]; intros [|b r] L; try discriminate L; cbn [length repeat chi2 squares]; [reflexivity|].
  rewrite IH by (injection L; auto). f_equal. f_equal. field.
Qed.
Print Assumptions C124_one.

Theorem C124_factor nd left right u c d d' : length left = nd -> length right = nd -> length u = nd -> (forall s, In s u -> s <> 0) -> c <> 0 ->
  distance_uncertain (L2 nd) left right u = Ok (Real d) -> distance_uncertain (L2 nd) left right (map (Rmult c) u) = Ok (Real d') -> d' = d / Rabs c.
Proof.
  intros A B U NZ C. unfold distance_uncertain; cbn [L2 own_uncertain]. rewrite <- A. rewrite l2u_eq by (auto; congruence).
  assert (NZ' : forall s, In s (map (Rmult c) u) -> s <> 0) by (intros s I; apply in_map_iff in I; destruct I as (t & <- & I); apply Rmult_integral_contrapositive; split; [exact C|apply NZ; exact I]).
  rewrite l2u_eq; [|congruence|rewrite map_length; congruence|exact NZ']. intros D D'. injection D as <-. injection D' as <-. rewrite chi2_scale by (auto; congruence).
  rewrite sqrt_div; [|apply chi2_nonneg|]. 2:{ rewrite <- pow2_abs. apply pow_lt, Rabs_pos_lt, C. }
  f_equal. rewrite <- pow2_abs. apply sqrt_pow2, Rabs_pos.
Qed.
Print Assumptions C124_factor.

Theorem C124_monotone nd left right u v d d' : length left = nd -> length right = nd -> length u = nd ->
  Forall2 (fun s t => s <> 0 /\ Rabs s <= Rabs t) u v ->
  distance_uncertain (L2 nd) left right u = Ok (Real d) -> distance_uncertain (L2 nd) left right v = Ok (Real d') -> d' <= d.
Proof.
  intros A B U F. unfold distance_uncertain; cbn [L2 own_uncertain]. rewrite <- A.
  assert (LV : length v = length u /\ (forall s, In s u -> s <> 0) /\ (forall t, In t v -> t <> 0)).
  { clear A B U. induction F as [|s t u v [Z H] F (IH1 & IH2 & IH3)]; [cbn; tauto|]. split; [cbn; congruence|]. split; (intros x [<-|I]; [|auto]); [exact Z|].
    intros ->. rewrite Rabs_R0 in H. pose proof (Rabs_pos_lt s Z). lra. }
  destruct LV as (LV & ZU & ZV). rewrite l2u_eq by (auto; congruence). rewrite l2u_eq by (auto; congruence). intros D D'. injection D as <-. injection D' as <-.
  apply sqrt_le_1; [apply chi2_nonneg|apply chi2_nonneg|]. apply chi2_monotone, F.
Qed.
Print Assumptions C124_monotone.

(** An uncertainty of zero: infinite if the coordinates differ wherever the uncertainty is
    zero; not a number, even for equal points, if they agree there. *)
Theorem C124_zero nd left right u : length left = nd -> length right = nd -> length u = nd -> In 0 u ->
  ((forall i x, nth_error u i = Some 0 -> nth_error left i = Some x -> nth_error right i <> Some x) -> distance_uncertain (L2 nd) left right u = Ok Inf) /\
  ((exists i x, nth_error u i = Some 0 /\ nth_error left i = Some x /\ nth_error right i = Some x) -> distance_uncertain (L2 nd) left right u = Ok Nan).
Proof.
  intros A B U Z. unfold distance_uncertain; cbn [L2 own_uncertain]. unfold l2u.
  assert (IT : forall l i, (i < length l)%nat -> nth_error l i = Some (item l i)) by (intros l i H; apply nth_error_nth'; exact H).
  assert (HT : forall l i x, nth_error l i = Some x -> item l i = x) by (intros l i x H; apply nth_error_nth with (d := 0) in H; exact H).
  split.
  - intros D. replace (l2u_loop nd 0 left right u (Real 0)) with Inf; [reflexivity|]. symmetry.
    apply (l2u_inf left right u nd).
    { intros k K ZK E. apply (D k (item left k)); [rewrite <- ZK; apply IT; lia|apply IT; lia|]. rewrite E. apply IT. lia. }
    { lia. }
    { discriminate. }
    right. destruct (In_nth_error _ _ Z) as (k & HK). exists k. split; [|apply HT; exact HK]. assert (nth_error u k <> None) by congruence. apply nth_error_Some in H. lia.
  - intros (i & x & HU & HL & HR). rewrite (l2u_zero_nan left right u i); [reflexivity| |apply HT; exact HU|rewrite (HT _ _ _ HL), (HT _ _ _ HR); reflexivity].
    assert (nth_error u i <> None) by congruence. apply nth_error_Some in H. lia.
Qed.
Print Assumptions C124_zero.

(** A distance that does not define the member with uncertainties throws there. *)
Theorem C124_unsupported f left right u : distance_uncertain (mkDist f None) left right u = Throw.
Proof. reflexivity. Qed.
Print Assumptions C124_unsupported.

Example C124_example : distance_uncertain (L2 2) [1; 2] [4; 10] [1; -2] = Ok (Real 5) /\ distance_uncertain (L2 2) [1; 2] [4; 6] [1; 0] = Ok Inf /\ distance_uncertain (L2 2) [1; 2] [1; 2] [1; 0] = Ok Nan.
Proof.
  split; [|split].
  - unfold distance_uncertain; cbn [L2 own_uncertain]. change 2%nat with (length [1; 2]) at 1. rewrite l2u_eq; [|reflexivity|reflexivity|cbn; intros s [<-|[<-|[]]]; lra]. cbn [chi2]. do 2 f_equal.
    replace (((1 - 4) / 1) ^ 2 + (((2 - 10) / -2) ^ 2 + 0)) with (Rsqr 5) by (unfold Rsqr; field). apply sqrt_Rsqr. lra.
  - apply (C124_zero 2); try reflexivity; [cbn; tauto|]. intros [|[|[|i]]] x H1 H2 H3; cbn in *; try discriminate; [injection H1; intros; lra|]. injection H2 as <-. injection H3. lra.
  - apply (C124_zero 2); try reflexivity; [cbn; tauto|]. exists 1%nat, 2. repeat split; reflexivity.
Qed.
