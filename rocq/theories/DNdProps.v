(** C163: the interpolation of N-dimensional arrays in double precision. *)
From Coq Require Import ZArith Reals List Bool Arith Lia Lra.
From Flocq Require Import Core IEEE754.BinarySingleNaN.
From Verif Require Import Common CumulModel FloatModel FloatProofs DoubleProofs DoubleProofs2 DInterpModel DInterpSpec DInterpProofs DInterpProofs2 FunSpec InterpModel InterpSpec GridInterpModel GridInterpSpec NdInterpSpec DGridModel DGridSpec DGridProofs DGridProofs2 DGridProps DNdModel DNdSpec DNdProofs.
Import ListNotations.
Local Open Scope R_scope.

(** Over axes with knots the function is built exactly when the interpolation is linear, the array has the
    dimensions of the axes in the same order, and no knot of an axis but the first is smaller than the one
    before; otherwise it throws. *)
Theorem C163_accepted grid shape values type ex : grid <> [] -> Forall (fun ks => ks <> []) grid ->
  let fits := type = Linear /\ shape = map (@length double) grid /\ forall ks, In ks (tl grid) -> never_down ks in
  (fits -> exists t, dinterpn grid shape values type ex = Ok t) /\ (~ fits -> dinterpn grid shape values type ex = Throw).
Proof.
  intros N NE. cbv zeta. assert (Z : forall a, In a (rev (map DCont grid)) -> daxis_size a <> 0%nat).
  { intros a I. apply in_rev in I. apply in_map_iff in I. destruct I as (ks & <- & I). rewrite Forall_forall in NE. specialize (NE ks I). destruct ks; [congruence|discriminate]. }
  assert (TL : removelast (rev (map DCont grid)) = rev (map DCont (tl grid))).
  { destruct grid as [|g grid]; [congruence|]. cbn [map rev tl]. rewrite removelast_app by discriminate. cbn. apply app_nil_r. }
  destruct (build_accepts (rev (map DCont grid)) shape values ex (rev_ne _ _ N) Z) as [YES NO]. unfold accepts in YES, NO. rewrite nd_sizes, TL in YES, NO. unfold dinterpn.
  assert (O : (forall a, In a (rev (map DCont (tl grid))) -> din_order a = true) <-> (forall ks, In ks (tl grid) -> never_down ks)).
  { split; intros H.
    - intros ks I. apply sorted_iff. apply (H (DCont ks)). apply -> in_rev. apply in_map. exact I.
    - intros a I. apply in_rev in I. apply in_map_iff in I. destruct I as (ks & <- & I). apply sorted_iff. exact (H ks I). }
  rewrite O in YES, NO. split.
  - intros (-> & F). destruct (YES F) as [t ->]. eexists. reflexivity.
  - intros H. destruct (dbuild _ _ _ _) as [t| | |] eqn:B; try reflexivity.
    + destruct type; [|reflexivity]. exfalso. assert (F : ~ (shape = map (@length double) grid /\ forall ks, In ks (tl grid) -> never_down ks)) by (intro F; apply H; split; [reflexivity|exact F]). discriminate (NO F).
    + exfalso. assert (F : ~ (shape = map (@length double) grid /\ forall ks, In ks (tl grid) -> never_down ks)) by (intros F; destruct (YES F) as [t E]; discriminate E). discriminate (NO F).
    + exfalso. assert (F : ~ (shape = map (@length double) grid /\ forall ks, In ks (tl grid) -> never_down ks)) by (intros F; destruct (YES F) as [t E]; discriminate E). discriminate (NO F).
Qed.
Print Assumptions C163_accepted.

(** The function is built for an array with the dimensions of the axes and called once. *)
Definition nd_asked (grid : list (list double)) (values : list nat -> double) (ex : bool) (args : list double) : outcome double :=
  do t <- dinterpn grid (map (@length double) grid) values Linear ex; dinterpn_call t args.
Lemma nd_asked_eq grid values ex args : nd_asked grid values ex args = asked (rev (map DCont grid)) values ex (rev (map DNum args)).
Proof. unfold nd_asked, asked, dinterpn. rewrite nd_sizes. destruct (dbuild _ _ _ _) as [t| | |]; reflexivity. Qed.
Lemma Forall2_len {A B} (P : A -> B -> Prop) l m : Forall2 P l m -> length m = length l.
Proof. induction 1; cbn; congruence. Qed.

(** With finite values, knots of a usual size and a budget that is not huge, the result at a point inside the grid is
    finite and differs from the multilinear interpolation of the array by at most the budget. *)
Theorem C163_accuracy grid scales values ex args M : grid <> [] -> Forall good_knots grid -> Forall usual_knots grid -> Forall2 spread grid scales ->
  Forall2 (fun _ x => is_finite x = true) grid args -> Forall2 in_range grid args ->
  (forall c, is_position grid c -> is_finite (values c) = true /\ Rabs (B2R (values c)) <= M) -> 0 <= M -> M + nd_budget scales M <= bpow radix2 400 ->
  exists v e, nd_asked grid values ex args = Ok v /\ is_finite v = true /\
    nd_value ex (map reals grid) (fun c => B2R (values c)) (reals args) e /\ Rabs (B2R v - e) <= nd_budget scales M.
Proof.
  intros N G U SC FT I B MP BD. rewrite <- (budget_nd M grid scales (Forall2_len _ _ _ SC)) in BD |- *.
  destruct (C162_accuracy (rev (map DCont grid)) (rev scales) values ex (rev (map DNum args)) M (rev_ne _ _ N) (nd_good grid G) (nd_fits grid args FT) (nd_inside grid args I) (nd_scaled grid scales SC) (nd_usual grid U)) as (v & e & A1 & A2 & A3 & A4); auto.
  { intros c H. apply B, nd_index, H. }
  exists v, e. rewrite nd_asked_eq. split; [exact A1|]. split; [exact A2|]. split; [|exact A4]. exact (value_nd grid G ex _ args e N (Forall2_len _ _ _ FT) A3).
Qed.
Print Assumptions C163_accuracy.

(** Whatever the values are, a finite result is within the budget. *)
Theorem C163_error grid scales values ex args M v : grid <> [] -> Forall good_knots grid -> Forall2 spread grid scales ->
  Forall2 (fun _ x => is_finite x = true) grid args -> Forall2 in_range grid args ->
  (forall c, is_position grid c -> Rabs (B2R (values c)) <= M) -> nd_asked grid values ex args = Ok v -> is_finite v = true ->
  exists e, nd_value ex (map reals grid) (fun c => B2R (values c)) (reals args) e /\ Rabs (B2R v - e) <= nd_budget scales M.
Proof.
  intros N G SC FT I B E F. rewrite nd_asked_eq in E. rewrite <- (budget_nd M grid scales (Forall2_len _ _ _ SC)).
  destruct (C162_error (rev (map DCont grid)) (rev scales) values ex (rev (map DNum args)) M v (rev_ne _ _ N) (nd_good grid G) (nd_fits grid args FT) (nd_inside grid args I) (nd_scaled grid scales SC)) as (e & A1 & A2); auto.
  { intros c H. apply B, nd_index, H. }
  exists e. split; [|exact A2]. exact (value_nd grid G ex _ args e N (Forall2_len _ _ _ FT) A1).
Qed.
Print Assumptions C163_error.

(** Equal values are reproduced exactly inside the grid and, with extrapolation, everywhere. *)
Theorem C163_flat grid values ex args r : grid <> [] -> Forall good_knots grid -> Forall2 (fun _ x => is_finite x = true) grid args -> ex = true \/ Forall2 in_range grid args ->
  (forall c, is_position grid c -> is_finite (values c) = true /\ B2R (values c) = r) -> exists v, nd_asked grid values ex args = Ok v /\ is_finite v = true /\ B2R v = r.
Proof.
  intros N G FT I B. rewrite nd_asked_eq. destruct (C162_defined (rev (map DCont grid)) values ex (rev (map DNum args)) (rev_ne _ _ N) (nd_good grid G) (nd_fits grid args FT)) as [v E]. exists v. split; [exact E|].
  apply (C162_flat (rev (map DCont grid)) values ex (rev (map DNum args)) r v (rev_ne _ _ N) (nd_good grid G) (nd_fits grid args FT)); [destruct I as [I|I]; [left; exact I|right; apply nd_inside, I]| |exact E].
  intros c H. apply B, nd_index, H.
Qed.
Print Assumptions C163_flat.

(** Without extrapolation the result is zero as soon as one argument is outside of the knots of its axis, whatever the values are. *)
Theorem C163_outside grid values args : Forall good_knots grid -> Forall2 (fun _ x => is_finite x = true) grid args -> (exists ks x, In (ks, x) (combine grid args) /\ out_of_range ks x) ->
  exists v, nd_asked grid values false args = Ok v /\ is_finite v = true /\ B2R v = 0.
Proof.
  intros G FT (ks & x & I & X). assert (N : grid <> []) by (intros ->; destruct I). rewrite nd_asked_eq.
  destruct (C162_defined (rev (map DCont grid)) values false (rev (map DNum args)) (rev_ne _ _ N) (nd_good grid G) (nd_fits grid args FT)) as [v E]. exists v. split; [exact E|].
  apply (C162_outside (rev (map DCont grid)) values (rev (map DNum args)) v (rev_ne _ _ N) (nd_good grid G) (nd_fits grid args FT)); [|exact E].
  apply Exists_exists. exists (DCont ks, DNum x). split; [|exact X]. pose proof (Forall2_len _ _ _ FT) as L. clear -I L.
  assert (EC : forall (g : list daxis) (a : list dcoord), length a = length g -> combine (rev g) (rev a) = rev (combine g a)).
  { induction g as [|u g IH]; intros [|w a] LE; try discriminate LE; [reflexivity|]. cbn [rev combine]. injection LE as LE. rewrite <- (IH a LE).
    assert (L2 : length (rev a) = length (rev g)) by (rewrite !rev_length; exact LE). revert L2. generalize (rev g) (rev a). clear. intros g. induction g as [|h g IHg]; intros [|z b] L2; try discriminate L2; [reflexivity|]. cbn. rewrite IHg; [reflexivity|]. injection L2. auto. }
  rewrite EC by (rewrite !map_length; exact L). apply -> in_rev. clear -I. revert args I. induction grid as [|k g IH]; intros [|a args] I; cbn [combine map] in *; try destruct I as [I|I]; try contradiction; [injection I as -> ->; left; reflexivity|right; apply IH, I].
Qed.
Print Assumptions C163_outside.

(** An argument that is NaN gives NaN, over axes with two knots at least, if no other argument makes the result zero. *)
Theorem C163_nan_argument grid values ex args : grid <> [] -> Forall good_knots grid -> Forall (fun ks => (2 <= length ks)%nat) grid -> Forall2 (fun _ x => not_infinite x) grid args ->
  exists v, nd_asked grid values ex args = Ok v /\
    (Exists (fun x => is_nan x = true) args -> ex = true \/ Forall2 (fun ks x => ~ out_of_range ks x) grid args -> is_nan v = true).
Proof.
  intros N G T FT. rewrite nd_asked_eq. unfold asked. destruct (build_ok (rev (map DCont grid)) values ex (rev_ne _ _ N) (nd_good grid G)) as [t E]. rewrite E. cbn [bind]. rewrite <- map_rev in E.
  destruct (call_nan (rev grid) _ values ex t (rev args) (Forall_rev G) (Forall_rev T) (Forall2_rev' _ _ _ FT) E) as (v & V & NV). rewrite map_rev in V. exists v. split; [exact V|]. intros X D. apply NV.
  - apply Exists_rev, X.
  - destruct D as [D|D]; [left; exact D|right; apply Forall2_rev', D].
Qed.
Print Assumptions C163_nan_argument.

(** On an axis with a single knot NaN is taken for the knot, or not, depending on the place of the axis. *)
Theorem C163_nan_single_knot_refuted : exists v w, 
  nd_asked [[i2d 1]; [i2d 0; i2d 1]] (fun _ => i2d 5) false [dnan; i2d 0] = Ok v /\ deq v (i2d 0) = true /\
  nd_asked [[i2d 0; i2d 1]; [i2d 1]] (fun _ => i2d 5) false [i2d 0; dnan] = Ok w /\ deq w (i2d 5) = true.
Proof.
  destruct (by_tests (nd_asked [[i2d 1]; [i2d 0; i2d 1]] (fun _ => i2d 5) false [dnan; i2d 0]) (nd_asked [[i2d 0; i2d 1]; [i2d 1]] (fun _ => i2d 5) false [i2d 0; dnan]) (fun v w => deq v (i2d 0) && deq w (i2d 5))) as (v & w & A & B & C); [vm_compute; reflexivity|].
  apply andb_true_iff in C. exists v, w. tauto.
Qed.
Print Assumptions C163_nan_single_knot_refuted.

Lemma Forall2_parts {A B} (P : A -> B -> Prop) a b l m : Forall2 P (a :: l) (b :: m) -> P a b /\ Forall2 P l m.
Proof. intro H. inversion H; auto. Qed.
(** An array of 2 by 3 elements, a point inside and one outside, and the size of the budget. *)
Example C163_grid : let grid := [map i2d [0; 3]%Z; map i2d [1; 2; 4]%Z] in
  Forall good_knots grid /\ Forall usual_knots grid /\ Forall2 spread grid [(1, 3); (4, 4)] /\ map (@length double) grid = [2; 3]%nat /\
  Forall2 (fun _ x => is_finite x = true) grid [i2d 1; i2d 3] /\ Forall2 in_range grid [i2d 1; i2d 3] /\ out_of_range (map i2d [1; 2; 4]%Z) (i2d 5) /\
  nd_budget [(1, 3); (4, 4)] 100 < bpow radix2 (-30) /\ (exists v, nd_asked grid (fun c => match c with [i; j] => i2d (Z.of_nat (10 * i + j)) | _ => i2d 0 end) false [i2d 3; i2d 2] = Ok v /\ deq v (i2d 11) = true).
Proof.
  cbv zeta. pose proof C162_grid as (G & FT & I & SC & U & _ & BU).
  pose proof (Forall_inv G) as G1. pose proof (Forall_inv (Forall_inv_tail (Forall_inv_tail G))) as G3. pose proof (Forall_inv U) as U1. pose proof (Forall_inv (Forall_inv_tail (Forall_inv_tail U))) as U3.
  destruct (Forall2_parts _ _ _ _ _ SC) as [S1 SC']. destruct (Forall2_parts _ _ _ _ _ SC') as [_ SC'']. destruct (Forall2_parts _ _ _ _ _ SC'') as [S3 _].
  destruct (Forall2_parts _ _ _ _ _ I) as [I1 I']. destruct (Forall2_parts _ _ _ _ _ I') as [_ I'']. destruct (Forall2_parts _ _ _ _ _ I'') as [I3 _].
  split; [constructor; [exact G1|constructor; [exact G3|constructor]]|]. split; [constructor; [exact U1|constructor; [exact U3|constructor]]|]. split; [constructor; [exact S1|constructor; [exact S3|constructor]]|]. split; [reflexivity|].
  split; [repeat constructor|]. split; [constructor; [exact I1|constructor; [exact I3|constructor]]|]. split; [exists (i2d 1), (i2d 4); repeat split; right; vm_compute; reflexivity|]. split.
  - assert (B53 : bpow radix2 (-53) = / 9007199254740992) by (cbn; lra). assert (B30 : bpow radix2 (-30) = / 1073741824) by (cbn; lra).
    assert (B75 : 0 <= bpow radix2 (-1075) <= bpow radix2 (-53)) by (split; [apply bpow_ge_0|apply bpow_le; lia]). unfold nd_budget. cbn [fold_left fst snd]. rewrite B53 in *. rewrite B30. lra.
  - apply by_test. vm_compute. reflexivity.
Qed.
