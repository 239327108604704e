From Coq Require Import ZArith Reals List Bool Arith Lia Lra.
From Flocq Require Import Core IEEE754.BinarySingleNaN.
From Verif Require Import Common CumulModel FloatModel FloatProofs DoubleProofs DoubleProofs2 DInterpModel DInterpSpec DInterpProofs DInterpProofs2 DInterpProps FunSpec InterpModel InterpSpec GridInterpModel GridInterpSpec GridInterpProps NdInterpModel NdInterpSpec NdInterpProofs NdInterpProps DGridModel DGridSpec DGridProofs DGridProofs2 DNdModel DNdSpec.
Import ListNotations.
Local Open Scope R_scope.

Lemma Forall2_rev' {A B} (P : A -> B -> Prop) l m : Forall2 P l m -> Forall2 P (rev l) (rev m).
Proof. induction 1 as [|a b l m H F IH]; [constructor|]. cbn [rev]. apply Forall2_app; [exact IH|]. constructor; [exact H|constructor]. Qed.
Lemma Forall2_map' {A B C D} (P : C -> D -> Prop) (f : A -> C) (g : B -> D) l m : Forall2 (fun a b => P (f a) (g b)) l m -> Forall2 P (map f l) (map g m).
Proof. induction 1; constructor; auto. Qed.
Lemma Forall2_unmap {A C D} (P : C -> D -> Prop) (f : A -> C) l m : Forall2 P (map f l) m -> Forall2 (fun a b => P (f a) b) l m.
Proof. revert m. induction l as [|a l IH]; intros m H; inversion H; subst; constructor; auto. Qed.
Lemma rev_ne {A B} (f : A -> B) l : l <> [] -> rev (map f l) <> [].
Proof. intros N H. apply (f_equal (@length _)) in H. rewrite rev_length, map_length in H. destruct l; [congruence|discriminate H]. Qed.

(** ** Construction *)
Definition accepts (grid : list daxis) (shape : list nat) : Prop := shape = rev (map daxis_size grid) /\ forall a, In a (removelast grid) -> din_order a = true.
Lemma build_all_throw {T} (b : nat -> outcome T) n i : n <> 0%nat -> b i = Throw -> build_all b i n = Throw.
Proof. destruct n; [congruence|]. intros _ E. cbn. rewrite E. reflexivity. Qed.
Lemma shape_snoc (shape : list nat) : shape <> [] -> shape = removelast shape ++ [last shape 0%nat].
Proof. intro N. apply app_removelast_last, N. Qed.
Lemma build_accepts : forall grid shape values ex, grid <> [] -> (forall a, In a grid -> daxis_size a <> 0%nat) ->
  (accepts grid shape -> exists t, dbuild grid shape values ex = Ok t) /\ (~ accepts grid shape -> dbuild grid shape values ex = Throw).
Proof.
  induction grid as [|a grid IH]; intros shape values ex N Z; [congruence|]. destruct grid as [|b grid].
  - cbn [dbuild]. split.
    + intros [-> _]. cbn [map rev app]. rewrite Nat.eqb_refl. cbn. eexists. reflexivity.
    + intros H. destruct shape as [|n [|]]; try reflexivity. destruct (Nat.eqb_spec (daxis_size a) n) as [E|]; [|reflexivity]. exfalso. apply H. split; [cbn; congruence|]. intros c [].
  - remember (b :: grid) as g eqn:Eg. assert (NG : g <> []) by (subst; discriminate). assert (ZG : forall c, In c g -> daxis_size c <> 0%nat) by (intros c I; apply Z; right; exact I).
    assert (EQ : dbuild (a :: g) shape values ex = if negb (Nat.eqb (length shape) (length (a :: g))) then Throw else if negb (din_order a) then Throw else if negb (Nat.eqb (daxis_size a) (last shape 0%nat)) then Throw else
      do subs <- build_all (fun i => dbuild g (removelast shape) (fun c => values (c ++ [i])) ex) 0 (daxis_size a); Ok (DNode a subs ex)) by (rewrite Eg; reflexivity).
    assert (RL : removelast (a :: g) = a :: removelast g) by (rewrite Eg; reflexivity). rewrite EQ. clear EQ. split.
    + intros [-> O]. cbn [map rev]. rewrite app_length, rev_length, map_length. cbn [length]. replace (length g + 1)%nat with (S (length g)) by lia. rewrite Nat.eqb_refl. cbn [negb].
      rewrite (O a ltac:(rewrite RL; left; reflexivity)). cbn [negb]. rewrite last_last, Nat.eqb_refl. cbn [negb]. rewrite removelast_last.
      destruct (build_all_ok (fun i => dbuild g (rev (map daxis_size g)) (fun c => values (c ++ [i])) ex)) with (n := daxis_size a) (i := 0%nat) as [l E].
      { intro i. apply (IH _ _ ex NG ZG). split; [reflexivity|]. intros c I. apply O. rewrite RL. right. exact I. }
      rewrite E. cbn. eexists. reflexivity.
    + intros H. destruct (Nat.eqb_spec (length shape) (length (a :: g))) as [L|]; [|reflexivity]. cbn [negb]. destruct (din_order a) eqn:DO; [|reflexivity]. cbn [negb].
      destruct (Nat.eqb_spec (daxis_size a) (last shape 0%nat)) as [LA|]; [|reflexivity]. cbn [negb].
      rewrite build_all_throw; [reflexivity|apply Z; left; reflexivity|]. apply (IH _ _ ex NG ZG). intros [ES O]. apply H. split.
      * rewrite (shape_snoc shape) by (intros ->; discriminate L). rewrite ES, <- LA. reflexivity.
      * intros c I. rewrite RL in I. destruct I as [<-|I]; [exact DO|apply O, I].
Qed.
Lemma sorted_iff ks : is_sorted ks = true <-> never_down ks.
Proof.
  split.
  - induction ks as [|a [|b r] IH]; intros H i x y HX HY; [destruct i; discriminate|destruct i as [|[|]]; discriminate|]. cbn [is_sorted] in H. apply andb_true_iff in H. destruct H as [H1 H2].
    destruct i as [|i]; [cbn in HX, HY; injection HX as <-; injection HY as <-; apply negb_true_iff, H1|]. apply (IH H2 i); assumption.
  - induction ks as [|a [|b r] IH]; intros A; try reflexivity. cbn [is_sorted]. rewrite (A 0%nat a b eq_refl eq_refl). cbn [negb andb]. apply IH. intros i x y HX HY. apply (A (S i)); assumption.
Qed.

(** ** The axes in the order of the grid *)
Section Nd.
  Variable grid : list (list double).
  Hypothesis G : Forall good_knots grid.
  Lemma nd_good : Forall good_axis (rev (map DCont grid)).
  Proof. apply Forall_rev, Forall_map. eapply Forall_impl; [|exact G]. intros ks H. exact H. Qed.
  Lemma nd_sizes : rev (map daxis_size (rev (map DCont grid))) = map (@length double) grid.
  Proof. rewrite map_rev, rev_involutive, map_map. reflexivity. Qed.
  Lemma nd_fits args : Forall2 (fun _ x => is_finite x = true) grid args -> Forall2 fits (rev (map DCont grid)) (rev (map DNum args)).
  Proof. intro F. apply Forall2_rev', Forall2_map'. exact F. Qed.
  Lemma nd_inside args : Forall2 in_range grid args -> Forall2 inside (rev (map DCont grid)) (rev (map DNum args)).
  Proof. intro F. apply Forall2_rev', Forall2_map'. exact F. Qed.
  Lemma nd_scaled scales : Forall2 spread grid scales -> Forall2 scaled (rev (map DCont grid)) (rev scales).
  Proof. intro F. apply Forall2_rev'. rewrite <- (map_id scales). apply Forall2_map'. exact F. Qed.
  Lemma nd_usual : Forall usual_knots grid -> Forall usual (rev (map DCont grid)).
  Proof. intro U. apply Forall_rev, Forall_map. exact U. Qed.
  Lemma nd_index c : is_index (rev (map DCont grid)) c -> is_position grid c.
  Proof. intro I. apply Forall2_rev' in I. rewrite !rev_involutive in I. apply Forall2_unmap in I. exact I. Qed.
  Lemma strict_reals ks : good_knots ks -> strictly_sorted (reals ks).
  Proof.
    intros (_ & A & F) i j a b L HA HB. unfold reals in HA, HB. rewrite nth_error_map in HA, HB. destruct (nth_error ks i) as [u|] eqn:EU; [|discriminate]. destruct (nth_error ks j) as [w|] eqn:EW; [|discriminate]. cbn in HA, HB. injection HA as <-. injection HB as <-.
    pose proof (asc_lt' ks i j u w A L EU EW) as H. pose proof (fin_at _ _ _ F EU) as F1. pose proof (fin_at _ _ _ F EW) as F2. apply dlt_iff in H; [|apply dfinite_num, F1|apply dfinite_num, F2]. rewrite (dext_finite _ F1), (dext_finite _ F2) in H. exact H.
  Qed.
  Lemma nd_strict : Forall strictly_sorted (map reals grid).
  Proof. apply Forall_map. eapply Forall_impl; [|exact G]. intros ks. apply strict_reals. Qed.
  Lemma nd_nonempty : Forall (fun ks => ks <> []) (map reals grid).
  Proof. apply Forall_map. eapply Forall_impl; [|exact G]. intros ks (N & _) E. apply N. destruct ks; [reflexivity|discriminate E]. Qed.
  Lemma real_axes : map real_axis (rev (map DCont grid)) = rev (map Cont (map reals grid)).
  Proof. rewrite map_rev, !map_map. reflexivity. Qed.
  Lemma real_coords args : map real_coord (rev (map DNum args)) = rev (map Num (reals args)).
  Proof. unfold reals. rewrite map_rev, !map_map. reflexivity. Qed.
  Lemma value_nd ex values args e : grid <> [] -> length args = length grid ->
    grid_value ex (map real_axis (rev (map DCont grid))) values (map real_coord (rev (map DNum args))) e -> nd_value ex (map reals grid) values (reals args) e.
  Proof.
    intros N L V. rewrite real_axes, real_coords in V. assert (N' : map reals grid <> []) by (destruct grid; [congruence|discriminate]).
    destruct (C94_value (rev (map Cont (map reals grid))) values ex (rev_nonempty _ _ N') (proper_rev _ nd_strict)) as (t & B & C). specialize (C _ _ V).
    rewrite sizes_rev in B. destruct (nd_exists ex (map reals grid) (reals args) nd_strict nd_nonempty) with (values := values) as [y Y]; [unfold reals; rewrite !map_length; exact L|].
    pose proof (nd_call_ok ex (map reals grid) values t (reals args) y N' nd_strict nd_nonempty B Y) as Q. unfold interpn_call in Q. rewrite C in Q. injection Q as ->. exact Y.
  Qed.
End Nd.
Lemma budget_nd M : forall grid scales, length scales = length grid -> budget (rev (map DCont grid)) (rev scales) M = nd_budget scales M.
Proof.
  intros grid scales L. unfold nd_budget. rewrite <- fold_left_rev_right. assert (LR : length (rev scales) = length (rev grid)) by (rewrite !rev_length; exact L). rewrite <- map_rev. revert LR. generalize (rev scales) (rev grid). clear.
  intros s g. revert s. induction g as [|ks g IH]; intros [|[kappa X] s] L; try discriminate L; [reflexivity|]. cbn [map budget fold_right fst snd]. rewrite (IH s) by (injection L; auto). reflexivity.
Qed.

(** ** Arguments that are not numbers *)
Lemma nan_eq (x : double) : is_nan x = true -> x = dnan.
Proof. destruct x; try discriminate. reflexivity. Qed.
Lemma nan_tests (k : double) : dlt k dnan = false /\ dlt dnan k = false /\ deq dnan k = false.
Proof. destruct k as [s|s| |s m e H]; auto; destruct s; auto. Qed.
Lemma nan_simple xs ys ex : good_points xs ys -> exists v, dsimple_interpolation dnan xs ys ex = Ok v /\ is_nan v = true.
Proof. intro GP. destruct (C151_nan_argument xs ys ex GP) as (f & v & _ & _ & A & B). exists v. auto. Qed.
Lemma nan_ends x0 x1 x : is_nan (computed_line x0 dnan x1 dnan x) = true.
Proof.
  unfold computed_line. assert (S1 : slope x0 dnan x1 dnan = dnan) by (unfold slope; destruct (dsub x1 x0) as [s|s| |s m e H]; reflexivity). rewrite S1.
  assert (M : forall y, dmul dnan y = dnan) by (intros [s|s| |s m e H]; reflexivity). rewrite !M. reflexivity.
Qed.
Lemma call_nan : forall (grid : list (list double)) shape values ex t args, Forall good_knots grid -> Forall (fun ks => (2 <= length ks)%nat) grid -> Forall2 (fun _ x => not_infinite x) grid args ->
  dbuild (map DCont grid) shape values ex = Ok t ->
  exists v, dcall t (map DNum args) = Ok v /\ (Exists (fun x => is_nan x = true) args -> ex = true \/ Forall2 (fun ks x => ~ out_of_range ks x) grid args -> is_nan v = true).
Proof.
  induction grid as [|ks grid IH]; intros shape values ex t args G T FT H; [discriminate|]. inversion G as [|? ? GA GR]; subst. inversion T as [|? ? TA TR]; subst. inversion FT as [|? x ? args' SA SR]; subst. cbn [map] in H |- *.
  destruct grid as [|k2 grid].
  - inversion SR; subst. cbn [map dbuild daxis_size] in H. destruct shape as [|n [|]]; try discriminate. destruct (Nat.eqb_spec (length ks) n) as [E|]; [|discriminate]. cbn [negb] in H. injection H as <-. cbn [dcall map].
    destruct SA as [SA|SA].
    + destruct (leaf_ok (DCont ks) values ex (DNum x) n GA SA) as (v & V & _); [cbn; congruence|]. exists v. split; [exact V|]. intros X _. inversion X as [? ? X'|? ? X']; subst; [destruct x; discriminate|inversion X'].
    + rewrite (nan_eq x SA). cbn [dleaf_value]. destruct (nan_simple ks (map (fun j => values [j]) (seq 0 n)) ex) as (v & V & NV); [|exists v; auto]. destruct GA as (_ & A & F). repeat split; auto. rewrite map_length, seq_length. exact E.
  - remember (k2 :: grid) as g eqn:Eg. assert (H' : exists subs, build_all (fun i => dbuild (map DCont g) (removelast shape) (fun c => values (c ++ [i])) ex) 0 (length ks) = Ok subs /\ t = DNode (DCont ks) subs ex).
    { rewrite Eg in H |- *. cbn [map] in H |- *. set (mg := map DCont grid) in *. cbn [dbuild] in H. destruct (negb (Nat.eqb (length shape) _)); [discriminate|]. destruct (negb (din_order (DCont ks))); [discriminate|]. destruct (negb (Nat.eqb (daxis_size (DCont ks)) _)); [discriminate|].
      match type of H with bind ?e _ = _ => destruct e as [subs| | |] eqn:E; try discriminate end. cbn in H. injection H as <-. exists subs. split; [exact E|reflexivity]. }
    clear H. destruct H' as (subs & B & ->). destruct (build_all_nth _ _ _ _ B) as [LS NS]. cbn [dcall].
    assert (SUB : forall j, (j < length ks)%nat -> exists s v, nth_error subs j = Some s /\ dcall s (map DNum args') = Ok v /\ (Exists (fun x => is_nan x = true) args' -> ex = true \/ Forall2 (fun ks x => ~ out_of_range ks x) g args' -> is_nan v = true)).
    { intros j J. destruct (NS j J) as (s & E1 & E2). destruct (IH _ _ _ _ args' GR TR SR E2) as (v & V1 & V2). exists s, v. auto. }
    destruct GA as (N & A & F). destruct ks as [|k0 r]; [congruence|]. set (ks := k0 :: r) in *. destruct SA as [SA|SA].
    + pose proof (dfinite_num x SA) as NX.
      assert (DEC : (ex = false /\ out_of_range ks x) \/ (ex = true \/ in_range ks x)) by (destruct ex; [right; left; reflexivity|destruct (outside_or_in ks x N F SA); [right; right; assumption|left; auto]]).
      destruct DEC as [[-> O]|I].
      * rewrite (out_tests ks x k0 eq_refl O). cbn [negb andb]. exists d0. split; [reflexivity|]. intros _ [Q|Q]; [discriminate|]. inversion Q; subst. contradiction.
      * replace ((dlt x k0 || dlt (last ks k0) x) && negb ex) with false by (symmetry; destruct I as [-> |I]; [apply andb_false_r|rewrite (range_tests ks x k0 eq_refl I); reflexivity]).
        replace (Nat.eqb (length ks) 1) with false by (symmetry; apply Nat.eqb_neq; lia).
        destruct (nth_error ks (length ks - 1)) as [b'|] eqn:HB; [|apply nth_error_None in HB; lia].
        destruct (interval_of ks x k0 b' ex TA A F NX eq_refl HB) as (i & x0 & x1 & E0 & E1 & FI).
        { destruct I as [I|(a' & b2 & HA & HB2 & LA & LB)]; [left; exact I|right]. cbn in HA. injection HA as <-. rewrite HB in HB2. injection HB2 as <-. auto. }
        assert (I1 : (S i < length ks)%nat) by (apply nth_error_Some; congruence). assert (N0 : num x0) by (apply dfinite_num, (fin_at _ _ _ F E0)). assert (N1 : num x1) by (apply dfinite_num, (fin_at _ _ _ F E1)).
        rewrite (upper_falls ks i x0 x1 x ex A E0 E1 NX N1 N0 FI). cbv zeta. replace (S i - 1)%nat with i by lia.
        destruct (SUB i ltac:(lia)) as (s0 & v0 & P1 & P2 & P3). destruct (SUB (S i) ltac:(lia)) as (s1 & v1 & Q1 & Q2 & Q3).
        rewrite P1. cbn [of_option bind]. rewrite P2. cbn [bind]. rewrite Q1. cbn [of_option bind]. rewrite Q2. cbn [bind]. rewrite E0, E1. cbn [of_option bind].
        pose proof (falls_covers ex (length ks) i x0 x1 x N0 NX FI) as CV. exists (computed_line x0 v0 x1 v1 x). split.
        -- apply (simple_value [x0; x1] [v0; v1] ex 0 x0 v0 x1 v1 x); [|repeat split|exact NX|].
           ++ split; [reflexivity|]. split; [cbn; lia|]. split; [|repeat constructor; [exact (fin_at _ _ _ F E0)|exact (fin_at _ _ _ F E1)]]. intros [|[|j]] u w HU HW; try discriminate. cbn in HU, HW. injection HU as <-. injection HW as <-. exact (A i x0 x1 E0 E1).
           ++ destruct CV as [CL CR]. split; [destruct CL as [CL|[_ CL]]; auto|]. destruct CR as [CR|[_ CR]]; [|right; auto]. destruct (dlt x x1) eqn:LT; [left; reflexivity|right]. split; [reflexivity|right]. apply dlt_no in LT; auto. apply dle_iff in CR; auto. apply deq_iff; auto. lra.
        -- intros X D. assert (X' : Exists (fun x => is_nan x = true) args') by (inversion X as [? ? X0|? ? X0]; subst; [destruct x; discriminate|exact X0]).
           assert (D' : ex = true \/ Forall2 (fun ks x => ~ out_of_range ks x) g args') by (destruct D as [D|D]; [left; exact D|right; inversion D; assumption]).
           rewrite (nan_eq v0 (P3 X' D')), (nan_eq v1 (Q3 X' D')). apply nan_ends.
    + rewrite (nan_eq x SA). destruct (nan_tests k0) as (_ & T1 & _). destruct (nan_tests (last ks k0)) as (T2 & _ & _). rewrite T1, T2. cbn [orb andb].
      replace (Nat.eqb (length ks) 1) with false by (symmetry; apply Nat.eqb_neq; lia).
      assert (U : dupper_index ks dnan = 1%nat) by (unfold dupper_index, ks; cbn [count_while]; rewrite (proj1 (nan_tests k0)); reflexivity). rewrite U. cbv zeta. cbn [Nat.sub].
      destruct (nth_error ks 1) as [k1|] eqn:E1; [|apply nth_error_None in E1; lia].
      destruct (SUB 0%nat ltac:(lia)) as (s0 & v0 & P1 & P2 & P3). destruct (SUB 1%nat ltac:(lia)) as (s1 & v1 & Q1 & Q2 & Q3).
      rewrite P1. cbn [of_option bind]. rewrite P2. cbn [bind]. rewrite Q1. cbn [of_option bind]. rewrite Q2. cbn [bind]. change (nth_error ks 0) with (Some k0). cbn [of_option bind].
      destruct (nan_simple [k0; k1] [v0; v1] ex) as (v & V & NV); [|exists v; auto].
      split; [reflexivity|]. split; [cbn; lia|]. split; [|repeat constructor; [exact (fin_at ks 0 k0 F eq_refl)|exact (fin_at _ _ _ F E1)]]. intros [|[|j]] u w HU HW; try discriminate. cbn in HU, HW. injection HU as <-. injection HW as <-. exact (A 0%nat k0 k1 eq_refl E1).
Qed.
