(** Proofs about the interpolation on a grid in double precision. *)
From Coq Require Import ZArith Reals List Bool Arith Lia Lra Psatz.
From Flocq Require Import Core IEEE754.BinarySingleNaN.
From Verif Require Import Common CumulModel CumulProofs FloatModel FloatProofs DoubleProofs DoubleProofs2 DInterpModel DInterpSpec DInterpProofs DInterpProofs2 GridInterpModel DGridModel DGridSpec.
Import ListNotations.
Local Open Scope R_scope.

(** The operations that a call performs. *)
Inductive computed (ex : bool) : list daxis -> (list nat -> double) -> list dcoord -> double -> Prop :=
| CEnd values : computed ex [] values [] (values [])
| CKey ks i k grid values args y : nth_error ks i = Some k -> computed ex grid (fun c => values (c ++ [i])) args y ->
    computed ex (DDisc ks :: grid) values (DKey k :: args) y
| CCell ks i x0 x1 x grid values args y0 y1 : nth_error ks i = Some x0 -> nth_error ks (S i) = Some x1 -> covers ex (length ks) i x0 x1 x ->
    computed ex grid (fun c => values (c ++ [i])) args y0 -> computed ex grid (fun c => values (c ++ [S i])) args y1 ->
    computed ex (DCont ks :: grid) values (DNum x :: args) (computed_line x0 y0 x1 y1 x)
| COnly k x grid values args y : ex = true \/ deq k x = true -> computed ex grid (fun c => values (c ++ [0%nat])) args y ->
    computed ex (DCont [k] :: grid) values (DNum x :: args) y
| COut ks x grid values args : ex = false -> out_of_range ks x -> computed ex (DCont ks :: grid) values (DNum x :: args) d0.

Lemma falls_covers ex n i x0 x1 x : num x0 -> num x -> falls_in ex n i x0 x1 x -> covers ex n i x0 x1 x.
Proof.
  intros N0 NX [L R]. split.
  - destruct L as [L|(-> & [L|L])]; [left; apply dlt_le, L|right; auto|left]. apply deq_iff in L; auto. apply dle_iff; auto. lra.
  - destruct R as [R|[R1 R2]]; auto.
Qed.
Lemma right_covers ex n i x0 x1 x : num x1 -> num x -> falls_right ex n i x0 x1 x -> covers ex n i x0 x1 x.
Proof.
  intros N1 NX [L R]. split; [exact L|]. destruct R as [R|(E & [R|R])]; [left; apply dlt_le, R|right; auto|left]. apply deq_iff in R; auto. apply dle_iff; auto. lra.
Qed.
Lemma upper_falls ks i x0 x1 x ex : ascending ks -> nth_error ks i = Some x0 -> nth_error ks (S i) = Some x1 -> num x -> num x1 -> num x0 ->
  falls_in ex (length ks) i x0 x1 x -> dupper_index ks x = S i.
Proof.
  intros A H0 H1 NX N1 N0 [L R]. assert (I : (S i < length ks)%nat) by (apply nth_error_Some; congruence). unfold dupper_index.
  destruct (dlt x0 x) eqn:LT.
  - destruct (dle x x1) eqn:LE.
    + rewrite (count_below ks i x0 x1 x A H0 H1 LT LE). change (S i =? 0)%nat with false. cbv iota. destruct (Nat.eqb_spec (S i) (length ks)); [lia|reflexivity].
    + destruct R as [R|[_ R]]; [congruence|]. rewrite all_below.
      * destruct (Nat.eqb_spec (length ks) 0); [lia|]. rewrite Nat.eqb_refl. lia.
      * intros j a J. assert (J' : (j < length ks)%nat) by (apply nth_error_Some; congruence). assert (X1 : dlt x1 x = true) by (apply dlt_iff; auto; apply dle_no in LE; auto).
        destruct (Nat.eq_dec j (S i)) as [->|NE]; [congruence|]. eapply lt_le_trans; [|apply dlt_le, X1]. apply (asc_lt' ks j (S i)); auto. lia.
  - destruct L as [L|[-> _]]; [discriminate|]. destruct ks as [|k ks]; [discriminate|]. cbn in H0. injection H0 as ->. cbn [count_while]. rewrite LT. reflexivity.
Qed.

Lemma find_key_in ks k : forall i, In k ks -> exists j, find_key ks k i = Some (i + j)%nat /\ nth_error ks j = Some k.
Proof.
  induction ks as [|a r IH]; intros i H; [destruct H|]. cbn [find_key]. destruct (Z.eqb_spec a k) as [->|N]; [exists 0%nat; split; [f_equal; lia|reflexivity]|].
  destruct H as [H|H]; [congruence|]. destruct (IH (S i) H) as (j & A & B). exists (S j). split; [rewrite A; f_equal; lia|exact B].
Qed.
Lemma build_all_nth {T} (b : nat -> outcome T) : forall n i l, build_all b i n = Ok l -> length l = n /\ forall j, (j < n)%nat -> exists t, nth_error l j = Some t /\ b (i + j)%nat = Ok t.
Proof.
  induction n as [|n IH]; intros i l H; cbn in H; [injection H as <-; split; [reflexivity|intros; lia]|].
  destruct (b i) as [t| | |] eqn:E; cbn in H; try discriminate. destruct (build_all b (S i) n) as [ts| | |] eqn:E2; cbn in H; try discriminate. injection H as <-.
  destruct (IH (S i) ts E2) as [L N]. split; [cbn; lia|]. intros [|j] J; [exists t; split; [reflexivity|rewrite Nat.add_0_r; exact E]|]. destruct (N j ltac:(lia)) as (t' & A & B). exists t'. split; [exact A|]. rewrite <- B. f_equal. lia.
Qed.
Lemma outside_or_in ks x : ks <> [] -> Forall (fun x : double => is_finite x = true) ks -> is_finite x = true -> in_range ks x \/ out_of_range ks x.
Proof.
  intros N F FX. destruct ks as [|k r]; [congruence|]. assert (EL : exists l, nth_error (k :: r) (length (k :: r) - 1) = Some l).
  { destruct (nth_error (k :: r) (length (k :: r) - 1)) eqn:E; [eauto|]. apply nth_error_None in E. cbn in E. lia. }
  destruct EL as [l EL]. pose proof (fin_at (k :: r) 0 k F eq_refl) as FK. pose proof (fin_at _ _ _ F EL) as FL.
  destruct (dlt x k) eqn:A; [right; exists k, l; repeat split; auto|]. destruct (dlt l x) eqn:B; [right; exists k, l; repeat split; auto|]. left. exists k, l. repeat split; auto.
  - apply dle_iff; try (apply dfinite_num; assumption). apply dlt_no in A; try (apply dfinite_num; assumption). exact A.
  - apply dle_iff; try (apply dfinite_num; assumption). apply dlt_no in B; try (apply dfinite_num; assumption). exact B.
Qed.
Lemma range_tests ks x k : hd_error ks = Some k -> in_range ks x -> dlt x k || dlt (last ks k) x = false.
Proof.
  intros H (a & b & A & B & C & D). destruct ks as [|k' r]; [discriminate|]. cbn in H, A. injection H as ->. injection A as <-. rewrite (dle_not_lt _ _ C). cbn [orb].
  rewrite (last_nth (k :: r) k ltac:(discriminate)) in B. assert (B' : last (k :: r) k = b) by congruence. rewrite B'. exact (dle_not_lt _ _ D).
Qed.
Lemma out_tests ks x k : hd_error ks = Some k -> out_of_range ks x -> dlt x k || dlt (last ks k) x = true.
Proof.
  intros H (a & b & A & B & C). destruct ks as [|k' r]; [discriminate|]. cbn in H, A. injection H as ->. injection A as <-.
  rewrite (last_nth (k :: r) k ltac:(discriminate)) in B. assert (B' : last (k :: r) k = b) by congruence. rewrite B'. apply orb_true_iff. exact C.
Qed.
Lemma simple_out ks vs x : ks <> [] -> length ks = length vs -> ascending ks -> Forall (fun x : double => is_finite x = true) ks -> num x -> out_of_range ks x -> dsimple_interpolation x ks vs false = Ok d0.
Proof.
  intros N L A F NX (a & b & HA & HB & O). unfold dsimple_interpolation. destruct ks as [|k r]; [congruence|]. cbn in HA. injection HA as ->. set (ks := a :: r) in *.
  rewrite (proj2 (Nat.eqb_eq _ _) L). cbn [negb]. pose proof (last_nth ks a ltac:(discriminate)) as LA. rewrite LA in HB. assert (HB' : last ks a = b) by congruence. clear HB. rename HB' into HB.
  assert (NA : num a) by (apply dfinite_num, (fin_at ks 0 a F eq_refl)). assert (NB : num b) by (rewrite <- HB; apply dfinite_num, (fin_at _ _ _ F LA)).
  destruct (Nat.eqb_spec (length ks) 1) as [E|E].
  - destruct r; [|cbn in E; lia]. unfold ks in HB. cbn in HB. subst b. cbn [orb]. replace (deq a x) with false; [reflexivity|]. symmetry. destruct O as [O|O]; apply dlt_not_eq in O; tauto.
  - set (c := count_while (fun k => negb (dlt x k)) ks). destruct O as [O|O].
    + assert (C : c = 0%nat) by (unfold c, ks; cbn [count_while]; rewrite O; reflexivity). rewrite C, O. reflexivity.
    + assert (C : c = length ks).
      { unfold c. destruct (count_while_spec (fun k => negb (dlt x k)) ks) as (K1 & K2 & K3). destruct (nth_error ks (count_while (fun k => negb (dlt x k)) ks)) as [v|] eqn:V.
        - specialize (K3 v eq_refl). cbn in K3. apply negb_false_iff in K3. exfalso. assert (J : (count_while (fun k => negb (dlt x k)) ks < length ks)%nat) by (apply nth_error_Some; congruence).
          assert (Q : dlt v x = true); [|rewrite (dlt_not_lt _ _ Q) in K3; discriminate]. destruct (Nat.eq_dec (count_while (fun k => negb (dlt x k)) ks) (length ks - 1)) as [Q|Q]; [rewrite Q in V; congruence|].
          eapply lt_le_trans; [eapply (asc_lt' ks); [exact A| |exact V|exact LA]; lia|]. rewrite HB. apply dlt_le, O.
        - apply nth_error_None in V. lia. }
      rewrite C. destruct (length ks) as [|m] eqn:LK; [discriminate|]. cbn [Nat.eqb andb]. rewrite Nat.eqb_refl, HB, O. reflexivity.
Qed.

Lemma sub_values (ks : list double) (values : list nat -> double) j : (j < length ks)%nat -> nth_error (map (fun j => values [j]) (seq 0 (length ks))) j = Some (values [j]).
Proof. intro H. rewrite (map_nth_error _ j (seq 0 (length ks)) (d := j)); [reflexivity|]. rewrite (nth_error_nth' _ 0%nat) by (rewrite seq_length; exact H). rewrite seq_nth by exact H. reflexivity. Qed.
Lemma leaf_ok a values ex c n : good_axis a -> fits a c -> n = daxis_size a ->
  exists v, dleaf_value c a (map (fun j => values [j]) (seq 0 n)) ex = Ok v /\ computed ex [a] values [c] v.
Proof.
  intros G FT ->. destruct a as [ks|ks], c as [x|k]; cbn [fits] in FT; try contradiction; cbn [dleaf_value daxis_size].
  - destruct G as (N & A & F). pose proof (dfinite_num x FT) as NX. set (vs := map _ _). assert (L : length ks = length vs) by (unfold vs; rewrite map_length, seq_length; reflexivity).
    destruct (Nat.eq_dec (length ks) 1) as [E|E].
    + destruct ks as [|k [|k' r]]; cbn in E; try lia. unfold dsimple_interpolation. rewrite (proj2 (Nat.eqb_eq _ _) L). cbn [negb length Nat.eqb].
      destruct (ex || deq k x) eqn:T.
      * eexists. split; [reflexivity|]. apply COnly; [apply orb_true_iff, T|]. apply (CEnd ex (fun c => values (c ++ [0%nat]))).
      * exists d0. split; [reflexivity|]. apply orb_false_iff in T. destruct T as [-> T]. apply COut; [reflexivity|]. exists k, k. split; [reflexivity|]. split; [reflexivity|].
        pose proof (dfinite_num k (fin_at [k] 0 k F eq_refl)) as NK. destruct (dlt x k) eqn:A1; [left; reflexivity|right]. apply dlt_no in A1; auto. apply dlt_iff; auto. assert (ext k <> ext x) by (intro Z; apply deq_iff in Z; auto; congruence). lra.
    + assert (N2 : (2 <= length ks)%nat) by (destruct ks as [|? [|]]; cbn in *; try lia; congruence).
      destruct (orb ex false) eqn:EX.
      2: { rewrite orb_false_r in EX. subst ex. destruct (outside_or_in ks x N F FT) as [I|O].
           - destruct I as (a & b & HA & HB & LA & LB). destruct (interval_right ks x a b false N2 A F NX HA HB (or_intror (conj LA LB))) as (i & x0 & x1 & E0 & E1 & FR).
             assert (I1 : (S i < length ks)%nat) by (apply nth_error_Some; congruence).
             eexists. split; [apply (simple_value ks vs false i x0 (values [i]) x1 (values [S i])); [repeat split; auto|repeat split; auto; apply sub_values; lia|exact NX|exact FR]|].
             eapply CCell; [exact E0|exact E1| |apply (CEnd false (fun c => values (c ++ [i])))|apply (CEnd false (fun c => values (c ++ [S i])))]. apply right_covers; auto. apply dfinite_num, (fin_at _ _ _ F E1).
           - exists d0. split; [apply simple_out; auto|]. apply COut; auto. }
      rewrite orb_false_r in EX. subst ex.
      destruct (nth_error ks 0) as [a|] eqn:HA; [|apply nth_error_None in HA; lia]. destruct (nth_error ks (length ks - 1)) as [b|] eqn:HB; [|apply nth_error_None in HB; lia].
      destruct (interval_right ks x a b true N2 A F NX HA HB (or_introl eq_refl)) as (i & x0 & x1 & E0 & E1 & FR). assert (I1 : (S i < length ks)%nat) by (apply nth_error_Some; congruence).
      eexists. split; [apply (simple_value ks vs true i x0 (values [i]) x1 (values [S i])); [repeat split; auto|repeat split; auto; apply sub_values; lia|exact NX|exact FR]|].
      eapply CCell; [exact E0|exact E1| |apply (CEnd true (fun c => values (c ++ [i])))|apply (CEnd true (fun c => values (c ++ [S i])))]. apply right_covers; auto. apply dfinite_num, (fin_at _ _ _ F E1).
  - destruct (find_key_in ks k 0 FT) as (j & E & J). rewrite E. cbn [of_option bind Nat.add]. assert (JL : (j < length ks)%nat) by (apply nth_error_Some; congruence).
    exists (values [j]). split.
    + rewrite (map_nth_error _ j (seq 0 (length ks)) (d := j)); [reflexivity|]. rewrite (nth_error_nth' _ 0%nat) by (rewrite seq_length; exact JL). rewrite seq_nth by exact JL. reflexivity.
    + eapply CKey; [exact J|]. apply (CEnd ex (fun c => values (c ++ [j]))).
Qed.

Lemma call_ok : forall grid shape values ex t args, Forall good_axis grid -> Forall2 fits grid args -> dbuild grid shape values ex = Ok t ->
  exists v, dcall t args = Ok v /\ computed ex grid values args v.
Proof.
  induction grid as [|a grid IH]; intros shape values ex t args G FT H; [discriminate|]. inversion G as [|? ? GA GR]; subst. inversion FT as [|? c ? args' SA SR]; subst.
  destruct grid as [|b grid].
  - inversion SR; subst. cbn [dbuild] in H. destruct shape as [|n [|]]; try discriminate. destruct (Nat.eqb_spec (daxis_size a) n) as [E|]; [|discriminate]. cbn [negb] in H. injection H as <-. cbn [dcall].
    apply leaf_ok; auto.
  - remember (b :: grid) as g eqn:Eg. assert (H' : exists subs, build_all (fun i => dbuild g (removelast shape) (fun c => values (c ++ [i])) ex) 0 (daxis_size a) = Ok subs /\ t = DNode a subs ex).
    { rewrite Eg in H |- *. cbn [dbuild] in H. destruct (negb (Nat.eqb (length shape) _)); [discriminate|]. destruct (negb (din_order a)); [discriminate|]. destruct (negb (Nat.eqb (daxis_size a) _)); [discriminate|].
      match type of H with bind ?e _ = _ => destruct e as [subs| | |] eqn:E; try discriminate end. cbn in H. injection H as <-. exists subs. split; [exact E|reflexivity]. }
    clear H. destruct H' as (subs & B & ->). destruct (build_all_nth _ _ _ _ B) as [LS NS]. cbn [dcall].
    assert (SUB : forall j, (j < daxis_size a)%nat -> exists s v, nth_error subs j = Some s /\ dcall s args' = Ok v /\ computed ex g (fun c => values (c ++ [j])) args' v).
    { intros j J. destruct (NS j J) as (s & E1 & E2). destruct (IH _ _ _ _ args' GR SR E2) as (v & V1 & V2). exists s, v. auto. }
    destruct a as [ks|ks], c as [x|k]; cbn [fits] in SA; try contradiction.
    + destruct GA as (N & A & F). pose proof (dfinite_num x SA) as NX. destruct ks as [|k0 r]; [congruence|]. set (ks := k0 :: r) in *. fold ks.
      assert (DEC : (ex = false /\ out_of_range ks x) \/ (ex = true \/ in_range ks x)) by (destruct ex; [right; left; reflexivity|destruct (outside_or_in ks x N F SA); [right; right; assumption|left; auto]]).
      destruct DEC as [[-> O]|I].
      * rewrite (out_tests ks x k0 eq_refl O). cbn [negb andb]. exists d0. split; [reflexivity|]. apply COut; auto.
      * replace ((dlt x k0 || dlt (last ks k0) x) && negb ex) with false by (symmetry; destruct I as [-> |I]; [apply andb_false_r|rewrite (range_tests ks x k0 eq_refl I); reflexivity]).
        destruct (Nat.eqb_spec (length ks) 1) as [E|E].
        -- destruct (SUB 0%nat ltac:(cbn [daxis_size]; lia)) as (s & v & E1 & E2 & E3). rewrite E1. cbn [of_option bind]. exists v. split; [exact E2|]. destruct r; [|cbn in E; lia]. apply COnly; [|exact E3].
           destruct I as [I|(a' & b' & HA & HB & LA & LB)]; [left; exact I|right]. cbn in HA, HB. injection HA as <-. injection HB as <-. pose proof (dfinite_num k0 (fin_at [k0] 0 k0 F eq_refl)) as NK. apply dle_iff in LA; auto. apply dle_iff in LB; auto. apply deq_iff; auto. lra.
        -- assert (N2 : (2 <= length ks)%nat) by (cbn in *; lia). destruct (nth_error ks (length ks - 1)) as [b'|] eqn:HB; [|apply nth_error_None in HB; lia].
           destruct (interval_of ks x k0 b' ex N2 A F NX eq_refl HB) as (i & x0 & x1 & E0 & E1 & FI).
           { destruct I as [I|(a' & b2 & HA & HB2 & LA & LB)]; [left; exact I|right]. cbn in HA. injection HA as <-. rewrite HB in HB2. injection HB2 as <-. auto. }
           assert (I1 : (S i < length ks)%nat) by (apply nth_error_Some; congruence). assert (N0 : num x0) by (apply dfinite_num, (fin_at _ _ _ F E0)). assert (N1 : num x1) by (apply dfinite_num, (fin_at _ _ _ F E1)).
           rewrite (upper_falls ks i x0 x1 x ex A E0 E1 NX N1 N0 FI). cbv zeta. replace (S i - 1)%nat with i by lia.
           destruct (SUB i ltac:(cbn [daxis_size]; lia)) as (s0 & v0 & P1 & P2 & P3). destruct (SUB (S i) ltac:(cbn [daxis_size]; lia)) as (s1 & v1 & Q1 & Q2 & Q3).
           rewrite P1. cbn [of_option bind]. rewrite P2. cbn [bind]. rewrite Q1. cbn [of_option bind]. rewrite Q2. cbn [bind]. rewrite E0, E1. cbn [of_option bind].
           pose proof (falls_covers ex (length ks) i x0 x1 x N0 NX FI) as CV. exists (computed_line x0 v0 x1 v1 x). split; [|eapply CCell; eassumption].
           apply (simple_value [x0; x1] [v0; v1] ex 0 x0 v0 x1 v1 x); [|repeat split|exact NX|].
           ++ split; [reflexivity|]. split; [cbn; lia|]. split; [|repeat constructor; [exact (fin_at _ _ _ F E0)|exact (fin_at _ _ _ F E1)]]. intros [|[|j]] u w HU HW; try discriminate. cbn in HU, HW. injection HU as <-. injection HW as <-. exact (A i x0 x1 E0 E1).
           ++ destruct CV as [CL CR]. split; [destruct CL as [CL|[_ CL]]; auto|]. destruct CR as [CR|[_ CR]]; [|right; auto]. destruct (dlt x x1) eqn:LT; [left; reflexivity|right]. split; [reflexivity|right]. apply dlt_no in LT; auto. apply dle_iff in CR; auto. apply deq_iff; auto. lra.
    + destruct (find_key_in ks k 0 SA) as (j & E & J). rewrite E. cbn [of_option bind Nat.add]. assert (JL : (j < length ks)%nat) by (apply nth_error_Some; congruence).
      destruct (SUB j JL) as (s & v & E1 & E2 & E3). rewrite E1. cbn [of_option bind]. exists v. split; [exact E2|]. eapply CKey; eassumption.
Qed.
