(** Proofs about the initialization of the weights of a self-organizing map. *)
From Coq Require Import ZArith Znumtheory Reals List Bool Arith Lia Lra.
From Flocq Require Import Core IEEE754.BinarySingleNaN.
From Verif Require Import Common SOMModel SOMSpec SOMProofs SOMProofs2 FloatModel FloatProofs DoubleProofs DoubleProofs2 DSOMProofs.
From Verif Require Import SOMInitModel SOMInitSpec.
Import ListNotations.
Local Open Scope nat_scope.

(** The function after [k] calls. *)
Definition advanced (f : init_func) (k : nat) : init_func := mkInit (st f) (state_after f k) (call f).
Lemma advanced_0 f : advanced f 0 = f.
Proof. destruct f; reflexivity. Qed.
Lemma one_call_advanced f k : one_call (advanced f k) = (value_number f k, advanced f (S k)).
Proof. unfold one_call, advanced, value_number. simpl. destruct (call f (state_after f k)); reflexivity. Qed.
Lemma fill_cell_spec f : forall nd k, fill_cell nd (advanced f k) = (take_stream (value_number f) k nd, advanced f (k + nd)).
Proof.
  induction nd as [|nd IH]; intros k; cbn [fill_cell take_stream]; [rewrite Nat.add_0_r; reflexivity|].
  rewrite one_call_advanced, IH. replace (S k + nd) with (k + S nd) by lia. reflexivity.
Qed.
Lemma fill_cells_spec f nd : forall c k, fill_cells nd c (advanced f k) = (fill (value_number f) nd k c, advanced f (k + c * nd)).
Proof.
  induction c as [|c IH]; intros k; cbn [fill_cells fill]; [rewrite Nat.add_0_r; reflexivity|].
  rewrite fill_cell_spec, IH. replace (k + nd + c * nd) with (k + S c * nd) by (simpl; lia). reflexivity.
Qed.
Lemma fill_shift {A} (init : nat -> A) nd : forall c k j, fill init nd (k + j) c = fill (fun i => init (k + i)) nd j c.
Proof.
  assert (T : forall n k j, take_stream init (k + j) n = take_stream (fun i => init (k + i)) j n).
  { induction n as [|n IH]; intros; simpl; [reflexivity|]. f_equal. rewrite <- IH. f_equal. lia. }
  induction c as [|c IH]; intros; simpl; [reflexivity|]. rewrite T. f_equal. rewrite <- IH. f_equal. lia.
Qed.
Lemma som_of_new f k nd x y : som_of nd x y (advanced f k) = som_new nd x y (fun i => value_number f (k + i)).
Proof.
  unfold som_of, som_new. rewrite fill_cells_spec. cbn [fst]. f_equal. rewrite <- (Nat.add_0_r k) at 1. apply fill_shift.
Qed.
Lemma som_of_weights f k nd x y : weights_from f k nd x y (som_of nd x y (advanced f k)).
Proof.
  rewrite som_of_new. split; [reflexivity|]. split; [reflexivity|]. split.
  - simpl. apply (fill_spec (fun i => value_number f (k + i)) nd (x * y) 0).
  - intros a b Ha Hb. destruct (som_new_spec nd x y (fun i => value_number f (k + i)) a b Ha Hb) as (w & C & L & N).
    exists w. split; [exact C|]. split; [exact L|]. intros i Hi. rewrite (N i Hi). f_equal. f_equal. lia.
Qed.

Lemma perform_app h1 : forall h2 f, perform_all (h1 ++ h2) f =
  (fst (perform_all h1 f) ++ fst (perform_all h2 (snd (perform_all h1 f))), snd (perform_all h2 (snd (perform_all h1 f)))).
Proof.
  induction h1 as [|a h1 IH]; intros h2 f; cbn [app perform_all].
  - cbn [fst snd app]. destruct (perform_all h2 f); reflexivity.
  - destruct (perform a f) as [o g]. rewrite IH. destruct (perform_all h1 g) as [os h]. reflexivity.
Qed.
Lemma perform_advanced h : no_assignment h -> forall f k, snd (perform_all h (advanced f k)) = advanced f (k + calls h).
Proof.
  induction h as [|a h IH]; intros N f k; [cbn; rewrite Nat.add_0_r; reflexivity|].
  assert (N' : no_assignment h) by (intros g I; apply (N g); right; exact I).
  destruct a as [g| |nd x y]; [exfalso; apply (N g); left; reflexivity| |]; cbn [perform_all perform].
  - rewrite one_call_advanced. specialize (IH N' f (S k)). destruct (perform_all h (advanced f (S k))). cbn [snd] in *. rewrite IH.
    unfold calls. cbn [filter length]. f_equal. fold (calls h). lia.
  - specialize (IH N' f k). destruct (perform_all h (advanced f k)). exact IH.
Qed.
Lemma seen_built h0 f h nd x y f0 : no_assignment h ->
  seen_last (h0 ++ Assign f :: h ++ [Build nd x y]) f0 = Map (som_of nd x y (advanced f (calls h))).
Proof.
  intros N. unfold seen_last. rewrite perform_app. cbn [fst]. generalize (snd (perform_all h0 f0)) as f1. intros f1.
  change (Assign f :: h ++ [Build nd x y]) with ((Assign f :: h) ++ [Build nd x y]). rewrite perform_app. cbn [fst].
  rewrite app_assoc. assert (B : forall g, fst (perform_all [Build nd x y] g) = [Map (som_of nd x y g)]) by reflexivity. rewrite B, last_last. clear B.
  f_equal. f_equal. cbn [perform_all perform].
  pose proof (perform_advanced h N f 0) as E. rewrite advanced_0 in E. destruct (perform_all h f). exact E.
Qed.

Lemma all_weights_of (P : double -> Prop) f nd x y : (forall k, P (value_number f k)) -> forall k, all_weights P (som_of nd x y (advanced f k)).
Proof.
  intros H k w v I J. rewrite som_of_new in I. simpl in I. apply In_nth_error in I. destruct I as [i I].
  destruct (fill_spec (fun j => value_number f (k + j)) nd (x * y) 0) as [L N].
  assert (Hi : i < x * y) by (rewrite <- L; apply nth_error_Some; congruence). rewrite (N i Hi) in I. inversion I; subst w.
  apply In_nth_error in J. destruct J as [j J]. destruct (take_stream_spec (fun j => value_number f (k + j)) nd (0 + i * nd)) as [L' N'].
  change (0 + i * nd) with (i * nd) in *. assert (Hj : j < nd) by (rewrite <- L'; apply nth_error_Some; congruence). rewrite (N' j Hj) in J. inversion J. apply H.
Qed.

(** ** The engine *)
Lemma minstd_in x : (1 <= x < minstd_modulus)%Z -> (1 <= minstd_next x < minstd_modulus)%Z.
Proof.
  unfold minstd_next. intros H. assert (P : (0 < minstd_modulus)%Z) by reflexivity.
  pose proof (Z.mod_pos_bound (16807 * x) minstd_modulus P) as B.
  assert (D : ((16807 * x) mod minstd_modulus <> 0)%Z); [|lia]. intros E. apply Z.mod_divide in E; [|lia].
  apply Gauss in E; [|apply Zgcd_1_rel_prime; reflexivity]. apply Z.divide_pos_le in E; lia.
Qed.

Local Open Scope R_scope.
Lemma canonical_in s : (1 <= s < minstd_modulus)%Z ->
  dle d0 (fst (canonical s)) = true /\ dlt (fst (canonical s)) d1 = true /\ (1 <= snd (canonical s) < minstd_modulus)%Z.
Proof.
  intros H. unfold canonical. cbv zeta. set (x1 := minstd_next s). set (x2 := minstd_next x1).
  assert (H1 : (1 <= x1 < minstd_modulus)%Z) by (apply minstd_in, H). assert (H2 : (1 <= x2 < minstd_modulus)%Z) by (apply minstd_in, H1).
  cbn [fst snd]. unfold minstd_modulus in H1, H2.
  destruct (d2_int (x1 - 1)) as [F1 V1]; [lia|]. destruct (d2_int (x2 - 1)) as [F2 V2]; [lia|].
  assert (T1 : is_finite (dmul d1 minstd_range) = true /\ 0 < B2R (dmul d1 minstd_range)).
  { rewrite DInterpProofs.dmul_1_l. unfold minstd_range. destruct (d2_int 2147483646) as [F V]; [lia|]. rewrite V. split; [exact F|lra]. }
  assert (T2 : is_finite (dmul (dmul d1 minstd_range) minstd_range) = true /\ 0 < B2R (dmul (dmul d1 minstd_range) minstd_range)).
  { assert (F : is_finite (dmul (dmul d1 minstd_range) minstd_range) = true) by (vm_compute; reflexivity). split; [exact F|].
    assert (L : dlt d0 (dmul (dmul d1 minstd_range) minstd_range) = true) by (vm_compute; reflexivity).
    apply dlt_iff in L; [|reflexivity|apply dfinite_num, F]. rewrite ext_d0, (dext_finite _ F) in L. exact L. }
  destruct T1 as [TF1 TP1]. destruct T2 as [TF2 TP2]. set (t2 := dmul (dmul d1 minstd_range) minstd_range) in *. set (t1 := dmul d1 minstd_range) in *.
  clearbody t1 t2. rewrite DInterpProofs.dmul_1_r.
  assert (P1 : 0 <= ext (d2 (x1 - 1) 0)). { rewrite (dext_finite _ F1), V1. apply IZR_le. lia. }
  assert (P2 : 0 <= ext (d2 (x2 - 1) 0)). { rewrite (dext_finite _ F2), V2. apply IZR_le. lia. }
  destruct (add_nonneg d0 (d2 (x1 - 1) 0) num_d0 (dfinite_num _ F1)) as (NA & A1 & A2); [rewrite ext_d0; lra|exact P1|].
  destruct (dmul_ext (d2 (x2 - 1) 0) t1 F2 TF1) as [NM EM].
  assert (PM : 0 <= ext (dmul (d2 (x2 - 1) 0) t1)). { rewrite EM. apply crd_nonneg. apply Rmult_le_pos; [exact P2|]. rewrite (dext_finite _ TF1). lra. }
  destruct (add_nonneg _ _ NA NM) as (NS & S1 & S2); [lra|exact PM|].
  destruct (div_nonneg _ t2 NS) as [ND PD]; [lra|exact TF2|exact TP2|].
  split; [|split; [|exact H2]].
  - destruct (dle d1 _) eqn:E; [vm_compute; reflexivity|]. apply dle_iff; [exact num_d0|exact ND|]. rewrite ext_d0. exact PD.
  - destruct (dle d1 _) eqn:E; [vm_compute; reflexivity|]. apply dle_no in E; [|exact num_d1|exact ND]. apply dlt_iff; [exact ND|exact num_d1|exact E].
Qed.

(** ** The accuracy of the canonical value *)
Lemma in_range (z : double) r : num z -> ext z = crd r -> 0 <= r <= bpow radix2 64 -> r = 0 \/ bpow radix2 (-1022) <= r ->
  is_finite z = true /\ exists e, Rabs e <= uro /\ B2R z = r * (1 + e).
Proof.
  intros N E [R0 R1] S. assert (B : 0 <= rnd53 r <= bpow radix2 64).
  { split.
    - rewrite <- (rnd_format 0) by apply generic_format_0. apply rnd_mono, R0.
    - rewrite <- (rnd_format (bpow radix2 64)). apply rnd_mono, R1. apply generic_format_bpow. vm_compute. discriminate. }
  assert (F : is_finite z = true).
  { apply (rnd_finite z r N E). rewrite Rabs_right by lra. apply Rle_lt_trans with (1 := proj2 B). change MX with (bpow radix2 1024). apply bpow_lt. reflexivity. }
  split; [exact F|]. rewrite (finite_rnd z r F E). destruct S as [-> | S].
  - exists 0. split; [rewrite Rabs_R0; apply Rlt_le, uro_pos|]. rewrite rnd_format by apply generic_format_0. ring.
  - apply rnd_rel. rewrite Rabs_right by lra. exact S.
Qed.
Lemma abs_in e d : Rabs e <= d -> - d <= e <= d.
Proof. intros H. apply Rabs_le_inv. exact H. Qed.
Lemma tiny r : 1 / 4294967296 / 4294967296 / 4294967296 <= r -> bpow radix2 (-1022) <= r.
Proof.
  intros H. apply Rle_trans with (bpow radix2 (-96)); [apply bpow_le; lia|]. replace (bpow radix2 (-96)) with (1 / 4294967296 / 4294967296 / 4294967296); [exact H|].
  unfold bpow. rewrite (Z.pow_pos_fold radix2 96). change (radix2 ^ 96)%Z with (4294967296 * 4294967296 * 4294967296)%Z. rewrite !mult_IZR. field.
Qed.
Lemma big64 : bpow radix2 64 = 4294967296 * 4294967296.
Proof. unfold bpow. rewrite (Z.pow_pos_fold radix2 64). change (radix2 ^ 64)%Z with (4294967296 * 4294967296)%Z. rewrite mult_IZR. reflexivity. Qed.
Definition twodigits (x1 x2 : Z) : R := (IZR (x1 - 1) + IZR (x2 - 1) * 2147483646) / (2147483646 * 2147483646).
Lemma four_errors (X P R2 e1 e2 e3 e4 : R) : 0 <= X -> 0 <= P -> 0 < R2 -> X + P <= R2 -> Rabs e1 <= uro -> Rabs e2 <= uro -> Rabs e3 <= uro -> Rabs e4 <= uro ->
  Rabs ((X + P * (1 + e1)) * (1 + e2) / (R2 * (1 + e3)) * (1 + e4) - (X + P) / R2) <= 7 * uro.
Proof.
  intros HX HP HR HS E1 E2 E3 E4. pose proof uro_pos as U0. pose proof uro_small as U1.
  apply abs_in in E1, E2, E3, E4. set (u := uro) in *. clearbody u.
  set (g := (1 + e2) * (1 + e4) / (1 + e3)).
  assert (G3 : 0 < 1 + e3) by lra.
  assert (G : 1 - 4 * u <= g <= 1 + 4 * u).
  { unfold g. assert (Q : g * (1 + e3) = (1 + e2) * (1 + e4)) by (unfold g; field; lra).
    split; apply (Rmult_le_reg_r (1 + e3)); try exact G3; unfold Rdiv; rewrite ?(Rmult_assoc _ (/ (1 + e3))), ?Rinv_l, ?Rmult_1_r by lra; nra. }
  replace ((X + P * (1 + e1)) * (1 + e2) / (R2 * (1 + e3)) * (1 + e4)) with ((X + P * (1 + e1)) / R2 * g) by (unfold g; field; lra).
  set (a := X / R2). set (b := P / R2).
  assert (HA : 0 <= a) by (apply Rmult_le_pos; [exact HX|apply Rlt_le, Rinv_0_lt_compat, HR]).
  assert (HB : 0 <= b) by (apply Rmult_le_pos; [exact HP|apply Rlt_le, Rinv_0_lt_compat, HR]).
  assert (HAB : a + b <= 1). { apply (Rmult_le_reg_r R2); [exact HR|]. unfold a, b. replace ((X / R2 + P / R2) * R2) with (X + P) by (field; lra). lra. }
  replace ((X + P * (1 + e1)) / R2 * g - (X + P) / R2) with ((a + b) * (g - 1) + b * e1 * g) by (unfold a, b; field; lra).
  clearbody g a b. apply Rabs_le.
  assert (T1 : - (4 * u) <= (a + b) * (g - 1) <= 4 * u) by (split; nra).
  assert (T2 : - (2 * u) <= b * e1 * g <= 2 * u). { assert (- u <= b * e1 <= u) by (split; nra). split; nra. }
  lra.
Qed.
Lemma canonical_error s : (1 <= s < minstd_modulus)%Z ->
  Rabs (B2R (fst (canonical s)) - twodigits (minstd_next s) (minstd_next (minstd_next s))) <= 8 * uro.
Proof.
  intros H. unfold canonical. cbv zeta. set (x1 := minstd_next s). set (x2 := minstd_next x1).
  assert (H1 : (1 <= x1 < minstd_modulus)%Z) by (apply minstd_in, H). assert (H2 : (1 <= x2 < minstd_modulus)%Z) by (apply minstd_in, H1).
  cbn [fst]. unfold minstd_modulus in H1, H2. clearbody x1 x2.
  destruct (d2_int (x1 - 1)) as [F1 V1]; [lia|]. destruct (d2_int (x2 - 1)) as [F2 V2]; [lia|]. destruct (d2_int 2147483646) as [FR VR]; [lia|]. fold minstd_range in FR, VR.
  rewrite DInterpProofs.dmul_1_l, DInterpProofs.dmul_1_r.
  assert (B1 : 0 <= IZR (x1 - 1) <= 2147483645) by (split; [apply IZR_le|apply (IZR_le _ 2147483645)]; lia).
  assert (B2 : IZR (x2 - 1) = 0 \/ 1 <= IZR (x2 - 1)). { destruct (Z.eq_dec x2 1) as [-> | N]; [left; reflexivity|right; apply (IZR_le 1); lia]. }
  assert (Z1 : IZR (x1 - 1) = 0 \/ 1 <= IZR (x1 - 1)). { destruct (Z.eq_dec x1 1) as [-> | N]; [left; reflexivity|right; apply (IZR_le 1); lia]. }
  assert (B2' : 0 <= IZR (x2 - 1) <= 2147483645) by (split; [apply IZR_le|apply (IZR_le _ 2147483645)]; lia).
  assert (A0 : is_finite (dadd d0 (d2 (x1 - 1) 0)) = true /\ B2R (dadd d0 (d2 (x1 - 1) 0)) = IZR (x1 - 1)).
  { destruct (dadd_ext d0 (d2 (x1 - 1) 0) eq_refl F1) as [N E]. rewrite ext_d0, Rplus_0_l, crd_ext in E. rewrite (dext_finite _ F1) in E.
    assert (F : is_finite (dadd d0 (d2 (x1 - 1) 0)) = true). { apply dfinite_iff; [exact N|]. rewrite E. rewrite <- (dext_finite _ F1). apply dext_lt, F1. }
    split; [exact F|]. rewrite <- (dext_finite _ F), E. exact V1. }
  destruct A0 as [FA VA]. set (sa := dadd d0 (d2 (x1 - 1) 0)) in *. clearbody sa.
  unfold twodigits. set (X1 := IZR (x1 - 1)) in *. set (X2 := IZR (x2 - 1)) in *. clearbody X1 X2.
  pose proof big64 as B64. pose proof uro_pos as U0. pose proof uro_small as U1. pose proof uro_val as UV.
  destruct (dmul_ext (d2 (x2 - 1) 0) minstd_range F2 FR) as [NP EP]. rewrite (dext_finite _ F2), (dext_finite _ FR), V2, VR in EP.
  destruct (in_range _ _ NP EP) as (FP & e1 & E1 & VP); [rewrite B64; nra| |]. { destruct B2 as [-> | B]; [left; ring|right]. apply tiny. lra. }
  set (p := dmul (d2 (x2 - 1) 0) minstd_range) in *. clearbody p.
  destruct (dmul_ext minstd_range minstd_range FR FR) as [NT ET]. rewrite (dext_finite _ FR), VR in ET.
  destruct (in_range _ _ NT ET) as (FT & e3 & E3 & VT); [rewrite B64; lra|right; apply tiny; lra|].
  set (t := dmul minstd_range minstd_range) in *. clearbody t.
  destruct (dadd_ext sa p FA FP) as [NS ES]. rewrite (dext_finite _ FA), (dext_finite _ FP), VA, VP in ES.
  apply abs_in in E1 as E1'. apply abs_in in E3 as E3'.
  assert (PP : X2 * 2147483646 * (1 + e1) = 0 \/ 1 <= X2 * 2147483646 * (1 + e1)). { destruct B2 as [-> | B]; [left; ring|right; nra]. }
  assert (PU : 0 <= X2 * 2147483646 * (1 + e1) <= 2 * 2147483645 * 2147483646) by (split; nra).
  destruct (in_range _ _ NS ES) as (FS & e2 & E2 & VS); [rewrite B64; lra| |].
  { destruct Z1 as [Z1 | Z1]; destruct PP as [PP | PP]; [left; lra|right; apply tiny; lra|right; apply tiny; lra|right; apply tiny; lra]. }
  set (sm := dadd sa p) in *. clearbody sm. apply abs_in in E2 as E2'.
  assert (TP : 2147483646 <= B2R t <= 2 * (2147483646 * 2147483646)) by (rewrite VT; split; nra).
  destruct (ddiv_ext sm t FS FT) as [ND ED]; [rewrite (dext_finite _ FT); lra|]. rewrite (dext_finite _ FS), (dext_finite _ FT) in ED.
  assert (IT : 0 < / B2R t) by (apply Rinv_0_lt_compat; lra).
  assert (SP : B2R sm = 0 \/ / 2 <= B2R sm). { rewrite VS. destruct Z1 as [Z1 | Z1]; destruct PP as [PP | PP]; [left; rewrite Z1, PP; ring| | |]; right; nra. }
  assert (SU : 0 <= B2R sm <= 4 * 2147483646 * 2147483646) by (rewrite VS; split; nra).
  assert (QU : 0 <= B2R sm / B2R t <= bpow radix2 64).
  { split; [apply Rmult_le_pos; lra|]. apply (Rmult_le_reg_r (B2R t)); [lra|]. replace (B2R sm / B2R t * B2R t) with (B2R sm) by (field; lra). rewrite B64. nra. }
  assert (QL : B2R sm / B2R t = 0 \/ bpow radix2 (-1022) <= B2R sm / B2R t).
  { destruct SP as [-> | SP]; [left; unfold Rdiv; ring|right]. apply tiny. apply (Rmult_le_reg_r (B2R t)); [lra|]. replace (B2R sm / B2R t * B2R t) with (B2R sm) by (field; lra). lra. }
  destruct (in_range _ _ ND ED QU QL) as (FD & e4 & E4 & VD).
  assert (ERR : Rabs (B2R (ddiv sm t) - (X1 + X2 * 2147483646) / (2147483646 * 2147483646)) <= 7 * uro).
  { rewrite VD, VS, VT. apply four_errors; try assumption; try lra; nra. }
  assert (UP : (X1 + X2 * 2147483646) / (2147483646 * 2147483646) <= 1).
  { apply (Rmult_le_reg_r (2147483646 * 2147483646)); [lra|]. replace ((X1 + X2 * 2147483646) / (2147483646 * 2147483646) * (2147483646 * 2147483646)) with (X1 + X2 * 2147483646) by (field; lra). lra. }
  set (q := (X1 + X2 * 2147483646) / (2147483646 * 2147483646)) in *. clearbody q.
  destruct (dle d1 (ddiv sm t)) eqn:E; [|lra].
  apply dle_iff in E; [|exact num_d1|exact ND]. rewrite ext_d1, (dext_finite _ FD) in E.
  assert (VC : B2R (d2 (2 ^ 53 - 1) (-53)) = 1 - uro).
  { rewrite uro_val. replace (1 - / 9007199254740992) with (IZR 9007199254740991 * / 9007199254740992) by field. reflexivity. }
  rewrite VC. apply abs_in in ERR. apply Rabs_le. lra.
Qed.
Lemma uniform_state a b : forall k, (1 <= state_after (uniform_random a b) k < minstd_modulus)%Z.
Proof.
  induction k as [|k IH]; [unfold minstd_modulus; simpl; unfold minstd_new; lia|].
  change (state_after (uniform_random a b) (S k)) with (snd (call (uniform_random a b) (state_after (uniform_random a b) k))).
  revert IH. generalize (state_after (uniform_random a b) k). intros s IH. cbn [st uniform_random] in s.
  pose proof (canonical_in s IH) as (_ & _ & C). cbn [call uniform_random]. destruct (canonical s). exact C.
Qed.
Lemma uniform_value a b k : exists c, dle d0 c = true /\ dlt c d1 = true /\ value_number (uniform_random a b) k = dadd (dmul c (dsub b a)) a.
Proof.
  pose proof (uniform_state a b k) as IH. unfold value_number. revert IH. generalize (state_after (uniform_random a b) k). intros s IH. cbn [st uniform_random] in s.
  pose proof (canonical_in s IH) as (C1 & C2 & _). cbn [call uniform_random]. destruct (canonical s) as [c s']. exists c. auto.
Qed.
Lemma uniform_within a b k : is_finite a = true -> is_finite b = true -> dle a b = true -> is_finite (dsub b a) = true ->
  dle a (value_number (uniform_random a b) k) = true /\ dle (value_number (uniform_random a b) k) (dadd (dsub b a) a) = true.
Proof.
  intros FA FB L FD. destruct (uniform_value a b k) as (c & C1 & C2 & ->).
  destruct (dlt_nums _ _ C2) as [NC _]. apply dle_iff in C1; [|exact num_d0|exact NC]. apply dlt_iff in C2; [|exact NC|exact num_d1]. rewrite ext_d0 in C1. rewrite ext_d1 in C2.
  assert (FC : is_finite c = true) by (apply dfinite_iff; auto; pose proof MX_big; lra).
  apply dle_iff in L; try (apply dfinite_num; assumption).
  destruct (dsub_ext b a FB FA) as [ND ED]. assert (PD : 0 <= ext (dsub b a)) by (rewrite ED; apply crd_nonneg; lra).
  destruct (dmul_ext c (dsub b a) FC FD) as [NM EM].
  assert (PM : 0 <= ext (dmul c (dsub b a)) <= ext (dsub b a)).
  { rewrite EM. split; [apply crd_nonneg; nra|]. rewrite <- (crd_ext (dsub b a)) at 2. apply crd_mono. nra. }
  assert (FM : is_finite (dmul c (dsub b a)) = true). { apply dfinite_iff; [exact NM|]. pose proof (dext_lt _ FD). pose proof MX_big. lra. }
  destruct (dadd_ext _ a FM FA) as [NS ES]. destruct (dadd_ext _ a FD FA) as [NT ET].
  split; (apply dle_iff; [first [apply dfinite_num; exact FA|exact NS]|first [exact NS|exact NT]|]).
  - rewrite ES. rewrite <- (crd_ext a) at 1. apply crd_mono. lra.
  - rewrite ES, ET. apply crd_mono. lra.
Qed.


Lemma state_next f k : state_after (advanced f 1) k = state_after f (S k).
Proof. induction k as [|k IH]; [reflexivity|]. change (snd (call f (state_after (advanced f 1) k)) = state_after f (S (S k))). rewrite IH. reflexivity. Qed.
Lemma value_next f k : value_number f (S k) = value_number (advanced f 1) k.
Proof. unfold value_number. rewrite state_next. reflexivity. Qed.
Lemma normal_value (engine : Type) (seeded : Z -> engine) standard sigma mu k : forall seed,
  value_number (normal_distribution engine seeded standard seed sigma mu) k = dadd (dmul (drawn standard (seeded seed) k) sigma) mu.
Proof.
  intros seed. set (f := fun s => let '(z, s') := standard s in (dadd (dmul z sigma) mu, s')).
  assert (G : forall k s, value_number (mkInit engine s f) k = dadd (dmul (drawn standard s k) sigma) mu).
  { clear k. induction k as [|k IH]; intros s.
    - unfold value_number, f. simpl. destruct (standard s); reflexivity.
    - rewrite value_next. cbn [drawn]. rewrite <- IH. f_equal. unfold advanced. cbn [state_after state call st].
      assert (E : snd (f s) = snd (standard s)) by (unfold f; destruct (standard s); reflexivity). rewrite E. reflexivity. }
  apply G.
Qed.
Lemma normal_side (z sigma mu : double) : is_finite z = true -> is_finite sigma = true -> dlt d0 sigma = true -> is_finite mu = true -> is_finite (dmul z sigma) = true ->
  (dle d0 z = true -> dle mu (dadd (dmul z sigma) mu) = true) /\ (dle z d0 = true -> dle (dadd (dmul z sigma) mu) mu = true).
Proof.
  intros FZ FS P FM FP. apply dlt_iff in P; [|exact num_d0|apply dfinite_num, FS]. rewrite ext_d0 in P.
  destruct (dmul_ext z sigma FZ FS) as [NM EM]. destruct (dadd_ext _ mu FP FM) as [NS ES].
  split; intros L; (apply dle_iff in L; [|first [exact num_d0|apply dfinite_num, FZ]|first [exact num_d0|apply dfinite_num, FZ]]); rewrite ext_d0 in L;
    (apply dle_iff; [first [exact NS|apply dfinite_num, FM]|first [exact NS|apply dfinite_num, FM]|]); rewrite ES.
  - rewrite <- (crd_ext mu) at 1. apply crd_mono. assert (0 <= ext (dmul z sigma)) by (rewrite EM; apply crd_nonneg; nra). lra.
  - rewrite <- (crd_ext mu) at 2. apply crd_mono. assert (ext (dmul z sigma) <= 0) by (rewrite EM, <- crd_0; apply crd_mono; nra). lra.
Qed.

(** ** The values of the engine *)
Lemma engine_next j : minstd_next (engine_value j) = engine_value (S j).
Proof.
  unfold minstd_next, engine_value, minstd_modulus. rewrite Z.mul_mod_idemp_r by discriminate. f_equal. rewrite Nat2Z.inj_succ, Z.pow_succ_r by lia. reflexivity.
Qed.
Lemma uniform_engine a b : forall k, state_after (uniform_random a b) k = engine_value (2 * k).
Proof.
  induction k as [|k IH]; [reflexivity|].
  change (state_after (uniform_random a b) (S k)) with (snd (call (uniform_random a b) (state_after (uniform_random a b) k))). rewrite IH.
  cbn [call uniform_random]. unfold canonical. cbv zeta. cbn [snd]. rewrite !engine_next. f_equal. lia.
Qed.
Lemma uniform_close a b k : exists c, Rabs (B2R c - unit_value k) <= 8 * uro /\ dle d0 c = true /\ dlt c d1 = true /\ value_number (uniform_random a b) k = dadd (dmul c (dsub b a)) a.
Proof.
  pose proof (uniform_state a b k) as IH. unfold value_number. rewrite uniform_engine in IH |- *.
  pose proof (canonical_in _ IH) as (C1 & C2 & _). pose proof (canonical_error _ IH) as C3. rewrite !engine_next in C3.
  cbn [call uniform_random]. destruct (canonical (engine_value (2 * k))) as [c s']. exists c. split; [|auto].
  unfold unit_value. unfold twodigits in C3. replace (2 * k + 1)%nat with (S (2 * k)) by lia. replace (2 * k + 2)%nat with (S (S (2 * k))) by lia. exact C3.
Qed.
