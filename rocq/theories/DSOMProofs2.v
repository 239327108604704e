(** Proofs about the training of self-organizing maps in double precision. *)
From Coq Require Import ZArith Reals List Arith Bool Lia Lra Psatz.
From Flocq Require Import Core IEEE754.BinarySingleNaN.
From Verif Require Import Common SOMModel SOMSpec SOMProofs FloatModel FloatProofs DoubleProofs DoubleProofs2 DInterpProofs DInterpProofs2 DSOMModel DSOMSpec DSOMProofs.
Import ListNotations.
Local Open Scope R_scope.

(** ** One weight *)
Lemma B2R_d0 : B2R d0 = 0. Proof. reflexivity. Qed.
Lemma unit_value (f : double) : unit_double f -> is_finite f = true /\ 0 <= B2R f <= 1.
Proof.
  intros [L U]. destruct (le0 f L) as [N P]. apply (dle_iff f d1 N num_d1) in U. rewrite ext_d1 in U. pose proof MX_big.
  assert (F : is_finite f = true) by (apply dfinite_iff; auto; lra). rewrite dext_finite in P, U by exact F. auto.
Qed.
Lemma value_unit (f : double) : is_finite f = true -> 0 <= B2R f <= 1 -> unit_double f.
Proof. intros F B. split; apply dle_iff; try reflexivity; try (apply dfinite_num; exact F); rewrite ?ext_d0, ?ext_d1, dext_finite by exact F; lra. Qed.
Lemma rnd_1 : rnd53 1 = 1. Proof. apply rnd_format. apply (int_format 1). lia. Qed.
Lemma rnd_0 : rnd53 0 = 0. Proof. apply round_0. auto with typeclass_instances. Qed.
Lemma unit_mul (f g : double) : unit_double f -> unit_double g -> unit_double (dmul f g).
Proof.
  intros UF UG. destruct (unit_value f UF) as [FF BF]. destruct (unit_value g UG) as [FG BG]. destruct (dmul_ext f g FF FG) as [N E].
  rewrite (dext_finite f FF), (dext_finite g FG) in E. assert (B : 0 <= rnd53 (B2R f * B2R g) <= 1).
  { split; [rewrite <- rnd_0; apply rnd_mono; apply Rmult_le_pos; lra|]. rewrite <- rnd_1. apply rnd_mono. replace 1 with (1 * 1) by ring. apply Rmult_le_compat; lra. }
  assert (F : is_finite (dmul f g) = true). { apply (rnd_finite _ _ N E). rewrite Rabs_pos_eq by lra. pose proof MX_big. lra. }
  apply value_unit; [exact F|]. rewrite (finite_rnd _ _ F E). exact B.
Qed.
Lemma rnd_bound r e : (-1074 <= e)%Z -> Rabs r <= bpow radix2 e -> Rabs (rnd53 r) <= bpow radix2 e.
Proof.
  intros HE H. assert (G : generic_format radix2 (SpecFloat.fexp 53 1024) (bpow radix2 e)).
  { apply generic_format_bpow. unfold SpecFloat.fexp, SpecFloat.emin. lia. }
  apply Rabs_le_inv in H. apply Rabs_le. rewrite <- (rnd_format _ G). rewrite <- round_NE_opp. split; apply rnd_mono; lra.
Qed.
Lemma half_pow e : bpow radix2 (e + 1) = bpow radix2 e + bpow radix2 e.
Proof. rewrite bpow_plus. change (bpow radix2 1) with 2. ring. Qed.
Lemma weight_step (f l x w : double) : unit_double f -> unit_double l -> is_finite x = true -> is_finite w = true ->
  Rabs (B2R x) <= bpow radix2 1021 -> Rabs (B2R w) <= bpow radix2 1021 ->
  let w' := dupdate_weight f l x w in
  let d := dsub x w in let p := dmul (dmul f l) d in
  is_finite w' = true /\ is_finite d = true /\ is_finite p = true /\
  (0 <= B2R p <= B2R d \/ B2R d <= B2R p <= 0) /\
  (B2R w <= B2R x -> 0 <= B2R d) /\ (B2R x <= B2R w -> B2R d <= 0) /\ B2R w' = rnd53 (B2R w + B2R p).
Proof.
  intros UF UL FX FW BX BW. cbv zeta. unfold dupdate_weight. pose proof (unit_mul f l UF UL) as UG. set (g := dmul f l) in *. destruct (unit_value g UG) as [FG BG].
  set (d := dsub x w). set (p := dmul g d).
  destruct (dsub_ext x w FX FW) as [ND ED]. fold d in ND, ED. rewrite (dext_finite x FX), (dext_finite w FW) in ED.
  assert (BD0 : Rabs (rnd53 (B2R x - B2R w)) <= bpow radix2 1022).
  { apply rnd_bound; [lia|]. change 1022%Z with (1021 + 1)%Z. rewrite half_pow. apply Rabs_le_inv in BX, BW. apply Rabs_le. lra. }
  assert (P22 : bpow radix2 1022 < MX) by (apply bpow_lt; lia). assert (P23 : bpow radix2 1023 < MX) by (apply bpow_lt; lia).
  assert (FD : is_finite d = true) by (apply (rnd_finite _ _ ND ED); lra). pose proof (finite_rnd _ _ FD ED) as VD. rewrite <- VD in BD0.
  destruct (dmul_ext g d FG FD) as [NP EP]. fold p in NP, EP. rewrite (dext_finite g FG), (dext_finite d FD) in EP.
  assert (R : 0 <= rnd53 (B2R g * B2R d) <= B2R d \/ B2R d <= rnd53 (B2R g * B2R d) <= 0).
  { destruct (Rle_or_lt 0 (B2R d)).
    - left. split; [rewrite <- rnd_0; apply rnd_mono; apply Rmult_le_pos; lra|]. rewrite <- (rnd_B2R d) at 2. apply rnd_mono. rewrite <- (Rmult_1_l (B2R d)) at 2. apply Rmult_le_compat_r; lra.
    - right. split; [rewrite <- (rnd_B2R d) at 1|rewrite <- rnd_0]; apply rnd_mono; nra. }
  assert (FP : is_finite p = true). { apply (rnd_finite _ _ NP EP). apply Rle_lt_trans with (2 := P22). apply Rabs_le. apply Rabs_le_inv in BD0. lra. }
  pose proof (finite_rnd _ _ FP EP) as VP. rewrite <- VP in R.
  destruct (dadd_ext w p FW FP) as [NS ES]. rewrite (dext_finite w FW), (dext_finite p FP) in ES.
  assert (FS : is_finite (dadd w p) = true).
  { apply (rnd_finite _ _ NS ES). apply Rle_lt_trans with (2 := P23). apply rnd_bound; [lia|]. change 1023%Z with (1022 + 1)%Z. rewrite half_pow. apply Rabs_le_inv in BD0, BW. apply Rabs_le.
    assert (bpow radix2 1021 <= bpow radix2 1022) by (apply bpow_le; lia). lra. }
  repeat split; auto; try (exact (finite_rnd _ _ FS ES)); rewrite VD; intros H; rewrite <- rnd_0; apply rnd_mono; lra.
Qed.
(** A weight moves towards the input, by at most the rounded difference. *)
Lemma weight_between (f l x w : double) : unit_double f -> unit_double l -> is_finite x = true -> is_finite w = true ->
  Rabs (B2R x) <= bpow radix2 1021 -> Rabs (B2R w) <= bpow radix2 1021 ->
  let w' := dupdate_weight f l x w in
  is_finite w' = true /\
  (B2R w <= B2R x -> B2R w <= B2R w' <= rnd53 (B2R w + rnd53 (B2R x - B2R w))) /\
  (B2R x <= B2R w -> rnd53 (B2R w + rnd53 (B2R x - B2R w)) <= B2R w' <= B2R w).
Proof.
  intros UF UL FX FW BX BW. cbv zeta. destruct (weight_step f l x w UF UL FX FW BX BW) as (F & FD & FP & R & D1 & D2 & V). split; [exact F|]. rewrite V.
  destruct (dsub_ext x w FX FW) as [ND ED]. apply (finite_rnd _ _ FD) in ED. rewrite (dext_finite x FX), (dext_finite w FW) in ED. rewrite <- ED.
  split; intros H; [specialize (D1 H)|specialize (D2 H)].
  - assert (0 <= B2R (dmul (dmul f l) (dsub x w)) <= B2R (dsub x w)) by lra. split; [rewrite <- (rnd_B2R w) at 1|]; apply rnd_mono; lra.
  - assert (B2R (dsub x w) <= B2R (dmul (dmul f l) (dsub x w)) <= 0) by lra. split; [|rewrite <- (rnd_B2R w) at 2]; apply rnd_mono; lra.
Qed.
Lemma reach (x w : double) : is_finite x = true -> is_finite w = true -> Rabs (B2R x) <= bpow radix2 1021 -> Rabs (B2R w) <= bpow radix2 1021 ->
  exists e1 e2, Rabs e1 <= uro /\ Rabs e2 <= uro /\ rnd53 (B2R w + rnd53 (B2R x - B2R w)) = (B2R x + e1 * (B2R x - B2R w)) * (1 + e2).
Proof.
  intros FX FW BX BW. assert (U1 : unit_double d1) by (apply value_unit; [reflexivity|rewrite B2R_d1; lra]).
  destruct (weight_step d1 d1 x w U1 U1 FX FW BX BW) as (F & FD & FP & _ & _ & _ & V).
  rewrite !dmul_1_l in *. destruct (sub_rel x w FX FW FD) as (e1 & H1 & E1). unfold dupdate_weight in *. rewrite !dmul_1_l in *.
  destruct (add_rel w (dsub x w) FW FD F) as (e2 & H2 & E2). exists e1, e2. split; [exact H1|]. split; [exact H2|].
  destruct (dsub_ext x w FX FW) as [ND ED]. apply (finite_rnd _ _ FD) in ED. rewrite (dext_finite x FX), (dext_finite w FW) in ED. rewrite <- ED, <- V, E2, E1. ring.
Qed.
Lemma over_bound (u x w B e1 e2 : R) : 0 < u <= / 1024 -> 0 <= B -> Rabs e1 <= u -> Rabs e2 <= u -> Rabs x <= B -> Rabs (x - w) <= 2 * B + 4 * u * B ->
  Rabs ((x + e1 * (x - w)) * (1 + e2) - x) <= 4 * u * B.
Proof.
  intros U B0 H1 H2 HX HD. replace ((x + e1 * (x - w)) * (1 + e2) - x) with (e1 * (x - w) + e2 * (x + e1 * (x - w))) by ring.
  assert (D : Rabs (e1 * (x - w)) <= u * (2 * B + 4 * u * B)). { rewrite Rabs_mult. apply Rmult_le_compat; auto using Rabs_pos. }
  assert (S : Rabs (e2 * (x + e1 * (x - w))) <= u * (B + u * (2 * B + 4 * u * B))).
  { rewrite Rabs_mult. apply Rmult_le_compat; auto using Rabs_pos. apply Rle_trans with (1 := Rabs_triang _ _). lra. }
  apply Rle_trans with (1 := Rabs_triang _ _). assert (0 <= u * B) by (apply Rmult_le_pos; lra).
  assert (u * (u * B) <= / 1024 * (u * B)) by (apply Rmult_le_compat_r; lra). assert (0 <= u * (u * B)) by (apply Rmult_le_pos; lra).
  assert (u * (u * (u * B)) <= / 1024 * (u * (u * B))) by (apply Rmult_le_compat_r; lra). lra.
Qed.
Lemma weight_range (f l x w : double) (lo hi B : R) : unit_double f -> unit_double l -> Rabs lo <= B -> Rabs hi <= B -> B <= bpow radix2 1020 ->
  finite_in lo hi x -> finite_in (lo - 4 * uro * B) (hi + 4 * uro * B) w ->
  finite_in (lo - 4 * uro * B) (hi + 4 * uro * B) (dupdate_weight f l x w).
Proof.
  intros UF UL BL BH BB [FX RX] [FW RW]. pose proof uro_pos as UP. pose proof uro_small as US.
  assert (B0 : 0 <= B) by (apply Rle_trans with (2 := BL); apply Rabs_pos). apply Rabs_le_inv in BL, BH.
  assert (UB : 0 <= uro * B <= / 1024 * B) by (split; [apply Rmult_le_pos; lra|apply Rmult_le_compat_r; lra]).
  assert (P1 : bpow radix2 1021 = bpow radix2 1020 + bpow radix2 1020) by (change 1021%Z with (1020 + 1)%Z; apply half_pow).
  assert (AX : Rabs (B2R x) <= B) by (apply Rabs_le; lra). assert (BX : Rabs (B2R x) <= bpow radix2 1021) by lra.
  assert (BW : Rabs (B2R w) <= bpow radix2 1021) by (apply Rabs_le; lra).
  destruct (weight_between f l x w UF UL FX FW BX BW) as (F & M1 & M2). split; [exact F|].
  destruct (reach x w FX FW BX BW) as (e1 & e2 & H1 & H2 & E). rewrite E in M1, M2. assert (HD : Rabs (B2R x - B2R w) <= 2 * B + 4 * uro * B) by (apply Rabs_le; lra).
  pose proof (over_bound uro (B2R x) (B2R w) B e1 e2 (conj UP US) B0 H1 H2 AX HD) as O. apply Rabs_le_inv in O.
  destruct (Rle_or_lt (B2R w) (B2R x)) as [C|C]; [specialize (M1 C)|specialize (M2 (Rlt_le _ _ C))]; lra.
Qed.
Lemma weight_error_r (u t F D W e1 e2 e3 e4 h1 h2 B p r : R) : 0 < u <= / 1024 -> 0 <= t <= u * / 1024 -> 0 <= F <= 1 -> Rabs W <= B -> Rabs D <= 2 * B -> Rabs (W + F * D) <= B ->
  Rabs e1 <= u -> Rabs e2 <= u -> Rabs e3 <= u -> Rabs e4 <= u -> Rabs h1 <= t -> Rabs h2 <= t ->
  p = (F * (1 + e1) + h1) * (D * (1 + e2)) * (1 + e3) + h2 -> r = (W + p) * (1 + e4) -> Rabs (r - (W + F * D)) <= 8 * u * B + 2 * t.
Proof.
  intros U T HF HW HD HC H1 H2 H3 H4 G1 G2 EP ER. apply Rabs_le_inv in H1, H2, H3.
  assert (B0 : 0 <= B) by (apply Rle_trans with (2 := HW); apply Rabs_pos).
  assert (Q : Rabs ((1 + e1) * (1 + e2) * (1 + e3) - 1) <= 3 * u + 4 * (u * u)).
  { apply Rabs_le. assert (u * u <= / 1024 * u) by (apply Rmult_le_compat_r; lra).
    assert (L2 : (1 - u) * (1 - u) <= (1 + e1) * (1 + e2)) by (apply Rmult_le_compat; lra). assert (U2 : (1 + e1) * (1 + e2) <= (1 + u) * (1 + u)) by (apply Rmult_le_compat; lra).
    assert (0 <= (1 - u) * (1 - u)) by (apply Rmult_le_pos; lra).
    assert ((1 - u) * (1 - u) * (1 - u) <= (1 + e1) * (1 + e2) * (1 + e3)) by (apply Rmult_le_compat; lra). assert ((1 + e1) * (1 + e2) * (1 + e3) <= (1 + u) * (1 + u) * (1 + u)) by (apply Rmult_le_compat; lra).
    assert (0 <= u * u) by (apply Rmult_le_pos; lra). assert (0 <= u * (u * u) <= / 1024 * (u * u)) by (split; [apply Rmult_le_pos; lra|apply Rmult_le_compat_r; lra]). split; lra. }
  assert (K : Rabs ((1 + e2) * (1 + e3)) <= 1 + 3 * u).
  { rewrite Rabs_pos_eq by (apply Rmult_le_pos; lra). apply Rle_trans with ((1 + u) * (1 + u)); [apply Rmult_le_compat; lra|]. assert (u * u <= / 1024 * u) by (apply Rmult_le_compat_r; lra). lra. }
  assert (EPd : p - F * D = F * D * ((1 + e1) * (1 + e2) * (1 + e3) - 1) + h1 * D * ((1 + e2) * (1 + e3)) + h2) by (rewrite EP; ring).
  assert (FD : Rabs (F * D) <= 2 * B). { rewrite Rabs_mult, (Rabs_pos_eq F) by lra. replace (2 * B) with (1 * (2 * B)) by ring. apply Rmult_le_compat; try lra. apply Rabs_pos. }
  assert (A1 : Rabs (F * D * ((1 + e1) * (1 + e2) * (1 + e3) - 1)) <= 2 * B * (3 * u + 4 * (u * u))) by (rewrite Rabs_mult; apply Rmult_le_compat; auto using Rabs_pos).
  assert (A2 : Rabs (h1 * D * ((1 + e2) * (1 + e3))) <= t * (2 * B) * (1 + 3 * u)) by (rewrite !Rabs_mult in *; repeat apply Rmult_le_compat; auto using Rabs_pos, Rmult_le_pos).
  set (E := 2 * B * (3 * u + 4 * (u * u)) + t * (2 * B) * (1 + 3 * u) + t).
  assert (AP : Rabs (p - F * D) <= E). { rewrite EPd. apply Rle_trans with (1 := Rabs_triang _ _). apply Rle_trans with (2 := Rplus_le_compat _ _ _ _ (Rplus_le_compat _ _ _ _ A1 A2) G2). apply Rplus_le_compat_r, Rabs_triang. }
  replace (r - (W + F * D)) with ((p - F * D) + e4 * (W + F * D + (p - F * D))) by (rewrite ER; ring).
  assert (A4 : Rabs (e4 * (W + F * D + (p - F * D))) <= u * (B + E)). { rewrite Rabs_mult. apply Rmult_le_compat; auto using Rabs_pos. apply Rle_trans with (1 := Rabs_triang _ _). lra. }
  apply Rle_trans with (1 := Rabs_triang _ _). assert (UB : 0 <= u * B) by (apply Rmult_le_pos; lra).
  assert (UUB : 0 <= u * (u * B) <= / 1024 * (u * B)) by (split; [apply Rmult_le_pos; lra|apply Rmult_le_compat_r; lra]).
  assert (TB : 0 <= t * B <= / 1024 * (u * B)). { split; [apply Rmult_le_pos; lra|]. replace (/ 1024 * (u * B)) with (u * / 1024 * B) by ring. apply Rmult_le_compat_r; lra. }
  assert (UTB : 0 <= u * (t * B) <= / 1024 * (t * B)) by (split; [apply Rmult_le_pos; lra|apply Rmult_le_compat_r; lra]).
  assert (EE : E <= 6 * (u * B) + 8 * (u * (u * B)) + 2 * (t * B) + 6 * (u * (t * B)) + t) by (unfold E; lra).
  assert (E <= 613 / 100 * (u * B) + t) by lra. assert (0 <= E) by (apply Rle_trans with (2 := AP); apply Rabs_pos).
  assert (u * E <= / 1024 * E) by (apply Rmult_le_compat_r; lra). lra.
Qed.
Lemma weight_error (f l x w : double) (B : R) : unit_double f -> unit_double l -> is_finite x = true -> is_finite w = true ->
  Rabs (B2R x) <= B -> Rabs (B2R w) <= B -> B <= bpow radix2 1020 ->
  let c := B2R f * B2R l in
  Rabs (B2R (dupdate_weight f l x w) - ((1 - c) * B2R w + c * B2R x)) <= 8 * uro * B + 2 * tiny.
Proof.
  intros UF UL FX FW BX BW BB c. assert (P1 : bpow radix2 1020 <= bpow radix2 1021) by (apply bpow_le; lia).
  destruct (weight_step f l x w UF UL FX FW ltac:(lra) ltac:(lra)) as (F & FD & FP & _). unfold dupdate_weight in *.
  destruct (unit_value f UF) as [FF VF]. destruct (unit_value l UL) as [FL VL]. destruct (fin_mul _ _ FP) as [FG _].
  destruct (mul_err f l FG) as (e1 & h1 & H1 & G1 & E1). destruct (sub_rel x w FX FW FD) as (e2 & H2 & E2). destruct (mul_err _ _ FP) as (e3 & h2 & H3 & G2 & E3). destruct (add_rel _ _ FW FP F) as (e4 & H4 & E4).
  rewrite E1, E2 in E3. replace ((1 - c) * B2R w + c * B2R x) with (B2R w + c * (B2R x - B2R w)) by ring.
  assert (C01 : 0 <= c <= 1). { unfold c. split; [apply Rmult_le_pos; lra|]. replace 1 with (1 * 1) by ring. apply Rmult_le_compat; lra. }
  assert (T : 0 <= tiny <= uro * / 1024).
  { split; [apply Rlt_le, tiny_pos|]. unfold tiny, uro. change (/ 1024) with (bpow radix2 (-10)). rewrite <- bpow_plus. apply bpow_le. lia. }
  apply (weight_error_r uro tiny c (B2R x - B2R w) (B2R w) e1 e2 e3 e4 h1 h2 B (B2R (dmul (dmul f l) (dsub x w))) _ (conj uro_pos uro_small) T C01 BW); auto.
  - apply Rabs_le_inv in BX, BW. apply Rabs_le. lra.
  - apply Rabs_le_inv in BX, BW. apply Rabs_le. replace (B2R w + c * (B2R x - B2R w)) with ((1 - c) * B2R w + c * B2R x) by ring.
    assert ((1 - c) * - B + c * - B <= (1 - c) * B2R w + c * B2R x) by (apply Rplus_le_compat; apply Rmult_le_compat_l; lra).
    assert ((1 - c) * B2R w + c * B2R x <= (1 - c) * B + c * B) by (apply Rplus_le_compat; apply Rmult_le_compat_l; lra). lra.
Qed.

(** ** Training *)
Local Open Scope nat_scope.
Section Cells.
  Variable nf : nat * nat -> double.
  Variable lf : double.
  Variable input : list double.
  Lemma dupdate_cells_length s : forall l p, length (dupdate_cells nf lf input s p l) = length l.
  Proof. induction l; intros p; cbn [dupdate_cells length]; auto. Qed.
  Lemma dupdate_cells_nth s : forall l p i,
    nth_error (dupdate_cells nf lf input s p l) i =
    match nth_error l i with
    | Some w => Some (let f := nf (x_of s (p + i), y_of s (p + i)) in if deq f d0 then w else dupdate_cell f lf input w)
    | None => None
    end.
  Proof.
    induction l as [|w r IH]; intros p i; destruct i; cbn [dupdate_cells nth_error]; auto.
    - rewrite Nat.add_0_r. reflexivity.
    - rewrite IH. replace (S p + i) with (p + S i) by lia. reflexivity.
  Qed.
End Cells.
Lemma dupdate_cell_length f lf : forall w input, length (dupdate_cell f lf input w) = length w.
Proof. induction w; intros [|b t]; cbn [dupdate_cell length]; auto. Qed.
Lemma dupdate_cell_nth f lf : forall w input k, length w = length input -> k < length w ->
  dcomp k (dupdate_cell f lf input w) = dupdate_weight f lf (dcomp k input) (dcomp k w).
Proof.
  unfold dcomp. induction w as [|a r IH]; intros [|b t] k L H; cbn [length] in *; try lia.
  destruct k; cbn [dupdate_cell nth]; auto. apply IH; lia.
Qed.
Section Training.
  Context {I : Type}.
  Variable dist : list double -> list double -> double.
  Variable weights : I -> list double.
  Variable nf : nat * nat -> nat * nat -> nat -> nat -> double.
  Variable lf : nat -> nat -> double.
  Notation dtrain_one := (dtrain_one dist weights nf lf).
  Notation dtrain_pass := (dtrain_pass dist weights nf lf).
  Notation dtrain_from := (dtrain_from dist weights nf lf).

  Lemma dtrain_one_step i n s obj nd : well_formed s -> dimension nd s -> length (weights obj) = nd ->
    exists s' bx by_ d, dfind_bmu (fun c => dist c (weights obj)) s = Ok (bx, by_, d) /\
      dtrain_one i n s obj = Ok s' /\ sx s' = sx s /\ sy s' = sy s /\ well_formed s' /\ dimension nd s' /\
      forall x y w, cell_at s x y = Some w ->
        exists w', cell_at s' x y = Some w' /\
          (deq (nf (bx, by_) (x, y) i n) d0 = true -> w' = w) /\
          (deq (nf (bx, by_) (x, y) i n) d0 = false ->
           forall k, k < nd -> dcomp k w' = dupdate_weight (nf (bx, by_) (x, y) i n) (lf i n) (dcomp k (weights obj)) (dcomp k w)).
  Proof.
    intros wf D L. destruct (dfind_bmu_ok (fun c => dist c (weights obj)) s wf) as (p & d & Hp & E & _).
    set (g := fun c => nf (x_of s p, y_of s p) c i n).
    set (cs := dupdate_cells g (lf i n) (weights obj) s 0 (cells s)).
    exists (mkSom (sx s) (sy s) cs), (x_of s p), (y_of s p), d. split; auto.
    unfold DSOMModel.dtrain_one. rewrite E. cbn [bind]. split; [reflexivity|]. split; [reflexivity|]. split; [reflexivity|].
    split.
    { destruct wf as (A & B & C). repeat split; cbn [sx sy cells]; auto. unfold cs. rewrite dupdate_cells_length. auto. }
    split.
    { unfold dimension. cbn [cells]. apply Forall_forall. intros w Hw. apply In_nth_error in Hw. destruct Hw as [j Hj].
      unfold cs in Hj. rewrite dupdate_cells_nth in Hj. destruct (nth_error (cells s) j) eqn:Ej; [|discriminate].
      apply nth_error_In in Ej. unfold dimension in D. rewrite Forall_forall in D. specialize (D _ Ej).
      injection Hj as <-. cbv zeta. destruct (deq _ d0); auto. rewrite dupdate_cell_length. auto. }
    intros x y w Hc. pose proof Hc as Hc0. apply cell_at_some in Hc. destruct Hc as (X & Y & Hc).
    assert (Lw : length w = nd).
    { unfold dimension in D. rewrite Forall_forall in D. apply D. eapply nth_error_In; eauto. }
    unfold cell_at at 1. cbn [sx sy cells]. apply Nat.ltb_lt in X as X', Y as Y'. rewrite X', Y'. cbn [andb].
    unfold cs. rewrite dupdate_cells_nth, Hc. cbn [Nat.add].
    assert (P : x + y * sx s < sx s * sy s) by (apply pos_lt; auto).
    assert (EX : x_of s (x + y * sx s) = x) by (apply pos_x; auto).
    assert (EY : y_of s (x + y * sx s) = y).
    { rewrite y_of_small by auto. apply pos_y; auto. }
    rewrite EX, EY. cbv zeta. eexists. split; [reflexivity|]. change (g (x, y)) with (nf (x_of s p, y_of s p) (x, y) i n).
    destruct (deq (nf (x_of s p, y_of s p) (x, y) i n) d0) eqn:Z.
    - split; [auto|discriminate].
    - split; [discriminate|]. intros _ k Hk. apply dupdate_cell_nth; lia.
  Qed.

  Variable nd : nat.
  Hypothesis weights_dim : forall o, length (weights o) = nd.
  Definition all_in (k : nat) (lo hi : R) (s : som (list double)) : Prop :=
    forall x y w, cell_at s x y = Some w -> finite_in lo hi (dcomp k w).

  Lemma dtrain_pass_range k (lo hi B : R) i n : k < nd -> (Rabs lo <= B)%R -> (Rabs hi <= B)%R -> (B <= bpow radix2 1020)%R ->
    (forall b c, unit_double (nf b c i n)) -> unit_double (lf i n) ->
    forall objs s, well_formed s -> dimension nd s ->
    (forall o, In o objs -> finite_in lo hi (dcomp k (weights o))) ->
    all_in k (lo - 4 * uro * B) (hi + 4 * uro * B) s ->
    exists s', dtrain_pass i n s objs = Ok s' /\ sx s' = sx s /\ sy s' = sy s /\ well_formed s' /\ dimension nd s' /\
      all_in k (lo - 4 * uro * B) (hi + 4 * uro * B) s'.
  Proof.
    intros Hk BL BH BB UN UL. induction objs as [|o r IH]; intros s wf D Ho H.
    - exists s. cbn [DSOMModel.dtrain_pass]. (split; [reflexivity|]; auto).
    - destruct (dtrain_one_step i n s o nd wf D (weights_dim o)) as (s1 & bx & by_ & d & _ & E1 & X & Y & wf1 & D1 & F).
      destruct (IH s1 wf1 D1) as (s2 & E2 & X2 & Y2 & wf2 & D2 & A2).
      { intros o' Ho'. apply Ho. right; auto. }
      { intros x y w' Hc. pose proof (cell_at_some _ _ _ _ Hc) as (Hx & Hy & _).
        rewrite X in Hx. rewrite Y in Hy.
        destruct (cell_exists s x y wf Hx Hy) as [w Hw]. destruct (F x y w Hw) as (w2 & Hw2 & G1 & G2).
        rewrite Hw2 in Hc. injection Hc as <-. destruct (deq (nf (bx, by_) (x, y) i n) d0) eqn:Z.
        - rewrite (G1 eq_refl). eapply H; eauto.
        - rewrite (G2 eq_refl k Hk). apply weight_range; auto; [|eapply H; eauto]. apply Ho. left; auto. }
      exists s2. cbn [DSOMModel.dtrain_pass]. rewrite E1. cbn [bind]. split; auto. split; [congruence|]. split; [congruence|]. auto.
  Qed.
  Lemma dtrain_from_range k (lo hi B : R) sample n : k < nd -> (Rabs lo <= B)%R -> (Rabs hi <= B)%R -> (B <= bpow radix2 1020)%R ->
    (forall b c i, i < n -> unit_double (nf b c i n)) -> (forall i, i < n -> unit_double (lf i n)) ->
    (forall i o, i < n -> In o (sample i) -> finite_in lo hi (dcomp k (weights o))) ->
    forall todo i s, i + todo <= n -> well_formed s -> dimension nd s -> all_in k (lo - 4 * uro * B) (hi + 4 * uro * B) s ->
    exists s', dtrain_from sample todo i n s = Ok s' /\ sx s' = sx s /\ sy s' = sy s /\ well_formed s' /\ dimension nd s' /\
      all_in k (lo - 4 * uro * B) (hi + 4 * uro * B) s'.
  Proof.
    intros Hk BL BH BB UN UL Ho. induction todo as [|m IH]; intros i s Hi wf D H; cbn [DSOMModel.dtrain_from].
    - exists s. (split; [reflexivity|]; auto).
    - destruct (deq (lf i n) d0); cbn [bind].
      + apply IH; auto. lia.
      + destruct (dtrain_pass_range k lo hi B i n Hk BL BH BB) with (objs := sample i) (s := s) as (s1 & E1 & X & Y & wf1 & D1 & A1); auto.
        { intros b c. apply UN. lia. } { apply UL. lia. } { intros o Hoi. apply (Ho i o); [lia|auto]. }
        rewrite E1. cbn [bind]. destruct (IH (S i) s1) as (s2 & E2 & X2 & Y2 & wf2 & D2 & A2); auto; [lia|].
        exists s2. split; auto. split; [congruence|]. split; [congruence|]. auto.
  Qed.
End Training.

(** ** Factors *)
Local Open Scope R_scope.
Lemma size_value z : (0 <= z <= 2 ^ 64)%Z -> is_finite (d2 z 0) = true /\ B2R (d2 z 0) = rnd53 (IZR z).
Proof.
  intros H. pose proof (binary_normalize_correct 53 1024 prec53 emax53 mode_NE z 0 false) as C. cbn [round_mode] in C.
  assert (E : F2R (Float radix2 z 0) = IZR z) by (unfold F2R; cbn; ring). rewrite E in C.
  rewrite Rlt_bool_true in C. { destruct C as (A1 & A2 & _). split; [exact A2|exact A1]. }
  apply Rle_lt_trans with (bpow radix2 64); [|apply bpow_lt; lia]. apply rnd_bound; [lia|]. rewrite <- abs_IZR. change (bpow radix2 64) with (IZR (2 ^ 64)). apply IZR_le. lia.
Qed.
Lemma size_range z : (0 < z <= 2 ^ 64)%Z -> is_finite (d2 z 0) = true /\ 1 <= B2R (d2 z 0) <= bpow radix2 64.
Proof.
  intros H. destruct (size_value z) as [F V]; [lia|]. split; [exact F|]. rewrite V. split.
  - rewrite <- rnd_1 at 1. apply rnd_mono. apply IZR_le. lia.
  - rewrite <- (rnd_format (bpow radix2 64)) by (apply generic_format_bpow; cbn; lia). apply rnd_mono. change (bpow radix2 64) with (IZR (2 ^ 64)). apply IZR_le. lia.
Qed.
Lemma linear_value i n : (i < n)%nat -> (Z.of_nat n < 2 ^ 64)%Z ->
  let q := dlinear_restraint i n in is_finite q = true /\ 0 < B2R q <= 1 /\ (i = 0%nat -> B2R q = 1).
Proof.
  intros H L. unfold dlinear_restraint. rewrite dmul_1_l. unfold size_double.
  destruct (size_range (Z.of_nat (n - i))) as [FA RA]; [lia|]. destruct (size_range (Z.of_nat n)) as [FB RB]; [lia|].
  destruct (size_value (Z.of_nat (n - i))) as [_ VA]; [lia|]. destruct (size_value (Z.of_nat n)) as [_ VB]; [lia|].
  set (a := d2 (Z.of_nat (n - i)) 0) in *. set (b := d2 (Z.of_nat n) 0) in *. cbv zeta.
  assert (AB : B2R a <= B2R b) by (rewrite VA, VB; apply rnd_mono, IZR_le; lia).
  destruct (ddiv_ext a b FA FB) as [N E]; [rewrite (dext_finite b FB); lra|]. rewrite (dext_finite a FA), (dext_finite b FB) in E.
  assert (Q : bpow radix2 (-64) <= B2R a / B2R b <= 1).
  { split.
    - change (bpow radix2 (-64)) with (/ bpow radix2 64). unfold Rdiv. rewrite <- (Rmult_1_l (/ bpow radix2 64)). apply Rmult_le_compat; try lra; [apply Rlt_le, Rinv_0_lt_compat, bpow_gt_0|]. apply Rinv_le; lra.
    - apply Rmult_le_reg_r with (B2R b); [lra|]. unfold Rdiv. rewrite Rmult_assoc, Rinv_l by lra. lra. }
  assert (R : bpow radix2 (-64) <= rnd53 (B2R a / B2R b) <= 1).
  { split; [rewrite <- (rnd_format (bpow radix2 (-64))) by (apply generic_format_bpow; cbn; lia)|rewrite <- rnd_1]; apply rnd_mono; lra. }
  pose proof (bpow_gt_0 radix2 (-64)). assert (F : is_finite (ddiv a b) = true) by (apply (rnd_finite _ _ N E); rewrite Rabs_pos_eq by lra; pose proof MX_big; lra).
  split; [exact F|]. rewrite (finite_rnd _ _ F E). split; [lra|]. intros ->. unfold a, b. rewrite Nat.sub_0_r. fold b. unfold Rdiv. rewrite Rinv_r by lra. apply rnd_1.
Qed.
