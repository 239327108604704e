(** Proofs about self-organizing maps: factors, sampling, u-matrix,
    construction, serialization, layout. *)
From Coq Require Import List Arith ZArith QArith Qabs Bool Lia Lqa String Permutation.
From Verif Require Import Common DblModel DblProofs SOMModel SOMSpec SOMProofs GridModel.
Import ListNotations.
Local Open Scope nat_scope.
Local Notation length := List.length.

(** ** Factors *)
Lemma linear_unit i n : unit_factor (linear_restraint i n).
Proof.
  unfold unit_factor, linear_restraint. destruct n as [|n].
  - replace (0 - i) with 0 by lia. split; vm_compute; discriminate.
  - assert (0 < inject_Z (Z.of_nat (S n)))%Q by (unfold Qlt; simpl; lia).
    split.
    + apply Qle_shift_div_l; auto. rewrite Qmult_0_l. change 0%Q with (inject_Z 0). rewrite <- Zle_Qle. lia.
    + apply Qle_shift_div_r; auto. rewrite Qmult_1_l. rewrite <- Zle_Qle. lia.
Qed.
Lemma disk_unit r b c i n : unit_factor (linear_unit_disk r b c i n).
Proof. unfold linear_unit_disk, unit_factor. destruct (Qlt_b _ _); split; lra. Qed.

Lemma Qsq_nonneg (x : Q) : (0 <= x * x)%Q.
Proof. unfold Qle. simpl. nia. Qed.
Lemma Qsq_zero (x : Q) : (x * x == 0)%Q -> (x == 0)%Q.
Proof. unfold Qeq. simpl. nia. Qed.
Lemma Qneg_div_le (a b : Q) : (0 <= a -> 0 <= b -> -(1) * a / b <= 0)%Q.
Proof.
  intros A B. destruct (Qlt_le_dec 0 b) as [P|N].
  - apply Qle_shift_div_r; auto. lra.
  - assert (b == 0)%Q by lra. rewrite H. unfold Qdiv. change (/ 0)%Q with 0%Q. lra.
Qed.
Lemma kohonen_unit exp cutoff sig b c : exp_like exp -> unit_factor (kohonen_value exp cutoff sig b c).
Proof.
  intros (E & _). unfold kohonen_value, unit_factor. destruct (Qlt_b _ _); [|split; lra].
  match goal with |- (0 <= exp ?a /\ _)%Q => destruct (E a) end.
  - apply Qneg_div_le.
    + match goal with |- (_ <= ?x * ?x + ?y * ?y)%Q => pose proof (Qsq_nonneg x); pose proof (Qsq_nonneg y); lra end.
    + pose proof (Qsq_nonneg sig). lra.
  - split; lra.
Qed.
Lemma exponential_unit exp rate i n : exp_like exp -> unit_factor rate -> unit_factor (exponential_decay exp rate i n).
Proof.
  intros (E & _) R. unfold exponential_decay.
  match goal with |- unit_factor (_ * exp ?a) => destruct (E a) end.
  - apply Qneg_div_le; unfold Qle; simpl; lia.
  - apply unit_mult; auto. split; lra.
Qed.

(** linearUnitDisk *)
Lemma size_sub_ge a b : b <= a -> (Z.of_nat a < 2 ^ 64)%Z -> size_sub a b = inject_Z (Z.of_nat (a - b)).
Proof. intros. unfold size_sub. rewrite Z.mod_small by lia. f_equal. lia. Qed.
Lemma size_sub_wrap a b : a < b -> (Z.of_nat b < 2 ^ 63)%Z -> (inject_Z (2 ^ 63) <= size_sub a b)%Q.
Proof.
  intros. unfold size_sub. rewrite <- Zle_Qle.
  replace ((Z.of_nat a - Z.of_nat b) mod 2 ^ 64)%Z with (Z.of_nat a - Z.of_nat b + 2 ^ 64)%Z; [lia|].
  apply Z.mod_unique with (-1)%Z; lia.
Qed.
Lemma Qmul_mono (a b c d : Q) : (0 <= a -> a <= b -> 0 <= c -> c <= d -> a * c <= b * d)%Q.
Proof.
  intros. apply Qle_trans with (b * c)%Q.
  - apply Qmult_le_compat_r; auto.
  - rewrite (Qmult_comm b c), (Qmult_comm b d). apply Qmult_le_compat_r; auto. lra.
Qed.
Lemma disk_far r f x y : (0 <= r -> unit_factor f -> r <= x -> Qlt_b (x * x + y) (r * r * (f * f)) = true -> 0 <= y -> False)%Q.
Proof.
  intros R [F0 F1] X H Y. apply Qlt_b_iff in H.
  assert (r * r <= x * x)%Q by (apply Qmul_mono; lra).
  assert (f * f <= 1 * 1)%Q by (apply Qmul_mono; lra).
  assert (r * r * (f * f) <= r * r * 1)%Q.
  { apply Qmul_mono; try lra. apply Qsq_nonneg. apply Qsq_nonneg. }
  lra.
Qed.
Lemma dist2_inject p q : fst q <= fst p -> snd q <= snd p ->
  (inject_Z (Z.of_nat (fst p - fst q)) * inject_Z (Z.of_nat (fst p - fst q))
   + inject_Z (Z.of_nat (snd p - snd q)) * inject_Z (Z.of_nat (snd p - snd q)) == inject_Z (dist2 p q))%Q.
Proof.
  intros A B. unfold dist2. rewrite inject_Z_plus, !inject_Z_mult.
  rewrite !Nat2Z.inj_sub by auto. reflexivity.
Qed.
Lemma disk_spec r bmu cell i n :
  (0 <= r -> r <= inject_Z (2 ^ 63))%Q ->
  (0 <= r)%Q ->
  (Z.of_nat (fst bmu) < 2 ^ 63 /\ Z.of_nat (snd bmu) < 2 ^ 63 /\ Z.of_nat (fst cell) < 2 ^ 63 /\ Z.of_nat (snd cell) < 2 ^ 63)%Z ->
  let rad := (r * linear_restraint i n)%Q in
  ((linear_unit_disk r bmu cell i n = 1%Q <->
     fst cell <= fst bmu /\ snd cell <= snd bmu /\ (inject_Z (dist2 bmu cell) < rad * rad)%Q) /\
   (linear_unit_disk r bmu cell i n = 1%Q \/ linear_unit_disk r bmu cell i n = 0%Q)).
Proof.
  intros R1 R0 (B1 & B2 & C1 & C2). specialize (R1 R0). cbv zeta.
  assert (F := linear_unit i n). set (f := linear_restraint i n) in *.
  unfold linear_unit_disk. fold f.
  split; [|destruct (Qlt_b _ _); auto].
  assert (RR : (r * f * (r * f) == r * r * (f * f))%Q) by ring.
  destruct (Nat.le_gt_cases (fst cell) (fst bmu)) as [X|X];
    [destruct (Nat.le_gt_cases (snd cell) (snd bmu)) as [Y|Y]|].
  - rewrite !size_sub_ge by (auto; lia).
    destruct (Qlt_b _ _) eqn:L.
    + apply Qlt_b_iff in L. split; auto. intros _. split; auto. split; auto.
      rewrite dist2_inject in L by auto. rewrite RR. auto.
    + apply Qlt_b_false in L. split; [discriminate|]. intros (_ & _ & H).
      rewrite dist2_inject in L by auto. rewrite RR in H. lra.
  - split; [|lia]. intro H. exfalso. destruct (Qlt_b _ _) eqn:L; [|discriminate].
    apply (disk_far r f (size_sub (snd bmu) (snd cell)) (size_sub (fst bmu) (fst cell) * size_sub (fst bmu) (fst cell))); auto.
    + pose proof (size_sub_wrap _ _ Y C2). lra.
    + apply Qlt_b_iff. apply Qlt_b_iff in L. lra.
    + apply Qsq_nonneg.
  - split; [|lia]. intro H. exfalso. destruct (Qlt_b _ _) eqn:L; [|discriminate].
    apply (disk_far r f (size_sub (fst bmu) (fst cell)) (size_sub (snd bmu) (snd cell) * size_sub (snd bmu) (snd cell))); auto.
    + pose proof (size_sub_wrap _ _ X C1). lra.
    + apply Qsq_nonneg.
Qed.

(** kohonen *)
Definition buffer_ok (exp log : Q -> Q) (xs ys : nat) (b : buffer) : Prop :=
  let '(i, n, s) := b in n = 0 \/ s = sigma exp log xs ys i n.
Lemma kohonen_call_ok exp log xs ys cutoff b bmu cell i n : buffer_ok exp log xs ys b -> 0 < n ->
  exists b', kohonen_call exp log xs ys cutoff b bmu cell i n = (kohonen_value exp cutoff (sigma exp log xs ys i n) bmu cell, b')
    /\ buffer_ok exp log xs ys b'.
Proof.
  intros B N. unfold kohonen_call. destruct b as [[bi bn] bs].
  destruct (Nat.eqb_spec bi i) as [->|]; destruct (Nat.eqb_spec bn n) as [->|]; cbn [negb orb snd];
    try (eexists; split; [reflexivity|]; simpl; auto; fail).
  destruct B as [B|B]; [lia|]. subst bs. eexists; split; [reflexivity|]. simpl; auto.
Qed.
Lemma kohonen_run_ok exp log xs ys cutoff : forall calls b, buffer_ok exp log xs ys b ->
  (forall bmu cell i n, In (bmu, cell, i, n) calls -> 0 < n) ->
  fst (kohonen_run exp log xs ys cutoff b calls)
  = map (fun c => let '(bmu, cell, i, n) := c in kohonen_value exp cutoff (sigma exp log xs ys i n) bmu cell) calls.
Proof.
  induction calls as [|[[[bmu cell] i] n] r IH]; intros b B N; auto.
  cbn [kohonen_run map].
  destruct (kohonen_call_ok exp log xs ys cutoff b bmu cell i n B) as (b' & E & B').
  { apply (N bmu cell i n). left; auto. }
  rewrite E. specialize (IH b' B').
  destruct (kohonen_run exp log xs ys cutoff b' r) as [vs b2] eqn:F. simpl in *. f_equal. apply IH.
  intros. eapply N. right; eauto.
Qed.
Lemma dist2_sym p q : dist2 p q = dist2 q p.
Proof. unfold dist2. ring. Qed.
Lemma dist2_diff p q :
  ((inject_Z (Z.of_nat (fst p)) - inject_Z (Z.of_nat (fst q))) * (inject_Z (Z.of_nat (fst p)) - inject_Z (Z.of_nat (fst q)))
   + (inject_Z (Z.of_nat (snd p)) - inject_Z (Z.of_nat (snd q))) * (inject_Z (Z.of_nat (snd p)) - inject_Z (Z.of_nat (snd q)))
   == inject_Z (dist2 p q))%Q.
Proof.
  unfold dist2. rewrite inject_Z_plus, !inject_Z_mult. unfold Z.sub.
  rewrite !inject_Z_plus, !inject_Z_opp. ring.
Qed.
Lemma kohonen_zero_iff exp cutoff sig b c : exp_like exp ->
  (kohonen_value exp cutoff sig b c == 0 <-> cutoff * cutoff * (sig * sig) <= inject_Z (dist2 b c))%Q.
Proof.
  intros (E & _). unfold kohonen_value. rewrite <- dist2_diff.
  destruct (Qlt_b _ _) eqn:L.
  - apply Qlt_b_iff in L. split; intro H; [|lra].
    match type of H with (exp ?a == 0)%Q => destruct (E a) end; [|lra].
    apply Qneg_div_le.
    + match goal with |- (_ <= ?x * ?x + ?y * ?y)%Q => pose proof (Qsq_nonneg x); pose proof (Qsq_nonneg y); lra end.
    + pose proof (Qsq_nonneg sig). lra.
  - apply Qlt_b_false in L. split; intro H; auto. reflexivity.
Qed.
Lemma kohonen_decreasing exp cutoff sig b c c' : exp_like exp -> (dist2 b c <= dist2 b c')%Z ->
  (kohonen_value exp cutoff sig b c' <= kohonen_value exp cutoff sig b c)%Q.
Proof.
  intros EL D. assert (EL' := EL). destruct EL' as (E & P & M).
  pose proof (kohonen_unit exp cutoff sig b c EL) as [U _].
  assert (D' : (inject_Z (dist2 b c) <= inject_Z (dist2 b c'))%Q) by (rewrite <- Zle_Qle; auto).
  rewrite <- !dist2_diff in D'.
  unfold kohonen_value in *. destruct (Qlt_b _ (cutoff * cutoff * (sig * sig))%Q) eqn:L.
  - destruct (Qlt_b (_ + _)%Q (cutoff * cutoff * (sig * sig))%Q) eqn:L' in |- *.
    + apply M. unfold Qdiv. apply Qmult_le_compat_r; [lra|]. apply Qinv_le_0_compat. pose proof (Qsq_nonneg sig). lra.
    + exact U.
  - destruct (Qlt_b (_ + _)%Q (cutoff * cutoff * (sig * sig))%Q) eqn:L' in |- *; [|apply Qle_refl].
    exfalso. apply Qlt_b_iff in L'. apply Qlt_b_false in L. lra.
Qed.

(** ** Sampling *)
Lemma remove_at_perm {A} : forall (l : list A) i x, nth_error l i = Some x -> Permutation l (x :: remove_at i l).
Proof.
  induction l as [|y r IH]; intros [|i] x H; simpl in H; try discriminate.
  - inversion H; subst. apply Permutation_refl.
  - specialize (IH i x H). unfold remove_at in *. simpl.
    eapply Permutation_trans; [apply perm_skip; eauto|]. apply perm_swap.
Qed.
Lemma jack_pick_ok draw : fair draw -> forall size k all, NoDup all ->
  exists l, jack_pick draw size k all = Ok l /\ NoDup l /\ length l = Nat.min size (length all) /\ incl l all.
Proof.
  intro F. induction size as [|size IH]; intros k all ND; cbn [jack_pick].
  - exists []. split; auto. split; [constructor|]. split; [auto|]. intros x [].
  - destruct all as [|a r].
    + exists []. split; auto. split; [constructor|]. split; [auto|]. intros x [].
    + set (all := a :: r) in *. set (d := draw k (length all - 1)).
      assert (d < length all). { pose proof (F k (length all - 1)). unfold d. simpl in *. lia. }
      destruct (nth_error all d) as [it|] eqn:E; [|apply nth_error_None in E; lia].
      cbn [of_option bind]. pose proof (remove_at_perm all d it E) as P.
      assert (ND' : NoDup (it :: remove_at d all)) by (eapply Permutation_NoDup; eauto).
      inversion ND' as [|? ? NI ND2]; subst.
      destruct (IH (S k) (remove_at d all) ND2) as (l & El & Nl & Ll & Il).
      rewrite El. cbn [bind]. exists (it :: l). split; auto. split; [constructor; auto|]. split.
      * apply Permutation_length in P. simpl length in P. simpl length. rewrite Ll. lia.
      * intros x [->|Hx]; apply (Permutation_in _ (Permutation_sym P)); [left; auto|right; auto].
Qed.
(** Every selection can be drawn. *)
Lemma jack_pick_complete : forall l k all, NoDup l -> incl l all ->
  exists draws : list nat, length draws = length l /\ (forall j d, nth_error draws j = Some d -> d + j < length all) /\
    forall draw, (forall j d, nth_error draws j = Some d -> draw (k + j) (length all - S j) = d) ->
      jack_pick draw (length l) k all = Ok l.
Proof.
  induction l as [|x r IH]; intros k all ND I.
  - exists []. split; auto. split; [intros [|j]; discriminate|]. intros. reflexivity.
  - inversion ND as [|? ? NI ND2]; subst.
    destruct (In_nth_error all x) as [d Hd]. { apply I. left; auto. }
    pose proof (remove_at_perm all d x Hd) as P.
    assert (L : length all = S (length (remove_at d all))). { apply Permutation_length in P. simpl in P. auto. }
    destruct (IH (S k) (remove_at d all) ND2) as (ds & Lds & Bds & Rds).
    { intros z Hz. assert (In z (x :: remove_at d all)) as [->|]; auto; [|contradiction].
      eapply Permutation_in; eauto. apply I. right; auto. }
    exists (d :: ds). split; [simpl; auto|]. split.
    + intros [|j] d' H; simpl in H.
      * inversion H; subst. rewrite Nat.add_0_r. apply nth_error_Some. congruence.
      * apply Bds in H. lia.
    + intros draw Hdraw. cbn [jack_pick length]. destruct all as [|a t]; [simpl in L; lia|].
      assert (E0 : draw k (length (a :: t) - 1) = d).
      { specialize (Hdraw 0 d eq_refl). rewrite Nat.add_0_r in Hdraw. auto. }
      rewrite E0, Hd. cbn [of_option bind]. rewrite Rds; auto.
      intros j d' H. specialize (Hdraw (S j) d' H).
      replace (k + S j) with (S k + j) in Hdraw by lia.
      replace (length (remove_at d (a :: t)) - S j) with (length (a :: t) - S (S j)) by lia. auto.
Qed.
Lemma pass_loop_jack n : forall m l c fuel, length l = c + m -> 0 < m -> Forall (fun x => x < n) l -> m <= fuel ->
  forall it, nth_error l c = Some it -> pass_loop (jack_next n) n fuel (l, c) it = Ok (skipn c l).
Proof.
  induction m as [|m IH]; intros l c fuel L Hm Fl Hf it Hit; [lia|].
  assert (it < n). { rewrite Forall_forall in Fl. apply Fl. eapply nth_error_In; eauto. }
  destruct fuel as [|fuel]; [lia|]. cbn [pass_loop].
  destruct (Nat.eqb_spec it n); [lia|]. unfold jack_next at 1. cbn [fst snd].
  assert (S1 : skipn c l = it :: skipn (S c) l).
  { clear - Hit. revert c Hit. induction l as [|a r IH]; intros [|c] H; simpl in *; try discriminate.
    - inversion H; subst; auto.
    - auto. }
  destruct (Nat.leb_spec (length l) (S c)).
  - cbn [bind fst snd]. destruct m as [|m]; [|lia]. destruct fuel; cbn [pass_loop]; rewrite Nat.eqb_refl; cbn [bind];
      rewrite S1, (skipn_all2 l) by lia; reflexivity.
  - destruct (nth_error l (S c)) as [x|] eqn:E; [|apply nth_error_None in E; lia]. cbn [of_option bind fst snd].
    rewrite (IH l (S c) fuel); auto; try lia. cbn [bind]. rewrite S1. reflexivity.
Qed.
Lemma jack_pass draw size n : fair draw -> 0 < size -> 0 < n ->
  exists l, pass (jack_start draw size) jack_next n n = Ok l /\ NoDup l /\ length l = Nat.min size n /\ Forall (fun x => x < n) l.
Proof.
  intros F S N. unfold pass, jack_start.
  destruct (jack_pick_ok draw F size 0 (seq 0 n) (seq_NoDup n 0)) as (l & E & ND & L & I).
  rewrite seq_length in L. rewrite E. cbn [bind].
  assert (Fl : Forall (fun x => x < n) l).
  { apply Forall_forall. intros x Hx. apply I in Hx. apply in_seq in Hx. lia. }
  destruct l as [|it r] eqn:EL; [simpl in L; lia|]. rewrite <- EL in *. cbn [bind fst snd].
  exists l. split; [|auto].
  rewrite (pass_loop_jack n (length l) l 0 n); auto; try lia. rewrite EL. reflexivity.
Qed.
Lemma full_pass n : pass (fun m => full_start m) full_next n n = Ok (seq 0 n).
Proof.
  unfold pass. cbn [full_start bind fst snd].
  assert (G : forall k it, it + k = n -> forall fuel, k <= fuel -> pass_loop (full_next n) n fuel tt it = Ok (seq it k)).
  { induction k as [|k IH]; intros it E fuel Hf.
    - destruct fuel; cbn [pass_loop]; replace it with n by lia; rewrite Nat.eqb_refl; reflexivity.
    - destruct fuel as [|fuel]; [lia|]. cbn [pass_loop].
      destruct (Nat.eqb_spec it n); [lia|]. cbn [full_next bind fst snd].
      rewrite (IH (S it)); auto; try lia. }
  apply (G n 0); auto.
Qed.
Lemma boot_pass draw n : fair draw -> 0 < n ->
  exists it, it < n /\ pass (boot_start draw) boot_next n 1 = Ok [it].
Proof.
  intros F N. destruct n as [|m]; [lia|]. exists (draw 0 m). pose proof (F 0 m).
  split; [lia|]. unfold pass, boot_start. cbn [bind fst snd pass_loop].
  destruct (Nat.eqb_spec (draw 0 m) (S m)); [lia|]. cbn [boot_next bind fst snd].
  rewrite Nat.eqb_refl. reflexivity.
Qed.

(** ** U-matrix *)
Lemma neighbours_spec {W} (s : som W) x y : x < sx s -> y < sy s -> forall i j,
  In (i, j) (neighbours (sx s) (sy s) x y) <-> exists x' y', i = Z.of_nat x' /\ j = Z.of_nat y' /\ adjacent s x y x' y'.
Proof.
  intros X Y i j. unfold neighbours. rewrite in_flat_map. split.
  - intros (a & Ha & H). apply in_flat_map in H. destruct H as (b & Hb & H).
    destruct ((a =? Z.of_nat x) && (b =? Z.of_nat y))%Z eqn:E; [destruct H|].
    destruct ((a <? 0) || (a =? Z.of_nat (sx s)) || (b <? 0) || (b =? Z.of_nat (sy s)))%Z eqn:E2; [destruct H|].
    destruct H as [H|[]]. inversion H; subst i j. clear H.
    rewrite !orb_false_iff in E2. destruct E2 as [[[E3 E4] E5] E6].
    apply Z.ltb_ge in E3, E5. apply Z.eqb_neq in E4, E6.
    apply andb_false_iff in E. rewrite !Z.eqb_neq in E.
    exists (Z.to_nat a), (Z.to_nat b). rewrite !Z2Nat.id by lia. split; auto. split; auto.
    unfold adjacent. simpl in Ha, Hb. 
    assert (Z.of_nat x - 1 <= a <= Z.of_nat x + 1)%Z by (decompose [or] Ha; lia || contradiction).
    assert (Z.of_nat y - 1 <= b <= Z.of_nat y + 1)%Z by (decompose [or] Hb; lia || contradiction).
    repeat (split; [lia|]). intro Q. inversion Q. lia.
  - intros (x' & y' & -> & -> & A). unfold adjacent in A. destruct A as (A1 & A2 & A3 & A4 & A5 & A6 & A7).
    exists (Z.of_nat x'). split; [simpl; lia|]. apply in_flat_map. exists (Z.of_nat y'). split; [simpl; lia|].
    destruct (Z.eqb_spec (Z.of_nat x') (Z.of_nat x)), (Z.eqb_spec (Z.of_nat y') (Z.of_nat y)); simpl andb; cbv iota;
      try (exfalso; apply A7; f_equal; lia);
      (assert ((Z.of_nat x' <? 0) || (Z.of_nat x' =? Z.of_nat (sx s)) || (Z.of_nat y' <? 0) || (Z.of_nat y' =? Z.of_nat (sy s)) = false)%Z as ->;
       [rewrite !orb_false_iff, !Z.ltb_ge, !Z.eqb_neq; lia | left; reflexivity]).
Qed.
Lemma NoDup_app' {A} (l m : list A) : NoDup l -> NoDup m -> (forall x, In x l -> ~ In x m) -> NoDup (l ++ m).
Proof.
  induction l as [|a r IH]; simpl; intros N M D; auto. inversion N; subst. constructor.
  - rewrite in_app_iff. intros [H|H]; [contradiction|]. apply (D a); auto.
  - apply IH; auto.
Qed.
Lemma NoDup_flat_map {A B} (f : A -> list B) : forall l, NoDup l -> (forall a, In a l -> NoDup (f a)) ->
  (forall a b z, In a l -> In b l -> In z (f a) -> In z (f b) -> a = b) -> NoDup (flat_map f l).
Proof.
  induction l as [|a r IH]; simpl; intros N F D; [constructor|]. inversion N; subst.
  apply NoDup_app'; auto.
  - apply IH; auto. intros; eapply D; eauto.
  - intros z Hz Hr. apply in_flat_map in Hr. destruct Hr as (b & Hb & Hzb).
    assert (a = b) by (eapply D; eauto). subst. contradiction.
Qed.
Lemma NoDup3 (a : Z) : NoDup [a - 1; a; a + 1]%Z.
Proof. repeat constructor; simpl; intro; decompose [or] H; try lia; contradiction. Qed.
Lemma neighbours_nodup a b x y : NoDup (neighbours a b x y).
Proof.
  unfold neighbours. apply NoDup_flat_map; [apply NoDup3| |].
  - intros i _. apply NoDup_flat_map; [apply NoDup3| |].
    + intros j _. destruct (_ && _); [constructor|]. destruct (_ || _); repeat constructor; auto.
    + intros j k z _ _. destruct (_ && _); [intros []|]. destruct (_ || _)%bool; [intros []|].
      intros [<-|[]]. destruct (_ && _); [intros []|]. destruct (_ || _)%bool; [intros []|].
      intros [H|[]]. congruence.
  - intros i k z _ _ H1 H2. apply in_flat_map in H1, H2. destruct H1 as (j1 & _ & H1), H2 as (j2 & _ & H2).
    destruct (_ && _) in H1; [destruct H1|]. destruct (_ || _)%bool in H1; [destruct H1|].
    destruct (_ && _) in H2; [destruct H2|]. destruct (_ || _)%bool in H2; [destruct H2|].
    destruct H1 as [<-|[]]. destruct H2 as [H2|[]]. congruence.
Qed.
Lemma map_outcome_ok {A B} (f : A -> outcome B) (g : A -> B) : forall l, (forall x, In x l -> f x = Ok (g x)) -> map_outcome f l = Ok (map g l).
Proof.
  induction l as [|x r IH]; simpl; intros H; auto.
  rewrite H by auto. simpl. rewrite IH by auto. reflexivity.
Qed.
Lemma min_from_spec : forall l m, (exists d, In d (m :: l) /\ d == min_from m l)%Q /\ forall d, In d (m :: l) -> (min_from m l <= d)%Q.
Proof.
  induction l as [|x r IH]; intros m; simpl.
  - split; [exists m; split; [auto|reflexivity]|]. intros d [->|[]]; lra.
  - destruct (Qlt_b x m) eqn:E.
    + destruct (IH x) as [(d & Hd & Ed) M]. apply Qlt_b_iff in E. split.
      * exists d. simpl in *. split; [tauto|auto].
      * intros d' [<-|Hd']; [|auto]. assert (min_from x r <= x)%Q by (apply M; left; auto). lra.
    + destruct (IH m) as [(d & Hd & Ed) M]. apply Qlt_b_false in E. split.
      * exists d. simpl in *. split; [tauto|auto].
      * intros d' [<-|[<-|Hd']]; [apply M; left; auto| |apply M; right; auto].
        assert (min_from m r <= m)%Q by (apply M; left; auto). lra.
Qed.
Lemma max_from_spec : forall l m, (exists d, In d (m :: l) /\ d == max_from m l)%Q /\ forall d, In d (m :: l) -> (d <= max_from m l)%Q.
Proof.
  induction l as [|x r IH]; intros m; simpl.
  - split; [exists m; split; [auto|reflexivity]|]. intros d [->|[]]; lra.
  - destruct (Qlt_b m x) eqn:E.
    + destruct (IH x) as [(d & Hd & Ed) M]. apply Qlt_b_iff in E. split.
      * exists d. simpl in *. split; [tauto|auto].
      * intros d' [<-|Hd']; [|auto]. assert (x <= max_from x r)%Q by (apply M; left; auto). lra.
    + destruct (IH m) as [(d & Hd & Ed) M]. apply Qlt_b_false in E. split.
      * exists d. simpl in *. split; [tauto|auto].
      * intros d' [<-|[<-|Hd']]; [apply M; left; auto| |apply M; right; auto].
        assert (m <= max_from m r)%Q by (apply M; left; auto). lra.
Qed.
Lemma sum_list_spec l : (sum_list l == fold_right Qplus 0 l)%Q.
Proof.
  unfold sum_list.
  assert (G : forall l a, (fold_left Qplus l a == a + fold_right Qplus 0 l)%Q).
  { induction l0 as [|x r IH]; intros a; simpl; [lra|]. rewrite IH. lra. }
  rewrite G. lra.
Qed.
Lemma combine_ok t l : l <> [] -> exists v, combine_distances t l = Ok (Fin v) /\ aggregates t v l.
Proof.
  destruct l as [|x r]; [congruence|]. intros _. destruct t; cbn [combine_distances].
  - eexists. split; [reflexivity|]. apply min_from_spec.
  - eexists. split; [reflexivity|]. apply max_from_spec.
  - eexists. split; [reflexivity|]. unfold aggregates.
    rewrite sum_list_spec. field. unfold Qeq. simpl. lia.
Qed.
Lemma adjacent_exists {W} (s : som W) x y : x < sx s -> y < sy s -> ~ (sx s = 1 /\ sy s = 1) -> exists x' y', adjacent s x y x' y'.
Proof.
  intros X Y N. unfold adjacent.
  destruct (Nat.eq_dec (sx s) 1) as [E|E].
  - destruct (Nat.eq_dec (S y) (sy s)) as [E2|E2].
    + exists x, (y - 1). repeat (split; [lia|]). intro Q; inversion Q; lia.
    + exists x, (S y). repeat (split; [lia|]). intro Q; inversion Q; lia.
  - destruct (Nat.eq_dec (S x) (sx s)) as [E2|E2].
    + exists (x - 1), y. repeat (split; [lia|]). intro Q; inversion Q; lia.
    + exists (S x), y. repeat (split; [lia|]). intro Q; inversion Q; lia.
Qed.

Definition to_nat2 (p : Z * Z) : nat * nat := (Z.to_nat (fst p), Z.to_nat (snd p)).
Definition som_def {W} (s : som W) (d : W) (p : nat * nat) : W := match cell_at s (fst p) (snd p) with Some w => w | None => d end.
Lemma umatrix_cell_ok {W} (dist : W -> W -> Q) t (s : som W) x y c : well_formed s -> ~ (sx s = 1 /\ sy s = 1) ->
  cell_at s x y = Some c ->
  exists v l, umatrix_cell dist t s x y = Ok (Fin v) /\ NoDup l /\ (forall x' y', In (x', y') l <-> adjacent s x y x' y') /\
    l <> [] /\ aggregates t v (map (fun p => dist c (som_def s c p)) l).
Proof.
  intros wf N1 Hc. pose proof (cell_at_some _ _ _ _ Hc) as (X & Y & Hn).
  set (l := map to_nat2 (neighbours (sx s) (sy s) x y)).
  assert (IN : forall p, In p (neighbours (sx s) (sy s) x y) -> exists x' y', p = (Z.of_nat x', Z.of_nat y') /\ adjacent s x y x' y').
  { intros [i j] Hp. apply neighbours_spec in Hp; auto. destruct Hp as (x' & y' & -> & -> & A). eauto. }
  assert (Hl : forall x' y', In (x', y') l <-> adjacent s x y x' y').
  { intros x' y'. unfold l. rewrite in_map_iff. split.
    - intros (p & E & Hp). destruct (IN p Hp) as (a & b & -> & A). unfold to_nat2 in E. simpl in E.
      rewrite !Nat2Z.id in E. inversion E; subst. auto.
    - intro A. exists (Z.of_nat x', Z.of_nat y'). split; [unfold to_nat2; simpl; rewrite !Nat2Z.id; auto|].
      apply neighbours_spec; eauto. }
  assert (Hne : l <> []).
  { destruct (adjacent_exists s x y X Y N1) as (x' & y' & A). apply Hl in A. intro E. rewrite E in A. destruct A. }
  assert (ND : NoDup l).
  { unfold l. generalize (neighbours_nodup (sx s) (sy s) x y). revert IN. generalize (neighbours (sx s) (sy s) x y).
    induction l0 as [|p r IH]; intros IN ND; simpl; [constructor|]. inversion ND; subst. constructor.
    - rewrite in_map_iff. intros (q & E & Hq). destruct (IN p) as (a & b & -> & _); [left; auto|].
      destruct (IN q) as (a' & b' & -> & _); [right; auto|]. unfold to_nat2 in E. simpl in E. rewrite !Nat2Z.id in E.
      inversion E; subst. contradiction.
    - apply IH; auto. intros; apply IN; right; auto. }
  destruct (combine_ok t (map (fun p => dist c (som_def s c p)) l)) as (v & Ev & Av).
  { destruct l; [congruence|discriminate]. }
  exists v, l. split; [|auto].
  unfold umatrix_cell. unfold som_get at 1. rewrite Hn. cbn [of_option bind].
  rewrite (map_outcome_ok _ (fun p => dist c (som_def s c (to_nat2 p)))).
  - cbn [bind]. rewrite <- Ev. f_equal. unfold l. rewrite map_map. reflexivity.
  - intros p Hp. destruct (IN p Hp) as (a & b & -> & A). unfold to_nat2, som_get. cbn [fst snd]. rewrite !Nat2Z.id.
    unfold adjacent in A. destruct (cell_exists s a b wf) as [w Hw]; try tauto.
    pose proof (cell_at_some _ _ _ _ Hw) as (_ & _ & Hw'). rewrite Hw'. cbn [of_option bind].
    unfold som_def. cbn [fst snd]. rewrite Hw. reflexivity.
Qed.
Lemma map_outcome_forall {A B} (f : A -> outcome B) : forall l, (forall x, In x l -> exists y, f x = Ok y) ->
  exists ys, map_outcome f l = Ok ys /\ length ys = length l /\
    forall i x, nth_error l i = Some x -> exists y, nth_error ys i = Some y /\ f x = Ok y.
Proof.
  induction l as [|x r IH]; simpl; intros H.
  - exists []. split; auto. split; auto. intros [|i]; discriminate.
  - destruct (H x) as [y Ey]; auto. destruct IH as (ys & E & L & N); auto. rewrite Ey. simpl. rewrite E. simpl.
    exists (y :: ys). split; auto. split; [simpl; auto|]. intros [|i] z Hz; simpl in *.
    + inversion Hz; subst. eauto.
    + eauto.
Qed.
Lemma umatrix_ok {W} (dist : W -> W -> Q) t (s : som W) : well_formed s -> ~ (sx s = 1 /\ sy s = 1) ->
  exists u, umatrix dist t s = Ok u /\ sx u = sx s /\ sy u = sy s /\
    forall x y c, cell_at s x y = Some c ->
      exists v l, cell_at u x y = Some (Fin v) /\ NoDup l /\ (forall x' y', In (x', y') l <-> adjacent s x y x' y') /\
        l <> [] /\ aggregates t v (map (fun p => dist c (som_def s c p)) l).
Proof.
  intros wf N1. pose proof wf as (A & B & L).
  destruct (map_outcome_forall (fun p => umatrix_cell dist t s (p mod sx s) (p / sx s)) (seq 0 (sx s * sy s))) as (ys & E & Ly & Ny).
  { intros p Hp. apply in_seq in Hp.
    destruct (cell_exists s (p mod sx s) (p / sx s) wf) as [c Hc].
    - apply Nat.mod_upper_bound; lia.
    - apply pos_div_lt; lia.
    - destruct (umatrix_cell_ok dist t s _ _ c wf N1 Hc) as (v & l & Ev & _). eauto. }
  exists (mkSom (sx s) (sy s) ys). unfold umatrix. rewrite E. cbn [bind]. split; auto. split; auto. split; auto.
  intros x y c Hc. pose proof (cell_at_some _ _ _ _ Hc) as (X & Y & Hn).
  destruct (umatrix_cell_ok dist t s x y c wf N1 Hc) as (v & l & Ev & R).
  exists v, l. split; [|auto]. rewrite cell_at_intro by auto. simpl.
  destruct (Ny (x + y * sx s) (x + y * sx s)) as (z & Hz & Ez).
  { assert (P := pos_lt _ _ _ _ X Y). rewrite (nth_error_nth' _ 0) by (rewrite seq_length; auto).
    rewrite seq_nth; auto. }
  rewrite pos_x, pos_y in Ez by auto. rewrite Hz. congruence.
Qed.

(** ** Construction and serialization *)
Lemma take_stream_spec {A} (init : nat -> A) : forall n k, length (take_stream init k n) = n /\
  forall i, i < n -> nth_error (take_stream init k n) i = Some (init (k + i)).
Proof.
  induction n as [|n IH]; intros k; simpl; [split; auto; intros; lia|].
  destruct (IH (S k)) as [L N]. split; [auto|]. intros [|i] H; simpl.
  - rewrite Nat.add_0_r; auto.
  - rewrite N by lia. f_equal. f_equal. lia.
Qed.
Lemma fill_spec {A} (init : nat -> A) nd : forall c k, length (fill init nd k c) = c /\
  forall i, i < c -> nth_error (fill init nd k c) i = Some (take_stream init (k + i * nd) nd).
Proof.
  induction c as [|c IH]; intros k; simpl; [split; auto; intros; lia|].
  destruct (IH (k + nd)) as [L N]. split; [auto|]. intros [|i] H; simpl.
  - rewrite Nat.add_0_r; auto.
  - rewrite N by lia. f_equal. f_equal. lia.
Qed.
Lemma som_new_spec {A} nd x y (init : nat -> A) : forall a b, a < x -> b < y ->
  exists w, cell_at (som_new nd x y init) a b = Some w /\ length w = nd /\
    forall k, k < nd -> nth_error w k = Some (init ((a + b * x) * nd + k)).
Proof.
  intros a b Ha Hb. unfold som_new. rewrite cell_at_intro by auto. simpl.
  destruct (fill_spec init nd (x * y) 0) as [_ N]. rewrite N by (apply pos_lt; auto).
  eexists. split; [reflexivity|]. apply take_stream_spec.
Qed.

Lemma load_cells_ok rest : forall l, load_cells (length l) (map TCell l ++ rest) = Ok (l, rest).
Proof. induction l as [|w r IH]; simpl; auto. rewrite IH. reflexivity. Qed.
Lemma load_save dname (s : som (list Q)) rest : List.length (cells s) = sx s * sy s ->
  load dname (save dname s ++ rest) = Ok (s, rest).
Proof.
  intros L. unfold save, load. simpl. rewrite String.eqb_refl. rewrite <- L, load_cells_ok. simpl. destruct s; reflexivity.
Qed.
Lemma load_cells_short n : forall l, length l < n -> load_cells n (map TCell l) = Throw.
Proof.
  induction n as [|n IH]; intros l H; [lia|]. destruct l as [|w r]; [reflexivity|].
  cbn [map load_cells]. rewrite IH by (cbn [length] in H; lia). reflexivity.
Qed.
Lemma load_truncated dname (s : som (list Q)) kept lost : List.length (cells s) = sx s * sy s ->
  save dname s = kept ++ lost -> lost <> [] -> load dname kept = Throw.
Proof.
  intros L E N. unfold save in E. destruct kept as [|a [|b [|c kept]]]; try reflexivity.
  - cbn [app] in E. injection E as <- _. reflexivity.
  - cbn [app] in E. injection E as <- <- _. reflexivity.
  - cbn [app] in E. injection E as <- <- <- E. cbn [load]. rewrite String.eqb_refl.
    symmetry in E. destruct (map_eq_app _ _ _ _ (eq_sym E)) as [l1 [l2 [E1 [<- <-]]]].
    rewrite load_cells_short; [reflexivity|]. rewrite <- L, E1, app_length. destruct l2; [exfalso; apply N; reflexivity | cbn [length]; lia].
Qed.
Lemma load_other dname dname' (s : som (list Q)) rest : dname <> dname' -> load dname' (save dname s ++ rest) = Throw.
Proof. intros N. unfold save, load. simpl. apply String.eqb_neq in N. rewrite N. reflexivity. Qed.

Lemma nth_error_flat_map {A B} (f : A -> list B) m : forall l, (forall a, In a l -> length (f a) = m) -> forall i j a, nth_error l i = Some a -> j < m ->
  nth_error (flat_map f l) (i * m + j) = nth_error (f a) j.
Proof.
  induction l as [|x r IH]; intros H i j a Ha Hj; [destruct i; discriminate|].
  simpl. destruct i as [|i]; simpl in Ha.
  - inversion Ha; subst. simpl. apply nth_error_app1. rewrite H; auto. left; auto.
  - assert (Lx : length (f x) = m) by (apply H; left; auto).
    rewrite nth_error_app2 by (rewrite Lx; simpl; lia).
    rewrite Lx. replace (S i * m + j - m) with (i * m + j) by (simpl; lia). apply IH; auto. intros; apply H; right; auto.
Qed.
Lemma map_nth_seq (w : list Q) : forall nd, length w = nd -> map (fun k => nth k w 0%Q) (seq 0 nd) = w.
Proof.
  intros nd <-. apply nth_ext with (d := 0%Q) (d' := 0%Q); [rewrite map_length, seq_length; auto|].
  intros n Hn. rewrite map_length, seq_length in Hn.
  rewrite (nth_indep _ _ (nth 0 w 0%Q)) by (rewrite map_length, seq_length; auto).
  rewrite (map_nth (fun k => nth k w 0%Q)). rewrite seq_nth; auto.
Qed.
Lemma fits_round_trip dname nd (s : som (list Q)) : List.length (cells s) = sx s * sy s -> dimension nd s ->
  fits_import dname nd (fits_export dname nd s) = Ok s.
Proof.
  intros L D. unfold fits_import, fits_export. cbn [f_dist f_axes f_data]. rewrite String.eqb_refl, Nat.eqb_refl. cbn [negb].
  rewrite (map_outcome_ok _ (fun c => map (fun k => nth k (nth c (cells s) []) 0%Q) (seq 0 nd))).
  - cbn [bind]. f_equal. destruct s as [a b cs]. simpl in *. f_equal.
    apply nth_ext with (d := []) (d' := []); [rewrite map_length, seq_length; auto|].
    intros n Hn. rewrite map_length, seq_length in Hn.
    set (g := fun c => map (fun k => nth k (nth c cs []) 0%Q) (seq 0 nd)).
    rewrite (nth_indep _ _ (g 0)) by (rewrite map_length, seq_length; auto).
    rewrite (map_nth g). rewrite seq_nth by auto. unfold g. simpl.
    apply map_nth_seq. unfold dimension in D. simpl in D. rewrite Forall_forall in D. apply D. apply nth_In. lia.
  - intros c Hc. apply in_seq in Hc. apply map_outcome_ok. intros k Hk. apply in_seq in Hk.
    rewrite (nth_error_flat_map _ (sx s * sy s)) with (a := k); try lia.
    + rewrite nth_error_map. rewrite (nth_error_nth' _ []) by lia. reflexivity.
    + intros. rewrite map_length. auto.
    + rewrite (nth_error_nth' _ 0) by (rewrite seq_length; lia). rewrite seq_nth by lia. reflexivity.
Qed.

(** ** The grid behind the map *)
Lemma bridge_pos a b x y : paren_pos (new_view [index_axis "X" a; index_axis "Y" b]) [x; y] = x + y * a.
Proof.
  unfold paren_pos, new_view, v_helper, make_helper, v_fixed. simpl. unfold axes_sizes, ax_size. simpl.
  rewrite !seq_length. lia.
Qed.
Lemma bridge_axis a b p : 0 < a -> 0 < b -> p < a * b ->
  iter_axis_value (new_view [index_axis "X" a; index_axis "Y" b]) (mkIter p []) 0 = Ok (p mod a) /\
  iter_axis_value (new_view [index_axis "X" a; index_axis "Y" b]) (mkIter p []) 1 = Ok ((p mod (a * b)) / a).
Proof.
  intros A B P.
  assert (NS : forall n i, i < n -> nth_error (seq 0 n) i = Some i).
  { intros n i H. rewrite (nth_error_nth' _ 0) by (rewrite seq_length; auto). rewrite seq_nth; auto. }
  unfold iter_axis_value, iter_axis_index, new_view, get_axis, v_helper, make_helper, axis_index, axes_sizes, ax_size.
  cbn -[Nat.modulo Nat.div Nat.mul seq]. rewrite !seq_length.
  destruct a as [|a']; [lia|]. set (a := S a') in *. destruct b as [|b']; [lia|]. set (b := S b') in *.
  replace (a * 1) with a by lia. replace (b * a) with (a * b) by lia.
  assert (a * b =? 0 = false) as -> by (apply Nat.eqb_neq; lia).
  assert (a =? 0 = false) as -> by (apply Nat.eqb_neq; lia).
  cbn -[Nat.modulo Nat.div Nat.mul seq a b]. rewrite Nat.div_1_r.
  rewrite !NS; auto.
  - rewrite (Nat.mod_small p (a * b)) by auto. apply Nat.div_lt_upper_bound; lia.
  - apply Nat.mod_upper_bound. lia.
Qed.

Lemma som_def_forall2 {W} (dist : W -> W -> Q) (s : som W) x y c l : well_formed s ->
  (forall x' y', In (x', y') l -> adjacent s x y x' y') ->
  Forall2 (fun p d => exists w, cell_at s (fst p) (snd p) = Some w /\ d = dist c w) l (map (fun p => dist c (som_def s c p)) l).
Proof.
  intros wf. induction l as [|[a b] r IH]; intros H; simpl; constructor.
  - assert (A : adjacent s x y a b) by (apply H; left; auto). unfold adjacent in A.
    destruct (cell_exists s a b wf) as [w Hw]; try tauto. exists w. unfold som_def. simpl. rewrite Hw. auto.
  - apply IH. intros; apply H; right; auto.
Qed.
Lemma umatrix_spec {W} (dist : W -> W -> Q) t (s : som W) : well_formed s -> ~ (sx s = 1 /\ sy s = 1) ->
  exists u, umatrix dist t s = Ok u /\ sx u = sx s /\ sy u = sy s /\
    forall x y c, cell_at s x y = Some c ->
      exists v l ds, cell_at u x y = Some (Fin v) /\ NoDup l /\ (forall x' y', In (x', y') l <-> adjacent s x y x' y') /\
        l <> [] /\ Forall2 (fun p d => exists w, cell_at s (fst p) (snd p) = Some w /\ d = dist c w) l ds /\ aggregates t v ds.
Proof.
  intros wf N. destruct (umatrix_ok dist t s wf N) as (u & E & X & Y & H). exists u. split; auto. split; auto. split; auto.
  intros x y c Hc. destruct (H x y c Hc) as (v & l & Hv & ND & Hl & Ne & A).
  exists v, l, (map (fun p => dist c (som_def s c p)) l). split; auto. split; auto. split; auto. split; auto. split; auto.
  apply (som_def_forall2 dist s x y); auto. intros; apply Hl; auto.
Qed.
Lemma umatrix_single {W} (dist : W -> W -> Q) (w : W) :
  umatrix dist UMin (mkSom 1 1 [w]) = UB /\ umatrix dist UMax (mkSom 1 1 [w]) = UB /\
  umatrix dist UMean (mkSom 1 1 [w]) = Ok (mkSom 1 1 [NaN]).
Proof. repeat split. Qed.
