(** Properties of the extraction of the modes of a pdf. *)
From Coq Require Import QArith List ZArith Bool Arith Lia Lqa.
From Verif Require Import Common DblModel DblProofs CumulModel CumulSpec CumulProofs ModeModel ModeSpec ModeProofs ModeProofs2.
Import ListNotations.
Local Open Scope nat_scope.

(** ** C44: the number of modes *)

(** Any values, any merge ratio: extractNHighestModes returns n modes. *)
Theorem C44_highest_number xs ys merge n : length xs = length ys -> 3 <= length xs ->
  exists l, highest_modes xs ys merge n = Ok l /\ length l = n.
Proof. intros A B. exact (highest_ok xs merge n ys A B). Qed.
Print Assumptions C44_highest_number.

(** Any values, any merge ratio, n >= 1: extractNBigestModes ends within 3n+2
    rounds and returns at least n modes and at most 3n+2, by decreasing area. *)
Theorem C44_biggest_ends xs ys merge n : length xs = length ys -> 3 <= length xs -> 1 <= n ->
  exists l, biggest_modes (3 * n + 2) xs ys merge n = Ok l /\ n <= length l /\ length l <= 3 * n + 2 /\ by_area l.
Proof.
  intros A B N. unfold biggest_modes. destruct xs as [|x r] eqn:EX; [cbn in B; lia|]. rewrite <- EX in *.
  destruct (avg_area_spec xs ys 0 (length xs - 1) A ltac:(lia) ltac:(lia) ltac:(lia)) as (mean & area & EA & _). rewrite EA. cbn [bind snd].
  apply biggest_loop_ok; auto; try (cbn; lia). intros i j a b _ H. destruct i; discriminate H.
Qed.
Print Assumptions C44_biggest_ends.

(** The modes returned are the biggest of the first r rounds of the extraction of
    the highest modes. Unless the limit of 3n+2 rounds was reached, no later round
    has a bigger mode either. *)
Theorem C44_biggest xs ys merge n l : is_pdf xs ys -> 1 <= n -> biggest_modes (3 * n + 2) xs ys merge n = Ok l ->
  exists r done, r <= 3 * n + 2 /\ highest_modes xs ys merge r = Ok done /\ by_area l /\
    (forall m, In m l -> In m done) /\
    (forall m, In m done -> In m l \/ forall a, In a l -> (m_area m <= m_area a)%Q) /\
    (r = 3 * n + 2 \/
     forall k ms m, highest_modes xs ys merge k = Ok ms -> In m ms -> In m l \/ forall a, In a l -> (m_area m <= m_area a)%Q).
Proof. intros I N E. exact (biggest_spec xs ys merge n I N _ l E). Qed.
Print Assumptions C44_biggest.

Ltac pdf_literal := apply pdf_test_ok; vm_compute; reflexivity.

(** More than the requested number can be returned: a small high mode first and a
    big low one after it. *)
Theorem C44_more_refuted : exists xs ys merge l, is_pdf xs ys /\ biggest_modes 5 xs ys merge 1 = Ok l /\ length l = 2.
Proof.
  exists [0; 1; 2; 3; 4; 5; 6; 7]%Q, [0; 5; 0; 4; 4; 4; 4; 0]%Q, (1 # 2)%Q. eexists. split; [pdf_literal|]. split; [vm_compute; reflexivity|reflexivity].
Qed.
Print Assumptions C44_more_refuted.

(** With n = 0 the last element of an empty vector is read. *)
Theorem C44_zero_refuted : exists xs ys merge, is_pdf xs ys /\ biggest_modes 2 xs ys merge 0 = UB.
Proof. exists [0; 1; 2]%Q, [1; 2; 1]%Q, (1 # 2)%Q. split; [pdf_literal|]. vm_compute. reflexivity. Qed.
Print Assumptions C44_zero_refuted.

(** With less than three samples the interpolation reads outside the vectors. *)
Theorem C44_short_refuted : highest_modes [0; 1]%Q [1; 2]%Q (1 # 2) 1 = UB /\ highest_modes [0]%Q [1]%Q (1 # 2) 1 = UB.
Proof. split; vm_compute; reflexivity. Qed.
Print Assumptions C44_short_refuted.

Example C44_example : is_pdf [0; 1; 2; 3; 4; 5; 6]%Q [0; 2; 0; 4; 6; 4; 0]%Q /\
  option_map (map m_sample) (match highest_modes [0; 1; 2; 3; 4; 5; 6]%Q [0; 2; 0; 4; 6; 4; 0]%Q (1 # 2) 2 with Ok l => Some l | _ => None end) = Some [4; 1]%Q.
Proof. split; [pdf_literal|vm_compute; reflexivity]. Qed.

(** ** C90: what a mode is *)

(** The first mode has its peak at the first of the highest samples; its samples
    go on both sides until a zero, a valley under the threshold or the border;
    its area, mean and position come from those samples; the other modes are
    those of the pdf without them. *)
Theorem C90_modes xs ys merge n l : is_pdf xs ys -> highest_modes xs ys merge (S n) = Ok l ->
  exists m r ys' c lo hi, l = m :: r /\ highest ys c /\ mode_range ys merge c lo hi /\ lo <= c <= hi /\ hi < length ys /\
    describes xs ys c lo hi m /\ zeroed ys lo hi ys' /\ is_pdf xs ys' /\ highest_modes xs ys' merge n = Ok r.
Proof.
  intros I E. destruct (highest_step _ _ _ _ _ I E) as (m & r & ys' & c & lo & hi & H1 & H2 & H3 & H4 & H5 & H6 & H7 & _ & H8 & H9).
  exists m, r, ys', c, lo, hi. repeat (split; [assumption|]). exact H8.
Qed.
Print Assumptions C90_modes.

(** The mean is between the ends of the mode. *)
Theorem C90_mean xs ys c lo hi m q : is_pdf xs ys -> hi < length xs -> describes xs ys c lo hi m -> m_mean m = Some q ->
  (val xs lo <= q <= val xs hi)%Q.
Proof. exact (describes_mean xs ys c lo hi m q). Qed.
Print Assumptions C90_mean.

(** Peaks come by decreasing height and at different samples. *)
Theorem C90_heights xs ys merge n l : is_pdf xs ys -> highest_modes xs ys merge n = Ok l ->
  forall i j a b, i < j -> nth_error l i = Some a -> nth_error l j = Some b -> (0 < m_area b)%Q ->
  exists ca cb, ca < length xs /\ cb < length xs /\ ca <> cb /\ m_sample a = val xs ca /\ m_sample b = val xs cb /\
    (0 < val ys cb)%Q /\ (val ys cb <= val ys ca)%Q.
Proof. intros I E. exact (highest_heights xs merge n ys l I E). Qed.
Print Assumptions C90_heights.

(** No part of the pdf is counted twice, and with as many modes as samples
    nothing is left out. *)
Theorem C90_areas xs ys merge n l : is_pdf xs ys -> highest_modes xs ys merge n = Ok l ->
  (forall m, In m l -> (0 <= m_area m)%Q) /\ (mode_areas l <= pdf_area xs ys)%Q /\
  (length ys <= n -> (mode_areas l == pdf_area xs ys)%Q).
Proof.
  intros I E. split; [exact (highest_area_nonneg xs merge n ys l I E)|]. split; [exact (highest_areas xs merge n ys l I E)|].
  intro L. apply (highest_complete xs merge n ys l I E). pose proof (left_over_le ys). lia.
Qed.
Print Assumptions C90_areas.

(** The sample at the border is left out of a peak next to it: a pdf with a
    single maximum has a second mode with an area. *)
Theorem C90_border_refuted : exists xs ys merge a b, is_pdf xs ys /\
  (forall i j, i <= j <= 1 -> (val ys i <= val ys j)%Q) /\ (forall i j, 1 <= i <= j -> j <= 2 -> (val ys j <= val ys i)%Q) /\
  highest_modes xs ys merge 2 = Ok [a; b] /\ (0 < m_area b)%Q.
Proof.
  exists [0; 1; 2]%Q, [1; 3; 1]%Q, (1 # 2)%Q. eexists _, _. split; [pdf_literal|]. split; [|split].
  - intros [|[|i]] [|[|j]] H; try lia; vm_compute; discriminate.
  - intros [|[|[|i]]] [|[|[|j]]] H H'; try lia; vm_compute; discriminate.
  - split; [vm_compute; reflexivity|vm_compute; reflexivity].
Qed.
Print Assumptions C90_border_refuted.

Example C90_example : exists m r, highest_modes [0; 1; 2; 3; 4; 5; 6]%Q [0; 2; 1; 4; 6; 4; 0]%Q (1 # 2) 2 = Ok [m; r] /\
  (m_sample m == 4)%Q /\ (m_area m == 15)%Q /\ (m_sample r == 1)%Q /\ (m_area r == 2)%Q.
Proof. eexists _, _. split; [vm_compute; reflexivity|]. split; [reflexivity|]. split; [reflexivity|]. split; reflexivity. Qed.

(** ** C91: interpolated position *)

(** For a highest sample that is not at the border the interpolated position is
    within half a step of it on both sides; it is the vertex of the parabola
    through the sample and its neighbours, unless these are on a line. *)
Theorem C91_interpolated xs ys merge n m r c : is_pdf xs ys -> highest ys c -> 1 <= c -> c + 2 <= length xs ->
  highest_modes xs ys merge (S n) = Ok (m :: r) ->
  ((val xs (c - 1) + val xs c) / 2 <= m_interp m <= (val xs c + val xs (c + 1)) / 2)%Q /\
  (~ ((val xs c - val xs (c - 1)) * (val ys (c + 1) - val ys c) == (val xs (c + 1) - val xs c) * (val ys c - val ys (c - 1)))%Q ->
   vertex_of (val xs (c - 1)) (val ys (c - 1)) (val xs c) (val ys c) (val xs (c + 1)) (val ys (c + 1)) (m_interp m)).
Proof.
  intros I HC B1 B2 E. destruct (highest_step _ _ _ _ _ I E) as (m0 & r0 & ys' & c' & lo & hi & EL & HC' & _ & _ & _ & _ & _ & EI & _).
  injection EL as <- <-. pose proof I as (LE & L3 & SR & _).
  assert (c' = c).
  { destruct HC as (K1 & K2 & K3), HC' as (K1' & K2' & K3'). destruct (lt_eq_lt_dec c c') as [[H|H]|H]; [|auto|].
    - specialize (K3' c H). specialize (K2 c' K1'). lra.
    - specialize (K3 c' H). specialize (K2' c K1). lra. }
  subst c'. destruct (interpolation_value xs ys c LE L3 ltac:(lia)) as (_ & _ & EV). rewrite EV in EI.
  replace (Nat.eqb c 0) with false in EI by (symmetry; apply Nat.eqb_neq; lia).
  replace (Nat.eqb (c + 1) (length xs)) with false in EI by (symmetry; apply Nat.eqb_neq; lia).
  assert (X1 : (val xs (c - 1) < val xs c)%Q) by (apply strict_val; auto; lia).
  assert (X2 : (val xs c < val xs (c + 1))%Q) by (apply strict_val; auto; lia).
  destruct HC as (K1 & K2 & K3).
  pose proof (parabola_between _ (val ys (c - 1)) _ (val ys c) _ (val ys (c + 1)) X1 X2 (K2 (c - 1) ltac:(lia)) (K2 (c + 1) ltac:(lia))) as PB.
  assert (F : (val xs 0 <= val xs (c - 1))%Q) by (apply strict_val_le; auto; lia).
  assert (G : (val xs (c + 1) <= val xs (length xs - 1))%Q) by (apply strict_val_le; auto; lia).
  set (v := parabola _ _ _ _ _ _) in *.
  assert (M : m_interp m = v).
  { unfold Qdiv in PB. change (/ 2)%Q with (1 # 2)%Q in PB. injection EI as <-.
    destruct (Qlt_b v (val xs 0)) eqn:A; [apply Qlt_b_iff in A; lra|]. destruct (Qlt_b (val xs (length xs - 1)) v) eqn:A2; [apply Qlt_b_iff in A2; lra|reflexivity]. }
  rewrite M. split; [exact PB|]. intro NL. apply parabola_vertex; auto.
Qed.
Print Assumptions C91_interpolated.

(** For a highest sample at the border the parabola is taken around its
    neighbour: the position can be at the other end of the sampling. *)
Theorem C91_border_refuted : exists xs ys merge m, is_pdf xs ys /\ highest ys 0 /\
  highest_modes xs ys merge 1 = Ok [m] /\ (m_sample m == 0)%Q /\ (m_interp m == 5)%Q.
Proof.
  exists [0; 1; 2; 3; 4; 5]%Q, [100; 50; 10; 0; 0; 0]%Q, (1 # 2)%Q. eexists. split; [pdf_literal|]. split.
  - split; [cbn; lia|]. split; [|intros i Hi; lia]. intros i Hi. cbn in Hi. do 6 (destruct i as [|i]; [vm_compute; discriminate|]). lia.
  - split; [vm_compute; reflexivity|]. split; reflexivity.
Qed.
Print Assumptions C91_border_refuted.

Example C91_example : is_pdf [0; 1; 2; 3]%Q [0; 4; 3; 0]%Q /\
  exists m, highest_modes [0; 1; 2; 3]%Q [0; 4; 3; 0]%Q (1 # 2) 1 = Ok [m] /\ (m_interp m == 13 # 10)%Q.
Proof. split; [pdf_literal|]. eexists. split; [vm_compute; reflexivity|reflexivity]. Qed.
