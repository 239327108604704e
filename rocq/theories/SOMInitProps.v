(** * The initial weights of a self-organizing map. *)
From Coq Require Import ZArith Reals List Bool Arith Lia.
From Flocq Require Import Core IEEE754.BinarySingleNaN.
From Verif Require Import Common SOMModel SOMSpec FloatModel FloatProofs DoubleProofs SOMInitModel SOMInitSpec SOMInitProofs.
Import ListNotations.
Local Open Scope nat_scope.

(** ** C166 *)

(** Whatever the program did before with its initialization function, a map takes the values that the function would
    give next: those that follow the calls the program made itself since it got the function. Maps built in between
    take nothing from the function of the program. *)
Theorem C166_by_value : forall f0 h0 f h nd x y, no_assignment h ->
  exists m, seen_last (h0 ++ Assign f :: h ++ [Build nd x y]) f0 = Map m /\ weights_from f (calls h) nd x y m.
Proof. intros. eexists. split; [apply seen_built; assumption|apply som_of_weights]. Qed.
Print Assumptions C166_by_value.

(** So two maps of the same size built from one function, random or not, with nothing but maps in between start with
    the same weights. *)
Theorem C166_same_again : forall f0 h between nd x y, only_builds between ->
  seen_last (h ++ Build nd x y :: between ++ [Build nd x y]) f0 = seen_last (h ++ [Build nd x y]) f0.
Proof.
  intros f0 h between nd x y B. unfold seen_last. rewrite !perform_app. cbn [fst].
  change (Build nd x y :: between ++ [Build nd x y]) with ((Build nd x y :: between) ++ [Build nd x y]). rewrite perform_app. cbn [fst].
  assert (S1 : forall g, fst (perform_all [Build nd x y] g) = [Map (som_of nd x y g)]) by reflexivity. rewrite !S1, app_assoc, !last_last.
  assert (S2 : forall l g, only_builds l -> snd (perform_all l g) = g).
  { induction l as [|a l IH]; intros g O; [reflexivity|]. destruct (O a (or_introl eq_refl)) as (n & u & v & ->). cbn [perform_all perform].
    specialize (IH g (fun b I => O b (or_intror I))). destruct (perform_all l g). exact IH. }
  rewrite S2; [reflexivity|]. intros a [<- | I]; [eauto|apply B, I].
Qed.
Print Assumptions C166_same_again.

(** A function that uniformRandom returns always gives the same values for the same limits: maps built from two of
    them, at any times and in any programs, start with the same weights. *)
Theorem C166_uniform_repeats : forall f0 f0' h0 h0' min max nd x y,
  seen_last (h0 ++ [Assign (uniform_random min max); Build nd x y]) f0 =
  seen_last (h0' ++ [Assign (uniform_random min max); Build nd x y]) f0'.
Proof.
  intros. change [Assign (uniform_random min max); Build nd x y] with (Assign (uniform_random min max) :: [] ++ [Build nd x y]).
  assert (N : no_assignment []) by (intros f []). rewrite !seen_built by exact N. reflexivity.
Qed.
Print Assumptions C166_uniform_repeats.

(** All the weights from uniformRandom are between the lower limit and the upper limit as the lower limit plus the
    rounded width gives it. *)
Theorem C166_uniform_range : forall f0 h0 h a b nd x y, no_assignment h ->
  is_finite a = true -> is_finite b = true -> dle a b = true -> is_finite (dsub b a) = true ->
  exists m, seen_last (h0 ++ Assign (uniform_random a b) :: h ++ [Build nd x y]) f0 = Map m /\
    all_weights (fun w => dle a w = true /\ dle w (dadd (dsub b a) a) = true) m.
Proof. intros. eexists. split; [apply seen_built; assumption|]. apply all_weights_of. intros k. apply uniform_within; assumption. Qed.
Print Assumptions C166_uniform_range.

(** With limits 0 and 1 they are below 1. *)
Theorem C166_uniform_unit : forall f0 h0 h nd x y, no_assignment h ->
  exists m, seen_last (h0 ++ Assign (uniform_random d0 d1) :: h ++ [Build nd x y]) f0 = Map m /\
    all_weights (fun w => dle d0 w = true /\ dlt w d1 = true) m.
Proof.
  intros. eexists. split; [apply seen_built; assumption|]. apply all_weights_of. intros k. destruct (uniform_value d0 d1 k) as (c & C1 & C2 & ->).
  assert (E : dsub d1 d0 = d1) by (apply sf_inj; vm_compute; reflexivity). rewrite E, DInterpProofs.dmul_1_r.
  assert (Z : dle d0 (dadd c d0) = true /\ dlt (dadd c d0) d1 = true); [|exact Z].
  destruct (dlt_nums _ _ C2) as [NC _]. pose proof C1 as C1'. pose proof C2 as C2'. apply dle_iff in C1'; [|exact num_d0|exact NC]. apply dlt_iff in C2'; [|exact NC|exact num_d1].
  rewrite ext_d0 in C1'. rewrite ext_d1 in C2'.
  assert (FC : is_finite c = true) by (apply dfinite_iff; auto; pose proof MX_big; Lra.lra).
  destruct (dadd_ext c d0 FC eq_refl) as [N V]. rewrite ext_d0, Rplus_0_r, crd_ext in V.
  split; [apply dle_iff|apply dlt_iff]; auto using num_d0, num_d1; rewrite V, ?ext_d0, ?ext_d1; assumption.
Qed.
Print Assumptions C166_uniform_unit.

(** The weights for the limits 0 and 1 are, to 2^-50, the numbers that the values of the engine stand for, two at a time. *)
Theorem C166_uniform_values : forall f0 h0 h nd x y, no_assignment h ->
  exists m, seen_last (h0 ++ Assign (uniform_random d0 d1) :: h ++ [Build nd x y]) f0 = Map m /\
    forall a b i, a < x -> b < y -> i < nd -> exists w v, cell_at m a b = Some w /\ nth_error w i = Some v /\
      (Rabs (B2R v - unit_value (calls h + (a + b * x) * nd + i)) <= bpow radix2 (-50))%R.
Proof.
  intros f0 h0 h nd x y N. eexists. split; [apply seen_built; assumption|].
  intros a b i Ha Hb Hi. destruct (som_of_weights (uniform_random d0 d1) (calls h) nd x y) as (_ & _ & _ & W).
  destruct (W a b Ha Hb) as (w & C & L & V). exists w. eexists. split; [exact C|]. split; [apply V, Hi|].
  generalize (calls h + (a + b * x) * nd + i). intros k. destruct (uniform_close d0 d1 k) as (c & C0 & C1 & C2 & ->).
  assert (E : dsub d1 d0 = d1) by (apply sf_inj; vm_compute; reflexivity). rewrite E, DInterpProofs.dmul_1_r.
  destruct (dlt_nums _ _ C2) as [NC _]. apply dle_iff in C1; [|exact num_d0|exact NC]. apply dlt_iff in C2; [|exact NC|exact num_d1].
  rewrite ext_d0 in C1. rewrite ext_d1 in C2.
  assert (FC : is_finite c = true) by (apply dfinite_iff; auto; pose proof MX_big; Lra.lra).
  destruct (dadd_ext c d0 FC eq_refl) as [NS ES]. rewrite ext_d0, Rplus_0_r, crd_ext in ES.
  assert (FS : is_finite (dadd c d0) = true) by (apply dfinite_iff; auto; pose proof MX_big; Lra.lra).
  rewrite (dext_finite _ FC), (dext_finite _ FS) in ES. rewrite ES.
  replace (bpow radix2 (-50)) with (8 * uro)%R; [exact C0|]. unfold uro. change 8%R with (bpow radix2 3). rewrite <- bpow_plus. reflexivity.
Qed.
Print Assumptions C166_uniform_values.

(** With other limits a weight can be the upper limit, which std::uniform_real_distribution excludes. *)
Theorem C166_half_open_refuted : exists a b nd x y m v, dlt a b = true /\ is_finite a = true /\ is_finite b = true /\
  seen_last [Assign (uniform_random a b); Build nd x y] zero_func = Map m /\ In [v] (cells m) /\ nd = 1 /\ deq v b = true.
Proof.
  exists d1, (d2 (2 ^ 52 + 1) (-52)), 1, 4, 1, (som_of 1 4 1 (uniform_random d1 (d2 (2 ^ 52 + 1) (-52)))), (value_number (uniform_random d1 (d2 (2 ^ 52 + 1) (-52))) 3).
  split; [vm_compute; reflexivity|]. split; [reflexivity|]. split; [vm_compute; reflexivity|]. split; [reflexivity|]. split; [|split; [reflexivity|vm_compute; reflexivity]].
  rewrite <- (advanced_0 (uniform_random d1 (d2 (2 ^ 52 + 1) (-52)))) at 2. rewrite som_of_new. cbn [som_new fill take_stream cells Nat.mul Nat.add]. right. right. right. left. reflexivity.
Qed.
Print Assumptions C166_half_open_refuted.

(** Weights from normalDistribution: with a positive sigma, a weight is not below mu where the standard normal value
    drawn for it is not negative, and not above mu where it is not positive. *)
Theorem C166_normal : forall engine (seeded : Z -> engine) standard f0 h0 h seed sigma mu nd x y, no_assignment h ->
  is_finite sigma = true -> dlt d0 sigma = true -> is_finite mu = true ->
  exists m, seen_last (h0 ++ Assign (normal_distribution engine seeded standard seed sigma mu) :: h ++ [Build nd x y]) f0 = Map m /\
    forall a b i, a < x -> b < y -> i < nd -> exists w v, cell_at m a b = Some w /\ nth_error w i = Some v /\
      let z := drawn standard (seeded seed) (calls h + (a + b * x) * nd + i) in
      is_finite z = true -> is_finite (dmul z sigma) = true ->
      (dle d0 z = true -> dle mu v = true) /\ (dle z d0 = true -> dle v mu = true).
Proof.
  intros engine seeded standard f0 h0 h seed sigma mu nd x y N FS PS FM. eexists. split; [apply seen_built; assumption|].
  intros a b i Ha Hb Hi. destruct (som_of_weights (normal_distribution engine seeded standard seed sigma mu) (calls h) nd x y) as (_ & _ & _ & W).
  destruct (W a b Ha Hb) as (w & C & L & V). exists w. eexists. split; [exact C|]. split; [apply V, Hi|]. intros z FZ FP. rewrite normal_value. apply normal_side; assumption.
Qed.
Print Assumptions C166_normal.

(** Without an initialization function all the weights are +0. *)
Theorem C166_zero : forall f0 h0 h nd x y, no_assignment h ->
  exists m, seen_last (h0 ++ Assign zero_func :: h ++ [Build nd x y]) f0 = Map m /\ all_weights (fun w => w = d0) m.
Proof. intros. eexists. split; [apply seen_built; assumption|]. apply all_weights_of. reflexivity. Qed.
Print Assumptions C166_zero.

(** A program that draws two values, builds a map, draws again and builds a second one, with the function that counts. *)
Definition counting : init_func := mkInit Z 0%Z (fun s => (d2 s 0, (s + 1)%Z)).
Example C166_example :
  match seen_last [Assign counting; Call; Call; Build 2 2 1; Call; Build 1 2 2] zero_func with
  | Map m => map (map B2SF) (cells m) = map (map B2SF) [[d2 3 0]; [d2 4 0]; [d2 5 0]; [d2 6 0]]
  | _ => False
  end.
Proof. vm_compute. reflexivity. Qed.
Example C166_example_history : no_assignment [Call; Call; Build 2 2 1; Call] /\ only_builds [Build 2 2 1].
Proof. split; [intros f [E|[E|[E|[E|[]]]]]; discriminate|intros a [<- |[]]; eauto]. Qed.
(** The first two states of the engine and the first two values between 0 and 1, to 2^-20. *)
Example C166_example_uniform : (minstd_next 1, minstd_next (minstd_next 1)) = (16807%Z, 282475249%Z) /\
  match seen_last [Assign (uniform_random d0 d1); Build 2 1 1] zero_func with
  | Map m => match cells m with [[v; w]] => dle (d2 137927 (-20)) v && dle v (d2 137928 (-20)) && dle (d2 480929 (-20)) w && dle w (d2 480930 (-20)) | _ => false end
  | _ => false
  end = true.
Proof. split; vm_compute; reflexivity. Qed.
