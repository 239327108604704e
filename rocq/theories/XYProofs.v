From Coq Require Import List Arith Ascii String Bool Lia Permutation.
From Verif Require Import Common TextModel TextProofs XYModel XYSpec.
Import ListNotations.
Local Notation length := List.length.

Lemma is_nil_iff s : is_nil s = true <-> s = [].
Proof. destruct s; split; try discriminate; reflexivity. Qed.

Lemma valid_iff g : is_nil g || contains_char slash g = false <-> valid_segment g.
Proof.
  unfold valid_segment. rewrite orb_false_iff. rewrite <- (not_true_iff_false (is_nil g)), <- (not_true_iff_false (contains_char slash g)).
  rewrite is_nil_iff, contains_char_iff. reflexivity.
Qed.

Lemma append_groups_spec gs : forall acc,
  (Forall valid_segment gs -> append_groups acc gs = Ok (acc ++ flat_map (fun g => g ++ [slash]) gs)) /\
  (~ Forall valid_segment gs -> append_groups acc gs = Throw).
Proof.
  induction gs as [|g gs IH]; intros acc; cbn [append_groups flat_map].
  - split; [intros _; rewrite app_nil_r; reflexivity|]. intros H. exfalso. apply H. constructor.
  - destruct (is_nil g || contains_char slash g) eqn:E.
    + split; [|reflexivity]. intros H. inversion H; subst. apply valid_iff in H2. congruence.
    + apply valid_iff in E. destruct (IH (acc ++ g ++ [slash])) as (I1 & I2). split.
      * intros H. inversion H; subst. rewrite I1 by assumption. rewrite <- !app_assoc. reflexivity.
      * intros H. apply I2. intros H'. apply H. constructor; assumption.
Qed.

Lemma join_snoc gs n : join slash (gs ++ [n]) = flat_map (fun g => g ++ [slash]) gs ++ n.
Proof.
  induction gs as [|g gs IH]; [reflexivity|]. simpl app. rewrite join_cons by (destruct gs; discriminate).
  rewrite IH. simpl. rewrite <- !app_assoc. reflexivity.
Qed.

Lemma valid_dec g : {valid_segment g} + {~ valid_segment g}.
Proof. destruct (is_nil g || contains_char slash g) eqn:E; [right; intros H; apply valid_iff in H; congruence|left; apply valid_iff; assumption]. Qed.

Lemma qn_make_spec gs n :
  (Forall valid_segment (gs ++ [n]) -> qn_make gs n = Ok (mkQ gs n (join slash (gs ++ [n])) 0)) /\
  (~ Forall valid_segment (gs ++ [n]) -> qn_make gs n = Throw).
Proof.
  unfold qn_make. destruct (append_groups_spec gs []) as (A1 & A2).
  destruct (Forall_dec _ valid_dec gs) as [F|F].
  - rewrite A1 by assumption. cbn [bind app]. destruct (is_nil n || contains_char slash n) eqn:E.
    + split; [|reflexivity]. intros H. apply Forall_app in H. destruct H as (_ & H). inversion H; subst.
      apply valid_iff in H2. congruence.
    + split; [intros _; rewrite join_snoc; reflexivity|]. intros H. exfalso. apply H. apply Forall_app. split; [assumption|].
      constructor; [apply valid_iff; assumption|constructor].
  - rewrite A2 by assumption. cbn [bind]. split; [|reflexivity]. intros H. apply Forall_app in H. tauto.
Qed.

Lemma qn_make_ok gs n q : qn_make gs n = Ok q -> Forall valid_segment (gs ++ [n]) /\ q = mkQ gs n (join slash (gs ++ [n])) 0.
Proof.
  intros H. destruct (qn_make_spec gs n) as (A & B). destruct (Forall_dec _ valid_dec (gs ++ [n])) as [F|F].
  - rewrite (A F) in H. injection H as <-. split; [assumption|reflexivity].
  - rewrite (B F) in H. discriminate.
Qed.

Lemma no_slash_valid g : ~ In slash g <-> Forall (fun c => is_slash c = false) g.
Proof. rewrite <- no_slash_iff, <- not_true_iff_false, contains_char_iff. reflexivity. Qed.

Lemma split_removelast_last s : removelast (split_on is_slash s) ++ [last (split_on is_slash s) []] = split_on is_slash s.
Proof. symmetry. apply app_removelast_last. apply split_nonnil. Qed.

Lemma join_split_slash s : join slash (split_on is_slash s) = s.
Proof. apply join_split. apply is_slash_eq. Qed.

Lemma split_valid s : Forall valid_segment (split_on is_slash s) <-> Forall (fun g => g <> []) (split_on is_slash s).
Proof.
  pose proof (split_segments is_slash s) as H. split; intros F.
  - eapply Forall_impl; [|exact F]. intros a (Ha & _). exact Ha.
  - rewrite Forall_forall in *. intros x Hx. split; [auto|]. apply no_slash_valid. apply H. assumption.
Qed.

Lemma split_snoc_slash a : split_on is_slash (a ++ [slash]) = split_on is_slash a ++ [[]].
Proof. apply (split_app is_slash a slash []). reflexivity. Qed.

Lemma in_split_nil a : In [] (split_on is_slash (a ++ [slash])).
Proof. rewrite split_snoc_slash. apply in_or_app. right. left. reflexivity. Qed.

Lemma join_last_nil l : join slash (l ++ [[]]) = [] \/ exists a, join slash (l ++ [[]]) = a ++ [slash].
Proof.
  rewrite join_snoc, app_nil_r. destruct l as [|x l] using rev_ind; [left; reflexivity|right].
  rewrite flat_map_app. simpl. rewrite app_nil_r, app_assoc. eexists. reflexivity.
Qed.
Lemma join_app l1 l2 : l1 <> [] -> l2 <> [] -> join slash (l1 ++ l2) = join slash l1 ++ slash :: join slash l2.
Proof.
  intros H1 H2. induction l1 as [|x l1 IH]; [congruence|]. destruct l1 as [|y l1].
  - simpl app. rewrite join_cons by assumption. reflexivity.
  - change ((x :: y :: l1) ++ l2) with (x :: (y :: l1) ++ l2).
    rewrite (join_cons slash x ((y :: l1) ++ l2)), (join_cons slash x (y :: l1)), IH by discriminate.
    rewrite <- app_assoc. reflexivity.
Qed.

Lemma well_slashed_iff s : Forall (fun g => g <> []) (split_on is_slash s) <-> well_slashed s.
Proof.
  split.
  - intros F. rewrite Forall_forall in F. split.
    + intros ->. apply (F []); [left; reflexivity|reflexivity].
    + intros a b E. subst s. rewrite split_app in F by reflexivity. split.
      * destruct a as [|c a] using rev_ind.
        -- exfalso. apply (F []); [left; reflexivity|reflexivity].
        -- exists a, c. split; [reflexivity|]. intros ->. apply (F []); [|reflexivity].
           apply in_or_app. left. apply in_split_nil.
      * destruct b as [|c b].
        -- exfalso. apply (F []); [|reflexivity]. apply in_or_app. right. left. reflexivity.
        -- exists c, b. split; [reflexivity|]. intros ->. apply (F []); [|reflexivity].
           apply in_or_app. right. simpl. left. reflexivity.
  - intros (Hn & H). apply Forall_forall. intros g Hg ->.
    apply in_split in Hg. destruct Hg as (l1 & l2 & E).
    pose proof (join_split_slash s) as J. rewrite E in J.
    destruct l2 as [|x l2].
    + destruct (join_last_nil l1) as [K|(a & K)]; rewrite K in J; [congruence|].
      destruct (H a []) as (_ & c & b' & B & _); [symmetry; assumption|discriminate].
    + replace (l1 ++ [] :: x :: l2) with ((l1 ++ [[]]) ++ (x :: l2)) in J by (rewrite <- app_assoc; reflexivity).
      rewrite join_app in J by (destruct l1; discriminate || discriminate).
      destruct (H _ _ (eq_sym J)) as ((a' & c & A & Hc) & _).
      destruct (join_last_nil l1) as [K|(a & K)]; rewrite K in A.
      * destruct a'; discriminate.
      * apply app_inj_tail in A. destruct A as (_ & A). congruence.
Qed.

Lemma qn_parse_spec s :
  (well_slashed s -> qn_parse s = Ok (mkQ (removelast (split_on is_slash s)) (last (split_on is_slash s) []) s 0)) /\
  (~ well_slashed s -> qn_parse s = Throw).
Proof.
  unfold qn_parse. destruct (qn_make_spec (removelast (split_on is_slash s)) (last (split_on is_slash s) [])) as (A & B).
  rewrite split_removelast_last in A, B. rewrite join_split_slash in A.
  split; intros H; [apply A|apply B]; rewrite split_valid, well_slashed_iff; assumption.
Qed.

Lemma reachable_inv hashf q : reachable hashf q ->
  Forall valid_segment (segments_of q) /\ q_full q = join slash (segments_of q) /\
  (q_hash q = 0 \/ q_hash q = hashf (q_full q)).
Proof.
  intros H. induction H as [gs n q H|s q H|q H (I1 & I2 & I3)].
  - apply qn_make_ok in H. destruct H as (F & ->). split; [assumption|]. split; [reflexivity|left; reflexivity].
  - unfold qn_parse in H. apply qn_make_ok in H. destruct H as (F & ->). split; [assumption|]. split; [reflexivity|left; reflexivity].
  - split; [exact I1|]. split; [exact I2|]. simpl. unfold qn_hash.
    destruct (Nat.eqb_spec (q_hash q) 0); [right; reflexivity|]. right. destruct I3; [contradiction|assumption].
Qed.

Lemma segments_split hashf q : reachable hashf q -> split_on is_slash (q_full q) = segments_of q.
Proof.
  intros H. destruct (reachable_inv _ _ H) as (F & E & _). rewrite E. apply split_join; [reflexivity|destruct q as [[] ? ? ?]; discriminate|].
  eapply Forall_impl; [|exact F]. intros a (_ & Ha). apply no_slash_valid. assumption.
Qed.

Lemma round_trip hashf q : reachable hashf q -> qn_parse (q_full q) = Ok (mkQ (q_groups q) (q_name q) (q_full q) 0).
Proof.
  intros H. pose proof (segments_split _ _ H) as E. destruct (reachable_inv _ _ H) as (F & _).
  assert (W : well_slashed (q_full q)).
  { apply well_slashed_iff. apply split_valid. rewrite E. assumption. }
  rewrite (proj1 (qn_parse_spec _) W), E. unfold segments_of. rewrite removelast_last, last_last. reflexivity.
Qed.

Lemma full_injective hashf q r : reachable hashf q -> reachable hashf r -> q_full q = q_full r ->
  q_groups q = q_groups r /\ q_name q = q_name r.
Proof.
  intros Hq Hr E. pose proof (segments_split _ _ Hq) as A. pose proof (segments_split _ _ Hr) as B.
  rewrite E in A. rewrite A in B. unfold segments_of in B. apply app_inj_tail in B. exact B.
Qed.

Lemma hash_ok hashf q : reachable hashf q -> qn_hash hashf q = hashf (q_full q).
Proof.
  intros H. destruct (reachable_inv _ _ H) as (_ & _ & C). unfold qn_hash.
  destruct (Nat.eqb_spec (q_hash q) 0); [reflexivity|]. destruct C; [contradiction|assumption].
Qed.

Lemma order_spec hashf a b c : reachable hashf a -> reachable hashf b -> reachable hashf c ->
  (qn_eqb hashf a b = true <-> segments_of a = segments_of b) /\
  qn_ltb hashf a a = false /\
  (qn_ltb hashf a b = true -> qn_ltb hashf b c = true -> qn_ltb hashf a c = true) /\
  (qn_ltb hashf a b = true \/ qn_eqb hashf a b = true \/ qn_ltb hashf b a = true) /\
  (qn_eqb hashf a b = true -> qn_ltb hashf a b = false /\ qn_ltb hashf b a = false).
Proof.
  intros Ha Hb Hc. unfold qn_eqb, qn_ltb.
  rewrite (hash_ok _ _ Ha), (hash_ok _ _ Hb), (hash_ok _ _ Hc).
  assert (Eab : text_eqb (q_full a) (q_full b) = true <-> segments_of a = segments_of b).
  { rewrite text_eqb_iff. split; intros E.
    - rewrite <- (segments_split _ _ Ha), <- (segments_split _ _ Hb), E. reflexivity.
    - rewrite (proj1 (proj2 (reachable_inv _ _ Ha))), (proj1 (proj2 (reachable_inv _ _ Hb))), E. reflexivity. }
  split; [|split; [|split; [|split]]].
  - destruct (Nat.eqb_spec (hashf (q_full a)) (hashf (q_full b))) as [E|E]; cbn [negb]; [assumption|].
    split; [discriminate|]. intros H. apply Eab, text_eqb_iff in H. congruence.
  - rewrite Nat.eqb_refl. cbn [negb]. apply text_ltb_irrefl.
  - destruct (Nat.eqb_spec (hashf (q_full a)) (hashf (q_full b))), (Nat.eqb_spec (hashf (q_full b)) (hashf (q_full c)));
      destruct (Nat.eqb_spec (hashf (q_full a)) (hashf (q_full c))); cbn [negb]; rewrite ?Nat.ltb_lt; try lia.
    apply text_ltb_trans.
  - destruct (Nat.eqb_spec (hashf (q_full a)) (hashf (q_full b))) as [E|E]; cbn [negb].
    + rewrite E, Nat.eqb_refl. cbn [negb]. destruct (text_ltb_total (q_full a) (q_full b)) as [H|[H|H]]; [auto| |auto].
      right. left. apply text_eqb_iff. assumption.
    + destruct (Nat.eqb_spec (hashf (q_full b)) (hashf (q_full a))); [congruence|]. cbn [negb]. rewrite !Nat.ltb_lt. lia.
  - intros H. destruct (Nat.eqb_spec (hashf (q_full a)) (hashf (q_full b))) as [E|E]; cbn [negb] in *; [|discriminate].
    apply text_eqb_iff in H. rewrite H, Nat.eqb_refl. cbn [negb]. rewrite text_ltb_irrefl. split; reflexivity.
Qed.

Lemma same_key_iff hashf a b : reachable hashf a -> reachable hashf b ->
  (same_key (qn_ltb hashf) a b = true <-> segments_of a = segments_of b).
Proof.
  intros Ha Hb. destruct (order_spec hashf a b a Ha Hb Ha) as (E & _ & _ & T & S).
  unfold same_key. rewrite andb_true_iff, !negb_true_iff. rewrite <- E. split.
  - intros (H1 & H2). destruct T as [T|[T|T]]; congruence.
  - intros H. apply S. assumption.
Qed.

(** ** C52 *)
Lemma std_equal_iff a b : length a <= length b -> (std_equal a b = true <-> exists r, b = a ++ r).
Proof.
  revert b. induction a as [|x a IH]; intros b Hl; simpl.
  - split; [intros _; exists b; reflexivity|reflexivity].
  - destruct b as [|y b]; [simpl in Hl; lia|]. rewrite andb_true_iff, text_eqb_iff, IH by (simpl in Hl; lia). split.
    + intros (-> & r & ->). exists r. reflexivity.
    + intros (r & E). injection E as -> ->. split; [reflexivity|exists r; reflexivity].
Qed.

Lemma belongs_spec q g :
  exists b, belongs_in_group q g = Ok b /\
    (b = true <-> exists rest, rest <> [] /\ segments_of q = segments_of g ++ rest).
Proof.
  unfold belongs_in_group, segments_of.
  destruct (Nat.ltb_spec (length (q_groups q)) (length (q_groups g) + 1)) as [H|H].
  - exists false. split; [reflexivity|]. split; [discriminate|]. intros (r & Hr & E).
    apply (f_equal (@length text)) in E. rewrite !app_length in E. destruct r; [congruence|]. simpl in E. lia.
  - destruct (std_equal (q_groups g) (q_groups q)) eqn:Es.
    + apply std_equal_iff in Es; [|lia]. destruct Es as (r & Er). rewrite Er.
      rewrite Er, app_length in H. destruct r as [|x r]; [simpl in H; lia|].
      rewrite nth_error_app2, Nat.sub_diag by lia. cbn [nth_error]. eexists. split; [reflexivity|].
      rewrite text_eqb_iff. split.
      * intros ->. exists (r ++ [q_name q]). split; [destruct r; discriminate|]. rewrite <- !app_assoc. reflexivity.
      * intros (rest & _ & E). rewrite <- !app_assoc in E. apply app_inv_head in E. injection E as -> _. reflexivity.
    + exists false. split; [reflexivity|]. split; [discriminate|]. intros (r & Hr & E).
      exfalso. assert (std_equal (q_groups g) (q_groups q) = true); [|congruence].
      apply std_equal_iff; [lia|].
      destruct r as [|y r] using rev_ind; [congruence|]. rewrite app_assoc in E. apply app_inj_tail in E. destruct E as (E & _).
      rewrite E, <- app_assoc. eexists. reflexivity.
Qed.

Lemma prefix_segments l1 l2 : l1 <> [] -> Forall (fun s => ~ In slash s) l1 -> Forall (fun s => ~ In slash s) l2 -> l2 <> [] ->
  ((exists r, join slash l2 = (join slash l1 ++ [slash]) ++ r) <-> exists rest, rest <> [] /\ l2 = l1 ++ rest).
Proof.
  intros N1 F1 F2 N2.
  assert (G : forall l, l <> [] -> Forall (fun s => ~ In slash s) l -> split_on is_slash (join slash l) = l).
  { intros l Hn F. apply split_join; [reflexivity|assumption|]. eapply Forall_impl; [|exact F]. intros a Ha. apply no_slash_valid. assumption. }
  split.
  - intros (r & E). apply (f_equal (split_on is_slash)) in E. rewrite G in E by assumption.
    rewrite <- app_assoc in E. simpl app in E. rewrite split_app in E by reflexivity. rewrite G in E by assumption.
    exists (split_on is_slash r). split; [apply split_nonnil|assumption].
  - intros (rest & Hr & ->). rewrite join_app by assumption. exists (join slash rest). rewrite <- app_assoc. reflexivity.
Qed.

Lemma belongs_text hashf q g : reachable hashf q -> reachable hashf g ->
  ((exists rest, rest <> [] /\ segments_of q = segments_of g ++ rest) <->
   starts_with (q_full q) (q_full g ++ [slash]) = true).
Proof.
  intros Hq Hg. destruct (reachable_inv _ _ Hq) as (Fq & Eq & _). destruct (reachable_inv _ _ Hg) as (Fg & Eg & _).
  rewrite starts_with_iff, Eq, Eg. symmetry. apply prefix_segments.
  - destruct g as [[] ? ? ?]; discriminate.
  - eapply Forall_impl; [|exact Fg]. intros a (_ & H). exact H.
  - eapply Forall_impl; [|exact Fq]. intros a (_ & H). exact H.
  - destruct q as [[] ? ? ?]; discriminate.
Qed.
