From Coq Require Import List Arith Ascii String Bool Lia Permutation Sorted.
From Verif Require Import Common TextModel TextProofs XYModel XYSpec XYProofs XYProofs2.
Import ListNotations.
Local Notation length := List.length.
Local Notation concat := List.concat.

Lemma mem_text_iff s l : mem_text s l = true <-> In s l.
Proof.
  induction l as [|x l IH]; simpl; [split; [discriminate|contradiction]|].
  rewrite orb_true_iff, IH, text_eqb_iff. reflexivity.
Qed.

Lemma lookup_some entries n x : lookup entries n = Some x -> In (n, x) entries.
Proof.
  induction entries as [|(m, y) r IH]; simpl; [discriminate|].
  destruct (text_eqb m n) eqn:E; [apply text_eqb_iff in E; subst|]; [injection 1 as <-; auto|auto].
Qed.
Lemma lookup_in entries n x : NoDup (map fst entries) -> In (n, x) entries -> lookup entries n = Some x.
Proof.
  induction entries as [|(m, y) r IH]; simpl; [contradiction|]. intros Hd [E|Hi].
  - injection E as -> ->. rewrite text_eqb_refl. reflexivity.
  - inversion Hd as [|? ? Hn Hr]; subst. destruct (text_eqb m n) eqn:E; [|auto].
    apply text_eqb_iff in E. subst. exfalso. apply Hn. apply (in_map fst) in Hi. exact Hi.
Qed.

Lemma insert_entry_perm e l : Permutation (insert_entry e l) (e :: l).
Proof.
  induction l as [|f r IH]; simpl; [reflexivity|]. destruct (text_ltb (fst e) (fst f)); [reflexivity|].
  rewrite IH. apply perm_swap.
Qed.
Lemma insertion_perm l : Permutation (fold_right insert_entry [] l) l.
Proof. induction l as [|e r IH]; simpl; [reflexivity|]. rewrite insert_entry_perm. constructor. assumption. Qed.

Definition before (e f : text * node) : Prop := text_ltb (fst e) (fst f) = true \/ fst e = fst f.
Lemma before_trans e f g : before e f -> before f g -> before e g.
Proof.
  unfold before. intros [H1|H1] [H2|H2].
  - left. eapply text_ltb_trans; eassumption.
  - left. rewrite <- H2. assumption.
  - left. rewrite H1. assumption.
  - right. congruence.
Qed.
Lemma insert_entry_sorted e l : StronglySorted before l -> StronglySorted before (insert_entry e l).
Proof.
  induction 1 as [|f r Hr IH Hf]; simpl; [repeat constructor|].
  destruct (text_ltb (fst e) (fst f)) eqn:E.
  - constructor; [constructor; assumption|]. constructor; [left; assumption|].
    eapply Forall_impl; [|exact Hf]. intros g Hg. apply before_trans with f; [left; assumption|assumption].
  - constructor; [assumption|]. rewrite (insert_entry_perm e r). constructor; [|assumption].
    destruct (text_ltb_total (fst e) (fst f)) as [T|[T|T]]; [congruence|right; congruence|left; assumption].
Qed.
Lemma insertion_sorted l : StronglySorted before (fold_right insert_entry [] l).
Proof. induction l; simpl; [constructor|]. apply insert_entry_sorted. assumption. Qed.

Section Plain.
  Variable entries : list (text * node).
  Hypothesis Hd : NoDup (map fst entries).
  Hypothesis Hv : forall n, In n (map fst entries) -> valid_segment n /\ n <> txt ".".
  Hypothesis Ho : forall l, In l (order_names entries) -> In l (map fst entries) \/ resolve (Dir entries) (split_on is_slash l) = None.
  Hypothesis Hn : NoDup (filter (fun l => mem_text l (map fst entries)) (order_names entries)).

  Lemma resolve_entry n x : In (n, x) entries -> resolve (Dir entries) (split_on is_slash n) = Some x.
  Proof.
    intros Hi. destruct (Hv n (in_map fst _ _ Hi)) as ((Hne & Hs) & Hdot).
    rewrite split_no_sep by (apply no_slash_valid; assumption). cbn [resolve].
    destruct (is_nil n) eqn:E1; [apply is_nil_iff in E1; congruence|].
    destruct (text_eqb n (txt ".")) eqn:E2; [apply text_eqb_iff in E2; congruence|]. cbn [orb].
    rewrite (lookup_in entries n x Hd Hi). reflexivity.
  Qed.

  Lemma ordered_aux ls :
    (forall l, In l (filter (fun l => negb (is_nil l)) (map clean_line ls)) -> In l (map fst entries) \/ resolve (Dir entries) (split_on is_slash l) = None) ->
    let o := flat_map (fun l => let line := clean_line l in
      if is_nil line then [] else match resolve (Dir entries) (split_on is_slash line) with Some x => [(line, x)] | None => [] end) ls in
    map fst o = filter (fun l => mem_text l (map fst entries)) (filter (fun l => negb (is_nil l)) (map clean_line ls)) /\
    (forall e, In e o -> In e entries).
  Proof.
    induction ls as [|l ls IH]; intros H; [split; [reflexivity|contradiction]|].
    cbv zeta in *. cbn [flat_map map filter] in *. destruct (is_nil (clean_line l)) eqn:E; cbn [negb] in *.
    - apply IH. exact H.
    - destruct IH as (I1 & I2); [intros l' Hl'; apply H; right; exact Hl'|].
      destruct (H (clean_line l) (or_introl eq_refl)) as [Hi|Hnone].
      + apply in_map_iff in Hi. destruct Hi as ((n, x) & En & Hi). simpl in En. subst n.
        rewrite (resolve_entry _ _ Hi). cbn [app map filter fst].
        destruct (mem_text (clean_line l) (map fst entries)) eqn:Em.
        * split; [f_equal; exact I1|]. intros e [<-|He]; [exact Hi|auto].
        * exfalso. assert (mem_text (clean_line l) (map fst entries) = true) by (apply mem_text_iff; apply (in_map fst) in Hi; exact Hi). congruence.
      + rewrite Hnone. cbn [app filter]. destruct (mem_text (clean_line l) (map fst entries)) eqn:Em; [|split; assumption].
        apply mem_text_iff, in_map_iff in Em. destruct Em as ((n, x) & En & Hi). simpl in En. subst n.
        rewrite (resolve_entry _ _ Hi) in Hnone. discriminate.
  Qed.

  Lemma ordered_spec : map fst (ordered_part entries) = filter (fun l => mem_text l (map fst entries)) (order_names entries) /\
    (forall e, In e (ordered_part entries) -> In e entries).
  Proof. apply ordered_aux. exact Ho. Qed.

  Lemma get_order_perm : Permutation (get_order entries) entries.
  Proof.
    unfold get_order, remaining_part. rewrite (insertion_perm (filter _ entries)).
    destruct ordered_spec as (O1 & O2).
    assert (ND : NoDup entries) by (apply NoDup_map_inv with (f := fst); exact Hd).
    assert (NO : NoDup (ordered_part entries)) by (apply NoDup_map_inv with (f := fst); rewrite O1; exact Hn).
    apply NoDup_Permutation; [|exact ND|].
    - assert (Disj : forall e, In e (ordered_part entries) -> ~ In e (filter (fun e => negb (mem_text (fst e) (map fst (ordered_part entries)))) entries)).
      { intros e He Hf. apply filter_In in Hf. destruct Hf as (_ & Hf). apply negb_true_iff in Hf.
        assert (mem_text (fst e) (map fst (ordered_part entries)) = true) by (apply mem_text_iff; apply in_map; exact He). congruence. }
      pose proof (NoDup_filter (fun e => negb (mem_text (fst e) (map fst (ordered_part entries)))) ND) as Hr.
      revert Disj Hr. generalize (filter (fun e => negb (mem_text (fst e) (map fst (ordered_part entries)))) entries) as rest.
      clear - NO. intros rest Disj Hr. induction NO as [|e l He NO IH]; [assumption|]. cbn [app]. constructor.
      + rewrite in_app_iff. intros [H|H]; [contradiction|]. apply (Disj e); [left; reflexivity|assumption].
      + apply IH. intros x Hx. apply Disj. right. assumption.
    - intros e. rewrite in_app_iff, filter_In, negb_true_iff. split; [intros [H|(H & _)]; auto|].
      intros He. destruct (mem_text (fst e) (map fst (ordered_part entries))) eqn:Em; [left|right; auto].
      apply mem_text_iff, in_map_iff in Em. destruct Em as (e' & Ee & He').
      destruct e as (n, x), e' as (n', x'). simpl in Ee. subst n'.
      pose proof (lookup_in entries n x Hd He) as L1. pose proof (lookup_in entries n x' Hd (O2 _ He')) as L2.
      replace x with x' by congruence. exact He'.
  Qed.
End Plain.

Fixpoint height (x : node) : nat :=
  match x with
  | File _ => 0
  | Dir entries => S ((fix go (l : list (text * node)) := match l with [] => 0 | (_, y) :: r => Nat.max (height y) (go r) end) entries)
  end.
Lemma height_entry entries n x : In (n, x) entries -> height x < height (Dir entries).
Proof.
  cbn [height]. induction entries as [|(m, y) r IH]; [contradiction|]. intros [E|Hi].
  - injection E as -> ->. lia.
  - specialize (IH Hi). lia.
Qed.
Lemma all_files_dir dir entries : all_files dir (Dir entries) = files_below dir entries.
Proof.
  cbn [all_files]. unfold files_below. induction entries as [|(n, x) r IH]; [reflexivity|]. cbn [flat_map fst snd]. f_equal. exact IH.
Qed.

Lemma concat_outcome_ok {A B} (g : B -> outcome (list A)) (R : B -> list A -> Prop) l :
  (forall e, In e l -> exists fl, g e = Ok fl /\ R e fl) ->
  exists ls, concat_outcome (map g l) = Ok (concat ls) /\ Forall2 R l ls.
Proof.
  induction l as [|e l IH]; intros H; [exists []; split; [reflexivity|constructor]|].
  destruct (H e (or_introl eq_refl)) as (fl & E & Hr). destruct IH as (ls & E2 & F); [intros e' He'; apply H; right; assumption|].
  exists (fl :: ls). cbn [map concat_outcome]. rewrite E. cbn [bind]. rewrite E2. cbn [bind concat]. split; [reflexivity|constructor; assumption].
Qed.

Lemma listing_spec : forall fuel entries dir, plain (Dir entries) -> height (Dir entries) <= fuel ->
  exists ls, listing fuel dir entries = Ok (concat ls) /\
    Forall2 (fun e fl => Permutation fl (all_files (dir ++ [fst e]) (snd e))) (get_order entries) ls.
Proof.
  induction fuel as [|fuel IH]; intros entries dir Hp Hh; [cbn [height] in Hh; lia|].
  inversion Hp as [|? Hd Hv Ho Hn Hs]; subst. cbn [listing].
  pose proof (get_order_perm entries Hd Hv Ho Hn) as Pm.
  apply concat_outcome_ok. intros (n, x) He. apply (Permutation_in _ Pm) in He. cbn [fst snd].
  destruct (Hv n (in_map fst _ _ He)) as ((_ & Hsl) & _).
  rewrite split_no_sep by (apply no_slash_valid; assumption).
  destruct x as [lines|sub].
  - exists [dir ++ [n]]. split; reflexivity.
  - pose proof (height_entry entries n (Dir sub) He) as Hlt.
    destruct (IH sub (dir ++ [n])) as (ls & E & F); [apply (Hs n); exact He|lia|].
    exists (concat ls). split; [exact E|]. rewrite all_files_dir. unfold files_below.
    pose proof (Hs n _ He) as Hps. inversion Hps as [|? Hd' Hv' Ho' Hn' Hs']; subst.
    transitivity (flat_map (fun e => all_files ((dir ++ [n]) ++ [fst e]) (snd e)) (get_order sub)).
    + clear - F. induction F as [|e fl l ls Hr F IHF]; [reflexivity|]. cbn [concat flat_map]. apply Permutation_app; assumption.
    + apply Permutation_flat_map. apply (get_order_perm sub); assumption.
Qed.

Lemma listing_perm fuel entries : plain (Dir entries) -> height (Dir entries) <= fuel ->
  exists l, listing fuel [] entries = Ok l /\ Permutation l (files_below [] entries).
Proof.
  intros Hp Hh. destruct (listing_spec fuel entries [] Hp Hh) as (ls & E & F). exists (concat ls). split; [exact E|].
  inversion Hp as [|? Hd Hv Ho Hn Hs]; subst.
  transitivity (flat_map (fun e => all_files ([] ++ [fst e]) (snd e)) (get_order entries)).
  - clear - F. induction F as [|e fl l ls Hr F IHF]; [reflexivity|]. cbn [concat flat_map]. apply Permutation_app; assumption.
  - apply Permutation_flat_map. apply (get_order_perm entries); assumption.
Qed.

Lemma dot_diverges x fuel dir :
  listing fuel dir [(txt "a", x); (txt "order.txt", File [txt "."])] = Diverge.
Proof.
  revert dir. induction fuel as [|fuel IH]; intros dir; [reflexivity|].
  cbn [listing]. unfold get_order.
  change (ordered_part [(txt "a", x); (txt "order.txt", File [txt "."])])
    with [(txt ".", Dir [(txt "a", x); (txt "order.txt", File [txt "."])])].
  cbn [app map concat_outcome fst snd]. rewrite IH. reflexivity.
Qed.

(** ** The provider *)
Lemma NoDup_app_snoc {A} (l : list A) x : NoDup l -> ~ In x l -> NoDup (l ++ [x]).
Proof.
  induction 1 as [|y l Hy Hl IH]; intros Hx; [repeat constructor; auto|]. cbn [app]. constructor.
  - rewrite in_app_iff. intros [H|[H|[]]]; [contradiction|]. apply Hx. left. congruence.
  - apply IH. intros H. apply Hx. right. assumption.
Qed.

Section Provider.
  Variable is_dataset : path -> bool.
  Variable name_of : path -> text.
  Variable hashf : text -> nat.

  Definition wanted (f : path) : bool := is_dataset f && negb (is_nil (name_of f)).
  Definition full_path (f : path) : list text := removelast f ++ [name_of f].
  Definition entry_of (f : path) : qname * path :=
    (mkQ (removelast f) (name_of f) (join slash (full_path f)) 0, f).

  Definition known_paths (known : list (qname * path)) : list (list text) := map (fun e => segments_of (fst e)) known.

  Lemma known_in known q p : Forall (fun e => reachable hashf (fst e)) known -> reachable hashf q ->
    map_find (qn_ltb hashf) known q = Some p -> In (segments_of q) (known_paths known).
  Proof.
    intros Hk Rq. induction known as [|(k, v) known IHk]; [discriminate|]. inversion Hk as [|? ? H1 H2]; subst. cbn [fst] in H1.
    cbn [map_find]. destruct (same_key (qn_ltb hashf) k q) eqn:Es.
    - apply same_key_iff in Es; [|assumption..]. left. exact Es.
    - intros Em. right. apply IHk; assumption.
  Qed.
  Lemma known_out known q : Forall (fun e => reachable hashf (fst e)) known -> reachable hashf q ->
    map_find (qn_ltb hashf) known q = None -> ~ In (segments_of q) (known_paths known).
  Proof.
    intros Hk Rq. induction known as [|(k, v) known IHk]; [intros _ []|]. inversion Hk as [|? ? H1 H2]; subst. cbn [fst] in H1.
    cbn [map_find]. destruct (same_key (qn_ltb hashf) k q) eqn:Es; [discriminate|].
    intros Em [E|Hi]; [|apply (IHk H2 Em Hi)]. cbn [fst] in E.
    assert (same_key (qn_ltb hashf) k q = true) by (apply same_key_iff; assumption). congruence.
  Qed.

  Lemma register_spec files : forall known,
    Forall (fun e => reachable hashf (fst e)) known -> NoDup (known_paths known) ->
    (Forall valid_segment (flat_map full_path (filter wanted files)) /\
     NoDup (known_paths known ++ map full_path (filter wanted files)) /\
     register is_dataset name_of hashf files known = Ok (known ++ map entry_of (filter wanted files)))
    \/
    (~ (Forall valid_segment (flat_map full_path (filter wanted files)) /\
        NoDup (known_paths known ++ map full_path (filter wanted files))) /\
     register is_dataset name_of hashf files known = Throw).
  Proof.
    induction files as [|f r IH]; intros known Hk Hd.
    - left. cbn. rewrite !app_nil_r. repeat split; auto.
    - cbn [register filter]. destruct (wanted f) eqn:W; unfold wanted in W.
      2:{ destruct (is_dataset f); cbn [andb] in W; [|apply IH; assumption].
          destruct (is_nil (name_of f)); [apply IH; assumption|discriminate]. }
      apply andb_true_iff in W. destruct W as (-> & W). apply negb_true_iff in W. rewrite W.
      destruct (qn_make_spec (removelast f) (name_of f)) as (Q1 & Q2). fold (full_path f) in *.
      cbn [flat_map map]. rewrite Forall_app.
      destruct (Forall_dec _ valid_dec (full_path f)) as [V|V].
      2:{ right. rewrite (Q2 V). cbn [bind]. split; [|reflexivity]. intros ((H & _) & _). contradiction. }
      rewrite (Q1 V). cbn [bind]. set (q := mkQ _ _ _ _) in *.
      assert (Rq : reachable hashf q) by (apply reach_make with (removelast f) (name_of f); apply Q1; exact V).
      change (full_path f) with (segments_of q). destruct (map_find (qn_ltb hashf) known q) as [p|] eqn:Em.
      + right. split; [|reflexivity]. intros (_ & Hnd). apply NoDup_remove_2 in Hnd. apply Hnd.
        apply in_or_app. left. eapply known_in; eassumption.
      + pose proof (known_out known q Hk Rq Em) as Hn.
        assert (Ek : known_paths (known ++ [(q, f)]) = known_paths known ++ [segments_of q]) by (unfold known_paths; rewrite map_app; reflexivity).
        destruct (IH (known ++ [(q, f)])) as [(I1 & I2 & I3)|(I1 & I2)].
        * apply Forall_app. split; [assumption|]. constructor; [exact Rq|constructor].
        * rewrite Ek. apply NoDup_app_snoc; assumption.
        * left. rewrite Ek, <- app_assoc in I2. split; [split; assumption|]. split; [exact I2|].
          rewrite I3, <- app_assoc. reflexivity.
        * right. rewrite Ek, <- app_assoc in I1. split; [|exact I2]. intros ((_ & H1) & H2). apply I1. split; assumption.
  Qed.
End Provider.

Lemma map_find_known hashf (known : list (qname * path)) q f :
  Forall (fun e => reachable hashf (fst e)) known -> NoDup (known_paths known) -> reachable hashf q ->
  (map_find (qn_ltb hashf) known q = Some f <-> exists q', In (q', f) known /\ segments_of q' = segments_of q).
Proof.
  intros Hk Hd Rq. induction known as [|(k, v) known IH].
  - split; [discriminate|]. intros (q' & [] & _).
  - inversion Hk as [|? ? H1 H2]; subst. cbn [fst] in H1. inversion Hd as [|? ? D1 D2]; subst. cbn [map_find fst] in *.
    destruct (same_key (qn_ltb hashf) k q) eqn:Es.
    + apply same_key_iff in Es; [|assumption..]. split.
      * injection 1 as ->. exists k. split; [left; reflexivity|assumption].
      * intros (q' & [E|Hi] & Eq); [congruence|]. exfalso. apply D1. rewrite Es, <- Eq.
        apply (in_map (fun e => segments_of (fst e))) in Hi. exact Hi.
    + rewrite (IH H2 D2). split; intros (q' & Hi & Eq).
      * exists q'. split; [right; assumption|assumption].
      * destruct Hi as [E|Hi]; [|exists q'; auto]. injection E as -> ->.
        assert (same_key (qn_ltb hashf) q' q = true) by (apply same_key_iff; assumption). congruence.
Qed.

Lemma Forall_flat_map_map {A B} (P : B -> Prop) (f : A -> list B) l :
  Forall P (flat_map f l) <-> Forall (Forall P) (map f l).
Proof.
  induction l as [|x l IH]; simpl; [split; constructor|]. rewrite Forall_app, IH. split.
  - intros (H1 & H2). constructor; assumption.
  - intros H. inversion H; subst. split; assumption.
Qed.

Lemma registration is_dataset name_of hashf files :
  let kept := filter (fun f => is_dataset f && negb (is_nil (name_of f))) files in
  let qualified f := removelast f ++ [name_of f] in
  (Forall (Forall valid_segment) (map qualified kept) /\ NoDup (map qualified kept) ->
     exists p, register is_dataset name_of hashf files [] = Ok p /\
       map snd p = kept /\ map (fun e => segments_of (fst e)) p = map qualified kept /\
       Forall (fun e => reachable hashf (fst e)) p) /\
  (~ (Forall (Forall valid_segment) (map qualified kept) /\ NoDup (map qualified kept)) ->
     register is_dataset name_of hashf files [] = Throw).
Proof.
  cbv zeta. pose proof (register_spec is_dataset name_of hashf files []) as R.
  fold (wanted is_dataset name_of) in *. change (fun f => is_dataset f && negb (is_nil (name_of f))) with (wanted is_dataset name_of).
  change (fun f : list text => removelast f ++ [name_of f]) with (full_path name_of).
  rewrite Forall_flat_map_map in R. cbn [known_paths map app] in R.
  destruct R as [(V & D & E)|(Hn & E)]; [constructor|constructor| |].
  - split; [|intros H; exfalso; apply H; split; assumption]. intros _.
    exists (map (entry_of name_of) (filter (wanted is_dataset name_of) files)). split; [exact E|].
    split; [rewrite map_map; apply map_id|]. split; [rewrite map_map; apply map_ext; reflexivity|].
    apply Forall_map. rewrite Forall_map in V. eapply Forall_impl; [|exact V]. intros f Hf.
    apply reach_make with (removelast f) (name_of f). apply qn_make_spec. exact Hf.
  - split; [intros H; contradiction|]. intros _. exact E.
Qed.

Lemma provider_lookup is_dataset name_of hashf files p q f :
  register is_dataset name_of hashf files [] = Ok p -> reachable hashf q ->
  (provider_find hashf p q = Some f <->
   In f files /\ is_dataset f = true /\ name_of f <> [] /\ removelast f ++ [name_of f] = segments_of q).
Proof.
  intros Hp Rq. pose proof (registration is_dataset name_of hashf files) as R. cbv zeta in R.
  pose proof (register_spec is_dataset name_of hashf files []) as R2. cbn [known_paths map app] in R2.
  destruct R2 as [(V & D & E)|(Hn & E)]; [constructor|constructor| |congruence].
  rewrite Forall_flat_map_map in V.
  destruct R as (R & _). destruct R as (p' & E' & _ & Sp & Fp); [split; assumption|].
  assert (p' = p) by congruence. subst p'. unfold provider_find.
  rewrite (map_find_known hashf p q f Fp); [|unfold known_paths; rewrite Sp; exact D|exact Rq].
  rewrite E in Hp. injection Hp as <-. split.
  - intros (q' & Hi & Eq). apply in_map_iff in Hi. destruct Hi as (f' & Ef & Hf). unfold entry_of in Ef. injection Ef as <- ->.
    apply filter_In in Hf. destruct Hf as (Hf & W). apply andb_true_iff in W. destruct W as (W1 & W2).
    split; [exact Hf|]. split; [exact W1|]. split; [|exact Eq]. apply negb_true_iff in W2. intros En. rewrite En in W2. discriminate.
  - intros (Hf & W1 & W2 & Eq). exists (fst (entry_of name_of f)). split; [|exact Eq].
    apply in_map_iff. exists f. split; [reflexivity|]. apply filter_In. split; [exact Hf|]. unfold wanted. rewrite W1.
    destruct (is_nil (name_of f)) eqn:En; [apply is_nil_iff in En; contradiction|reflexivity].
Qed.
