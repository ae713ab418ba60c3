(** Evidence, utilities and the final product. *)
From Coq Require Import ZArith List Bool Lia Permutation QArith Qcanon.
From Verif Require Import Num GoBase VarModel GoFacts SpecFactor Tuples FactorFacts FactorSum FactorAt XnumFacts ExactFactor
  FactorThms VEModel SpecVE VEWorlds VEFacts VETopo VEHidden.
Import ListNotations.
Open Scope Z_scope.

(** The lists agree elementwise up to reordering the second. *)
Definition matched {X Y} (R : X -> Y -> Prop) (l : list X) (l' : list Y) : Prop :=
  exists l'', Permutation l' l'' /\ Forall2 R l l''.

Lemma Forall2_perm_l {X Y} (R : X -> Y -> Prop) l l1 : Permutation l l1 -> forall l', Forall2 R l l' ->
  exists l1', Permutation l' l1' /\ Forall2 R l1 l1'.
Proof.
  induction 1; intros l0 H2.
  - inversion H2; subst. exists []. auto.
  - inversion H2; subst. destruct (IHPermutation _ H5) as (l1' & Hp & Hf). exists (y :: l1'). auto.
  - inversion H2; subst. inversion H4; subst. exists (y1 :: y0 :: l'0). split; auto. apply perm_swap.
  - destruct (IHPermutation1 _ H2) as (l1' & Hp & Hf). destruct (IHPermutation2 _ Hf) as (l2' & Hp2 & Hf2).
    exists l2'. split; auto. etransitivity; eauto.
Qed.

Lemma Forall2_comp {X Y Z} (R : X -> Y -> Prop) (Q : Y -> Z -> Prop) (T : X -> Z -> Prop) :
  (forall x y z, R x y -> Q y z -> T x z) -> forall l1 l2 l3, Forall2 R l1 l2 -> Forall2 Q l2 l3 -> Forall2 T l1 l3.
Proof.
  intros H l1 l2 l3 H1. revert l3. induction H1; intros l3 H3; inversion H3; subst; constructor; eauto.
Qed.

Lemma matched_comp {X Y Z} (R : X -> Y -> Prop) (Q : Y -> Z -> Prop) (T : X -> Z -> Prop) l1 l2 l3 :
  (forall x y z, R x y -> Q y z -> T x z) -> matched R l1 l2 -> matched Q l2 l3 -> matched T l1 l3.
Proof.
  intros H (l2' & Hp2 & H2) (l3' & Hp3 & H3).
  destruct (Forall2_perm_l Q l2 l2' Hp2 l3' H3) as (l4 & Hp4 & H4).
  exists l4. split; [etransitivity; eauto|]. eapply Forall2_comp; eauto.
Qed.

Lemma matched_refl {X} (R : X -> X -> Prop) l : (forall x, In x l -> R x x) -> matched R l l.
Proof. intros H. exists l. split; auto. induction l; constructor; auto. apply H; simpl; auto. apply IHl. intros; apply H; simpl; auto. Qed.

Lemma matched_map {X Y X' Y'} (R : X -> Y -> Prop) (Q : X' -> Y' -> Prop) (g : X -> X') (h : Y -> Y') l l' :
  (forall x y, In x l -> R x y -> Q (g x) (h y)) -> matched R l l' -> matched Q (map g l) (map h l').
Proof.
  intros H (l'' & Hp & H2). exists (map h l''). split. apply Permutation_map; auto.
  clear Hp. induction H2; simpl; constructor. apply H; simpl; auto. apply IHForall2. intros; apply H; simpl; auto.
Qed.

Lemma matched_filter {X Y} (R : X -> Y -> Prop) p q l l' :
  (forall x y, In x l -> In y l' -> R x y -> p x = q y) -> matched R l l' -> matched R (filter p l) (filter q l').
Proof.
  intros H (l'' & Hp & H2). exists (filter q l''). split; [apply Permutation_filter; auto|].
  assert (H' : forall x y, In x l -> In y l'' -> R x y -> p x = q y).
  { intros x y Hx Hy. apply H; auto. eapply Permutation_in; [apply Permutation_sym|]; eauto. }
  clear Hp H. induction H2; simpl; auto.
  specialize (IHForall2 (fun x y Hx Hy => H' x y (or_intror Hx) (or_intror Hy))).
  rewrite (H' x y) by (simpl; auto). destruct (q y); auto.
Qed.

Lemma mdel_split {A} (m1 m2 : list (Z * factor A)) k f : NoDup (map fst (m1 ++ (k, f) :: m2)) ->
  mdel Z.eqb (m1 ++ (k, f) :: m2) k = m1 ++ m2.
Proof.
  intros Hn. unfold mdel. rewrite filter_app. simpl. rewrite Z.eqb_refl. simpl.
  rewrite map_app in Hn. simpl in Hn. apply NoDup_remove_2 in Hn. rewrite in_app_iff in Hn.
  rewrite !filter_all_true; auto.
  - intros [k' f'] Hin. simpl. apply negb_true_iff, Z.eqb_neq. intros ->. apply Hn. right. apply in_map_iff. exists (k', f'). auto.
  - intros [k' f'] Hin. simpl. apply negb_true_iff, Z.eqb_neq. intros ->. apply Hn. left. apply in_map_iff. exists (k', f'). auto.
Qed.

Section S.
Variable sc : sched.

Definition ev_nat (ev : evidence) : nat := Z.to_nat (ev_value ev).

(** One factor with one observation plugged in. *)
Definition rel_ev (V : list variable) (ev : evidence) (f f' : fac) : Prop :=
  (forall u, In u V -> (In u (f_vars f') <-> In u (f_vars f) /\ v_id u <> v_id (ev_var ev))) /\
  forall a, in_range V a -> value f' a = value f (upd a (v_id (ev_var ev)) (ev_nat ev)).

Lemma restrict_evidence_step V s ev : wf_vars V -> good V s -> In (ev_var ev) V ->
  0 <= ev_value ev < v_out (ev_var ev) ->
  exists s', restrict_evidence sc s ev = Ok s' /\ good V s' /\ frame s s' /\ ve_elim s' = ve_elim s /\
    matched (rel_ev V ev) (live s) (live s').
Proof.
  intros HV Hg HvV Hval. unfold restrict_evidence, range_factors.
  set (p := fun '((_, f) : Z * fac) => contains_var (f_vars f) (ev_var ev)).
  match goal with |- context [filter ?f ?l] => change (filter f l) with (filter p l) end.
  pose proof (shuffle_perm sc (ve_tick s) _ (ve_factors s)) as Hp.
  set (entries := shuffle sc (ve_tick s) (ve_factors s)) in *.
  match goal with |- context [foldM ?f _ _] => set (step := f) end.
  set (R := fun (ks : list Z) (e e' : Z * fac) =>
    if existsb (Z.eqb (fst e)) ks then rel_ev V ev (snd e) (snd e') else e = e').
  assert (G : forall ks s0, good V s0 -> NoDup ks ->
    (forall k, In k ks -> exists f, In (k, f) (ve_factors s0) /\ In (ev_var ev) (f_vars f)) ->
    exists s', foldM step s0 ks = Ok s' /\ good V s' /\ frame s0 s' /\ ve_elim s' = ve_elim s0 /\
      matched (R ks) (ve_factors s0) (ve_factors s')).
  { induction ks as [|k ks IH]; intros s0 Hg0 Hnd Hks.
    - exists s0. simpl. split; auto. split; auto. split; [apply frame_refl|]. split; auto.
      apply matched_refl. intros. reflexivity.
    - destruct (Hks k) as (f & Hin & Hv); [simpl; auto|]. cbn [foldM].
      assert (Es : step s0 k = match mget Z.eqb (ve_factors s0) k with
        | None => Panic PNil
        | Some fac =>
          let s1 := with_factors s0 (mdel Z.eqb (ve_factors s0) k) in
          let! (vs, fac2) := restrict (ve_vs s1) fac (ev_var ev) (ev_value ev) in
          Ok (with_factors (with_vs s1 vs) (mset Z.eqb (ve_factors s1) (f_id fac2) fac2)) end) by reflexivity.
      rewrite Es. clear Es. rewrite (In_mget Z.eqb) with (v := f); [|intros; apply Z.eqb_eq|apply Hg0|auto].
      cbn zeta. cbn [with_factors with_vs ve_vs ve_factors].
      assert (Hf : In f (live s0)) by (apply in_map_iff; exists (k, f); auto).
      destruct (g_fac _ _ Hg0 f Hf) as (Hw & Hfin & Hi & Hid).
      replace (ev_value ev) with (Z.of_nat (ev_nat ev)) by (unfold ev_nat; lia).
      destruct (denotes_restrict (ve_vs s0) f (ev_var ev) (ev_nat ev) (value f)) as (f2 & E & Hid2 & Hw2 & Hvs2 & Hd2); auto.
      { unfold ev_nat, v_out in *. lia. } { apply finite_denotes; auto. }
      rewrite E. cbn [gbind].
      pose proof (in_split _ _ Hin) as (m1 & m2 & Em).
      assert (Emd : mdel Z.eqb (ve_factors s0) k = m1 ++ m2).
      { rewrite Em. apply mdel_split. rewrite <- Em. apply Hg0. }
      assert (Hi2 : incl (f_vars f2) V).
      { rewrite Hvs2. intros u Hu. apply in_others in Hu. apply Hi. tauto. }
      destruct (good_add V s0 (m1 ++ m2) f2 (bump (ve_vs s0))) as [Hset Hgood]; auto.
      { intros e He. rewrite Em. rewrite in_app_iff in *. simpl. tauto. }
      { pose proof (g_nodup _ _ Hg0) as Hn. rewrite Em, map_app in Hn. simpl in Hn. apply NoDup_remove_1 in Hn.
        rewrite map_app. auto. }
      { eapply denotes_finite; eauto. }
      { rewrite Hid2, bump_counter. lia. }
      rewrite Emd, Hset. unfold with_factors, with_vs. cbn [ve_vs ve_elim ve_deps ve_weights ve_tick ve_factors].
      match goal with |- context [foldM step ?x ks] => set (s1 := x) end. inversion Hnd as [|? ? Hkn Hnd']; subst.
      destruct (IH s1) as (s' & E' & Hg' & Hfr' & Hel' & Hm'); auto.
      { apply Hgood. }
      { intros k' Hk'. destruct (Hks k') as (f' & Hin' & Hv'); [simpl; auto|]. exists f'. split; auto. simpl.
        rewrite Em in Hin'. rewrite !in_app_iff in *. simpl in *. destruct Hin' as [?|[Heq|?]]; auto.
        inversion Heq; subst. tauto. }
      exists s'. split; auto. split; auto. split.
      { eapply frame_trans; [|apply Hfr']. constructor; simpl; auto. lia. }
      split; [rewrite Hel'; auto|].
      destruct Hm' as (m'' & Hpm & H2). simpl in H2.
      apply Forall2_app_inv_l in H2. destruct H2 as (x12 & y & H12 & Hy & ->).
      apply Forall2_app_inv_l in H12. destruct H12 as (x1 & x2 & H1 & H2 & ->).
      inversion Hy as [|? y' ? ? Hyy Hynil]; subst. inversion Hynil; subst.
      assert (Hfresh : forall k', In k' ks -> k' < vs_counter (ve_vs s0)).
      { intros k' Hk'. destruct (Hks k') as (f' & Hin' & _); [simpl; auto|].
        pose proof (g_key _ _ Hg0 _ Hin') as Hkey. simpl in Hkey. rewrite Hkey. apply (g_fac _ _ Hg0).
        apply in_map_iff. exists (k', f'). auto. }
      unfold R in Hyy. destruct (existsb (Z.eqb (fst (f_id f2, f2))) ks) eqn:Ee.
      { apply existsb_exists in Ee. destruct Ee as (k' & Hk' & Ek'). apply Hfresh in Hk'. simpl in Ek'. lia. }
      subst y'. exists (x1 ++ (f_id f2, f2) :: x2). split.
      { rewrite Hpm. rewrite <- app_assoc. apply Permutation_app_head. symmetry. apply Permutation_cons_append. }
      rewrite Em.
      assert (Hne : forall e, In e (m1 ++ m2) -> (fst e =? k) = false).
      { intros e He. apply Z.eqb_neq. intros Hek. pose proof (g_nodup _ _ Hg0) as Hn. rewrite Em, map_app in Hn.
        simpl in Hn. apply NoDup_remove_2 in Hn. apply Hn. rewrite <- map_app, <- Hek. apply in_map. auto. }
      assert (Hstep : forall l l', incl l (m1 ++ m2) -> Forall2 (R ks) l l' -> Forall2 (R (k :: ks)) l l').
      { clear - Hne. intros l l' Hi H. induction H; constructor.
        - unfold R in *. simpl. rewrite Hne by (apply Hi; simpl; auto). simpl. auto.
        - apply IHForall2. intros z Hz. apply Hi. simpl; auto. }
      apply Forall2_app.
      { apply Hstep; auto. intros z Hz. apply in_app_iff; auto. }
      constructor.
      { unfold R. simpl. rewrite Z.eqb_refl. simpl. split.
        - intros u Hu. rewrite Hvs2. apply in_others.
        - intros a Ha. rewrite (denotes_value _ _ _ Hd2); auto. eapply in_range_incl; eauto. }
      apply Hstep; auto. intros z Hz. apply in_app_iff; auto. }
  destruct (G (map fst (filter p entries)) (with_tick s (S (ve_tick s)))) as (s' & E & Hg' & Hfr & Hel & Hm).
  { destruct Hg; constructor; auto. }
  { apply NoDup_filter_map. eapply Permutation_NoDup; [apply Permutation_map; eauto|]. apply Hg. }
  { intros k Hk. apply in_map_iff in Hk. destruct Hk as ([k' f] & <- & Hk). apply filter_In in Hk. destruct Hk as [Hk Hc].
    exists f. simpl. split. eapply Permutation_in; [apply Permutation_sym|]; eauto. apply contains_var_spec. auto. }
  exists s'. split; auto. split; auto. split.
  { eapply frame_trans; [|apply Hfr]. constructor; simpl; auto. lia. }
  split; auto. unfold live. eapply matched_map; [|apply Hm]. simpl. intros [k f] e' Hin HR. unfold R in HR. simpl in HR.
  destruct (existsb (Z.eqb k) (map fst (filter p entries))) eqn:Ee; auto.
  subst e'. simpl. 
  assert (Hni : ~ In (v_id (ev_var ev)) (map v_id (f_vars f))).
  { intros Hc. assert (Hc' : In (ev_var ev) (f_vars f)).
    { apply in_map_iff in Hc. destruct Hc as (u & Eu & Hu). replace (ev_var ev) with u; auto.
      eapply (wf_vars_inj V); eauto. destruct (g_fac _ _ Hg f) as (_ & _ & Hi & _); auto. apply in_map_iff. exists (k, f). auto. }
    assert (existsb (Z.eqb k) (map fst (filter p entries)) = true); [|congruence].
    apply existsb_exists. exists k. split; [|apply Z.eqb_refl]. apply in_map_iff. exists (k, f). split; auto.
    apply filter_In. split. eapply Permutation_in; eauto. unfold p. apply contains_var_spec. auto. }
  split.
  - intros u Hu. split; [|tauto]. intros Hin'. split; auto. intros E'. apply Hni. rewrite <- E'. apply in_map. auto.
  - intros a Ha. symmetry. apply value_ignores. auto.
Qed.

(** One factor with all observations plugged in. *)
Definition rel_plug (V : list variable) (evs : list evidence) (f f' : fac) : Prop :=
  (forall u, In u V -> (In u (f_vars f') <-> In u (f_vars f) /\ is_evidence evs u = false)) /\
  forall a, in_range V a -> value f' a = value f (plug evs a).

Lemma eliminate_evidence_step V : wf_vars V -> forall evs s, good V s -> valid_evidence V evs ->
  exists s', eliminate_evidence sc s evs = Ok s' /\ good V s' /\ frame s s' /\ ve_elim s' = ve_elim s /\
    matched (rel_plug V evs) (live s) (live s').
Proof.
  intros HV. unfold eliminate_evidence. induction evs as [|ev evs]; intros s Hg He; cbn [foldM].
  - exists s. split; auto. split; auto. split; [apply frame_refl|]. split; auto. apply matched_refl. intros f _. split.
    + intros; simpl; tauto.
    + auto.
  - destruct (He ev) as (H1 & _ & H2); [simpl; auto|].
    destruct (restrict_evidence_step V s ev) as (s1 & E1 & Hg1 & Hf1 & Hel1 & Hm1); auto.
    rewrite E1. cbn [gbind]. destruct (IHevs s1) as (s2 & E2 & Hg2 & Hf2 & Hel2 & Hm2); auto.
    { intros e Hin. apply He. simpl; auto. }
    exists s2. split; auto. split; auto. split; [eapply frame_trans; eauto|]. split; [congruence|].
    eapply matched_comp; [|apply Hm1|apply Hm2]. intros f f1 f2 [Hv1 Hx1] [Hv2 Hx2]. split.
    + intros u Hu. rewrite Hv2, Hv1 by auto. simpl. rewrite orb_false_iff, Z.eqb_neq. intuition.
    + intros a Ha. rewrite Hx2 by auto. simpl. apply Hx1. apply plug_range; auto. intros e Hin. apply He; simpl; auto.
Qed.

(** *** Utilities *)
Lemma contains_utility V (f : fac) : wf_vars V -> incl (f_vars f) V ->
  existsb (contains_var (f_vars f)) (filter (fun v => nodeType_eqb (v_type v) Utility) V) = is_utility_factor f.
Proof.
  intros HV Hi. apply eq_true_iff_eq. unfold is_utility_factor. rewrite !existsb_exists. split.
  - intros (u & Hu & Hc). apply filter_In in Hu. apply contains_var_spec in Hc. exists u. tauto.
  - intros (u & Hu & Hc). exists u. split. apply filter_In. split; auto. apply contains_var_spec. auto.
Qed.

(** removeUtilities(nil): the factors mentioning utility variables are dropped. *)
Lemma remove_utilities_step V s : wf_vars V -> good V s -> vs_vars (ve_vs s) = V ->
  good V (remove_utilities sc s None) /\ frame s (remove_utilities sc s None) /\
  ve_elim (remove_utilities sc s None) = ve_elim s /\
  live (remove_utilities sc s None) = prob_factors (live s).
Proof.
  intros HV Hg EV. unfold remove_utilities.
  assert (Eu : filter (fun _ : variable => true) (utility_vars s) = utility_vars s) by (apply filter_all_true; auto).
  rewrite Eu. unfold utility_vars. rewrite EV. set (us := filter (fun v => nodeType_eqb (v_type v) Utility) V).
  assert (Hus : us = filter (fun v => nodeType_eqb (v_type v) Utility) V) by reflexivity. clearbody us.
  assert (Hcu : forall f : fac, incl (f_vars f) V -> existsb (contains_var (f_vars f)) us = is_utility_factor f).
  { intros f Hi. rewrite Hus. apply contains_utility; auto. }
  clear Hus. destruct us as [|u r].
  - split; auto. split; [apply frame_refl|]. split; auto. unfold prob_factors. symmetry. apply filter_all_true.
    intros f Hf. apply negb_true_iff. rewrite <- Hcu; auto. apply (g_fac _ _ Hg f Hf).
  - unfold range_factors.
    pose proof (shuffle_perm sc (ve_tick s) _ (ve_factors s)) as Hp.
    match goal with |- context [filter ?f (shuffle _ _ _)] => set (p := f) end.
    match goal with |- context [fold_left ?f ?l ?m] => change (fold_left f l m) with (del_all m l) end.
    rewrite (del_all_sel (ve_factors s) _ p) by (try apply Hg; auto).
    assert (Hin : forall e, In e (filter (fun e => negb (p e)) (ve_factors s)) -> In e (ve_factors s)).
    { intros e He. apply filter_In in He. tauto. }
    split; [|split; [|split]].
    + destruct Hg as [Hgk Hgf Hgn]. constructor; simpl; auto.
      * intros f Hf. apply Hgf. apply in_map_iff in Hf. destruct Hf as (e & <- & He). apply in_map. auto.
      * apply NoDup_filter_map. auto.
    + constructor; simpl; auto. lia.
    + auto.
    + unfold live, prob_factors. simpl. rewrite filter_map_comm. f_equal. apply filter_ext_in. intros [k f] He. f_equal.
      unfold p. apply Hcu. apply (g_fac _ _ Hg f). apply in_map_iff. exists (k, f). auto.
Qed.

(** multiplyAll *)
Lemma multiply_all_step V s : wf_vars V -> good V s ->
  exists s' f, multiply_all sc s = Ok (s', f) /\ wf_factor f /\ finite_factor f /\ f_id f = vs_counter (ve_vs s) /\
    frame s s' /\ vs_counter (ve_vs s') = vs_counter (ve_vs s) + 1 /\
    (forall v, In v (f_vars f) <-> in_scope s v) /\ incl (f_vars f) V /\
    (forall a, in_range V a -> value f a = weight_of (live s) a).
Proof.
  intros HV Hg. unfold multiply_all, range_factors. cbn [with_tick ve_vs].
  pose proof (shuffle_perm sc (ve_tick s) _ (ve_factors s)) as Hp.
  set (entries := shuffle sc (ve_tick s) (ve_factors s)) in *.
  assert (Hpl : Permutation (live s) (map snd entries)) by (apply Permutation_map; auto).
  destruct (good_product V (vs_counter (ve_vs s)) (ve_vs s) (map snd entries))
    as (f & E & Hid & Hw & Hf & Hi & Hvs & Hval); auto.
  { intros g Hgin. apply (g_fac _ _ Hg). eapply Permutation_in; [apply Permutation_sym|]; eauto. }
  rewrite E. cbn [gbind]. eexists. exists f. split; [reflexivity|]. do 3 (split; auto).
  split; [constructor; simpl; auto; lia|]. split; [auto|]. split; [|split; auto].
  - intros v. rewrite Hvs. split; intros (g & Hgin & Hv); exists g; split; auto.
    + eapply Permutation_in; [apply Permutation_sym|]; eauto.
    + eapply Permutation_in; eauto.
  - intros a Ha. rewrite Hval by (eapply in_range_incl; eauto). symmetry. apply weight_perm. auto.
Qed.

End S.
