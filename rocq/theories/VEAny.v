(** The elimination steps for any number type: which factors a step combines, and what the
    entries of the new factors are. *)
From Coq Require Import ZArith List Bool Lia Permutation.
From Verif Require Import Num GoBase VarModel GoFacts SpecFactor Tuples FactorFacts FactorSum FactorProd FactorAt ExactFactor
  FactorThms VEModel SpecVE VEWorlds VEFacts VETopo VEHidden VESolve VEThms.
Import ListNotations.
Open Scope Z_scope.

Section Any.
Context {A : Type} {N : NumOps A}.
Variable sc : sched.
Notation state := (vestate A).
Notation fac := (factor A).

Definition sound_factor (V : list variable) (c : Z) (f : fac) : Prop := wf_factor f /\ incl (f_vars f) V /\ f_id f < c.
Record sound (V : list variable) (s : state) : Prop := {
  s_key : forall e, In e (ve_factors s) -> fst e = f_id (snd e);
  s_fac : forall f, In f (live s) -> sound_factor V (vs_counter (ve_vs s)) f;
  s_nodup : NoDup (map fst (ve_factors s))
}.

Lemma sound_consistent V c fs : wf_vars V -> (forall f, In f fs -> sound_factor V c f) -> consistent fs.
Proof.
  intros HV H f g u w Hf Hg Hu Hw E. eapply wf_vars_inj; eauto.
  - apply (H f Hf). auto.
  - apply (H g Hg). auto.
Qed.

(** The entry of a product: the factor's own entry if there is only one. *)
Definition mult_at (fs : list fac) (a : asg) : A :=
  match fs with [f] => fv f a | _ => fold_left nmul (map (fun f => fv f a) fs) n1 end.

Lemma any_product V c s fs : wf_vars V -> (forall f, In f fs -> sound_factor V c f) ->
  exists f', product s fs = Ok (bump s, f') /\ f_id f' = vs_counter s /\ wf_factor f' /\
    incl (f_vars f') V /\ (forall v, In v (f_vars f') <-> exists f, In f fs /\ In v (f_vars f)) /\
    forall a, in_range (f_vars f') a -> fv f' a = mult_at fs a.
Proof.
  intros HV H. destruct (product_at s fs) as (f' & E & Hid & Hw & Hvs & Hu & Hval).
  - apply Forall_forall. intros f Hf. apply (H f Hf).
  - eapply sound_consistent; eauto.
  - exists f'. do 3 (split; auto). split; [|split; auto].
    + intros v Hv. apply Hvs in Hv. destruct Hv as (f & Hf & Hv). apply (H f Hf). auto.
    + intros a Ha. apply fv_get_at; auto; [apply wf_fits; auto|]. rewrite Hval by auto.
      assert (Hr : forall f, In f fs -> in_range (f_vars f) a).
      { intros f Hf v Hv. apply Ha. apply Hvs. eauto. }
      assert (Hg : forall f, In f fs -> get_at f a = Ok (fv f a)).
      { intros f Hf. apply get_at_fv; auto. apply wf_fits. apply (H f Hf). }
      unfold mult_at. destruct fs as [|f [|g r]]; auto; [apply Hg; simpl; auto|].
      apply prod_of_ok. auto.
Qed.

Lemma any_sum_out V s f v : wf_vars V -> wf_factor f -> incl (f_vars f) V -> In v (f_vars f) ->
  exists f', sum_out s f v = Ok (bump s, f') /\ f_id f' = vs_counter s /\ wf_factor f' /\
    f_vars f' = others (f_vars f) v /\
    forall a, in_range (f_vars f') a ->
      fv f' a = fold_left nadd (map (fun k => fv f (upd a (v_id v) k)) (seq 0 (v_outcomes v))) n0.
Proof.
  intros HV Hw Hi Hv. destruct (sum_out_at s f v) as (f' & E & Hid & Hw' & Hvs & Hd); auto.
  exists f'. do 4 (split; auto). intros a Ha. apply fv_get_at; auto; [apply wf_fits; auto|]. rewrite Hd by auto.
  apply sum_of_ok. intros k Hk. apply in_seq in Hk. apply get_at_fv; [apply wf_fits; auto|].
  rewrite Hvs in Ha. apply in_range_upd; auto; [apply Hw|lia].
Qed.

(** Adding a new factor under its fresh id. *)
Lemma sound_add V s m f vs' :
  sound V s -> (forall e, In e m -> In e (ve_factors s)) -> NoDup (map fst m) ->
  wf_factor f -> incl (f_vars f) V ->
  vs_counter (ve_vs s) <= f_id f < vs_counter vs' ->
  mset Z.eqb m (f_id f) f = m ++ [(f_id f, f)] /\
  forall el dp w t, sound V (mkVE vs' el dp (m ++ [(f_id f, f)]) w t).
Proof.
  intros [Hk Hf Hn] Hm Hnm Hwf Hi Hid.
  assert (Hni : ~ In (f_id f) (map fst m)).
  { intros Hin. apply in_map_iff in Hin. destruct Hin as (e & He & Hin). apply Hm in Hin.
    pose proof (Hk e Hin). assert (In (snd e) (live s)) by (apply in_map; auto).
    destruct (Hf _ H0) as (_ & _ & Hlt). lia. }
  split.
  - apply mset_new; auto. intros; apply Z.eqb_eq.
  - intros. constructor; simpl.
    + intros e He. apply in_app_iff in He. destruct He as [He|[<-|[]]]; auto.
    + unfold live. simpl. intros g Hg. rewrite map_app in Hg. apply in_app_iff in Hg. destruct Hg as [Hg|[<-|[]]].
      * apply in_map_iff in Hg. destruct Hg as (e & <- & He). apply Hm in He.
        destruct (Hf (snd e)) as (h1 & h2 & h3); [apply in_map; auto|]. repeat split; try apply h1; auto. lia.
      * simpl. repeat split; try apply Hwf; auto. lia.
    + rewrite map_app. simpl. apply NoDup_app_single; auto.
Qed.

(** ve/ve.go removeHidden *)
Lemma any_remove_hidden V s v v' : wf_vars V -> sound V s -> In v V ->
  v_id v' = v_id v -> (v_index v' < length (ve_elim s))%nat ->
  (exists f, In f (live s) /\ In v (f_vars f)) ->
  exists s' sel rest new,
    remove_hidden sc s v' = Ok s' /\ sound V s' /\ frame s s' /\
    ve_elim s' = upd_nth (ve_elim s) (v_index v') true /\
    Permutation (live s) (sel ++ rest) /\ live s' = rest ++ [new] /\
    (forall f, In f sel -> In v (f_vars f)) /\
    (forall f, In f rest -> ~ In (v_id v) (map v_id (f_vars f))) /\
    (forall u, In u (f_vars new) <-> (exists f, In f sel /\ In u (f_vars f)) /\ v_id u <> v_id v) /\
    (forall a, in_range V a ->
      fv new a = fold_left nadd (map (fun k => mult_at sel (upd a (v_id v) k)) (seq 0 (v_outcomes v))) n0).
Proof.
  intros HV Hg HvV Hid' Hidx (f0 & Hfv & Hvfv).
  unfold remove_hidden, range_factors. cbn [with_tick ve_factors ve_vs ve_elim ve_tick].
  pose proof (shuffle_perm sc (ve_tick s) _ (ve_factors s)) as Hp.
  set (entries := shuffle sc (ve_tick s) (ve_factors s)) in *.
  set (p := fun '((_, f) : Z * fac) => contains_id (f_vars f) (v_id v')).
  change (filter (fun '(_, f) => contains_id (f_vars f) (v_id v')) entries) with (filter p entries).
  assert (Hsel : forall f, In f (map snd (filter p entries)) <-> In f (live s) /\ In (v_id v) (map v_id (f_vars f))).
  { intros f. rewrite in_map_iff. split.
    - intros ([k g] & <- & Hin). apply filter_In in Hin. destruct Hin as [Hin Hc]. unfold p in Hc.
      apply contains_id_spec in Hc. rewrite Hid' in Hc. split; auto. simpl. apply in_map_iff. exists (k, g). split; auto.
      eapply Permutation_in; [apply Permutation_sym|]; eauto.
    - intros [Hin Hc]. apply in_map_iff in Hin. destruct Hin as ([k g] & E & Hin). simpl in E. subst g.
      exists (k, f). split; auto. apply filter_In. split. eapply Permutation_in; eauto.
      unfold p. apply contains_id_spec. rewrite Hid'. auto. }
  assert (Hin_v : forall f, In f (live s) -> In (v_id v) (map v_id (f_vars f)) -> In v (f_vars f)).
  { intros f Hf Hc. apply in_map_iff in Hc. destruct Hc as (u & E & Hu).
    replace v with u; auto. eapply (wf_vars_inj V); eauto. apply (s_fac _ _ Hg f Hf). auto. }
  destruct (any_product V (vs_counter (ve_vs s)) (ve_vs s) (map snd (filter p entries)))
    as (pr & E1 & Hid1 & Hw1 & Hi1 & Hvs1 & Hval1); auto.
  { intros f Hf. apply Hsel in Hf. apply (s_fac _ _ Hg). tauto. }
  rewrite E1. cbn [gbind].
  assert (Hvpr : In v (f_vars pr)).
  { apply Hvs1. exists f0. split; auto. apply Hsel. split; auto. apply in_map. auto. }
  destruct (any_sum_out V (bump (ve_vs s)) pr v) as (new & E2 & Hid2 & Hw2 & Hvs2 & Hval2); auto.
  rewrite (VEFacts.sum_out_id _ _ _ v) by auto. rewrite E2. cbn [gbind].
  rewrite sset_ok by auto. cbn [gbind].
  set (m := del_all _ _).
  assert (Em : m = filter (fun e => negb (p e)) (ve_factors s)).
  { apply del_all_sel; auto. apply Hg. }
  assert (Hinew : incl (f_vars new) V).
  { rewrite Hvs2. intros u Hu. apply in_others in Hu. apply Hi1. tauto. }
  destruct (sound_add V s m new (bump (bump (ve_vs s)))) as [Hset Hgood]; auto.
  { intros e He. rewrite Em in He. apply filter_In in He. tauto. }
  { rewrite Em. apply NoDup_filter_map. apply Hg. }
  { rewrite Hid2, !bump_counter. lia. }
  rewrite Hset. eexists. exists (map snd (filter p entries)), (map snd m), new. split; [reflexivity|].
  split; [apply Hgood|]. split; [constructor; simpl; auto; lia|]. split; [auto|].
  split. { unfold live. rewrite <- map_app. apply Permutation_map. rewrite Em.
    etransitivity; [apply (filter_split p)|]. apply Permutation_app_tail. apply Permutation_filter. auto. }
  split. { unfold live. simpl. rewrite map_app. auto. }
  split. { intros f Hf. apply Hsel in Hf. apply Hin_v; tauto. }
  split. { intros f Hf. rewrite Em in Hf. apply in_map_iff in Hf. destruct Hf as ([k g] & <- & Hf).
    apply filter_In in Hf. destruct Hf as [_ Hf]. apply negb_true_iff in Hf. intros Hc.
    unfold p in Hf. simpl in Hc. rewrite <- Hid' in Hc. apply contains_id_spec in Hc. congruence. }
  split. { intros u. rewrite Hvs2, in_others, Hvs1. tauto. }
  intros a Ha. rewrite Hval2.
  - f_equal. apply map_ext_in. intros k Hk. apply in_seq in Hk. apply Hval1.
    eapply in_range_incl; [apply Hi1|]. apply in_range_upd'; auto. lia.
  - eapply in_range_incl; eauto.
Qed.

(** ve/ve.go restrictEvidence: one factor with one observation plugged in. *)
Definition any_rel_ev (V : list variable) (ev : evidence) (f f' : fac) : Prop :=
  (forall u, In u V -> (In u (f_vars f') <-> In u (f_vars f) /\ v_id u <> v_id (ev_var ev))) /\
  forall a, in_range V a -> fv f' a = fv f (upd a (v_id (ev_var ev)) (ev_nat ev)).

Lemma any_restrict_evidence V s ev : wf_vars V -> sound V s -> In (ev_var ev) V ->
  0 <= ev_value ev < v_out (ev_var ev) ->
  exists s', restrict_evidence sc s ev = Ok s' /\ sound V s' /\ frame s s' /\ ve_elim s' = ve_elim s /\
    matched (any_rel_ev V ev) (live s) (live s').
Proof.
  intros HV Hg HvV Hval. unfold restrict_evidence, range_factors.
  set (p := fun '((_, f) : Z * fac) => contains_var (f_vars f) (ev_var ev)).
  match goal with |- context [filter ?f ?l] => change (filter f l) with (filter p l) end.
  pose proof (shuffle_perm sc (ve_tick s) _ (ve_factors s)) as Hp.
  set (entries := shuffle sc (ve_tick s) (ve_factors s)) in *.
  match goal with |- context [foldM ?f _ _] => set (step := f) end.
  set (R := fun (ks : list Z) (e e' : Z * fac) =>
    if existsb (Z.eqb (fst e)) ks then any_rel_ev V ev (snd e) (snd e') else e = e').
  assert (G : forall ks s0, sound V s0 -> NoDup ks ->
    (forall k, In k ks -> exists f, In (k, f) (ve_factors s0) /\ In (ev_var ev) (f_vars f)) ->
    exists s', foldM step s0 ks = Ok s' /\ sound V s' /\ frame s0 s' /\ ve_elim s' = ve_elim s0 /\
      matched (R ks) (ve_factors s0) (ve_factors s')).
  { induction ks as [|k ks IH]; intros s0 Hg0 Hnd Hks.
    - exists s0. simpl. split; auto. split; auto. split; [apply frame_refl|]. split; auto.
      apply matched_refl. intros. reflexivity.
    - destruct (Hks k) as (f & Hin & Hv); [simpl; auto|]. cbn [foldM].
      assert (Es : step s0 k = match mget Z.eqb (ve_factors s0) k with
        | None => Panic PNil
        | Some fac =>
          let s1 := with_factors s0 (mdel Z.eqb (ve_factors s0) k) in
          let! (vs, fac2) := restrict (ve_vs s1) fac (ev_var ev) (ev_value ev) in
          Ok (with_factors (with_vs s1 vs) (mset Z.eqb (ve_factors s1) (f_id fac2) fac2)) end) by reflexivity.
      rewrite Es. clear Es. rewrite (In_mget Z.eqb) with (v := f); [|intros; apply Z.eqb_eq|apply Hg0|auto].
      cbn zeta. cbn [with_factors with_vs ve_vs ve_factors].
      assert (Hf : In f (live s0)) by (apply in_map_iff; exists (k, f); auto).
      destruct (s_fac _ _ Hg0 f Hf) as (Hw & Hi & Hid).
      replace (ev_value ev) with (Z.of_nat (ev_nat ev)) by (unfold ev_nat; lia).
      destruct (restrict_at (ve_vs s0) f (ev_var ev) (ev_nat ev)) as (f2 & E & Hid2 & Hw2 & Hvs2 & Hd2); auto.
      { unfold ev_nat, v_out in *. lia. }
      rewrite E. cbn [gbind].
      pose proof (in_split _ _ Hin) as (m1 & m2 & Em).
      assert (Emd : mdel Z.eqb (ve_factors s0) k = m1 ++ m2).
      { rewrite Em. apply mdel_split. rewrite <- Em. apply Hg0. }
      assert (Hi2 : incl (f_vars f2) V).
      { rewrite Hvs2. intros u Hu. apply in_others in Hu. apply Hi. tauto. }
      destruct (sound_add V s0 (m1 ++ m2) f2 (bump (ve_vs s0))) as [Hset Hgood]; auto.
      { intros e He. rewrite Em. rewrite in_app_iff in *. simpl. tauto. }
      { pose proof (s_nodup _ _ Hg0) as Hn. rewrite Em, map_app in Hn. simpl in Hn. apply NoDup_remove_1 in Hn.
        rewrite map_app. auto. }
      { rewrite Hid2, bump_counter. lia. }
      rewrite Emd, Hset. unfold with_factors, with_vs. cbn [ve_vs ve_elim ve_deps ve_weights ve_tick ve_factors].
      match goal with |- context [foldM step ?x ks] => set (s1 := x) end. inversion Hnd as [|? ? Hkn Hnd']; subst.
      destruct (IH s1) as (s' & E' & Hg' & Hfr' & Hel' & Hm'); auto.
      { apply Hgood. }
      { intros k' Hk'. destruct (Hks k') as (f' & Hin' & Hv'); [simpl; auto|]. exists f'. split; auto. simpl.
        rewrite Em in Hin'. rewrite !in_app_iff in *. simpl in *. destruct Hin' as [?|[Heq|?]]; auto.
        inversion Heq; subst. tauto. }
      exists s'. split; auto. split; auto. split.
      { eapply frame_trans; [|apply Hfr']. constructor; simpl; auto. lia. }
      split; [rewrite Hel'; auto|].
      destruct Hm' as (m'' & Hpm & H2). simpl in H2.
      apply Forall2_app_inv_l in H2. destruct H2 as (x12 & y & H12 & Hy & ->).
      apply Forall2_app_inv_l in H12. destruct H12 as (x1 & x2 & H1 & H2 & ->).
      inversion Hy as [|? y' ? ? Hyy Hynil]; subst. inversion Hynil; subst.
      assert (Hfresh : forall k', In k' ks -> k' < vs_counter (ve_vs s0)).
      { intros k' Hk'. destruct (Hks k') as (f' & Hin' & _); [simpl; auto|].
        pose proof (s_key _ _ Hg0 _ Hin') as Hkey. simpl in Hkey. rewrite Hkey. apply (s_fac _ _ Hg0).
        apply in_map_iff. exists (k', f'). auto. }
      unfold R in Hyy. destruct (existsb (Z.eqb (fst (f_id f2, f2))) ks) eqn:Ee.
      { apply existsb_exists in Ee. destruct Ee as (k' & Hk' & Ek'). apply Hfresh in Hk'. simpl in Ek'. lia. }
      subst y'. exists (x1 ++ (f_id f2, f2) :: x2). split.
      { rewrite Hpm. rewrite <- app_assoc. apply Permutation_app_head. symmetry. apply Permutation_cons_append. }
      rewrite Em.
      assert (Hne : forall e, In e (m1 ++ m2) -> (fst e =? k) = false).
      { intros e He. apply Z.eqb_neq. intros Hek. pose proof (s_nodup _ _ Hg0) as Hn. rewrite Em, map_app in Hn.
        simpl in Hn. apply NoDup_remove_2 in Hn. apply Hn. rewrite <- map_app, <- Hek. apply in_map. auto. }
      assert (Hstep : forall l l', incl l (m1 ++ m2) -> Forall2 (R ks) l l' -> Forall2 (R (k :: ks)) l l').
      { clear - Hne. intros l l' Hi H. induction H; constructor.
        - unfold R in *. simpl. rewrite Hne by (apply Hi; simpl; auto). simpl. auto.
        - apply IHForall2. intros z Hz. apply Hi. simpl; auto. }
      apply Forall2_app.
      { apply Hstep; auto. intros z Hz. apply in_app_iff; auto. }
      constructor.
      { unfold R. simpl. rewrite Z.eqb_refl. simpl. split.
        - intros u Hu. rewrite Hvs2. apply in_others.
        - intros a Ha. assert (Ha2 : in_range (f_vars f2) a) by (eapply in_range_incl; eauto).
          apply fv_get_at; auto; [apply wf_fits; auto|]. rewrite Hd2 by auto. apply get_at_fv; [apply wf_fits; auto|].
          eapply in_range_incl; [apply Hi|]. apply in_range_upd'; auto. unfold ev_nat, v_out in *. lia. }
      apply Hstep; auto. intros z Hz. apply in_app_iff; auto. }
  destruct (G (map fst (filter p entries)) (with_tick s (S (ve_tick s)))) as (s' & E & Hg' & Hfr & Hel & Hm).
  { destruct Hg; constructor; auto. }
  { apply NoDup_filter_map. eapply Permutation_NoDup; [apply Permutation_map; eauto|]. apply Hg. }
  { intros k Hk. apply in_map_iff in Hk. destruct Hk as ([k' f] & <- & Hk). apply filter_In in Hk. destruct Hk as [Hk Hc].
    exists f. simpl. split. eapply Permutation_in; [apply Permutation_sym|]; eauto. apply contains_var_spec. auto. }
  exists s'. split; auto. split; auto. split.
  { eapply frame_trans; [|apply Hfr]. constructor; simpl; auto. lia. }
  split; auto. unfold live. eapply matched_map; [|apply Hm]. simpl. intros [k f] e' Hin HR. unfold R in HR. simpl in HR.
  destruct (existsb (Z.eqb k) (map fst (filter p entries))) eqn:Ee; auto.
  subst e'. simpl.
  assert (Hni : ~ In (v_id (ev_var ev)) (map v_id (f_vars f))).
  { intros Hc. assert (Hc' : In (ev_var ev) (f_vars f)).
    { apply in_map_iff in Hc. destruct Hc as (u & Eu & Hu). replace (ev_var ev) with u; auto.
      eapply (wf_vars_inj V); eauto. destruct (s_fac _ _ Hg f) as (_ & Hi & _); auto. apply in_map_iff. exists (k, f). auto. }
    assert (existsb (Z.eqb k) (map fst (filter p entries)) = true); [|congruence].
    apply existsb_exists. exists k. split; [|apply Z.eqb_refl]. apply in_map_iff. exists (k, f). split; auto.
    apply filter_In. split. eapply Permutation_in; eauto. unfold p. apply contains_var_spec. auto. }
  split.
  - intros u Hu. split; [|tauto]. intros Hin'. split; auto. intros E'. apply Hni. rewrite <- E'. apply in_map. auto.
  - intros a Ha. apply fv_ext. intros v Hv. rewrite upd_other; auto. intros E'. apply Hni. rewrite <- E'. apply in_map. auto.
Qed.

(** One factor with all observations plugged in. *)
Definition any_rel_plug (V : list variable) (evs : list evidence) (f f' : fac) : Prop :=
  (forall u, In u V -> (In u (f_vars f') <-> In u (f_vars f) /\ is_evidence evs u = false)) /\
  forall a, in_range V a -> fv f' a = fv f (plug evs a).

Lemma any_eliminate_evidence V : wf_vars V -> forall evs s, sound V s -> valid_evidence V evs ->
  exists s', eliminate_evidence sc s evs = Ok s' /\ sound V s' /\ frame s s' /\ ve_elim s' = ve_elim s /\
    matched (any_rel_plug V evs) (live s) (live s').
Proof.
  intros HV. unfold eliminate_evidence. induction evs as [|ev evs]; intros s Hg He; cbn [foldM].
  - exists s. split; auto. split; auto. split; [apply frame_refl|]. split; auto. apply matched_refl. intros f _. split.
    + intros; simpl; tauto.
    + auto.
  - destruct (He ev) as (H1 & _ & H2); [simpl; auto|].
    destruct (any_restrict_evidence V s ev) as (s1 & E1 & Hg1 & Hf1 & Hel1 & Hm1); auto.
    rewrite E1. cbn [gbind]. destruct (IHevs s1) as (s2 & E2 & Hg2 & Hf2 & Hel2 & Hm2); auto.
    { intros e Hin. apply He. simpl; auto. }
    exists s2. split; auto. split; auto. split; [eapply frame_trans; eauto|]. split; [congruence|].
    eapply matched_comp; [|apply Hm1|apply Hm2]. intros f f1 f2 [Hv1 Hx1] [Hv2 Hx2]. split.
    + intros u Hu. rewrite Hv2, Hv1 by auto. simpl. rewrite orb_false_iff, Z.eqb_neq. intuition.
    + intros a Ha. rewrite Hx2 by auto. simpl. apply Hx1. apply plug_range; auto. intros e Hin. apply He; simpl; auto.
Qed.

(** removeUtilities(nil) *)
Lemma any_remove_utilities V s : wf_vars V -> sound V s -> vs_vars (ve_vs s) = V ->
  sound V (remove_utilities sc s None) /\ frame s (remove_utilities sc s None) /\
  ve_elim (remove_utilities sc s None) = ve_elim s /\
  live (remove_utilities sc s None) = prob_factors (live s).
Proof.
  intros HV Hg EV. unfold remove_utilities.
  assert (Eu : filter (fun _ : variable => true) (utility_vars s) = utility_vars s) by (apply filter_all_true; auto).
  rewrite Eu. unfold utility_vars. rewrite EV. set (us := filter (fun v => nodeType_eqb (v_type v) Utility) V).
  assert (Hus : us = filter (fun v => nodeType_eqb (v_type v) Utility) V) by reflexivity. clearbody us.
  assert (Hcu : forall f : fac, incl (f_vars f) V -> existsb (contains_var (f_vars f)) us = is_utility_factor f).
  { intros f Hi. rewrite Hus. apply eq_true_iff_eq. unfold is_utility_factor. rewrite !existsb_exists. split.
    - intros (u & Hu & Hc). apply filter_In in Hu. apply contains_var_spec in Hc. exists u. tauto.
    - intros (u & Hu & Hc). exists u. split. apply filter_In. split; auto. apply contains_var_spec. auto. }
  clear Hus. destruct us as [|u r].
  - split; auto. split; [apply frame_refl|]. split; auto. unfold prob_factors. symmetry. apply filter_all_true.
    intros f Hf. apply negb_true_iff. rewrite <- Hcu; auto. apply (s_fac _ _ Hg f Hf).
  - unfold range_factors.
    pose proof (shuffle_perm sc (ve_tick s) _ (ve_factors s)) as Hp.
    match goal with |- context [filter ?f (shuffle _ _ _)] => set (p := f) end.
    match goal with |- context [fold_left ?f ?l ?m] => change (fold_left f l m) with (del_all m l) end.
    rewrite (del_all_sel (ve_factors s) _ p) by (try apply Hg; auto).
    assert (Hin : forall e, In e (filter (fun e => negb (p e)) (ve_factors s)) -> In e (ve_factors s)).
    { intros e He. apply filter_In in He. tauto. }
    split; [|split; [|split]].
    + destruct Hg as [Hgk Hgf Hgn]. constructor; simpl; auto.
      * intros f Hf. apply Hgf. apply in_map_iff in Hf. destruct Hf as (e & <- & He). apply in_map. auto.
      * apply NoDup_filter_map. auto.
    + constructor; simpl; auto. lia.
    + auto.
    + unfold live, prob_factors. simpl. rewrite filter_map_comm. f_equal. apply filter_ext_in. intros [k f] He. f_equal.
      unfold p. apply Hcu. apply (s_fac _ _ Hg f). apply in_map_iff. exists (k, f). auto.
Qed.

(** multiplyAll *)
Lemma any_multiply_all V s : wf_vars V -> sound V s ->
  exists s' f fs, multiply_all sc s = Ok (s', f) /\ wf_factor f /\ Permutation (live s) fs /\
    frame s s' /\ f_id f < vs_counter (ve_vs s') /\
    (forall v, In v (f_vars f) <-> in_scope s v) /\ incl (f_vars f) V /\
    (forall a, in_range V a -> fv f a = mult_at fs a).
Proof.
  intros HV Hg. unfold multiply_all, range_factors. cbn [with_tick ve_vs].
  pose proof (shuffle_perm sc (ve_tick s) _ (ve_factors s)) as Hp.
  set (entries := shuffle sc (ve_tick s) (ve_factors s)) in *.
  assert (Hpl : Permutation (live s) (map snd entries)) by (apply Permutation_map; auto).
  destruct (any_product V (vs_counter (ve_vs s)) (ve_vs s) (map snd entries))
    as (f & E & Hid & Hw & Hi & Hvs & Hval); auto.
  { intros g Hgin. apply (s_fac _ _ Hg). eapply Permutation_in; [apply Permutation_sym|]; eauto. }
  rewrite E. cbn [gbind]. eexists. exists f, (map snd entries). split; [reflexivity|]. do 2 (split; auto).
  split; [constructor; simpl; auto; lia|]. split; [simpl; rewrite Hid; lia|]. split; [|split; auto].
  - intros v. rewrite Hvs. split; intros (g & Hgin & Hv); exists g; split; auto.
    + eapply Permutation_in; [apply Permutation_sym|]; eauto.
    + eapply Permutation_in; eauto.
  - intros a Ha. apply Hval. eapply in_range_incl; eauto.
Qed.
End Any.
