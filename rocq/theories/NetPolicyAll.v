(** SolvePolicies on networks: all decisions in one pass. *)
From Coq Require Import ZArith List Bool String Lia Permutation QArith Qcanon.
From Verif Require Import Num GoBase VarModel GoFacts Tuples SpecFactor FactorFacts FactorAt XnumFacts ExactFactor FactorThms
  VEModel SpecVE VEWorlds VEFacts VEHidden VESolve VEThms VEUtil SpecPolicy VEPolicy VEOptimal VEPolicyAll NetModel SpecNet NetVars NetFactors NetVE NetSums
  NetQuery NetEvents NetUtil NetMass NetHistory SpecNetPolicy NetPolicy NetPolicyStep NetPolicyLoop.
Import ListNotations.
Open Scope string_scope.
Open Scope list_scope.
Open Scope Z_scope.

(** Sums only look at the ids and the numbers of outcomes of the variables. *)
Lemma total_ids F : forall L L' a, Forall2 (fun u v => v_id u = v_id v /\ v_outcomes u = v_outcomes v) L L' -> total F L a = total F L' a.
Proof.
  intros L L' a H. revert a. induction H as [|u v L L' [E1 E2] _ IH]; intros a; auto.
  rewrite !total_cons, E1, E2. apply qsum_ext. intros k _. auto.
Qed.

(** ** The order of the stored policies *)
Lemma has_key_perm {W} (m m' : list (string * W)) x : Permutation m m' -> has_key m x = has_key m' x.
Proof.
  intros H. apply eq_true_iff_eq. rewrite !has_key_spec. split; apply Permutation_in; apply Permutation_map; auto. apply Permutation_sym. auto.
Qed.

Lemma ps_perm n P : partly_solved n -> Permutation (n_policies n) P -> partly_solved (with_policies n P).
Proof.
  intros [x1 x2 x3 x4] H. assert (Hin : forall dp, In dp P -> In dp (n_policies n)) by (intros dp; apply Permutation_in; apply Permutation_sym; auto).
  constructor; auto.
  - destruct x1 as [y1 y2 y3 y4 y5 y6 y7 y8]. constructor; auto. destruct y1 as [w1 w2 w3 w4 w5 w6 w7 w8 w9]. constructor; auto.
    + intros f Hf Ht. destruct (w6 f Hf Ht). constructor; auto.
    + cbn [with_policies n_policies]. eapply Permutation_NoDup; [apply Permutation_map, H|auto].
    + intros x p Hx. destruct (w9 x p (Hin _ Hx)) as [a b c e g]. constructor; auto. intros v Hv. destruct (e v Hv) as (i & nv & e1 & e2 & e3 & e4 & e5 & e6).
      exists i, nv. repeat split; auto. destruct e6 as [e6|(e6 & e7 & e8)]; auto. right. repeat split; auto. cbn [with_policies n_policies]. rewrite <- (has_key_perm _ _ _ H). auto.
  - intros d p Hd. apply Hin in Hd. destruct (x3 d p Hd) as [[q1 q2 q3] Hi]. split; auto. constructor; auto.
  - intros d e Hd He Hk. cbn [with_policies n_policies] in Hd, Hk. rewrite <- (has_key_perm _ _ d H) in Hd. rewrite <- (has_key_perm _ _ e H) in Hk. apply x4; auto.
Qed.

Lemma open_perm n P : Permutation (n_policies n) P -> open_ones (with_policies n P) = open_ones n.
Proof.
  intros H. unfold open_ones. apply filter_ext. intros d. cbn [with_policies n_policies]. rewrite (has_key_perm _ _ _ H). auto.
Qed.

Lemma mixed_perm n P sigma : Permutation (n_policies n) P -> mixed_value (with_policies n P) sigma = mixed_value n sigma.
Proof.
  intros H. unfold mixed_value. rewrite (open_perm n P H). change (worlds_of (with_policies n P)) with (worlds_of n). apply qsum_ext. intros s _.
  f_equal. f_equal. unfold joint. f_equal. cbn [with_policies n_policies n_vars]. rewrite !filter_all by auto.
  apply qprod_perm. apply Permutation_map. apply Permutation_sym. auto.
Qed.

Section Grow.
Variable n : network xnum.
Notation vars := (n_vars n).
Notation vv := (vv n).
Notation by_name := (by_name n).
Notation known := (known n).
Notation V := (net_vars n).
Hypothesis Hps : partly_solved n.
Let Hdn := ps_net n Hps.
Let Hwf : wf_network n := dn_wf _ Hdn.

(** The network with further policies. *)
Definition grown (ps : list (string * factor xnum)) : network xnum := with_policies n (n_policies n ++ ps).

Lemma grown_plus ps d pol : plus (grown ps) d pol = grown (ps ++ [(d, pol)]).
Proof. unfold plus, grown, with_policies. cbn. rewrite <- app_assoc. reflexivity. Qed.

Lemma grown_key ps x : has_key (n_policies (grown ps)) x = has_key (n_policies n) x || has_key ps x.
Proof.
  apply eq_true_iff_eq. rewrite orb_true_iff, !has_key_spec. cbn [grown with_policies n_policies]. rewrite map_app, in_app_iff. tauto.
Qed.

Lemma grown_vv ps x : wf_network (grown ps) -> known x ->
  v_id (NetFactors.vv (grown ps) x) = v_id (vv x) /\ v_outcomes (NetFactors.vv (grown ps) x) = v_outcomes (vv x) /\
  (~ In x (map fst ps) -> NetFactors.vv (grown ps) x = vv x) /\
  (In x (map fst ps) -> v_type (vv x) = Decision -> v_type (NetFactors.vv (grown ps) x) = Chance).
Proof.
  intros Hwg Hk. destruct (lookup_known n Hwf x Hk) as (i & v & Hi & Hn & Hv & _ & E).
  destruct (lookup_known (grown ps) Hwg x Hk) as (j & u & Hj & Hu & Hvu & _ & E').
  change (n_vars (grown ps)) with vars in *. assert (u = v) by congruence. subst u.
  assert (j = i). { eapply (name_pos_inj n Hwf); eauto. }
  subst j. unfold NetFactors.vv. rewrite E, E'. cbn [ve_entry en_ve v_id v_outcomes v_type fst snd].
  split; auto. split; auto. split.
  - intros Hx. assert (Et : ve_type (grown ps) v = ve_type n v); [|unfold ve_entry; rewrite Et; reflexivity].
    unfold ve_type. rewrite grown_key, Hn. destruct (has_key ps x) eqn:Ek. { exfalso. apply Hx. apply has_key_spec. auto. } rewrite orb_false_r. auto.
  - intros Hx. unfold ve_type. rewrite grown_key, Hn. apply has_key_spec in Hx. rewrite Hx, orb_true_r, andb_true_r.
    destruct (nodeType_eqb (nv_type v) Decision) eqn:Ed; auto. intros Ht. exfalso. simpl in Ht. rewrite Ht in Ed. discriminate.
Qed.

Lemma grown_by_name ps a y : wf_network (grown ps) -> NetFactors.by_name (grown ps) a y = by_name a y.
Proof.
  intros Hwg. unfold NetFactors.by_name. destruct (lookup n y) as [e|] eqn:E.
  - destruct (lookup_inv n Hwf _ _ E) as (Hk & _ & Ev). destruct (lookup_known (grown ps) Hwg y Hk) as (j & u & _ & _ & _ & _ & E'). rewrite E'.
    destruct (grown_vv ps y Hwg Hk) as (Ei & _). unfold NetFactors.vv at 1 in Ei. rewrite E' in Ei. rewrite Ei, Ev. auto.
  - destruct (lookup (grown ps) y) as [e|] eqn:E'; auto. destruct (lookup_inv (grown ps) Hwg _ _ E') as (Hk & _). 
    change (NetFactors.known (grown ps) y) with (known y) in Hk. destruct (lookup_known n Hwf y Hk) as (i & v & _ & _ & _ & _ & E2). congruence.
Qed.

Lemma grown_range ps a : wf_network (grown ps) -> in_range (net_vars (grown ps)) a <-> in_range V a.
Proof.
  intros Hwg. split; intros H v Hv.
  - destruct (vv_surj n Hwf v Hv) as (x & Hk & ->). destruct (grown_vv ps x Hwg Hk) as (<- & <- & _). apply H. apply (vv_in (grown ps) Hwg). auto.
  - destruct (vv_surj (grown ps) Hwg v Hv) as (x & Hk & ->). destruct (grown_vv ps x Hwg Hk) as (-> & -> & _). apply H. apply (vv_in n Hwf). auto.
Qed.

Lemma grown_joint ps s : joint (grown ps) (fun _ => false) s = (joint n (fun _ => false) s * qprod (map (fun p => policy_prob vars p s) (map snd ps)))%Qc.
Proof.
  unfold joint. change (chance_factors (grown ps)) with (chance_factors n). change (n_vars (grown ps)) with vars.
  rewrite !filter_all by auto. cbn [grown with_policies n_policies]. rewrite map_app, qprod_app, (map_map snd). ring.
Qed.

Definition conv (v : variable) : variable := match find (fun u => v_id u =? v_id v) V with Some u => u | None => v end.

Lemma conv_vv ps x : wf_network (grown ps) -> known x -> conv (NetFactors.vv (grown ps) x) = vv x.
Proof.
  intros Hwg Hk. destruct (grown_vv ps x Hwg Hk) as (Ei & _). unfold conv. rewrite Ei. pose proof (vv_in n Hwf x Hk) as Hv.
  destruct (find (fun u => v_id u =? v_id (vv x)) V) as [u|] eqn:E.
  - apply find_some in E. destruct E as [Hu E]. apply Z.eqb_eq in E. apply (wf_vars_inj V); auto. apply net_vars_wf.
  - apply (find_none _ _ E) in Hv. apply Z.eqb_neq in Hv. congruence.
Qed.

Section Solve.
Variables (vs : vstate) (fs : list (factor xnum)).
Hypothesis Hcr : created n [] vs fs.

Theorem grown_step (sc : sched) ps d pol : partly_solved (grown ps) -> NoDup (map fst ps) ->
  (forall x, In x (map fst ps) -> In x (open_ones n)) ->
  (forall p, In p (map snd ps) -> incl (f_vars p) V) ->
  In d (open_ones (grown ps)) -> (forall e, In e (open_ones (grown ps)) -> ~ In d (observed_by n e)) ->
  choice vs (net_deps n) (utility_in V (weights n) fs) (unobserved V (net_deps n) (vv d) ++ map vv (map fst ps)) (map snd ps ++ prob_factors fs) (vv d) pol ->
  step_policy (grown ps) d pol /\ forall sigma, valid_strategy n sigma -> (mixed_value (grown ps) sigma <= mixed_value (grown (ps ++ [(d, pol)])) sigma)%Qc.
Proof.
  intros Hpg Hnd Hopen Hpin Ho Hlast Hc. pose proof (dn_wf _ (ps_net _ Hpg)) as Hwg. set (m := grown ps) in *.
  assert (HVs : vs_vars vs = V) by apply Hcr.
  assert (Hok : In d (decisions n) /\ has_key (n_policies n) d = false /\ ~ In d (map fst ps)).
  { unfold open_ones in Ho. apply filter_In in Ho. rewrite negb_true_iff in Ho. unfold m in Ho. rewrite grown_key in Ho. destruct Ho as [H1 H2].
    apply orb_false_elim in H2. destruct H2 as [H2 H3]. split; auto. split; auto. intros H. apply has_key_spec in H. congruence. }
  destruct Hok as (Hdd & Hkn & Hnps).
  assert (Hon : In d (open_ones n)) by (unfold open_ones; apply filter_In; rewrite Hkn; auto).
  assert (Hdk : known d /\ v_type (vv d) = Decision) by (apply (open_type n Hps); auto). destruct Hdk as [Hdk Hdt].
  destruct (grown_vv ps d Hwg Hdk) as (_ & _ & Evd & _). specialize (Evd Hnps). fold m in Evd.
  assert (Hfree : forall x, In x (observed_by n d) -> ~ In x (map fst ps)).
  { intros x Hx Hin. apply (ps_closed _ Hpg x d); auto.
    - fold m. unfold m. rewrite grown_key. apply has_key_spec in Hin. rewrite Hin. apply orb_true_r.
    - fold m. unfold m. rewrite grown_key, Hkn. destruct (has_key ps d) eqn:E; auto. apply has_key_spec in E. contradiction. }
  destruct Hc as [c1 c2 c3 c4 c5 c6 c7 c8]. rewrite HVs in *.
  assert (Hvars : forall v, In v (f_vars pol) -> exists x, v = vv x /\ known x /\ NetFactors.vv m x = vv x /\ (x = d \/ In x (observed_by n d))).
  { intros v Hv. destruct (vv_surj n Hwf v (c3 v Hv)) as (x & Hk & ->). exists x. split; auto. split; auto.
    assert (Hor : x = d \/ In x (observed_by n d)).
    { destruct (c5 _ Hv) as [E|E]; [left; apply (vv_inj n Hwf); auto; congruence|right; apply (observes_spec n Hps d x Hon Hk); auto]. }
    split; auto. destruct Hor as [->|Hor]; auto. apply (grown_vv ps x Hwg Hk). auto. }
  assert (Hout : v_outcomes (vv d) = num_outcomes vars d) by apply (vv_outcomes n Hwf d Hdk).
  assert (Hsp : step_policy m d pol).
  { constructor; auto.
    - rewrite Evd. auto.
    - intros v Hv. destruct (Hvars v Hv) as (x & -> & Hk & E & Hor). exists x. split; auto. split; auto. split; auto. rewrite E.
      destruct Hor as [->|Hor]; [rewrite Hdt; discriminate|]. destruct (observed_known n Hps d x Hdd Hor) as [_ Hu].
      intros Et. apply Hu. apply (vv_utility n Hwf); auto.
    - intros a Ha. apply c6. apply (grown_range ps a Hwg). auto.
    - intros a Ha. rewrite Evd. change (n_vars m) with vars. rewrite <- Hout. apply c7. apply (grown_range ps a Hwg). auto. }
  split; auto. intros sigma Hsig. rewrite <- grown_plus. fold m.
  destruct (to_ve_ok m Hwg sc 0 []) as (vs' & fs' & _ & Hcr').
  apply (step_improves m Hpg vs' fs' Hcr'); auto.
  { intros e He. destruct (Hsig e He). constructor; auto. }
  rewrite Evd. cbv zeta in *.
  set (R := total (fun x => weight_of (map snd ps ++ prob_factors fs) x * utility_in V (weights n) fs x)%Qc (unobserved V (net_deps n) (vv d) ++ map vv (map fst ps))) in *.
  set (R' := total (fun x => weight_of (prob_factors fs') x * utility_in (net_vars m) (weights m) fs' x)%Qc (unobserved (net_vars m) (net_deps m) (vv d))).
  assert (ER : forall a, in_range V a -> R' a = R a).
  { intros a Ha. set (G := fun x => (joint m (fun _ => false) (by_name x) * utility_of n (by_name x))%Qc).
    assert (HGp : proper G).
    { intros x y Hxy. pose proof (by_name_proper n x y Hxy) as Hs. unfold G. rewrite (joint_proper m _ _ _ Hs), (utility_of_proper n _ _ Hs). auto. }
    set (U' := unobserved (net_vars m) (net_deps m) (vv d)) in *. set (U := unobserved V (net_deps n) (vv d)) in *.
    assert (HU' : forall v, In v U' <-> exists x, known x /\ v = NetFactors.vv m x /\ v_type v = Chance /\ ~ In x (observed_by n d)).
    { intros v. unfold U', unobserved. rewrite filter_In, andb_true_iff, nodeType_eqb_spec, negb_true_iff, <- Evd. split.
      - intros (Hv & Ht & Hob). destruct (vv_surj m Hwg v Hv) as (x & Hk & ->). exists x. split; auto. split; auto. split; auto. intros Hin.
        apply (observes_spec m Hpg d x Ho Hk) in Hin. congruence.
      - intros (x & Hk & -> & Ht & Hni). split; [apply (vv_in m Hwg); auto|]. split; auto. apply not_true_iff_false. intros Hob.
        apply (observes_spec m Hpg d x Ho Hk) in Hob. auto. }
    assert (HU : forall v, In v U <-> exists x, known x /\ v = vv x /\ v_type v = Chance /\ ~ In x (observed_by n d)).
    { intros v. unfold U, unobserved. rewrite filter_In, andb_true_iff, nodeType_eqb_spec, negb_true_iff. split.
      - intros (Hv & Ht & Hob). destruct (vv_surj n Hwf v Hv) as (x & Hk & ->). exists x. split; auto. split; auto. split; auto. intros Hin.
        apply (observes_spec n Hps d x Hon Hk) in Hin. congruence.
      - intros (x & Hk & -> & Ht & Hni). split; [apply (vv_in n Hwf); auto|]. split; auto. apply not_true_iff_false. intros Hob.
        apply (observes_spec n Hps d x Hon Hk) in Hob. auto. }
    assert (Hopn : forall x, In x (map fst ps) -> known x /\ v_type (vv x) = Decision) by (intros x Hx; apply (open_type n Hps); auto).
    assert (HwU' : wf_vars U') by (apply NoDup_filter_map; apply net_vars_wf).
    assert (HF : Forall2 (fun u v => v_id u = v_id v /\ v_outcomes u = v_outcomes v) U' (map conv U')).
    { assert (Gq : forall v, In v U' -> v_id v = v_id (conv v) /\ v_outcomes v = v_outcomes (conv v)).
      { intros v Hv. apply HU' in Hv. destruct Hv as (x & Hk & -> & _). unfold m; rewrite (conv_vv ps x Hwg Hk). destruct (grown_vv ps x Hwg Hk) as (E1 & E2 & _). auto. }
      clear - Gq. induction U' as [|v l IH]; simpl; constructor. apply Gq; simpl; auto. apply IH. intros; apply Gq; simpl; auto. }
    assert (Hids : map v_id (map conv U') = map v_id U').
    { clear - HF. induction HF as [|u v l l' [E _] _ IH]; simpl; auto. f_equal; auto. }
    assert (Hwc : wf_vars (map conv U')) by (unfold wf_vars; rewrite Hids; exact HwU').
    assert (Hperm : Permutation (map conv U') (U ++ map vv (map fst ps))).
    { apply NoDup_Permutation.
      - apply wf_NoDup. auto.
      - apply VETopo.NoDup_app'.
        + apply NoDup_filter, wf_NoDup, net_vars_wf.
        + apply wf_NoDup. apply (wf_vars_vv n Hwf); auto. intros x Hx. apply Hopn. auto.
        + intros v Hv Hc2. apply HU in Hv. destruct Hv as (_ & _ & _ & Ht & _). apply in_map_iff in Hc2. destruct Hc2 as (x & <- & Hx). apply Hopn in Hx. destruct Hx. congruence.
      - intros v. rewrite in_app_iff, !in_map_iff. split.
        + intros (u & Eu & Hu). apply HU' in Hu. destruct Hu as (x & Hk & E & Ht & Hni). subst u. unfold m in Eu. rewrite (conv_vv ps x Hwg Hk) in Eu. subst v.
          destruct (in_dec String.string_dec x (map fst ps)) as [Hx|Hx]; [right; exists x; auto|]. left. apply HU. exists x. split; auto. split; auto.
          destruct (grown_vv ps x Hwg Hk) as (_ & _ & E & _). fold m in E. rewrite (E Hx) in Ht. auto.
        + intros [Hv|(x & <- & Hx)].
          * apply HU in Hv. destruct Hv as (x & Hk & -> & Ht & Hni). exists (NetFactors.vv m x). split; [apply (conv_vv ps x Hwg Hk)|]. apply HU'. exists x. split; auto. split; auto. split; auto.
            assert (Hnx : ~ In x (map fst ps)) by (intros Hx; apply Hopn in Hx; destruct Hx; congruence).
            destruct (grown_vv ps x Hwg Hk) as (_ & _ & E & _). unfold m. rewrite (E Hnx). auto.
          * destruct (Hopn x Hx) as [Hk Ht]. exists (NetFactors.vv m x). split; [apply (conv_vv ps x Hwg Hk)|]. apply HU'. exists x. split; auto. split; auto. split.
            -- apply (grown_vv ps x Hwg Hk); auto.
            -- intros Hin. apply (Hfree x Hin). auto. }
    unfold R'. rewrite (total_ext_range _ G (net_vars m)).
    - rewrite (total_ids G U' (map conv U') a HF). rewrite (total_perm G _ _ HGp Hwc Hperm). unfold R.
      symmetry. apply (total_weight_range n); auto.
      + intros v Hv. apply in_app_iff in Hv. destruct Hv as [Hv|Hv].
        * apply filter_In in Hv. tauto.
        * apply in_map_iff in Hv. destruct Hv as (x & <- & Hx). apply (vv_in n Hwf). apply Hopn. auto.
      + intros w Hw. unfold G. rewrite weight_app, (weight_by_name n Hps vs fs Hcr w Hw), (utility_by_name n Hps vs fs Hcr w Hw). f_equal. unfold m. rewrite grown_joint.
        rewrite Qcmult_comm. f_equal. unfold weight_of. f_equal. apply map_ext_in. intros p Hp. symmetry. apply (policy_prob_by_name n Hps).
        intros v Hv. destruct (vv_surj n Hwf v (Hpin p Hp v Hv)) as (x & Hk & ->). eauto.
    - apply net_vars_wf.
    - intros v Hv. apply filter_In in Hv. tauto.
    - apply (grown_range ps a Hwg). auto.
    - intros w Hw. rewrite (weight_by_name m Hpg vs' fs' Hcr' w Hw), (utility_by_name m Hpg vs' fs' Hcr' w Hw). unfold G.
      assert (Hs : forall y, NetFactors.by_name m w y = by_name w y) by (intros y; apply (grown_by_name ps w y Hwg)).
      rewrite (joint_proper m _ _ _ Hs). f_equal. change (utility_of m (NetFactors.by_name m w)) with (utility_of n (NetFactors.by_name m w)).
      apply (utility_of_proper n _ _ Hs). }
  intros a k Ha Hk. apply (grown_range ps a Hwg) in Ha.
  assert (Hupd : forall j, (j < v_outcomes (vv d))%nat -> in_range V (upd a (v_id (vv d)) j)).
  { intros j Hj. apply in_range_upd'; auto. apply net_vars_wf. }
  rewrite ER by auto. rewrite (qsum_ext _ (fun j => value pol (upd a (v_id (vv d)) j) * R (upd a (v_id (vv d)) j))%Qc).
  - apply c8; auto.
  - intros j Hj. apply in_seq in Hj. rewrite ER; auto. apply Hupd. lia.
Qed.

(** The policies of the solver, by name. *)
Definition named (e : string * (factor xnum * factor xnum)) : variable * (factor xnum * factor xnum) := (vv (fst e), snd e).
Definition pairs (ds : list (string * (factor xnum * factor xnum))) : list (string * factor xnum) := map (fun e => (fst e, snd (snd e))) ds.

Lemma pairs_keys ds : map fst (pairs ds) = map fst ds.
Proof. unfold pairs. rewrite map_map. auto. Qed.

Theorem solver_pass (sc : sched) t : open_ones n <> [] ->
  exists s' ds, ve_solve_policies sc (ve_new t vs fs (net_deps n) (finite_weights (weights n))) false = Ok (s', Some (map named ds)) /\
    Permutation (open_ones n) (map fst ds) /\ partly_solved (grown (pairs ds)) /\ (advised n -> advised (grown (pairs ds))) /\
    forall sigma, valid_strategy n sigma -> (mixed_value n sigma <= mixed_value (grown (pairs ds)) sigma)%Qc.
Proof.
  intros Hne. destruct (diagram n Hps vs fs Hcr) as (cpt & rank & Hid).
  assert (HV : vs_vars vs = V) by apply Hcr.
  assert (Hndo : NoDup (open_ones n)) by (apply NoDup_filter; apply decisions_nodup; auto).
  assert (Hod : forall d, In d (open_ones n) -> known d /\ v_type (vv d) = Decision) by (intros d Hd; apply (open_type n Hps); auto).
  assert (Hin : forall d, In d (open_ones n) -> In d (decisions n)) by (intros d Hd; unfold open_ones in Hd; apply filter_In in Hd; tauto).
  destruct (policies_all sc t vs fs (net_deps n) (weights n) cpt rank Hid) as (s' & L & E & Hp & HL); rewrite ?HV in *.
  - destruct (dn_utilities _ Hdn) as [_ (u & Hu & Hut & Htot)]. intros Ec. assert (Hiu : In (vv (nv_name u)) (utilities_of V)).
    { assert (Hk : known (nv_name u)). { split; auto. exists u. apply (var_named_in n Hwf). auto. }
      apply (utilities_V n). split; [apply (vv_in n Hwf); auto|]. apply (vv_utility n Hwf); auto. unfold kind. rewrite (proj2 (var_named_in n Hwf _ _) (conj Hu eq_refl)). simpl. congruence. }
    rewrite Ec in Hiu. destruct Hiu.
  - unfold weights. destruct (n_tui n <? 0); auto. rewrite (utilities_net n Hwf), !map_length. auto.
  - intros u Hu. apply in_app_iff in Hu. destruct (cr_split _ _ _ _ Hcr) as (tfs & pfs & pols & Efs & Ht & _ & _).
    assert (G : exists f, In f (filter (is_table n) (n_factors n)) /\ In u (tvars n f)).
    { destruct Hu as [Hu|Hu].
      - apply (utilities_V n) in Hu. destruct Hu as [Hu Hut]. destruct (vv_surj n Hwf u Hu) as (x & Hk & ->).
        destruct (plain_vv n Hwf x (proj1 (dn_utilities _ Hdn)) Hk Hut) as [_ (f & Hf & Ef)]. exists f. rewrite <- (util_tables n) in Hf by auto. apply filter_In in Hf. destruct Hf as [Hf _].
        split; auto. unfold tvars. rewrite <- Ef. apply in_map. apply in_app_iff. simpl; auto.
      - apply (open_dvars n Hps) in Hu. destruct Hu as (d & Hd & ->).
        destruct (dn_used _ Hdn d (Hin d Hd)) as (f & Hf & Htot & Hk & Hg). exists f. split.
        + apply filter_In. split; auto. unfold is_table. rewrite Htot. simpl. destruct (wt_for _ _ (wn_tables _ Hwf f Hf Htot)) as (v & Ev).
          unfold kind in *. rewrite Ev in *. simpl in *. destruct (nv_type v); auto; congruence.
        + apply in_map. apply in_app_iff. auto. }
    destruct G as (f & Hf & Hiu). destruct (Forall2_in_l _ _ _ _ Ht Hf) as (g & Hg & Hb). exists g. split; [rewrite Efs; apply in_app_iff; auto|].
    destruct Hb as (_ & -> & _). auto.
  - destruct (open_ones n) as [|d l] eqn:Eo; [congruence|]. intros Ec. assert (In (vv d) (decision_vars V)) by (apply (open_dvars n Hps); exists d; rewrite Eo; simpl; auto).
    rewrite Ec in H. destruct H.
  - intros d Hd. apply (open_dvars n Hps) in Hd. destruct Hd as (x & Hx & ->). apply (vv_outcomes n Hwf). apply Hod. auto.
  - assert (Hinc : forall d e, In d (open_ones n) -> In e (open_ones n) -> incl (observed_by n d) (observed_by n e) ->
      forall v, observes (net_deps n) (vv d) v = true -> observes (net_deps n) (vv e) v = true).
    { intros d e Hd He Hi v Hv.
      assert (Hiv : exists y, known y /\ v_id v = v_id (vv y)).
      { unfold observes in Hv. apply existsb_exists in Hv. destruct Hv as ([k ps] & Hk & Hv). apply andb_prop in Hv. destruct Hv as [_ Hv].
        destruct (open_deps n Hps k ps Hk) as (x & Hx & _ & ->). unfold contains_id in Hv. apply existsb_exists in Hv. destruct Hv as (u & Hu & Eu).
        apply Z.eqb_eq in Eu. apply in_map_iff in Hu. destruct Hu as (y & <- & Hy). exists y. split; auto. apply (observed_known n Hps x y (Hin x Hx) Hy). }
      destruct Hiv as (x & Hk & Ex). assert (Eo : forall k, observes (net_deps n) k v = observes (net_deps n) k (vv x)) by (intros k; unfold observes; rewrite Ex; auto).
      rewrite Eo in *. apply (observes_spec n Hps e x He Hk). apply Hi. apply (observes_spec n Hps d x Hd Hk). auto. }
    intros d' e' Hd He Hde. apply (open_dvars n Hps) in Hd. apply (open_dvars n Hps) in He. destruct Hd as (d & Hd & ->). destruct He as (e & He & ->).
    assert (Hne' : d <> e) by congruence.
    destruct (ps_forget n Hps d e (Hin d Hd) (Hin e He) Hne') as [[H1 H2]|[H1 H2]]; [right|left]; split; try (apply (Hinc _ _)); auto.
    + apply (observes_spec n Hps e d He); auto. apply Hod. auto.
    + apply (observes_spec n Hps d e Hd); auto. apply Hod. auto.
  - assert (HLn : exists ds, L = map named ds /\ forall d, In d (map fst ds) -> In d (open_ones n)).
    { assert (Hk : forall v, In v (map fst L) -> exists d, In d (open_ones n) /\ v = vv d). { intros v Hv. apply (open_dvars n Hps). eapply Permutation_in; [apply Permutation_sym; apply Hp|auto]. }
      clear - Hk. induction L as [|[v p] L IH]. { exists []. split; auto. intros d []. }
      destruct IH as (ds & -> & Hds). { intros; apply Hk; simpl; auto. } destruct (Hk v) as (d & Hd & ->). simpl; auto.
      exists ((d, p) :: ds). split; auto. intros x [<-|Hx]; auto. }
    destruct HLn as (ds & -> & Hds). exists s', ds. split; auto.
    assert (Evv : map fst (map named ds) = map vv (map fst ds)) by (rewrite !map_map; auto).
    assert (Hnd : NoDup (map fst ds)).
    { apply (NoDup_map_inv vv). rewrite <- Evv. eapply Permutation_NoDup; [apply Hp|]. apply NoDup_filter, wf_NoDup, net_vars_wf. }
    assert (Hcov : forall d, In d (open_ones n) <-> In d (map fst ds)).
    { intros d. split; auto. intros Hd. assert (Hv : In (vv d) (map vv (map fst ds))).
      { rewrite <- Evv. eapply Permutation_in; [apply Hp|]. apply (open_dvars n Hps). eauto. }
      apply in_map_iff in Hv. destruct Hv as (e & Ee & He). assert (e = d); [|congruence]. apply (vv_inj n Hwf); [apply Hod; auto|apply Hod; auto|congruence]. }
    split. { apply NoDup_Permutation; auto. }
    assert (Hself : forall d, In d (decisions n) -> ~ In d (observed_by n d)).
    { intros d Hd Hc. destruct (observed_in n d d Hc) as (f & Hf & Ef & Hg). destruct (dn_order _ Hdn) as (rk & Hrk).
      specialize (Hrk f d Hf). rewrite Ef in Hrk. apply (decision_known n Hps) in Hd. destruct Hd as [_ Hd]. assert (rk d < rk d)%nat; [|lia]. apply Hrk; auto. rewrite Hd. discriminate. }
    assert (HC : forall l1 d fac pol l2, ds = l1 ++ (d, (fac, pol)) :: l2 ->
      (forall e, In e (map fst l2) -> ~ In d (observed_by n e)) /\
      choice vs (net_deps n) (utility_in V (weights n) fs) (unobserved V (net_deps n) (vv d) ++ map vv (map fst (pairs l1))) (map snd (pairs l1) ++ prob_factors fs) (vv d) pol).
    { intros l1 d fac pol l2 Eds. destruct (HL (map named l1) (vv d) fac pol (map named l2)) as [H1 H2].
      { rewrite Eds, map_app. reflexivity. }
      split.
      - intros e He Hc. assert (Heo : In e (open_ones n)) by (apply Hds; rewrite Eds, map_app; apply in_app_iff; simpl; auto).
        assert (Hdo : In d (open_ones n)) by (apply Hds; rewrite Eds, map_app; apply in_app_iff; simpl; auto).
        apply (observes_spec n Hps e d Heo) in Hc; [|apply Hod; auto]. rewrite H1 in Hc; [discriminate|].
        rewrite map_map. change (In (vv e) (map (fun x => vv (fst x)) l2)). rewrite <- (map_map fst vv). apply in_map. auto.
      - rewrite pairs_keys. replace (map vv (map fst l1)) with (map fst (map named l1)) by (rewrite !map_map; auto).
        replace (map snd (pairs l1)) with (map pol_of (map named l1)) by (unfold pairs; rewrite !map_map; auto). auto. }
    assert (HG : forall l1 l2, ds = l1 ++ l2 -> partly_solved (grown (pairs l1)) /\ (advised n -> advised (grown (pairs l1))) /\ forall sigma, valid_strategy n sigma -> (mixed_value n sigma <= mixed_value (grown (pairs l1)) sigma)%Qc).
    { induction l1 as [|[d [fac pol]] l1 IH] using rev_ind; intros l2 Eds.
      - replace (grown (pairs [])) with (with_policies n (n_policies n)). 2:{ unfold grown. simpl. rewrite app_nil_r. auto. }
        split; [apply ps_perm; auto|]. split; [apply advised_perm; auto|]. intros sigma _. rewrite mixed_perm by auto. apply Qcle_refl.
      - rewrite <- app_assoc in Eds. simpl in Eds. destruct (IH _ Eds) as (Hpg & Had & Hle). destruct (HC _ _ _ _ _ Eds) as [Hl2 Hch].
        assert (Hdo : In d (open_ones n)) by (apply Hds; rewrite Eds, map_app; apply in_app_iff; simpl; auto).
        assert (Hnd' : NoDup (map fst l1) /\ ~ In d (map fst l1)).
        { rewrite Eds, map_app in Hnd. simpl in Hnd. apply NoDup_remove in Hnd. destruct Hnd as [A B]. rewrite in_app_iff in B. split; [|tauto].
          clear - A. induction (map fst l1) as [|x l IHl]; constructor; inversion A; subst; auto. rewrite in_app_iff in H1. tauto. }
        destruct Hnd' as [Hnd1 Hnd2].
        assert (Hopg : forall e, In e (open_ones (grown (pairs l1))) <-> In e (open_ones n) /\ ~ In e (map fst l1)).
        { intros e. unfold open_ones. rewrite !filter_In, !negb_true_iff, grown_key, orb_false_iff. change (decisions (grown (pairs l1))) with (decisions n).
          rewrite <- (pairs_keys l1), <- has_key_spec, not_true_iff_false. tauto. }
        destruct (grown_step sc (pairs l1) d pol) as [Hsp Himp]; auto.
        + rewrite pairs_keys. auto.
        + intros x Hx. rewrite pairs_keys in Hx. apply Hds. rewrite Eds, map_app. apply in_app_iff. auto.
        + intros p Hpi. apply in_map_iff in Hpi. destruct Hpi as ([x q] & <- & Hpi). unfold pairs in Hpi. apply in_map_iff in Hpi. destruct Hpi as ([y [f1 f2]] & Ey & Hy).
          injection Ey as <- <-. simpl. apply in_split in Hy. destruct Hy as (a1 & a2 & ->). rewrite <- app_assoc in Eds. simpl in Eds. destruct (HC _ _ _ _ _ Eds) as [_ Hcy].
          pose proof (ch_in _ _ _ _ _ _ _ Hcy) as Hci. rewrite HV in Hci. exact Hci.
        + apply Hopg. auto.
        + intros e He. apply Hopg in He. destruct He as [He1 He2]. destruct (String.eqb_spec e d) as [->|Hed]; [apply Hself; auto|]. apply Hl2.
          apply Hcov in He1. rewrite Eds, map_app in He1. apply in_app_iff in He1. simpl in He1. destruct He1 as [?|[?|?]]; auto; [contradiction|congruence].
        + assert (Epl : pairs (l1 ++ [(d, (fac, pol))]) = pairs l1 ++ [(d, pol)]) by (unfold pairs; rewrite map_app; auto).
          rewrite Epl. split; [|split].
          * rewrite <- grown_plus. apply step_solved; auto.
          * intros Ha. rewrite <- grown_plus. apply advised_step; auto. intros sigma Hs. rewrite grown_plus. apply Himp. intros x Hx. destruct (Hs x Hx). constructor; auto.
          * intros sigma Hsig. eapply Qcle_trans; [apply Hle|apply Himp]; auto. }
    apply (HG ds []). rewrite app_nil_r. auto.
Qed.

Lemma mget_named (ds : list (string * (factor xnum * factor xnum))) x : (forall d, In d (map fst ds) -> known d) -> known x ->
  mget var_eqb (map named ds) (vv x) = mget String.eqb ds x.
Proof.
  intros H Hx. induction ds as [|[d p] ds IH]; auto. cbn [map mget named fst snd] in *.
  destruct (String.eqb_spec x d) as [->|Hne].
  - rewrite (proj2 (var_eqb_spec _ _) eq_refl). auto.
  - destruct (var_eqb (vv x) (vv d)) eqn:E; [|apply IH; intros; apply H; simpl; auto].
    exfalso. apply var_eqb_spec in E. apply Hne. apply (vv_inj n Hwf); auto. apply H; simpl; auto. congruence.
Qed.

Lemma mget_pairs ds x : mget String.eqb (pairs ds) x = match mget String.eqb ds x with Some (_, p) => Some p | None => None end.
Proof. induction ds as [|[d [f p]] ds IH]; auto. cbn [pairs map mget fst snd]. destruct (String.eqb x d); auto. Qed.
End Solve.

(** ** Storing the policies *)
Lemma store_all (sc : sched) t a (ds : list (string * (factor xnum * factor xnum))) : NoDup (map fst ds) -> incl (map fst ds) (open_ones n) ->
  exists P, store_policies sc t (with_solver n a (name_map (entries n))) (map named ds) = with_solver (with_policies n P) a (name_map (entries n)) /\
    Permutation (n_policies n ++ pairs ds) P.
Proof.
  intros Hnd Hop. unfold store_policies. cbn [with_solver n_names n_policies].
  set (F := fun (m : list (string * factor xnum)) '((name, e) : string * nentry) => _).
  assert (Hod : forall d, In d (map fst ds) -> known d /\ v_type (vv d) = Decision) by (intros d Hd; apply (open_type n Hps); auto).
  assert (Hok : forall d, In d (map fst ds) -> ~ In d (map fst (n_policies n))).
  { intros d Hd Hc. apply Hop in Hd. unfold open_ones in Hd. apply filter_In in Hd. destruct Hd as [_ Hd]. apply has_key_spec in Hc. rewrite Hc in Hd. discriminate. }
  assert (Hs : forall name e, In (name, e) (name_map (entries n)) -> forall m, F m (name, e) = match mget String.eqb (pairs ds) name with Some p => sset_map m name p | None => m end).
  { intros name e Hin m. unfold F. unfold name_map in Hin. apply in_map_iff in Hin. destruct Hin as (e' & E & Hin). injection E as <- <-.
    assert (El : lookup n (nv_name (en_var e')) = Some e') by (apply (lookup_spec n Hwf); auto).
    destruct (lookup_inv n Hwf _ _ El) as (Hke & _ & Ev). rewrite Ev. rewrite mget_named, mget_pairs; auto. 2:{ intros d Hd. apply Hod. auto. }
    destruct (mget String.eqb ds (nv_name (en_var e'))) as [[f p]|] eqn:Em.
    - apply (mget_In _ String.eqb_eq) in Em. apply (in_map fst) in Em. apply Hod in Em. cbn [fst] in Em. destruct Em as [_ ->]. auto.
    - destruct (negb (nodeType_eqb (v_type (vv (nv_name (en_var e')))) Decision)); auto. }
  pose proof (shuffle_perm sc t _ (name_map (entries n))) as Hsh.
  set (S := shuffle sc t (name_map (entries n))) in *.
  set (added := fun T : list (string * nentry) => flat_map (fun e => match mget String.eqb (pairs ds) (fst e) with Some p => [(fst e, p)] | None => [] end) T).
  assert (Hsub : forall ne, In ne S -> In ne (name_map (entries n))) by (intros ne Hne; eapply Permutation_in; [apply Permutation_sym; apply Hsh|auto]).
  assert (HnS : NoDup (map fst S)).
  { eapply Permutation_NoDup; [apply Permutation_map; apply Hsh|]. rewrite name_map_keys. apply (entries_nodup n Hwf). }
  assert (Hadd : forall T x p, In (x, p) (added T) <-> In x (map fst T) /\ mget String.eqb (pairs ds) x = Some p).
  { intros T x p. unfold added. rewrite in_flat_map. split.
    - intros (e & He & Hin). destruct (mget String.eqb (pairs ds) (fst e)) as [q|] eqn:Eq; [|destruct Hin]. destruct Hin as [Hin|[]]. injection Hin as <- <-. split; auto. apply in_map. auto.
    - intros [Hx Hm]. apply in_map_iff in Hx. destruct Hx as (e & <- & He). exists e. rewrite Hm. split; simpl; auto. }
  assert (Hfold : forall T m, NoDup (map fst T) -> (forall ne, In ne T -> In ne (name_map (entries n))) ->
     (forall x, In x (map fst T) -> In x (map fst ds) -> ~ In x (map fst m)) -> fold_left F T m = m ++ added T).
  { induction T as [|[name e] T IH]; intros m HnT HsT Hm; cbn [fold_left]. { simpl. rewrite app_nil_r. auto. }
    rewrite Hs by (apply HsT; simpl; auto). inversion HnT; subst. cbn [added flat_map fst]. destruct (mget String.eqb (pairs ds) name) as [p|] eqn:Ep.
    - assert (Hd : In name (map fst ds)). { rewrite <- pairs_keys. apply (mget_In _ String.eqb_eq) in Ep. apply (in_map fst) in Ep. auto. }
      rewrite (mset_new _ String.eqb_eq). 2:{ apply Hm; simpl; auto. } rewrite IH; auto.
      + rewrite <- app_assoc. auto.
      + intros; apply HsT; simpl; auto.
      + intros x Hx Hxd. rewrite map_app, in_app_iff. simpl. intros [Hc|[Hc|[]]]; [apply (Hm x); simpl; auto|congruence].
    - apply IH; auto. intros; apply HsT; simpl; auto. intros x Hx; apply Hm; simpl; auto. }
  exists (n_policies n ++ added S). split.
  - rewrite Hfold; auto.
  - apply Permutation_app_head. assert (Hndp : NoDup (map fst (pairs ds))) by (rewrite pairs_keys; auto).
    apply NoDup_Permutation.
    + apply (NoDup_map_inv fst). auto.
    + unfold added. clear - HnS. induction S as [|[x e] S IH]; simpl; [constructor|]. simpl in HnS. inversion HnS; subst.
      destruct (mget String.eqb (pairs ds) x) as [p|] eqn:E; auto. simpl. constructor; auto. rewrite in_flat_map. intros ([y e'] & Hy & Hin). simpl in Hin.
      destruct (mget String.eqb (pairs ds) y); [|destruct Hin]. destruct Hin as [Hin|[]]. injection Hin as -> _. apply H1. apply (in_map fst) in Hy. auto.
    + intros [x p]. rewrite Hadd. split.
      * intros Hin. split; [|apply (In_mget _ String.eqb_eq); auto].
        assert (Hx : In x (map fst ds)) by (rewrite <- pairs_keys; apply (in_map fst) in Hin; auto).
        destruct (lookup_known n Hwf x (proj1 (Hod x Hx))) as (i & v & _ & _ & _ & _ & Lk). unfold lookup in Lk. apply (mget_In _ String.eqb_eq) in Lk.
        apply (in_map fst) in Lk. eapply Permutation_in; [apply Permutation_map; apply Hsh|auto].
      * intros [_ Hm]. apply (mget_In _ String.eqb_eq) in Hm. auto.
Qed.

(** SolvePolicies in one pass. *)
Theorem pass_ok (sc : sched) t : open_ones n <> [] ->
  exists n' t', policy_steps sc 1 t n false = (n', Ok t') /\ partly_solved n' /\ open_ones n' = [] /\ same_base n n' /\ ready_net n' /\ (advised n -> advised n') /\
    forall sigma, valid_strategy n sigma -> (mixed_value n sigma <= mixed_value n' sigma)%Qc.
Proof.
  intros Hne. cbn [policy_steps]. unfold assign_ve. destruct (to_ve_ok n Hwf sc t []) as (vs & fs & -> & Hcr).
  destruct (solver_pass vs fs Hcr sc (S t) Hne) as (s' & ds & -> & Hperm & Hpg & Had & Hle).
  change (with_solver (with_solver n (Some (ve_new (S t) vs fs (net_deps n) (finite_weights (weights n)))) (name_map (entries n))) (Some s') (name_map (entries n)))
    with (with_solver n (Some s') (name_map (entries n))).
  assert (Hnd : NoDup (map fst ds)). { eapply Permutation_NoDup; [apply Hperm|]. apply NoDup_filter. apply decisions_nodup. auto. }
  destruct (store_all sc (ve_tick s') (Some s') ds Hnd) as (P & -> & HP).
  { intros x Hx. eapply Permutation_in; [apply Permutation_sym; apply Hperm|auto]. }
  change (with_policies n P) with (with_policies (grown (pairs ds)) P).
  eexists; eexists. split; [reflexivity|]. split; [apply ps_with_solver, ps_perm; auto|]. split.
  { change (open_ones (with_policies (grown (pairs ds)) P) = []). rewrite open_perm by auto. unfold open_ones.
    assert (H : forall d, In d (decisions n) -> has_key (n_policies (grown (pairs ds))) d = true).
    { intros d Hd. rewrite grown_key. destruct (has_key (n_policies n) d) eqn:E; auto. simpl. apply has_key_spec. rewrite pairs_keys. eapply Permutation_in; [apply Hperm|].
      unfold open_ones. apply filter_In. rewrite E. auto. }
    change (decisions (grown (pairs ds))) with (decisions n). clear - H. induction (decisions n) as [|d l IH]; auto. simpl in *. rewrite H by auto. simpl. apply IH. auto. }
  split; [repeat split|]. split; [|split; [intros Ha; apply advised_with_solver, advised_perm; auto|]].
  - split; [discriminate|]. intros i v Hi Hty. exists (ve_entry n (Z.of_nat i, v)). split; auto.
    change (sget_map (name_map (entries n)) (nv_name v) = Some (ve_entry n (Z.of_nat i, v))).
    apply (lookup_spec n Hwf). split; auto. apply in_entries. exists i, v. split; [exact Hi|]. split; auto. apply (tui_utility n Hwf i v); auto. rewrite Hty. discriminate.
  - intros sigma Hsig. change (mixed_value n sigma <= mixed_value (with_policies (grown (pairs ds)) P) sigma)%Qc. rewrite mixed_perm by auto. auto.
Qed.
End Grow.
