(** SolvePolicies on networks: one step. *)
From Coq Require Import ZArith List Bool String Lia Permutation QArith Qcanon.
From Verif Require Import Num GoBase VarModel GoFacts Tuples SpecFactor FactorFacts FactorAt XnumFacts ExactFactor FactorThms
  VEModel SpecVE VEWorlds VEFacts VEHidden VESolve VEThms VEUtil SpecPolicy VEPolicy VEOptimal NetModel SpecNet NetVars NetFactors NetVE NetSums
  NetQuery NetEvents NetUtil NetMass SpecNetPolicy.
Import ListNotations.
Open Scope string_scope.
Open Scope list_scope.
Open Scope Z_scope.

Lemma combine_in {X Y K} (R : X -> Y -> Prop) (h : X -> K) l l' : Forall2 R l l' ->
  map fst (combine (map h l) l') = map h l /\ map snd (combine (map h l) l') = l' /\
  forall k y, In (k, y) (combine (map h l) l') -> exists x, In x l /\ k = h x /\ R x y.
Proof.
  induction 1 as [|x y l l' Hxy Hl IH]; simpl; [split; [|split]; auto; tauto|].
  destruct IH as (I1 & I2 & I3). rewrite I1, I2. split; [|split]; auto.
  intros k z [E|Hin]. { injection E as <- <-. exists x. auto. }
  destruct (I3 _ _ Hin) as (x' & Hx & Hr). exists x'. tauto.
Qed.

Lemma filter_all {X} (p : X -> bool) l : (forall x, p x = true) -> filter p l = l.
Proof. intros H. induction l; simpl; auto. rewrite H, IHl. auto. Qed.

Section Get.
Context {K W : Type} (eqb : K -> K -> bool) (Heq : forall a b, eqb a b = true <-> a = b).
Definition mget_or (dflt : W) (L : list (K * W)) (k : K) : W := match mget eqb L k with Some v => v | None => dflt end.
Lemma mget_or_in d (L : list (K * W)) k : In k (map fst L) -> In (k, mget_or d L k) L.
Proof.
  intros H. unfold mget_or. destruct (mget eqb L k) as [v|] eqn:E. { apply (mget_In eqb Heq) in E. auto. }
  apply (mget_None eqb Heq) in E. tauto.
Qed.
Lemma mget_or_map d (L : list (K * W)) : NoDup (map fst L) -> map (mget_or d L) (map fst L) = map snd L.
Proof.
  intros Hn. rewrite map_map. apply map_ext_in. intros [k v] Hin. cbn [fst snd].
  assert (H : In (k, mget_or d L k) L). { apply mget_or_in. apply (in_map fst) in Hin. auto. }
  eapply NoDup_fst_inj; eauto.
Qed.
End Get.

Section NP.
Variable n : network xnum.
Notation vars := (n_vars n).
Notation vv := (vv n).
Notation by_name := (by_name n).
Notation known := (known n).
Notation V := (net_vars n).

(** A network in which some decisions have been solved, last decisions first. *)
Record partly_solved : Prop := {
  ps_net : decision_network n;
  ps_forget : no_forgetting n;
  ps_policy : forall d p, In (d, p) (n_policies n) -> policy_for n d (policy_prob vars p) /\ incl (factor_names n p) (d :: observed_by n d);
  ps_closed : forall d e, has_key (n_policies n) d = true -> In e (decisions n) -> has_key (n_policies n) e = false -> ~ In d (observed_by n e)
}.

(** The decisions without policy. *)
Definition open_ones : list string := filter (fun d => negb (has_key (n_policies n) d)) (decisions n).

(** The expected value when the open decisions follow [sigma] and the others their policies. *)
Definition mixed_value (sigma : string -> nstate -> Qc) : Qc :=
  qsum (map (fun s => joint n (fun _ => false) s * qprod (map (fun d => sigma d s) open_ones) * utility_of n s)%Qc (worlds_of n)).

Hypothesis Hps : partly_solved.
Let Hdn := ps_net Hps.
Let Hwf : wf_network n := dn_wf _ Hdn.

Lemma decision_known d : In d (decisions n) <-> known d /\ kind vars d = Some Decision.
Proof.
  unfold decisions. rewrite in_map_iff. split.
  - intros (v & <- & Hv). apply filter_In in Hv. destruct Hv as [Hv Ht]. unfold is_kind in Ht. apply nodeType_eqb_spec in Ht.
    assert (E : var_named vars (nv_name v) = Some v) by (apply (var_named_in n Hwf); auto).
    split; [|unfold kind; rewrite E; simpl; congruence]. split; eauto.
    destruct (is_total n (nv_name v)) eqn:Et; auto. apply (total_kind n Hwf) in Et. unfold kind in Et. rewrite E in Et. simpl in Et. congruence.
  - intros [[_ (v & E)] Hk]. exists v. apply (var_named_in n Hwf) in E as [Hin En]. split; auto. apply filter_In. split; auto.
    unfold is_kind. apply nodeType_eqb_spec. unfold kind in Hk. destruct (var_named vars d) as [v'|] eqn:E'; [|discriminate].
    apply (var_named_in n Hwf) in E' as [H1 H2]. simpl in Hk. injection Hk as <-. f_equal.
    pose proof (wn_names _ Hwf) as Hnd. clear - Hin En H1 H2 Hnd.
    assert (Hi : forall l, NoDup (map nv_name l) -> In v l -> In v' l -> v = v').
    { induction l as [|a l IH]; simpl; intros Hn Hx Hy; [tauto|]. inversion Hn; subst.
      destruct Hx as [->|Hx], Hy as [->|Hy]; auto.
      - exfalso. apply H3. rewrite <- H2. apply in_map. auto.
      - exfalso. apply H3. rewrite H2. apply in_map. auto. }
    apply (Hi vars); auto.
Qed.

Lemma open_type d : In d open_ones <-> known d /\ v_type (vv d) = Decision.
Proof.
  unfold open_ones. rewrite filter_In, decision_known, negb_true_iff. split.
  - intros [[Hk Hd] Ho]. split; auto. destruct (kind_known n Hwf d Hk) as (t & E & ->). rewrite E in Hd. injection Hd as ->. rewrite Ho. auto.
  - intros [Hk Ht]. destruct (kind_known n Hwf d Hk) as (t & E & Et). rewrite Ht in Et. rewrite E.
    destruct t, (has_key (n_policies n) d); simpl in Et; try discriminate; auto.
Qed.

Lemma open_dvars v : In v (decision_vars V) <-> exists d, In d open_ones /\ v = vv d.
Proof.
  unfold decision_vars. rewrite filter_In, nodeType_eqb_spec. split.
  - intros [Hv Ht]. destruct (vv_surj n Hwf v Hv) as (x & Hk & ->). exists x. split; auto. apply open_type. auto.
  - intros (d & Hd & ->). apply open_type in Hd. destruct Hd as [Hk Ht]. split; auto. apply (vv_in n Hwf). auto.
Qed.

Lemma factor_unique f : In f (n_factors n) -> factor_for (n_factors n) (nf_for f) = Some f.
Proof.
  intros Hf. pose proof (dn_single _ Hdn) as Hn. unfold factor_for. induction (n_factors n) as [|g l IH]; [destruct Hf|].
  cbn [find]. inversion Hn; subst. destruct Hf as [->|Hf]. { rewrite String.eqb_refl. auto. }
  destruct (String.eqb_spec (nf_for g) (nf_for f)) as [E|E]; [|apply IH; auto].
  exfalso. apply H1. rewrite E. apply in_map. auto.
Qed.

Lemma observed_in x d : In x (observed_by n d) -> exists f, In f (n_factors n) /\ nf_for f = d /\ In x (nf_given f).
Proof.
  unfold observed_by, factor_for. destruct (find _ _) as [f|] eqn:E; [|intros []]. intros Hx. apply find_some in E. destruct E as [Hf E].
  apply String.eqb_eq in E. eauto.
Qed.
Lemma observed_of f x : In f (n_factors n) -> In x (nf_given f) -> In x (observed_by n (nf_for f)).
Proof. intros Hf Hx. unfold observed_by. rewrite factor_unique; auto. Qed.

Lemma observed_known d x : In d (decisions n) -> In x (observed_by n d) -> known x /\ kind vars x <> Some Utility.
Proof.
  intros Hd Hx. apply decision_known in Hd. destruct Hd as [[Ht _] _]. destruct (observed_in _ _ Hx) as (f & Hf & <- & Hg).
  pose proof (wn_tables _ Hwf f Hf Ht) as Hwt. split; [|apply (wt_parents _ _ Hwt); auto].
  apply (wt_given _ _ Hwt) in Hg. exact Hg.
Qed.

Lemma open_deps d ps : In (d, ps) (net_deps n) -> exists e, In e open_ones /\ d = vv e /\ ps = map vv (observed_by n e).
Proof.
  intros H. destruct (net_deps_spec n d ps H) as (f & Hf & Ho & -> & ->). exists (nf_for f). split; [|split]; auto.
  - unfold is_open in Ho. apply andb_prop in Ho. destruct Ho as [Ho Hk]. apply andb_prop in Ho. destruct Ho as [Ht Hd].
    apply negb_true_iff in Ht. unfold open_ones. apply filter_In. split; auto. apply decision_known. split.
    + split; auto. apply (wt_for _ _ (wn_tables _ Hwf f Hf Ht)).
    + destruct (kind vars (nf_for f)) as [[]|]; congruence.
  - unfold observed_by. rewrite factor_unique; auto.
Qed.

(** All open decisions with observations are declared to the solver. *)
Lemma deps_fold_in (L : list (nfactor xnum)) : forall m f, NoDup (map (fun f => fst (dep_of n f)) L) -> 
  (forall f, In f L -> ~ In (fst (dep_of n f)) (map fst m)) ->
  (In f L \/ In (dep_of n f) m) ->
  In (dep_of n f) (fold_left (fun m f => mset var_eqb m (fst (dep_of n f)) (snd (dep_of n f))) L m).
Proof.
  induction L as [|g L IH]; intros m f Hn Hm Hin; cbn [fold_left]. { destruct Hin as [[]|Hin]; auto. }
  inversion Hn; subst. assert (Hg : ~ In (fst (dep_of n g)) (map fst m)) by (apply Hm; simpl; auto).
  rewrite (mset_new _ var_eqb_spec) by auto. apply IH; auto.
  - intros f' Hf' Hc. rewrite map_app in Hc. apply in_app_iff in Hc. destruct Hc as [Hc|[Hc|[]]].
    + apply (Hm f'); simpl; auto.
    + simpl in Hc. apply H1. apply in_map_iff. exists f'. auto.
  - destruct Hin as [[->|Hin]|Hin]; auto; right; apply in_app_iff; auto. right. left. destruct (dep_of n f); auto.
Qed.

Lemma NoDup_map_filter {X Y} (h : X -> Y) p l : NoDup (map h l) -> NoDup (map h (filter p l)).
Proof. apply NoDup_filter_map. Qed.

Lemma deps_in f : In f (n_factors n) -> is_open n f = true -> In (vv (nf_for f), map vv (nf_given f)) (net_deps n).
Proof.
  intros Hf Ho. change (In (dep_of n f) (net_deps n)). apply deps_fold_in; auto.
  - assert (Hk : forall g, In g (filter (is_open n) (n_factors n)) -> known (nf_for g)).
    { intros g Hg. apply filter_In in Hg. destruct Hg as [Hg Hgo]. apply (open_known n Hwf g Hg Hgo). apply in_app_iff. simpl; auto. }
    pose proof (NoDup_map_filter nf_for (is_open n) _ (dn_single _ Hdn)) as Hn. revert Hk Hn.
    generalize (filter (is_open n) (n_factors n)) as L. induction L as [|g L IH]; simpl; intros Hk Hn; constructor.
    + intros Hc. apply in_map_iff in Hc. destruct Hc as (f' & E & Hf'). inversion Hn; subst. apply H1.
      apply in_map_iff. exists f'. split; auto. apply (vv_inj n Hwf); auto. simpl in E. congruence.
    + apply IH; auto. inversion Hn; auto.
  - left. apply filter_In. auto.
Qed.

Lemma observes_spec d x : In d open_ones -> known x -> (observes (net_deps n) (vv d) (vv x) = true <-> In x (observed_by n d)).
Proof.
  intros Hd Hx. unfold observes. rewrite existsb_exists. split.
  - intros ([k ps] & Hk & E). apply andb_prop in E. destruct E as [E1 E2]. apply var_eqb_spec in E1. subst k.
    destruct (open_deps _ _ Hk) as (e & He & Ee & ->). apply open_type in He, Hd.
    assert (d = e) by (apply (vv_inj n Hwf); try tauto; congruence). subst e.
    unfold contains_id in E2. apply existsb_exists in E2. destruct E2 as (w & Hw & E2). apply in_map_iff in Hw. destruct Hw as (y & <- & Hy).
    apply Z.eqb_eq in E2. assert (Hyk : known y). { eapply observed_known; eauto. apply decision_known. split; try tauto.
      apply open_type, filter_In in Hd. destruct Hd as [Hd _]. apply decision_known in Hd. tauto. }
    assert (x = y) by (apply (vv_inj n Hwf); auto). subst. auto.
  - intros Ho. destruct (observed_in _ _ Ho) as (f & Hf & <- & Hg). exists (vv (nf_for f), map vv (nf_given f)). split.
    + apply deps_in; auto. unfold open_ones in Hd. apply filter_In in Hd. destruct Hd as [Hd Hk]. apply decision_known in Hd. destruct Hd as [[Ht _] Hkd].
      unfold is_open. rewrite Ht, Hkd, Hk. auto.
    + rewrite (proj2 (var_eqb_spec _ _) eq_refl). simpl. apply existsb_exists. exists (vv x). split; [apply in_map; auto|apply Z.eqb_refl].
Qed.

(** ** The influence diagram *)
Section Diagram.
Variables (vs : vstate) (fs : list (factor xnum)).
Hypothesis Hcr : created n [] vs fs.
Let Hcr' : created n (ev_ign false []) vs fs := Hcr.

Lemma active_all : active n [] = n_policies n.
Proof. unfold active. induction (n_policies n) as [|dp l IH]; auto. cbn [filter]. simpl. f_equal. auto. Qed.

(** [g] is the conditional distribution of [x]. *)
Definition distribution (x : string) (g : factor xnum) : Prop :=
  (exists f, In f (chance_factors n) /\ nf_for f = x /\ became n f g) \/
  (exists p, In (x, p) (n_policies n) /\ pol_became n (x, p) g).

Lemma distributions : exists L : list (string * factor xnum), map snd L = prob_factors fs /\ Permutation (map fst L) (conditionals n (fun _ => false)) /\
  forall x g, In (x, g) L -> distribution x g.
Proof.
  destruct (created_prob n Hwf false [] vs fs Hcr') as (tfs & pfs & pols & E & Ht & Hp & Hb).
  change (ev_ign false []) with (@nil (string * string)) in Hp. rewrite active_all in Hp.
  destruct (combine_in _ nf_for _ _ Ht) as (A1 & A2 & A3). destruct (combine_in _ fst _ _ Hb) as (B1 & B2 & B3).
  exists (combine (map nf_for (chance_factors n)) tfs ++ combine (map fst pols) pfs). split; [|split].
  - rewrite map_app, A2, B2. auto.
  - rewrite map_app, A1, B1. unfold conditionals. apply Permutation_app_head. rewrite filter_all by auto. apply Permutation_map. auto.
  - intros x g Hin. apply in_app_iff in Hin. destruct Hin as [Hin|Hin].
    + left. destruct (A3 _ _ Hin) as (f & Hf & -> & Hr). eauto.
    + right. destruct (B3 _ _ Hin) as ([d p] & Hf & -> & Hr). exists p. split; auto. apply (Permutation_in _ Hp). auto.
Qed.

Lemma policy_decision d p : In (d, p) (n_policies n) -> In d (decisions n) /\ has_key (n_policies n) d = true.
Proof.
  intros H. destruct (policy_in n Hwf d p H) as (Hk & _ & _ & Hwp). split.
  - apply decision_known. split; auto. apply Hwp.
  - apply has_key_spec. apply (in_map fst) in H. auto.
Qed.

Lemma conditional_chance x : In x (conditionals n (fun _ => false)) <-> known x /\ v_type (vv x) = Chance.
Proof.
  unfold conditionals. rewrite in_app_iff, filter_all by auto. split.
  - intros [H|H]; apply in_map_iff in H.
    + destruct H as (f & <- & Hf). apply (chance_in n Hwf) in Hf. destruct Hf as (Hf & Hk & Ht & Hwt).
      assert (Hkn : known (nf_for f)) by (split; auto; apply (wt_for _ _ Hwt)). split; auto.
      destruct (kind_known n Hwf _ Hkn) as (t & E & ->). rewrite Hk in E. injection E as <-. auto.
    + destruct H as ([d p] & <- & H). cbn [fst]. destruct (policy_decision d p H) as [Hd Ho]. apply decision_known in Hd. destruct Hd as [Hk Hd].
      split; auto. destruct (kind_known n Hwf _ Hk) as (t & E & ->). rewrite Hd in E. injection E as <-. rewrite Ho. auto.
  - intros [Hk Ht]. destruct (kind_known n Hwf _ Hk) as (t & E & Et). rewrite Ht in Et.
    destruct (nodeType_eqb t Decision && has_key (n_policies n) x) eqn:B.
    + right. apply andb_prop in B. destruct B as [_ B]. apply has_key_spec in B. auto.
    + subst t. left. pose proof Hk as [Hnt (v & Hv)]. apply (var_named_in n Hwf) in Hv as Hv'. destruct Hv' as [Hin En].
      unfold kind in E. rewrite Hv in E. injection E as E.
      destruct (dn_complete _ Hdn v Hin E) as (f & Hf & Ef). apply in_map_iff. exists f. split; [congruence|].
      apply filter_In. split; auto. unfold kind. rewrite Ef, En, Hv. simpl. rewrite E. auto.
Qed.

Lemma conditionals_nodup : NoDup (conditionals n (fun _ => false)).
Proof.
  unfold conditionals. rewrite filter_all by auto. apply NoDup_app_intro.
  - apply NoDup_filter_map. apply (dn_single _ Hdn).
  - apply (wn_keys _ Hwf).
  - intros x H1 H2. apply in_map_iff in H1, H2. destruct H1 as (f & <- & Hf). destruct H2 as ([d p] & E & H2). cbn [fst] in E. subst d.
    apply (chance_in n Hwf) in Hf. destruct Hf as (_ & Hk & _). apply policy_decision in H2. destruct H2 as [H2 _]. apply decision_known in H2.
    destruct H2 as [_ H2]. congruence.
Qed.

Lemma chance_vvars v : In v (chance_vars V) <-> exists x, known x /\ v_type (vv x) = Chance /\ v = vv x.
Proof.
  unfold chance_vars. rewrite filter_In, nodeType_eqb_spec. split.
  - intros [Hv Ht]. destruct (vv_surj n Hwf v Hv) as (x & Hk & ->). eauto.
  - intros (x & Hk & Ht & ->). split; auto. apply (vv_in n Hwf). auto.
Qed.

Lemma prob_incl g : In g (prob_factors fs) -> incl (f_vars g) V.
Proof.
  intros Hg. apply filter_In in Hg. destruct Hg as [Hg _].
  pose proof (vp_factors _ _ _ (cr_problem _ _ _ _ Hcr) g Hg) as (_ & _ & Hi & _). rewrite (cr_vars _ _ _ _ Hcr) in Hi. auto.
Qed.

Lemma factor_names_vv (p : factor xnum) v : In v (f_vars p) -> represents n v -> exists x, In x (factor_names n p) /\ known x /\ pol_var n v = vv x /\ v_id v = v_id (vv x).
Proof.
  intros Hv Hr. destruct (represents_vv n Hwf v Hr) as (i & nv & Hi & Eid & _ & Hk & Epv & Eid2 & _). exists (nv_name nv).
  split; [|split; [|split]]; auto. unfold factor_names. apply in_map_iff. exists v. split; auto. rewrite Eid, Nat2Z.id, Hi. auto.
Qed.

Lemma diagram : exists cpt rank, influence_diagram vs fs (net_deps n) cpt rank.
Proof.
  destruct distributions as (L & E & Hp & HL). destruct (dn_order _ Hdn) as (rank & Hrank).
  set (L' := map (fun xg => (vv (fst xg), snd xg)) L).
  assert (HK : forall x, In x (map fst L) <-> known x /\ v_type (vv x) = Chance).
  { intros x. rewrite <- conditional_chance. split; apply Permutation_in; auto. apply Permutation_sym; auto. }
  assert (HN : NoDup (map fst L')).
  { unfold L'. rewrite map_map. cbn [fst]. rewrite <- (map_map fst vv). 
    assert (Hn : NoDup (map fst L)) by (eapply Permutation_NoDup; [apply Permutation_sym; apply Hp|apply conditionals_nodup]).
    revert HK Hn. generalize (map fst L) as l. clear - Hwf. intros l HK. assert (HK' : forall x, In x l -> known x) by (intros x Hx; apply HK; auto). clear HK.
    induction l as [|x l IH]; simpl; intros Hn; constructor; inversion Hn; subst.
    - intros Hc. apply in_map_iff in Hc. destruct Hc as (y & Ey & Hy). apply H1. replace x with y; auto.
      apply (vv_inj n Hwf); try (apply HK'; simpl; auto; fail). congruence.
    - apply IH; auto. intros; apply HK'; simpl; auto. }
  assert (HE : map snd L' = prob_factors fs). { unfold L'. rewrite map_map. cbn [snd]. rewrite <- E. auto. }
  set (cpt := mget_or var_eqb (mkFactor 0 [] []) L').
  assert (HC : forall c, In c (chance_vars V) <-> In c (map fst L')).
  { intros c. rewrite chance_vvars. unfold L'. rewrite map_map. cbn [fst]. rewrite <- (map_map fst vv), in_map_iff. split.
    - intros (x & Hk & Ht & ->). exists x. split; auto. apply HK. auto.
    - intros (x & <- & Hx). apply HK in Hx. exists x. tauto. }
  assert (HD : forall c, In c (chance_vars V) -> exists x, c = vv x /\ known x /\ v_type (vv x) = Chance /\ distribution x (cpt c) /\ In (cpt c) (prob_factors fs)).
  { intros c Hc. apply HC in Hc. pose proof (mget_or_in var_eqb var_eqb_spec (mkFactor 0 [] []) L' c Hc) as Hin. fold (cpt c) in Hin.
    unfold L' in Hin. apply in_map_iff in Hin. destruct Hin as ([x g] & Exg & Hin). cbn [fst snd] in Exg. injection Exg as E1 E2.
    exists x. split; auto. assert (In x (map fst L)) by (apply (in_map fst) in Hin; auto). apply HK in H. split; [|split]; try tauto. split; [|].
    - rewrite <- E2. auto.
    - rewrite <- E, <- E2. apply (in_map snd) in Hin. auto. }
  assert (HV : vs_vars vs = V) by apply Hcr.
  assert (Hval : forall c x a, In c (chance_vars V) -> c = vv x -> known x -> in_range V a -> 
     (forall f, In f (chance_factors n) -> nf_for f = x -> became n f (cpt c) -> value (cpt c) a = cond_prob vars f (by_name a)) /\
     (forall p, In (x, p) (n_policies n) -> pol_became n (x, p) (cpt c) -> value (cpt c) a = policy_prob vars p (by_name a))).
  { intros c x a Hc Ex Hk Ha. destruct (HD c Hc) as (_ & _ & _ & _ & _ & Hin). assert (Hr : in_range (f_vars (cpt c)) a).
    { eapply in_range_incl; eauto. apply prob_incl; auto. }
    split.
    - intros f Hf Ef (_ & _ & Hd). rewrite (denotes_value _ _ a Hd Hr). unfold table_value. apply (chance_in n Hwf) in Hf. destruct Hf as (_ & -> & _). auto.
    - intros p Hf (_ & _ & Hd). rewrite (denotes_value _ _ a Hd Hr). auto. }
  exists cpt, (wide_rank n rank). constructor; rewrite ?HV.
  - apply Hcr.
  - rewrite <- HE, <- (mget_or_map var_eqb var_eqb_spec (mkFactor 0 [] []) L' HN). fold cpt. apply Permutation_map. apply NoDup_Permutation; auto.
    apply wf_NoDup. apply NoDup_filter_map. apply net_vars_wf.
  - intros c Hc. destruct (HD c Hc) as (x & -> & Hk & Ht & HDi & Hin). destruct HDi as [(f & Hf & <- & _ & Hv & _)|(p & Hp' & _ & Hv & _)].
    + rewrite Hv. unfold tvars. apply in_map. apply in_app_iff. simpl; auto.
    + rewrite Hv. cbn [snd]. destruct (policy_in n Hwf x p Hp') as (_ & _ & _ & Hwp). destruct (wp_own _ _ _ Hwp) as (i & nv & w & Hi & En & Hw & Eid).
      apply in_map_iff. exists w. split; auto. destruct (represents_vv n Hwf w (wp_scope _ _ _ Hwp w Hw)) as (j & nv' & Hj & Ej & _ & _ & -> & _).
      assert (i = j) by lia. subst j. congruence.
  - intros c a Hc Ha. destruct (HD c Hc) as (x & Ec & Hk & Ht & HDi & Hin). destruct (vv_outcomes n Hwf x Hk) as [Eo Hpos].
    replace (v_outcomes c) with (num_outcomes vars x) by congruence. replace (v_id c) with (v_id (vv x)) by congruence.
    assert (Ha' : forall k, (k < num_outcomes vars x)%nat -> in_range V (upd a (v_id (vv x)) k)).
    { intros k Hlt. apply in_range_upd'; auto. apply net_vars_wf. apply (vv_in n Hwf); auto. destruct (vv_outcomes n Hwf x Hk) as [-> _]. auto. }
    destruct HDi as [(f & Hf & Ef & Hb)|(p & Hp' & Hb)].
    + rewrite <- (cond_prob_sum n f (by_name a)). 2:{ apply (dn_rows _ Hdn); auto. apply (by_name_state n Hwf). auto. }
      rewrite Ef. apply qsum_ext. intros k Hlt. apply in_seq in Hlt. destruct (Hval c x (upd a (v_id (vv x)) k)) as [H1 _]; auto.
      { apply Ha'. lia. } rewrite (H1 f); auto. apply cond_prob_proper. apply (by_name_upd n Hwf). auto.
    + destruct (ps_policy Hps x p Hp') as [Hpf _]. rewrite <- (pf_rows _ _ _ Hpf (by_name a)) by (apply (by_name_state n Hwf); auto).
      apply qsum_ext. intros k Hlt. apply in_seq in Hlt. destruct (Hval c x (upd a (v_id (vv x)) k)) as [_ H1]; auto.
      { apply Ha'. lia. } rewrite (H1 p); auto. apply (policy_proper n). apply (by_name_upd n Hwf). auto.
  - intros c a Hc Ha. destruct (HD c Hc) as (x & Ec & Hk & Ht & HDi & Hin). destruct (Hval c x a) as [H1 H2]; auto.
    destruct HDi as [(f & Hf & Ef & Hb)|(p & Hp' & Hb)].
    + rewrite (H1 f); auto. apply (cond_prob_nonneg n). intros s. apply (dn_nonneg _ Hdn). auto.
    + rewrite (H2 p); auto. destruct (ps_policy Hps x p Hp') as [Hpf _]. apply (pf_nonneg _ _ _ Hpf). apply (by_name_state n Hwf). auto.
  - intros c u Hc Hu Hne. destruct (HD c Hc) as (x & -> & Hk & Ht & HDi & Hin). rewrite (wide_rank_vv n Hwf) by auto.
    destruct HDi as [(f & Hf & Ef & (_ & Hv & _))|(p & Hp' & (_ & Hv & _))].
    + rewrite Hv in Hu. unfold tvars in Hu. apply in_map_iff in Hu. destruct Hu as (y & <- & Hy). apply in_app_iff in Hy.
      destruct Hy as [Hy|[Hy|[]]]; [|congruence]. apply (chance_in n Hwf) in Hf. destruct Hf as (Hf & Hkf & Htf & Hwt).
      rewrite (wide_rank_vv n Hwf) by (apply (table_names n f Htf Hwt); apply in_app_iff; auto). subst x. apply Hrank; auto. congruence.
    + rewrite Hv in Hu. cbn [snd] in Hu. apply in_map_iff in Hu. destruct Hu as (w & <- & Hw). destruct (policy_in n Hwf x p Hp') as (_ & _ & _ & Hwp).
      destruct (factor_names_vv p w Hw (wp_scope _ _ _ Hwp w Hw)) as (y & Hy & Hyk & Epv & _). rewrite Epv in *. rewrite (wide_rank_vv n Hwf) by auto.
      destruct (ps_policy Hps x p Hp') as [_ Hi]. apply Hi in Hy. destruct Hy as [<-|Hy]; [congruence|].
      destruct (observed_in _ _ Hy) as (f & Hf & <- & Hg). apply Hrank; auto. apply policy_decision in Hp'. destruct Hp' as [Hd _]. apply decision_known in Hd.
      destruct Hd as [_ ->]. discriminate.
  - intros d ps q Hd Ht Hq. destruct (open_deps _ _ Hd) as (e & He & -> & ->). apply in_map_iff in Hq. destruct Hq as (y & <- & Hy).
    apply filter_In in He. destruct He as [He _]. destruct (observed_known e y He Hy) as [Hyk _]. apply decision_known in He.
    rewrite !(wide_rank_vv n Hwf) by tauto. destruct (observed_in _ _ Hy) as (f & Hf & <- & Hg). apply Hrank; auto. destruct He as [_ ->]. discriminate.
Qed.
End Diagram.
End NP.
