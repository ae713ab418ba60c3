(** SolveQuery at the network level. *)
From Coq Require Import ZArith List Bool String Lia Permutation QArith Qcanon.
From Verif Require Import Num GoBase VarModel GoFacts Tuples SpecFactor FactorFacts FactorAt XnumFacts ExactFactor FactorThms
  VEModel SpecVE VEWorlds VEFacts VESolve VEThms VEUtil NetModel SpecNet NetVars NetFactors NetVE NetSums.
Import ListNotations.
Open Scope string_scope.
Open Scope list_scope.
Open Scope Z_scope.

Section NQ.
Variable n : network xnum.
Hypothesis Hwf : wf_network n.
Notation vars := (n_vars n).
Notation vv := (vv n).
Notation by_name := (by_name n).
Notation known := (known n).
Notation V := (net_vars n).

(** ** The product of the created factors *)

Definition ev_ign (ig : bool) (ev : list (string * string)) := if ig then ev else [].

Lemma ignored_ev ig ev x : has_key (ev_ign ig ev) x = ignored_by ig ev x.
Proof. unfold ev_ign, ignored_by. destruct ig; auto. Qed.

Lemma active_ignored ig ev : active n (ev_ign ig ev) = filter (fun dp => negb (ignored_by ig ev (fst dp))) (n_policies n).
Proof. unfold active. apply filter_ext. intros dp. rewrite ignored_ev. auto. Qed.

Section Created.
Variables (ig : bool) (ev : list (string * string)) (vs : vstate) (fs : list (factor xnum)).
Hypothesis Hcr : created n (ev_ign ig ev) vs fs.

Lemma created_prob : exists tfs pfs pols, prob_factors fs = tfs ++ pfs /\ Forall2 (became n) (chance_factors n) tfs /\
  Permutation pols (active n (ev_ign ig ev)) /\ Forall2 (pol_became n) pols pfs.
Proof.
  destruct (cr_split _ _ _ _ Hcr) as (tfs & pfs & pols & -> & Ht & Hp & Hb).
  exists (prob_factors tfs), pfs, pols. split; [|split; [|split]]; auto.
  - unfold prob_factors. rewrite filter_app. f_equal.
    assert (E : forall g, In g pfs -> is_utility_factor g = false).
    { intros g Hg. destruct (Forall2_in_r _ _ _ _ Hb Hg) as ([d p] & Hin & Hpb). eapply pol_no_utility; eauto.
      apply (Permutation_in _ Hp) in Hin. apply filter_In in Hin. apply Hin. }
    clear - E. induction pfs; simpl; auto. rewrite E by (simpl; auto). simpl. f_equal. apply IHpfs. intros; apply E; simpl; auto.
  - rewrite <- (chance_tables n Hwf). unfold prob_factors. eapply Forall2_filter; [|apply Ht].
    intros f g Hf Hfg. apply became_chance; auto.
Qed.

Lemma in_range_known a f : incl (f_vars f) V -> in_range V a -> in_range (@f_vars xnum f) a.
Proof. intros Hi Ha. eapply in_range_incl; eauto. Qed.

Lemma weight_joint a : in_range V a -> weight_of (prob_factors fs) a = joint n (ignored_by ig ev) (by_name a).
Proof.
  intros Ha. destruct created_prob as (tfs & pfs & pols & E & Ht & Hp & Hb).
  assert (Hin : forall f, In f (tfs ++ pfs) -> incl (f_vars f) V).
  { intros f Hf. rewrite <- E in Hf. apply filter_In in Hf. destruct Hf as [Hf _].
    pose proof (vp_factors _ _ _ (cr_problem _ _ _ _ Hcr) f Hf) as (_ & _ & Hi & _). rewrite (cr_vars _ _ _ _ Hcr) in Hi. auto. }
  rewrite E, weight_app. unfold joint, weight_of. f_equal.
  - symmetry. rewrite <- (map_id (chance_factors n)) at 1.
    assert (G : forall L L', Forall2 (became n) L L' -> (forall f, In f L -> kind vars (nf_for f) = Some Chance) -> incl L' tfs ->
       qprod (map (fun f => cond_prob vars f (by_name a)) L) = qprod (map (fun f => value f a) L')).
    { induction 1 as [|f g L L' Hfg HL IH]; intros Hk Hi; auto. cbn [map qprod fold_right].
      change (fold_right Qcmult 1%Qc) with qprod. rewrite IH; [|intros; apply Hk; simpl; auto|intros z Hz; apply Hi; simpl; auto].
      f_equal. destruct Hfg as (Hw & Hvs & Hd). rewrite (denotes_value g _ a Hd).
      - unfold table_value. rewrite (Hk f); simpl; auto.
      - apply in_range_known; auto. apply Hin. apply in_app_iff. left. apply Hi. simpl; auto. }
    rewrite map_id. apply G; auto; [|apply incl_refl]. intros f Hf. apply filter_In in Hf. destruct Hf as [_ Hf].
    destruct (kind vars (nf_for f)) as [[]|]; auto; discriminate.
  - rewrite <- active_ignored. rewrite <- (qprod_perm _ _ (Permutation_map (fun dp => policy_prob vars (snd dp) (by_name a)) Hp)).
    symmetry. assert (G : forall L L', Forall2 (pol_became n) L L' -> incl L' pfs ->
       qprod (map (fun dp => policy_prob vars (snd dp) (by_name a)) L) = qprod (map (fun f => value f a) L')).
    { induction 1 as [|f g L L' Hfg HL IH]; intros Hi; auto. cbn [map qprod fold_right].
      change (fold_right Qcmult 1%Qc) with qprod. rewrite IH; [|intros z Hz; apply Hi; simpl; auto].
      f_equal. destruct Hfg as (Hw & Hvs & Hd). rewrite (denotes_value g _ a Hd); auto.
      apply in_range_known; auto. apply Hin. apply in_app_iff. right. apply Hi. simpl; auto. }
    apply G; auto. apply incl_refl.
Qed.

Lemma scope_mentioned x : known x -> ((exists g, In g (prob_factors fs) /\ In (vv x) (f_vars g)) <-> mentioned n (ignored_by ig ev) x).
Proof.
  intros Hk. destruct created_prob as (tfs & pfs & pols & E & Ht & Hp & Hb). rewrite E. split.
  - intros (g & Hg & Hv). apply in_app_iff in Hg. destruct Hg as [Hg|Hg].
    + left. destruct (Forall2_in_r _ _ _ _ Ht Hg) as (f & Hf & _ & Hvs & _). exists f. split; auto.
      rewrite Hvs in Hv. apply in_map_iff in Hv. destruct Hv as (y & Ey & Hy).
      replace x with y; auto. apply (vv_inj n Hwf); [|auto|congruence].
      eapply table_names; [..|apply Hy].
      * apply filter_In in Hf. destruct Hf as [_ Hf]. destruct (is_total n (nf_for f)) eqn:Et; auto.
        apply (total_kind n Hwf) in Et. rewrite Et in Hf. discriminate.
      * apply (wn_tables n Hwf); apply filter_In in Hf; destruct Hf as [Hf1 Hf]; auto.
        destruct (is_total n (nf_for f)) eqn:Et; auto. apply (total_kind n Hwf) in Et. rewrite Et in Hf. discriminate.
    + right. destruct (Forall2_in_r _ _ _ _ Hb Hg) as ([d p] & Hdp & _ & Hvs & _). simpl in Hvs.
      apply (Permutation_in _ Hp) in Hdp. apply filter_In in Hdp. destruct Hdp as [Hdp Hig]. simpl in Hig.
      rewrite Hvs in Hv. apply in_map_iff in Hv. destruct Hv as (w & Ew & Hw).
      destruct (represents_vv n Hwf w (wp_scope n d p (wn_policies n Hwf d p Hdp) w Hw)) as (i & nv & Hi & Hid & _ & Hkn & Ep & _).
      exists d, p, i, nv, w. split; auto. split; [rewrite <- ignored_ev; apply negb_true_iff; auto|]. split; auto. split; auto.
      apply (vv_inj n Hwf); auto. congruence.
  - intros [(f & Hf & Hx)|(d & p & i & nv & w & Hdp & Hig & Hi & Hn & Hw & Hid)].
    + destruct (Forall2_in_l _ _ _ _ Ht Hf) as (g & Hg & _ & Hvs & _). exists g. split; [apply in_app_iff; auto|].
      rewrite Hvs. apply in_map. auto.
    + assert (Ha : In (d, p) pols).
      { apply (Permutation_in _ (Permutation_sym Hp)). apply filter_In. split; auto. simpl. rewrite ignored_ev, Hig. auto. }
      destruct (Forall2_in_l _ _ _ _ Hb Ha) as (g & Hg & _ & Hvs & _). exists g. split; [apply in_app_iff; auto|].
      simpl in Hvs. rewrite Hvs. apply in_map_iff. exists w. split; auto.
      destruct (represents_vv n Hwf w (wp_scope n d p (wn_policies n Hwf d p Hdp) w Hw)) as (j & nv' & Hj & Hjd & _ & _ & Ep & _).
      rewrite Ep. rewrite Hid in Hjd. apply Nat2Z.inj in Hjd. subst j. congruence.
Qed.

Lemma problem_V : ve_problem vs fs (net_deps n) /\ vs_vars vs = V.
Proof. split; apply Hcr. Qed.

(** Hidden variables occur in a factor. *)
Lemma hidden_covered evs query : complete n -> (forall x, ignored_by ig ev x = true -> known x -> is_evidence evs (vv x) = true) ->
  forall h, In h (hidden_in V (net_deps n) evs query) -> exists f, In f (prob_factors fs) /\ In h (f_vars f).
Proof.
  intros Hco Hig h Hh. apply filter_In in Hh. destruct Hh as [Hin Hc]. do 3 (apply andb_true_iff in Hc; destruct Hc as [Hc ?]).
  destruct (vv_surj n Hwf h Hin) as (x & Hk & ->). apply scope_mentioned; auto.
  destruct (kind_known n Hwf x Hk) as (t & Ekk & Hty).
  destruct Hk as [Ht0 (v & Hv)]. pose proof (proj1 (var_named_in n Hwf x v) Hv) as [Hvin Hvn].
  assert (Etv : t = nv_type v) by (unfold kind in Ekk; rewrite Hv in Ekk; simpl in Ekk; congruence).
  destruct t.
  - left. destruct (Hco v Hvin) as (f & Hf & Hfo); auto. exists f. split.
    + apply filter_In. split; auto. rewrite Hfo, Hvn, Ekk. auto.
    + apply in_app_iff. right. simpl. left. congruence.
  - right. rewrite Hty in Hc. simpl in Hc. destruct (has_key (n_policies n) x) eqn:Hp; [|discriminate].
    unfold has_key in Hp. destruct (sget_map (n_policies n) x) as [p|] eqn:Ep; [|discriminate].
    apply (mget_In _ string_eqb_spec) in Ep. destruct (wp_own n x p (wn_policies n Hwf x p Ep)) as (i & nv & w & Hi & Hnn & Hw & Hid).
    exists x, p, i, nv, w. split; auto. split; auto.
    destruct (ignored_by ig ev x) eqn:E; auto. rewrite (Hig x E) in *; [discriminate|]. split; eauto.
  - rewrite Hty in Hc. simpl in Hc. discriminate.
Qed.

End Created.

(** ** Looking up names *)

Lemma evidence_ok ev : valid_observations n ev -> net_evidence (name_map (entries n)) ev = Ok (map (obs n) ev).
Proof.
  intros Hv. unfold net_evidence. apply mapM_ok. intros [x o] Hin.
  destruct (obs_known n Hwf ev Hv x o Hin) as (v & Hvn & Hk & _ & _ & k & Ek & _).
  destruct (lookup_known n Hwf x Hk) as (i & v' & Hi & Hn & Hvn' & Hne & L). unfold lookup in L. rewrite L.
  assert (v' = v) by congruence. subst v'. unfold obs in *. cbn [ev_value fst snd] in *. rewrite Hvn in Ek.
  change (en_var (ve_entry n (Z.of_nat i, v))) with v. rewrite Ek. replace (Z.of_nat k <? 0) with false by lia. rewrite Hvn, <- Ek.
  unfold NetFactors.vv, lookup. rewrite L. auto.
Qed.

Lemma query_ok query : (forall q, In q query -> known q) -> net_query_vars (name_map (entries n)) query = Ok (map vv query).
Proof.
  intros H. unfold net_query_vars. apply mapM_ok. intros x Hx.
  destruct (lookup_known n Hwf x (H x Hx)) as (i & v & _ & _ & _ & _ & L). unfold lookup in L. rewrite L.
  unfold NetFactors.vv, lookup. rewrite L. auto.
Qed.


(** ** The solver's answer *)

Lemma evidence_key ev x : valid_observations n ev -> known x -> (is_evidence (map (obs n) ev) (vv x) = true <-> In x (map fst ev)).
Proof.
  intros Hv Hk. unfold is_evidence. rewrite existsb_exists. split.
  - intros (e & He & E). apply in_map_iff in He. destruct He as ([y o] & <- & Hin). unfold obs in E. cbn [ev_var fst] in E.
    apply Z.eqb_eq in E. destruct (obs_known n Hwf ev Hv y o Hin) as (_ & _ & Hky & _).
    apply (vv_inj n Hwf) in E; auto. subst. apply (in_map fst) in Hin. auto.
  - intros Hin. apply in_map_iff in Hin. destruct Hin as ([y o] & E & Hin). simpl in E. subst y.
    exists (obs n (x, o)). split; [apply in_map; auto|]. apply Z.eqb_refl.
Qed.

Lemma ignored_evidence ig ev ev' x : Permutation ev ev' -> valid_observations n ev -> ignored_by ig ev x = true -> known x ->
  is_evidence (map (obs n) ev') (vv x) = true.
Proof.
  intros Hp Hv Hi Hk. apply evidence_key; auto. { eapply perm_observations; eauto. }
  unfold ignored_by in Hi. apply andb_true_iff in Hi. destruct Hi as [_ Hi]. apply has_key_spec in Hi.
  eapply Permutation_in; [apply Permutation_map|]; eauto.
Qed.

(** A variable that can be asked for. *)
Lemma askable_known ign ev q : askable n ign ev q -> known q /\ v_type (vv q) <> Utility.
Proof.
  intros ((v & Hv & Hu) & _). assert (Hk : known q).
  { split; eauto. destruct (is_total n q) eqn:E; auto. apply (total_kind n Hwf) in E. unfold kind in E. rewrite Hv in E. simpl in E. congruence. }
  split; auto. intros E. apply (vv_utility n Hwf) in E; auto. unfold kind in E. rewrite Hv in E. simpl in E. congruence.
Qed.

Definition known_names (query : list string) : Prop := forall q, In q query -> known q.

(** The result factor as a function, by marginals. *)
Record answer (ig : bool) (ev ev' : list (string * string)) (query : list string) (f : factor xnum) : Prop := {
  an_wf : wf_factor f;
  an_finite : finite_factor f;
  an_vars : incl (f_vars f) V;
  an_query : forall q, In q query -> askable n (ignored_by ig ev) ev q -> In (vv q) (f_vars f);
  an_marginal : forall q, In q query -> askable n (ignored_by ig ev) ev q ->
    exists c, (0 < c)%Qc /\ forall j, (j < v_outcomes (vv q))%nat ->
    (c * total (value f) (others (f_vars f) (vv q)) (upd zero_asg (v_id (vv q)) j))%Qc =
    mass n (ignored_by ig ev) (fun s => agrees vars ev s && (s q =? j)%nat)
}.

Lemma zero_range vs : (forall v, In v vs -> (0 < v_outcomes v)%nat) -> in_range vs zero_asg.
Proof. intros H v Hv. unfold zero_asg. apply H. auto. Qed.

Lemma V_pos v : In v V -> (0 < v_outcomes v)%nat.
Proof. intros H. destruct (vv_surj n Hwf v H) as (x & Hk & ->). apply (vv_outcomes n Hwf); auto. Qed.

Lemma finite_of_range (f : factor xnum) : incl (f_vars f) V -> (forall a, in_range V a -> exists q, get_at f a = Ok (Fin q)) -> finite_factor f.
Proof.
  intros Hi H a Ha. set (a' := fun id => if existsb (fun v => v_id v =? id) (f_vars f) then a id else 0%nat).
  destruct (H a') as (q & E).
  - intros v Hv. unfold a'. destruct (existsb (fun u => v_id u =? v_id v) (f_vars f)) eqn:Ex.
    + apply existsb_exists in Ex. destruct Ex as (u & Hu & Eid). apply Z.eqb_eq in Eid.
      assert (u = v) by (apply (wf_vars_inj V); auto; apply net_vars_wf). subst u. apply Ha. auto.
    + apply V_pos. auto.
  - exists q. rewrite <- E. unfold get_at. f_equal. apply map_ext_in. intros v Hv. f_equal. unfold a'.
    replace (existsb (fun u => v_id u =? v_id v) (f_vars f)) with true; auto. symmetry. apply existsb_exists. exists v. split; auto. apply Z.eqb_refl.
Qed.

Lemma hidden_not_evidence Vs deps evs query h : In h (hidden_in Vs deps evs query) -> is_evidence evs h = false.
Proof. intros H. apply filter_In in H. destruct H as [_ H]. do 3 (apply andb_true_iff in H; destruct H as [H ?]). apply negb_true_iff. auto. Qed.

Lemma total_weight_range (F G : asg -> Qc) vs a : incl vs V -> in_range V a -> (forall w, in_range V w -> F w = G w) -> total F vs a = total G vs a.
Proof. intros. eapply total_ext_range; eauto. apply net_vars_wf. Qed.

Theorem solve_answer sc t ig ev ev' vs fs query : created n (ev_ign ig ev) vs fs -> complete n -> Permutation ev ev' -> valid_observations n ev ->
  known_names query ->
  exists s' f, ve_solve_query sc (ve_new t vs fs (net_deps n) (finite_weights (weights n))) (map (obs n) ev') (map vv query) = Ok (s', f) /\
    answer ig ev ev' query f.
Proof.
  intros Hcr Hco Hp Hv Hq. pose proof (perm_observations n _ _ Hp Hv) as Hv'.
  destruct (problem_V ig ev vs fs Hcr) as [Hpb HV].
  destruct (solve_query_exact sc t vs fs (net_deps n) (finite_weights (weights n)) (map (obs n) ev') (map vv query)) as (s' & f & E & Hw & Hi & Hsc & _ & _ & Hval); auto.
  - rewrite HV. apply (obs_valid n Hwf). auto.
  - rewrite HV. apply (hidden_covered ig ev vs fs Hcr); auto. intros x. eapply ignored_evidence; eauto.
  - rewrite HV in *. set (evs := map (obs n) ev') in *. set (H := hidden_in V (net_deps n) evs (map vv query)) in *.
    assert (Hfin : finite_factor f).
    { apply finite_of_range; auto. intros a Ha. eexists. apply Hval. auto. }
    assert (Hevid : valid_evidence V evs) by (apply (obs_valid n Hwf); auto).
    assert (Hf : forall a, in_range V a -> value f a = total (fun w => weight_of (prob_factors fs) (plug evs w)) H a).
    { intros a Ha. unfold value. rewrite Hval by auto. symmetry. apply (total_plug (weight_of (prob_factors fs))); [apply weight_proper|]. intros v Hh. eapply hidden_not_evidence; eauto. }
    assert (Hqv : forall q, In q query -> askable n (ignored_by ig ev) ev q -> In (vv q) (f_vars f) /\ is_evidence evs (vv q) = false).
    { intros q Hin Hask. destruct (askable_known _ _ _ Hask) as [Hk Hty]. destruct Hask as (_ & Hm & Hne).
      assert (Hev : is_evidence evs (vv q) = false).
      { apply not_true_iff_false. intros Ht. apply (evidence_key ev' q Hv' Hk) in Ht. apply Hne.
        eapply Permutation_in; [apply Permutation_map, Permutation_sym|]; eauto. }
      split; auto. apply Hsc; [apply vv_in; auto|]. split; [apply (scope_mentioned ig ev vs fs Hcr); auto|]. split; auto.
      intros Hh. apply filter_In in Hh. destruct Hh as [_ Hh]. apply andb_true_iff in Hh. destruct Hh as [_ Hh].
      apply negb_true_iff in Hh. apply not_true_iff_false in Hh. apply Hh. apply existsb_exists. exists (vv q). split; [apply in_map; auto|apply Z.eqb_refl]. }
    exists s', f. split; auto. split; auto.
    { intros q Hin Hask. apply Hqv; auto. }
    intros q Hin Hask. destruct (askable_known _ _ _ Hask) as [Hkn Hty].
    destruct (Hqv q Hin Hask) as [Hqf Hqe].
    set (W := fun w => weight_of (prob_factors fs) (plug evs w)) in *.
    set (D := others (filter (fun v => negb (is_evidence evs v)) (worldly n)) (vv q)).
    set (ment := fun v => existsb (fun g => contains_id (f_vars g) (v_id v)) (prob_factors fs)).
    set (U := filter (fun v => negb (ment v)) D).
    assert (HWV : incl (worldly n) V) by (intros v Hv0; apply filter_In in Hv0; tauto).
    assert (HD : forall v, In v D <-> In v (worldly n) /\ is_evidence evs v = false /\ v_id v <> v_id (vv q)).
    { intros v. unfold D, others. rewrite filter_In, filter_In, !negb_true_iff, Z.eqb_neq. tauto. }
    assert (Hgin : forall g, In g (prob_factors fs) -> incl (f_vars g) V /\ is_utility_factor g = false).
    { intros g Hg. apply filter_In in Hg. destruct Hg as [Hg Hu]. apply negb_true_iff in Hu. split; auto. rewrite <- HV. apply (vp_factors _ _ _ Hpb g Hg). }
    assert (Hment : forall v, In v V -> (ment v = true <-> exists g, In g (prob_factors fs) /\ In v (f_vars g))).
    { intros v Hvin. unfold ment. rewrite existsb_exists. split; intros (g & Hg & Hgv); exists g; split; auto.
      - apply existsb_exists in Hgv. destruct Hgv as (u & Hu & Eid). apply Z.eqb_eq in Eid.
        rewrite (wf_vars_inj V v u); auto; [apply net_vars_wf|]. apply (Hgin g Hg). auto.
      - apply existsb_exists. exists v. split; auto. apply Z.eqb_refl. }
    assert (HWD : wf_vars D) by (unfold D; apply wf_others; unfold wf_vars; apply NoDup_filter_map; apply worldly_wf).
    assert (HperD : Permutation D (U ++ (others (f_vars f) (vv q) ++ H))).
    { apply NoDup_Permutation.
      - eapply NoDup_map_inv. apply HWD.
      - apply NoDup_app_intro; [unfold U; apply NoDup_filter; eapply NoDup_map_inv; apply HWD| |].
        + apply NoDup_app_intro.
          * unfold others. apply NoDup_filter. eapply NoDup_map_inv. apply Hw.
          * unfold H, hidden_in. apply NoDup_filter. eapply NoDup_map_inv. apply net_vars_wf.
          * intros v Hv1 Hv2. unfold others in Hv1. apply filter_In in Hv1. destruct Hv1 as [Hv1 _]. apply Hsc in Hv1; auto. tauto.
        + intros v Hv1 Hv2. unfold U in Hv1. apply filter_In in Hv1. destruct Hv1 as [Hv1 Hm]. apply negb_true_iff in Hm.
          apply HD in Hv1. destruct Hv1 as (Hvw & _ & _). apply not_true_iff_false in Hm. apply Hm. apply Hment; auto.
          apply in_app_iff in Hv2. destruct Hv2 as [Hv2|Hv2].
          * apply filter_In in Hv2. destruct Hv2 as [Hv2 _]. apply Hsc in Hv2; auto. tauto.
          * apply (hidden_covered ig ev vs fs Hcr evs (map vv query)); auto. intros x. eapply ignored_evidence; eauto.
      - intros v. rewrite !in_app_iff. split.
        + intros Hd. pose proof Hd as Hd'. apply HD in Hd. destruct Hd as (Hvw & Hve & Hvq).
          destruct (ment v) eqn:Em; [|left; apply filter_In; rewrite Em; auto]. right.
          destruct (in_dec (fun a b : variable => ltac:(repeat decide equality)) v H) as [Hh|Hh]; auto. left.
          apply in_others. split; auto. apply Hsc; auto. split; auto. apply Hment; auto.
        + intros [Hd|[Hd|Hd]].
          * unfold U in Hd. apply filter_In in Hd. tauto.
          * unfold others in Hd. apply filter_In in Hd. destruct Hd as [Hd Hne]. apply negb_true_iff, Z.eqb_neq in Hne. apply HD.
            pose proof Hd as Hd'. apply Hsc in Hd'; auto. destruct Hd' as ((g & Hg & Hgv) & Hve & _). split; auto.
            unfold worldly. apply filter_In. split; auto. destruct (Hgin g Hg) as [_ Hu]. unfold is_utility_factor in Hu.
            apply negb_true_iff. apply not_true_iff_false. intros Ht. apply not_true_iff_false in Hu. apply Hu. apply existsb_exists. exists v. auto.
          * pose proof (hidden_not_evidence _ _ _ _ _ Hd) as Hve. unfold H, hidden_in in Hd. apply filter_In in Hd. destruct Hd as [Hd Hc]. do 3 (apply andb_true_iff in Hc; destruct Hc as [Hc ?]).
            apply HD. split; [|split; auto].
            -- unfold worldly. apply filter_In. split; auto. destruct (v_type v); auto; discriminate.
            -- intros Eid. apply negb_true_iff in H0. apply not_true_iff_false in H0. apply H0. apply existsb_exists. exists (vv q). split; [apply in_map; auto|]. apply Z.eqb_eq. auto. }
    assert (HWp : proper W) by (intros a b Eab; apply weight_proper; apply plug_proper; auto).
    exists (volume U). split.
    { apply volume_pos. intros v Hv0. unfold U in Hv0. apply filter_In in Hv0. apply V_pos. apply HWV. apply HD. apply Hv0. }
    intros j Hj.
    assert (Hr : in_range V (upd zero_asg (v_id (vv q)) j)).
    { apply in_range_upd'; auto; first [apply net_vars_wf | apply zero_range; apply V_pos | apply vv_in; auto]. }
    rewrite (mass_evidence_value n Hwf (ignored_by ig ev) ev ev' q j); auto. fold evs D.
    rewrite (total_weight_range (fun w => joint n (ignored_by ig ev) (by_name (plug evs w))) W); auto.
    2:{ intros v Hd. apply HWV. apply HD. auto. }
    2:{ intros w Hwr. symmetry. apply (weight_joint ig ev vs fs Hcr). apply plug_range; auto. apply net_vars_wf. }
    rewrite (total_perm W D _ HWp HWD HperD).
    rewrite (total_perm W (U ++ _) ((others (f_vars f) (vv q) ++ H) ++ U) HWp); [| |apply Permutation_app_comm].
    2:{ eapply wf_perm; eauto. }
    rewrite (total_app W (_ ++ _) U), (total_ext (total W U) (fun w => (volume U * W w)%Qc)).
    2:{ intros w _. apply total_volume. intros v Hv0 a kk. unfold W.
        unfold U in Hv0. apply filter_In in Hv0. destruct Hv0 as [Hv0 Hm]. apply HD in Hv0. destruct Hv0 as (Hvw & Hve & _).
        rewrite (weight_proper (prob_factors fs) _ _ (plug_upd evs v a kk Hve)). apply weight_ignores.
        intros g Hg Hin0. apply negb_true_iff in Hm. apply not_true_iff_false in Hm. apply Hm. apply Hment; auto. exists g. split; auto.
        apply in_map_iff in Hin0. destruct Hin0 as (u & Eu & Hu). rewrite <- (wf_vars_inj V u v); auto; [apply net_vars_wf|]. apply (Hgin g Hg). auto. }
    rewrite total_scale. f_equal. rewrite total_app. apply total_weight_range; auto.
    intros v Hv0. unfold others in Hv0. apply filter_In in Hv0. apply Hi. apply Hv0.
Qed.


(** ** Masses *)

Lemma is_ev_false ev ev' q : Permutation ev ev' -> valid_observations n ev -> known q -> ~ In q (map fst ev) -> is_evidence (map (obs n) ev') (vv q) = false.
Proof.
  intros Hp Hv Hk Hne. apply not_true_iff_false. intros Ht. apply evidence_key in Ht; auto; [|eapply perm_observations; eauto].
  apply Hne. eapply Permutation_in; [apply Permutation_map, Permutation_sym|]; eauto.
Qed.

Lemma mass_split ign ev q : valid_observations n ev -> known q -> v_type (vv q) <> Utility -> ~ In q (map fst ev) ->
  mass n ign (agrees vars ev) = qsum (map (fun k => mass n ign (fun s => agrees vars ev s && (s q =? k)%nat)) (seq 0 (v_outcomes (vv q)))).
Proof.
  intros Hv Hk Hty Hne. pose proof (is_ev_false ev ev q (Permutation_refl _) Hv Hk Hne) as Hev.
  rewrite (mass_evidence n Hwf ign ev ev); auto.
  assert (HW : In (vv q) (filter (fun v => negb (is_evidence (map (obs n) ev) v)) (worldly n))).
  { apply filter_In. split; [|rewrite Hev; auto]. unfold worldly. apply filter_In. split; [apply vv_in; auto|]. destruct (v_type (vv q)); auto; congruence. }
  assert (Hw : wf_vars (filter (fun v => negb (is_evidence (map (obs n) ev) v)) (worldly n))) by (unfold wf_vars; apply NoDup_filter_map; apply worldly_wf).
  rewrite (total_perm _ _ _) with (3 := perm_others _ _ Hw HW); auto.
  - rewrite total_cons. apply qsum_ext. intros k Hin. apply in_seq in Hin. symmetry. apply (mass_evidence_value n Hwf); auto. lia.
  - intros a b E. apply joint_proper. apply by_name_proper. apply plug_proper. auto.
Qed.

Lemma qprod_nonneg l : (forall x, In x l -> 0 <= x)%Qc -> (0 <= qprod l)%Qc.
Proof.
  induction l; intros H; simpl; [discriminate|]. replace 0%Qc with (0 * qprod l)%Qc by ring.
  apply Qcmult_le_compat_r; [apply H; simpl; auto|]. apply IHl. intros; apply H; simpl; auto.
Qed.

Lemma Qc_div_nonneg a b : (0 <= a -> 0 <= b -> 0 <= a / b)%Qc.
Proof.
  intros Ha Hb. destruct (Qc_eq_dec b 0) as [->|Hb0]. { unfold Qcdiv. rewrite Qcmult_comm. replace (/ 0)%Qc with 0%Qc by (apply Qc_is_canon; reflexivity). rewrite Qcmult_0_l. discriminate. }
  assert (0 < b)%Qc by (apply Qcle_lt_or_eq in Hb; destruct Hb; auto; congruence).
  unfold Qcdiv. replace 0%Qc with (0 * / b)%Qc by ring. apply Qcmult_le_compat_r; auto.
  apply Qclt_le_weak. unfold Qclt, Qcinv, Q2Qc. cbn [this]. rewrite !Qred_correct. apply Qinv_lt_0_compat. exact H.
Qed.

Lemma cond_prob_nonneg f s : (forall s, 0 <= entry vars f s)%Qc -> (0 <= cond_prob vars f s)%Qc.
Proof.
  intros H. unfold cond_prob. destruct (qeq _ _); auto. apply Qc_div_nonneg; auto. unfold row_sum. apply qsum_nonneg.
  intros x Hx. apply in_map_iff in Hx. destruct Hx as (k & <- & _). auto.
Qed.

Lemma joint_nonneg ign s : nonnegative n -> (0 <= joint n ign s)%Qc.
Proof.
  intros [H1 H2]. unfold joint.
  assert (A : (0 <= qprod (map (fun f => cond_prob vars f s) (chance_factors n)))%Qc).
  { apply qprod_nonneg. intros x Hx. apply in_map_iff in Hx. destruct Hx as (f & <- & Hf). apply cond_prob_nonneg. auto. }
  assert (B : (0 <= qprod (map (fun dp => policy_prob vars (snd dp) s) (filter (fun dp => negb (ign (fst dp))) (n_policies n))))%Qc).
  { apply qprod_nonneg. intros x Hx. apply in_map_iff in Hx. destruct Hx as ([d p] & <- & Hf). simpl. apply filter_In in Hf. destruct Hf as [Hf _]. eapply H2; eauto. }
  replace 0%Qc with (0 * qprod (map (fun dp => policy_prob vars (snd dp) s) (filter (fun dp => negb (ign (fst dp))) (n_policies n))))%Qc by ring.
  apply Qcmult_le_compat_r; auto.
Qed.

Lemma mass_nonneg ign event : nonnegative n -> (0 <= mass n ign event)%Qc.
Proof. intros H. apply qsum_nonneg. intros x Hx. apply in_map_iff in Hx. destruct Hx as (s & <- & _). apply joint_nonneg. auto. Qed.

Lemma qsum_zero_all l : (forall x, In x l -> 0 <= x)%Qc -> qsum l = 0%Qc -> forall x, In x l -> x = 0%Qc.
Proof.
  induction l; intros H Hs x Hx; [destruct Hx|]. simpl in Hs. change (fold_right Qcplus 0%Qc l) with (qsum l) in Hs.
  assert (H0 : (0 <= a)%Qc) by (apply H; simpl; auto).
  assert (H1 : (0 <= qsum l)%Qc) by (apply qsum_nonneg; intros; apply H; simpl; auto).
  assert (Ha : a = 0%Qc).
  { apply Qcle_antisym; auto. replace 0%Qc with (a + qsum l)%Qc by auto. rewrite <- (Qcplus_0_r a) at 1. apply Qcplus_le_compat; auto. apply Qcle_refl. }
  destruct Hx as [<-|Hx]; auto. apply IHl; auto; [intros; apply H; simpl; auto|]. rewrite <- Hs, Ha. ring.
Qed.

(** ** The normalised marginals *)

(** The distribution computed for [q]: NaN for each outcome when the evidence is impossible. *)
Definition distribution (ig : bool) (ev : list (string * string)) (q : string) (l : list xnum) : Prop :=
  (mass n (ignored_by ig ev) (agrees vars ev) <> 0%Qc ->
     l = map (fun k => Fin (posterior n (ignored_by ig ev) ev q k)) (seq 0 (num_outcomes vars q))) /\
  (nonnegative n -> mass n (ignored_by ig ev) (agrees vars ev) = 0%Qc -> l = repeat NaN (num_outcomes vars q)).

Lemma worlds_single v a : worlds [v] a = map (fun k => upd a (v_id v) k) (seq 0 (v_outcomes v)).
Proof. simpl. induction (seq 0 (v_outcomes v)); simpl; congruence. Qed.

Lemma one_marginal ig ev ev' query f q s : valid_observations n ev -> answer ig ev ev' query f -> In q query -> askable n (ignored_by ig ev) ev q ->
  exists m s1 s2 m', marginal s f (vv q) = Ok (s1, m) /\ normalize s1 m = Ok (s2, m') /\ distribution ig ev q (f_data m').
Proof.
  intros Hv Han Hin Hask. destruct (askable_known _ _ _ Hask) as [Hk Hty].
  destruct (an_marginal _ _ _ _ _ Han q Hin Hask) as (c & Hc & Hm).
  assert (Hc0 : c <> 0%Qc) by (intros E; rewrite E in Hc; discriminate).
  destruct (denotes_marginal s f (vv q) (value f)) as (m & E & _ & Hwm & Hvm & Hdm).
  { apply Han. } { apply (an_query _ _ _ _ _ Han); auto. } { apply finite_denotes. apply Han. }
  change (denotes m (total (value f) (others (f_vars f) (vv q)))) in Hdm.
  set (T := total (value f) (others (f_vars f) (vv q))) in *.
  destruct (denotes_normalize (bump s) m T zero_asg Hwm Hdm) as (m' & E' & _ & Hwm' & Hvm' & Hd1 & Hd2).
  exists m, (bump s), (bump (bump s)), m'. split; auto. split; auto.
  rewrite Hvm, worlds_single, map_map in Hd1, Hd2. rewrite Hvm in Hvm'.
  set (S := qsum (map (fun k => T (upd zero_asg (v_id (vv q)) k)) (seq 0 (v_outcomes (vv q))))) in *.
  destruct (vv_outcomes n Hwf q Hk) as [Ho Hpos].
  assert (HS : (c * S)%Qc = mass n (ignored_by ig ev) (agrees vars ev)).
  { rewrite (mass_split (ignored_by ig ev) ev q); auto; [|apply Hask]. unfold S. rewrite <- qsum_scale. apply qsum_ext. intros k Hk0.
    apply in_seq in Hk0. apply Hm. lia. }
  split.
  - intros Hm0. assert (HS0 : S <> 0%Qc) by (intros E0; rewrite E0 in HS; apply Hm0; rewrite <- HS; ring).
    rewrite (denotes_data m' _ zero_asg Hwm' (Hd1 HS0)), Hvm', worlds_single, !map_map, Ho. apply map_ext_in. intros k Hk0. apply in_seq in Hk0. f_equal.
    unfold posterior. rewrite <- HS, <- (Hm k) by lia. fold T. unfold T. field. auto.
  - intros Hnn Hm0.
    assert (HS0 : S = 0%Qc). { rewrite Hm0 in HS. destruct (Qcmult_integral _ _ HS); auto. congruence. }
    rewrite (data_worlds m' zero_asg Hwm'), Hvm', worlds_single, map_map, Ho.
    assert (G : forall k, In k (seq 0 (num_outcomes vars q)) -> fv m' (upd zero_asg (v_id (vv q)) k) = NaN).
    { intros k Hk0. apply in_seq in Hk0. simpl in Hk0. rewrite <- Ho in Hk0.
      assert (Hr : in_range [vv q] (upd zero_asg (v_id (vv q)) k)).
      { intros v [<-|[]]. rewrite upd_same. lia. }
      assert (HT : T (upd zero_asg (v_id (vv q)) k) = 0%Qc).
      { assert (H0 : mass n (ignored_by ig ev) (fun s => agrees vars ev s && (s q =? k)%nat) = 0%Qc).
        { rewrite (mass_split (ignored_by ig ev) ev q) in Hm0; auto; [|apply Hask].
          eapply qsum_zero_all in Hm0; [apply Hm0| |].
          - intros x Hx. apply in_map_iff in Hx. destruct Hx as (j & <- & _). apply mass_nonneg. auto.
          - apply in_map_iff. exists k. split; auto. apply in_seq. lia. }
        rewrite <- Hm in H0 by lia. destruct (Qcmult_integral _ _ H0); auto. congruence. }
      apply fv_get_at; [apply wf_fits; auto|rewrite Hvm'; auto|]. rewrite Hd2; auto. rewrite HT. reflexivity. }
    clear - G. revert G. generalize (num_outcomes vars q). intros N.
    assert (G0 : forall s, (forall k, In k (seq s N) -> fv m' (upd zero_asg (v_id (vv q)) k) = NaN) -> map (fun k => fv m' (upd zero_asg (v_id (vv q)) k)) (seq s N) = repeat NaN N).
    { induction N; intros s H; simpl; auto. rewrite H by (simpl; auto). f_equal. apply IHN. intros; apply H; simpl; auto. }
    apply G0.
Qed.

Definition shown_query (ig : bool) (ev : list (string * string)) (query : list string) (res : list (string * list xnum)) : Prop :=
  forall q, (In q query -> exists l, sget_map res q = Some l /\ distribution ig ev q l) /\ (~ In q query -> sget_map res q = None).

Lemma sset_map_get {V} (m : list (string * V)) k v x : sget_map (sset_map m k v) x = if String.eqb x k then Some v else sget_map m x.
Proof.
  induction m as [|[k' v'] m IH]; simpl; auto. destruct (String.eqb k k') eqn:E; simpl.
  - apply String.eqb_eq in E. subst k'. destruct (String.eqb x k); auto.
  - destruct (String.eqb x k') eqn:E'; auto. apply String.eqb_eq in E'. subst k'.
    destruct (String.eqb x k) eqn:E2; auto. apply String.eqb_eq in E2. subst. rewrite String.eqb_refl in E. discriminate.
Qed.

Definition with_state (m : network xnum) (s : vestate xnum) : network xnum := with_solver n (Some s) (name_map (entries n)).

Lemma marginals_ok ig ev ev' query f : valid_observations n ev -> answer ig ev ev' query f ->
  (forall q, In q query -> askable n (ignored_by ig ev) ev q) ->
  forall L, incl L query -> forall s res0,
  exists s1 res1, foldM (fun '((n, res) : network xnum * list (string * list xnum)) q =>
    let! (n, m) := net_marginal n f q in
    let! (n, m) := net_normalize n m in
    Ok (n, sset_map res q (f_data m))) (with_solver n (Some s) (name_map (entries n)), res0) L =
    Ok (with_solver n (Some s1) (name_map (entries n)), res1) /\
    forall q, (In q L -> exists l, sget_map res1 q = Some l /\ distribution ig ev q l) /\ (~ In q L -> sget_map res1 q = sget_map res0 q).
Proof.
  intros Hv Han Hask. induction L as [|q L IH]; intros Hi s res0.
  - exists s, res0. split; auto. intros q. split; auto. intros [].
  - assert (Hin : In q query) by (apply Hi; simpl; auto).
    destruct (one_marginal ig ev ev' query f q (ve_vs s) Hv Han Hin (Hask q Hin)) as (m & v1 & v2 & m' & E1 & E2 & Hd).
    destruct (askable_known _ _ _ (Hask q Hin)) as [Hk _].
    destruct (lookup_known n Hwf q Hk) as (i & v & _ & _ & _ & _ & L0).
    assert (Evv : en_ve (ve_entry n (Z.of_nat i, v)) = vv q) by (unfold NetFactors.vv; rewrite L0; auto).
    cbn [foldM]. unfold net_marginal at 1. cbn [n_names with_solver]. unfold lookup in L0. rewrite L0, Evv. unfold on_variables at 1. cbn [n_ve with_solver].
    rewrite E1. cbn [gbind]. unfold net_normalize at 1, on_variables at 1. cbn [n_ve n_names with_solver with_vs ve_vs]. rewrite E2. cbn [gbind].
    set (sx := with_vs (with_vs s v1) v2).
    destruct (IH (fun z Hz => Hi z (or_intror Hz)) sx (sset_map res0 q (f_data m'))) as (s1 & res1 & E3 & Hres).
    exists s1, res1. split.
    + rewrite <- E3. reflexivity.
    + intros x. destruct (Hres x) as [H1 H2]. split.
      * intros [<-|Hx]; auto. destruct (in_dec string_dec q L) as [Hq|Hq]; auto.
        rewrite H2 by auto. rewrite sset_map_get, String.eqb_refl. eauto.
      * intros Hx. rewrite H2 by (intros H; apply Hx; simpl; auto). rewrite sset_map_get.
        destruct (String.eqb_spec x q); auto. subst. exfalso. apply Hx. simpl. auto.
Qed.

Theorem query_exact sc ig ev query : complete n -> valid_observations n ev ->
  (forall q, In q query -> askable n (ignored_by ig ev) ev q) ->
  exists n' res f, net_solve_query sc n ev query ig = (n', Ok (res, f)) /\ shown_query ig ev query res.
Proof.
  intros Hco Hv Hask. unfold net_solve_query, net_solve, assign_ve. fold (ev_ign ig ev).
  destruct (to_ve_ok n Hwf sc 0 (ev_ign ig ev)) as (vs & fs & E & Hcr). rewrite E.
  unfold solve_names. cbn [ve_tick ve_new].
  set (ev' := shuffle sc 1 ev). assert (Hp : Permutation ev ev') by apply shuffle_perm.
  rewrite evidence_ok by (eapply perm_observations; eauto). cbn [gbind].
  assert (Hkn : known_names query) by (intros q Hq; apply (askable_known _ _ _ (Hask q Hq))).
  rewrite query_ok by auto. cbn [gbind].
  destruct (solve_answer sc 2 ig ev ev' vs fs query Hcr Hco Hp Hv Hkn) as (s' & f & Es & Han).
  change (with_tick (ve_new 1 vs fs (net_deps n) (finite_weights (weights n))) 2) with (ve_new 2 vs fs (net_deps n) (finite_weights (weights n))).
  rewrite Es. unfold query_marginals.
  destruct (marginals_ok ig ev ev' query f Hv Han Hask query (incl_refl _) s' []) as (s1 & res & Em & Hres).
  change (with_solver (with_solver n _ _) (Some s') (name_map (entries n))) with (with_solver n (Some s') (name_map (entries n))).
  rewrite Em. exists (with_solver n (Some s1) (name_map (entries n))), res, f. split; auto.
Qed.

End NQ.
