(** SolvePolicies on networks: the theorems. *)
From Coq Require Import ZArith List Bool String Lia Permutation QArith Qcanon.
From Verif Require Import Num GoBase VarModel GoFacts Tuples SpecFactor FactorFacts FactorAt XnumFacts ExactFactor FactorThms
  VEModel SpecVE VEWorlds VEFacts VEHidden VESolve VEThms VEUtil SpecPolicy VEPolicy VEOptimal NetModel SpecNet NetVars NetFactors NetVE NetSums
  NetQuery NetEvents NetUtil NetMass NetHistory NetCor VECheck NetCheck SpecNetPolicy NetPolicy NetPolicyStep NetPolicyLoop NetPolicyAll.
Import ListNotations.
Open Scope string_scope.
Open Scope list_scope.
Open Scope Z_scope.

(** What SolvePolicies leaves behind. *)
Record policies_solved (n n' : network xnum) (tables : list (string * nfactor xnum)) : Prop := {
  sv_base : same_base n n';
  sv_partly : partly_solved n';
  sv_open : open_ones n' = [];
  sv_tables : forall d p, In (d, p) (n_policies n') -> exists f, sget_map tables d = Some f /\ policy_table n' d p f;
  sv_none : forall d, ~ In d (decisions n) -> sget_map tables d = None;
  sv_best : forall sigma, (forall d, In d (decisions n) -> policy_for n d (sigma d)) -> (expected_value n sigma <= mixed_value n' sigma)%Qc;
  sv_advised : advised n'
}.

Lemma start_value n sigma : mixed_value (with_policies n []) sigma = expected_value n sigma.
Proof.
  unfold mixed_value, expected_value. apply qsum_ext. intros s _. unfold joint, open_ones. cbn [with_policies n_policies filter map qprod fold_right].
  change (decisions (with_policies n [])) with (decisions n). rewrite filter_all by auto. change (utility_of (with_policies n []) s) with (utility_of n s).
  change (chance_factors (with_policies n [])) with (chance_factors n). change (n_vars (with_policies n [])) with (n_vars n). ring.
Qed.

Lemma decisions_count n : List.length (filter (fun v => nodeType_eqb (nv_type v) Decision) (n_vars n)) = List.length (decisions n).
Proof. unfold decisions. rewrite map_length. auto. Qed.

Lemma finish sc n m t : partly_solved m -> (n_policies m = [] \/ ready_net m) ->
  exists n' tables, match foldM (fun '((n, res) : network xnum * list (string * nfactor xnum)) '((name, f) : string * factor xnum) =>
              let! (n', r) := policy_result n name f in Ok (n', sset_map res name r)) (m, []) (shuffle sc t (n_policies m)) with
      | Ok (n', res) => (n', Ok res)
      | Err e => (n, Err e)
      | Panic p => (n, Panic p)
      end = (n', Ok tables) /\ (exists a b, n' = with_solver m a b) /\ (n_policies m = [] -> n' = m) /\
    (forall d p, In (d, p) (n_policies m) -> exists f, sget_map tables d = Some f /\ policy_table m d p f) /\
    (forall d, ~ In d (map fst (n_policies m)) -> sget_map tables d = None).
Proof.
  intros Hps Hor. pose proof (dn_wf _ (ps_net _ Hps)) as Hwf. assert (Hperm : Permutation (n_policies m) (shuffle sc t (n_policies m))) by apply shuffle_perm.
  destruct Hor as [E|Hr].
  - rewrite E in *. apply Permutation_nil in Hperm. rewrite Hperm. cbn [foldM]. exists m, []. split; auto. split.
    { exists (n_ve m), (n_names m). destruct m; reflexivity. } split; auto. split; auto. intros d p [].
  - destruct (n_ve m) as [st|] eqn:Ev; [|destruct Hr; congruence].
    assert (Em : m = with_solver m (Some st) (n_names m)) by (destruct m; cbn in *; subst; reflexivity).
    destruct (tables_ok m (shuffle sc t (n_policies m)) Hwf) with (st := st) (res0 := @nil (string * nfactor xnum)) as (st' & tables & E & Ht & Ho).
    { intros x Hx. eapply Permutation_in; [apply Permutation_sym; apply Hperm|auto]. }
    { eapply Permutation_NoDup; [apply Permutation_map; apply Hperm|apply (wn_keys _ Hwf)]. }
    { rewrite <- Em. auto. }
    rewrite <- Em in E. rewrite E. eexists; exists tables. split; [reflexivity|]. split; [eauto|]. split.
    { intros Ep. rewrite Ep in Hperm. apply Permutation_nil in Hperm. rewrite Ep, Hperm in E. cbn [foldM] in E. congruence. }
    split.
    + intros d p Hd. apply Ht. eapply Permutation_in; eauto.
    + intros d Hd. rewrite Ho; auto. intros Hc. apply Hd. eapply Permutation_in; [apply Permutation_map; apply Permutation_sym; apply Hperm|auto].
Qed.

Theorem solve_policies_ok sc n stepwise : decision_network n -> no_forgetting n ->
  exists n' tables, net_solve_policies sc n stepwise = (n', Ok tables) /\ policies_solved n n' tables.
Proof.
  intros Hdn Hnf. unfold net_solve_policies. pose proof (ps_start n Hdn Hnf) as Hps0. set (n0 := with_policies n []) in *.
  pose proof (dn_wf _ (ps_net _ Hps0)) as Hwf0.
  assert (Eop : open_ones n0 = decisions n) by (apply filter_all; auto).
  assert (Hkeys : forall m, partly_solved m -> forall d, In d (map fst (n_policies m)) -> In d (decisions m)).
  { intros m Hm d Hd. apply in_map_iff in Hd. destruct Hd as ([e p] & <- & Hin). apply (policy_decision m Hm) in Hin. tauto. }
  assert (G : exists m t, policy_steps sc (count_decision_steps n0 stepwise) 0 n0 stepwise = (m, Ok t) /\ partly_solved m /\ open_ones m = [] /\ same_base n m /\
     (n_policies m = [] \/ ready_net m) /\ advised m /\ forall sigma, valid_strategy n0 sigma -> (mixed_value n0 sigma <= mixed_value m sigma)%Qc).
  { destruct (decisions n) as [|d0 ds] eqn:Ed.
    - assert (Ec : count_decision_steps n0 stepwise = 1%nat).
      { unfold count_decision_steps. change (n_vars n0) with (n_vars n). rewrite decisions_count, Ed. destruct stepwise; auto. }
      rewrite Ec. cbn [policy_steps]. unfold assign_ve. destruct (to_ve_ok n0 Hwf0 sc 0 []) as (vs & fs & -> & Hcr).
      set (s0 := ve_new 1 vs fs (net_deps n0) (finite_weights (weights n0))).
      assert (Hr0 : ready s0). { apply (problem_ready vs fs (net_deps n0)); auto. apply Hcr. apply repeat_length. }
      destruct (get_decisions_spec sc s0 (r_wf _ Hr0) (r_closed _ Hr0)) as (t0 & r & E0 & Hpr & _).
      unfold ve_solve_policies. rewrite E0. cbn [gbind].
      assert (Er : r = []).
      { assert (Edv : decisions_of (vs_vars (ve_vs s0)) = []).
        { change (vs_vars (ve_vs s0)) with (vs_vars vs). rewrite (cr_vars _ _ _ _ Hcr). change (decisions_of (net_vars n0)) with (decision_vars (net_vars n0)).
          destruct (decision_vars (net_vars n0)) as [|v l] eqn:Ev; auto. assert (Hv : In v (decision_vars (net_vars n0))) by (rewrite Ev; simpl; auto).
          apply (open_dvars n0 Hps0) in Hv. destruct Hv as (d & Hd & _). rewrite Eop in Hd. destruct Hd. }
        rewrite Edv in Hpr. apply Permutation_nil in Hpr. auto. }
      subst r. eexists; eexists. split; [reflexivity|]. split; [apply ps_with_solver, ps_with_solver; auto|]. split; [exact Eop|]. split; [repeat split|].
      split; [left; reflexivity|]. split; [intros d p []|]. intros sigma _. apply Qcle_refl.
    - destruct stepwise.
      + assert (Hlen : List.length (open_ones n0) = count_decision_steps n0 true).
        { rewrite Eop. unfold count_decision_steps. change (n_vars n0) with (n_vars n). rewrite decisions_count, Ed. auto. }
        destruct (steps_ok sc true _ n0 0%nat Hps0 Hlen) as (m & t & E & Hm & Ho & Hsb & Hr & Had & Hle); auto.
        exists m, t. split; auto. split; auto. split; auto. split; auto. split; [right; apply Hr; left; rewrite <- Hlen, Eop; discriminate|]. split; auto. apply Had. intros d p [].
      + destruct (pass_ok n0 Hps0 sc 0%nat) as (m & t & E & Hm & Ho & Hsb & Hr & Had & Hle). { rewrite Eop. discriminate. }
        exists m, t. split; auto. split; auto. split; auto. split; auto. split; auto. split; auto. apply Had. intros d p []. }
  destruct G as (m & t & -> & Hm & Ho & Hsb & Hr & Had & Hle).
  destruct (finish sc m m t Hm Hr) as (n' & tables & E & (a & b & En) & _ & Ht & Hn). exists n', tables. rewrite E. split; auto. subst n'.
  assert (Edec : decisions m = decisions n). { destruct Hsb as (E1 & _). unfold decisions. rewrite E1. auto. }
  constructor; auto.
  - apply ps_with_solver. auto.
  - intros d p Hd. destruct (Ht d p Hd) as (f & Ef & [q1 q2 q3 q4]). exists f. split; auto. constructor; auto.
  - intros d Hd. apply Hn. intros Hc. apply Hd. rewrite <- Edec. apply Hkeys; auto.
  - intros sigma Hsig. rewrite <- start_value. apply Hle. intros d Hd. destruct (Hsig d Hd). constructor; auto.
  - apply advised_with_solver. auto.
Qed.

(** ** Reading the result *)
Section Read.
Variables (n n' : network xnum) (tables : list (string * nfactor xnum)).
Hypothesis Hs : policies_solved n n' tables.
Let Hps := sv_partly _ _ _ Hs.
Let Hwf' : wf_network n' := dn_wf _ (ps_net _ Hps).

Lemma vars_same : n_vars n' = n_vars n. Proof. apply Hs. Qed.
Lemma factors_same : n_factors n' = n_factors n. Proof. apply Hs. Qed.
Lemma decisions_same : decisions n' = decisions n. Proof. unfold decisions. rewrite vars_same. auto. Qed.
Lemma observed_same d : observed_by n' d = observed_by n d. Proof. unfold observed_by. rewrite factors_same. auto. Qed.
Lemma worlds_same : worlds_of n' = worlds_of n. Proof. unfold worlds_of. rewrite vars_same. auto. Qed.
Lemma chance_same : chance_factors n' = chance_factors n. Proof. unfold chance_factors. rewrite vars_same, factors_same. auto. Qed.
Lemma proper_same s : proper_state n' s <-> proper_state n s. Proof. unfold proper_state. rewrite vars_same. tauto. Qed.

Lemma stored d : In d (decisions n) <-> exists p, In (d, p) (n_policies n').
Proof.
  split.
  - intros Hd. rewrite <- decisions_same in Hd. destruct (has_key (n_policies n') d) eqn:Ek.
    + apply has_key_spec in Ek. apply in_map_iff in Ek. destruct Ek as ([e p] & <- & Hin). eauto.
    + assert (In d (open_ones n')) by (apply filter_In; rewrite Ek; auto). rewrite (sv_open _ _ _ Hs) in H. destruct H.
  - intros (p & Hp). apply (policy_decision n' Hps) in Hp. rewrite decisions_same in Hp. tauto.
Qed.

Lemma keys_decisions : Permutation (map fst (n_policies n')) (decisions n).
Proof.
  apply NoDup_Permutation.
  - apply (wn_keys _ Hwf').
  - rewrite <- decisions_same. apply (decisions_nodup n' Hps).
  - intros d. rewrite stored, in_map_iff. split.
    + intros ([e p] & <- & H). eauto.
    + intros (p & H). exists (d, p). auto.
Qed.

Lemma cell_ext' vars names s s' : (forall x, In x names -> s x = s' x) -> cell vars names s = cell vars names s'.
Proof.
  intros H. unfold cell. generalize 0%nat. induction names as [|x l IH]; intros k; simpl; auto.
  rewrite IH by (intros; apply H; simpl; auto). rewrite (H x) by (simpl; auto). auto.
Qed.

Lemma nupd_state s d k : In d (decisions n) -> proper_state n s -> (k < num_outcomes (n_vars n) d)%nat -> proper_state n (nupd s d k).
Proof.
  intros Hd Hp Hk v Hv. unfold nupd. destruct (String.eqb_spec (nv_name v) d) as [E|E]; auto.
  unfold num_outcomes in Hk. rewrite <- vars_same in Hk, Hv. rewrite (proj2 (var_named_in n' Hwf' d v)) in Hk; auto.
Qed.

Lemma returned d : In d (decisions n) -> exists f, sget_map tables d = Some f /\ returned_policy n d f.
Proof.
  intros Hd. destruct (proj1 (stored d) Hd) as (p & Hp). destruct (sv_tables _ _ _ Hs d p Hp) as (f & Ef & Hpt). exists f. split; auto.
  destruct (ps_policy _ Hps d p Hp) as [Hpf Hi]. destruct (policy_in n' Hwf' d p Hp) as (_ & _ & _ & Hwp).
  assert (Hnd : NoDup (nf_given f ++ [d])).
  { eapply Permutation_NoDup; [apply Permutation_sym; apply (pt_names _ _ _ _ Hpt)|]. pose proof (proj1 (wp_wf _ _ _ Hwp)) as Hw. unfold wf_vars in Hw.
    unfold factor_names. assert (Hr : forall v, In v (f_vars p) -> represents n' v) by apply Hwp. clear - Hw Hr Hwf'.
    induction (f_vars p) as [|v l IH]; simpl; constructor; inversion Hw; subst.
    - intros Hc. apply in_map_iff in Hc. destruct Hc as (w & E & Hin). apply H1. apply in_map_iff. exists w. split; auto.
      destruct (Hr v) as (i & nv & Hi & Ei & _); [simpl; auto|]. destruct (Hr w) as (j & nw & Hj & Ej & _); [simpl; auto|].
      rewrite Ei, Ej, !Nat2Z.id, Hi, Hj in E. rewrite Ei, Ej. f_equal. apply (name_pos_inj n' Hwf' j i nw nv); auto.
    - apply IH; auto. intros; apply Hr; simpl; auto. }
  assert (Hgi : incl (nf_given f) (observed_by n d)).
  { intros x Hx. rewrite <- observed_same. assert (Hxi : In x (factor_names n' p)) by (eapply Permutation_in; [apply (pt_names _ _ _ _ Hpt)|apply in_app_iff; auto]).
    apply Hi in Hxi. destruct Hxi as [<-|Hxi]; auto. apply NoDup_remove_2 in Hnd. rewrite app_nil_r in Hnd. tauto. }
  constructor; auto.
  - apply Hpt.
  - destruct (pt_table _ _ _ _ Hpt) as (l & El & Hl). exists l. rewrite vars_same in Hl. auto.
  - assert (Hval : forall s, proper_state n s -> entry (n_vars n) f s = policy_prob (n_vars n') p s).
    { intros s Hps'. rewrite <- vars_same. apply (pt_value _ _ _ _ Hpt). apply proper_same. auto. }
    constructor.
    + intros s Hp'. rewrite Hval by auto. apply (pf_nonneg _ _ _ Hpf). apply proper_same. auto.
    + intros s Hp'. rewrite <- (pf_rows _ _ _ Hpf s) by (apply proper_same; auto). rewrite vars_same. apply qsum_ext. intros k Hk. apply in_seq in Hk.
      rewrite Hval, vars_same; auto. apply nupd_state; auto. lia.
    + intros s s' H. unfold entry. rewrite (pt_for _ _ _ _ Hpt). rewrite (cell_ext' _ _ s s'); auto. intros x Hx. apply H. apply in_app_iff in Hx.
      destruct Hx as [Hx|[<-|[]]]; auto.
Qed.

Lemma table_stored d p s : In (d, p) (n_policies n') -> proper_state n s -> table_policy n tables d s = policy_prob (n_vars n') p s.
Proof.
  intros Hp Hss. destruct (sv_tables _ _ _ Hs d p Hp) as (f & Ef & Hpt). unfold table_policy. rewrite Ef, <- vars_same. apply (pt_value _ _ _ _ Hpt). apply proper_same. auto.
Qed.

Lemma table_joint_ok ign s : proper_state n s -> joint n' ign s = table_joint n tables ign s.
Proof.
  intros Hss. unfold joint, table_joint. rewrite chance_same, vars_same. f_equal.
  assert (HP : Permutation (map fst (filter (fun dp => negb (ign (fst dp))) (n_policies n'))) (filter (fun d => negb (ign d)) (decisions n))).
  { pose proof keys_decisions as HP.
    assert (E : map fst (filter (fun dp => negb (ign (fst dp))) (n_policies n')) = filter (fun d => negb (ign d)) (map fst (n_policies n'))).
    { generalize (n_policies n'). induction l as [|[d p] l IH]; simpl; auto. destruct (negb (ign d)); simpl; congruence. }
    rewrite E. clear E. induction HP; simpl; auto.
    - destruct (negb (ign x)); auto.
    - destruct (negb (ign x)), (negb (ign y)); auto. constructor.
    - etransitivity; eauto. }
  rewrite <- (qprod_perm_map _ _ _ HP), map_map. f_equal. apply map_ext_in. intros [d p] Hin. cbn [fst snd].
  symmetry. rewrite <- vars_same. apply table_stored; auto. apply filter_In in Hin. tauto.
Qed.

Lemma worlds_proper s : In s (worlds_of n) -> proper_state n s.
Proof.
  intros Hin. rewrite <- worlds_same in Hin.
  assert (G : forall L s0 s, (forall v, In v L -> In v (n_vars n')) -> (forall v, In v (n_vars n') -> (s0 (nv_name v) < List.length (nv_outcomes v))%nat) -> In s (joint_states L s0) ->
     forall v, In v (n_vars n') -> (s (nv_name v) < List.length (nv_outcomes v))%nat).
  { induction L as [|u L IH]; cbn [joint_states]; intros s0 s1 HL H0 Hs1 v Hv. { destruct Hs1 as [<-|[]]. auto. }
    apply in_flat_map in Hs1. destruct Hs1 as (k & Hk & Hs1). apply in_seq in Hk. apply (IH (nupd s0 (nv_name u) k)); auto. { intros; apply HL; simpl; auto. }
    intros w Hw. unfold nupd. destruct (String.eqb_spec (nv_name w) (nv_name u)) as [E|E]; auto.
    assert (w = u); [|subst; lia]. assert (Hu : In u (n_vars n')) by (apply HL; simpl; auto).
    assert (Some w = Some u); [|congruence]. rewrite <- (proj2 (var_named_in n' Hwf' (nv_name w) w)), <- (proj2 (var_named_in n' Hwf' (nv_name w) u)); auto. }
  apply proper_same. intros v Hv. apply (G _ _ s) with (3 := Hin); auto.
  - intros u Hu. apply filter_In in Hu. tauto.
  - intros u Hu. destruct (wn_outcomes _ Hwf' u Hu) as [H0 _]. unfold nowhere, zlen in *. lia.
Qed.

Lemma mass_tables ign event : mass n' ign event = table_mass n tables ign event.
Proof.
  unfold mass, table_mass. rewrite worlds_same. f_equal. apply map_ext_in. intros s Hin. apply filter_In in Hin. apply table_joint_ok. apply worlds_proper. tauto.
Qed.

Lemma utility_same s : utility_of n' s = utility_of n s.
Proof.
  destruct (sv_base _ _ _ Hs) as (E1 & E2 & E3 & _). unfold utility_of, utility_tables, net_weight, total_factor, is_total. rewrite E1, E2, E3. auto.
Qed.

Lemma solved_value sigma : mixed_value n' sigma = expected_value n (table_policy n tables).
Proof.
  unfold mixed_value, expected_value. rewrite worlds_same, (sv_open _ _ _ Hs). f_equal. apply map_ext_in. intros s Hin. cbn [map]. rewrite utility_same, table_joint_ok by (apply worlds_proper; auto).
  unfold table_joint. rewrite filter_all by auto. simpl qprod at 1. rewrite Qcmult_1_r. auto.
Qed.

Lemma policies_best sigma : (forall d, In d (decisions n) -> policy_for n d (sigma d)) -> (expected_value n sigma <= expected_value n (table_policy n tables))%Qc.
Proof. intros H. rewrite <- (solved_value sigma). apply (sv_best _ _ _ Hs). auto. Qed.

Lemma table_policy_for d : In d (decisions n) -> policy_for n d (table_policy n tables d).
Proof.
  intros Hd. destruct (returned d Hd) as (f & Ef & Hr). destruct (rp_policy _ _ _ Hr) as [p1 p2 p3]. unfold table_policy. rewrite Ef. constructor; auto.
Qed.

(** The solved network is a complete probability model. *)
Lemma solved_complete : complete n'.
Proof. apply (dn_complete _ (ps_net _ Hps)). Qed.

Lemma solved_causal : causal n' (fun _ => false) [].
Proof.
  constructor.
  - apply (conditionals_nodup n' Hps).
  - intros v Hv Ht. split; [intros _ []|]. intros _. apply (conditional_chance n' Hps).
    assert (E : var_named (n_vars n') (nv_name v) = Some v) by (apply (var_named_in n' Hwf'); auto).
    assert (Hk : known n' (nv_name v)).
    { split; eauto. destruct (is_total n' (nv_name v)) eqn:Et; auto. apply (total_kind n' Hwf') in Et. unfold kind in Et. rewrite E in Et. simpl in Et. congruence. }
    split; auto. destruct (kind_known n' Hwf' _ Hk) as (t & Ek & Evt). rewrite Evt. unfold kind in Ek. rewrite E in Ek. simpl in Ek. injection Ek as <-.
    destruct (nv_type v) eqn:Ev; auto; try congruence. simpl.
    destruct (has_key (n_policies n') (nv_name v)) eqn:Eh; auto. assert (Ho : In (nv_name v) (open_ones n')).
    { apply filter_In. split; [|rewrite Eh; auto]. apply in_map. apply filter_In. split; auto. unfold is_kind. rewrite Ev. auto. }
    rewrite (sv_open _ _ _ Hs) in Ho. destruct Ho.
  - destruct (dn_order _ (ps_net _ Hps)) as (rank & Hr). exists rank. split.
    + intros f g Hf Hg. apply (chance_in n' Hwf') in Hf. destruct Hf as (Hf & Hk & _). apply Hr; auto. congruence.
    + intros d p x Hp _ Hx Hne. destruct (ps_policy _ Hps d p Hp) as [_ Hi]. apply Hi in Hx. destruct Hx as [<-|Hx]; [congruence|].
      destruct (observed_in n' x d Hx) as (f & Hf & <- & Hg). apply Hr; auto. apply (policy_decision n' Hps) in Hp. destruct Hp as [Hd _].
      apply (decision_known n' Hps) in Hd. destruct Hd as [_ ->]. discriminate.
  - intros f s Hf Hss. apply (dn_rows _ (ps_net _ Hps)); auto.
  - intros d p s Hp _ Hss. destruct (ps_policy _ Hps d p Hp) as [Hpf _]. apply (pf_rows _ _ _ Hpf). auto.
Qed.

Lemma solved_nonnegative : nonnegative n'.
Proof.
  split; [intros f s Hf; apply (dn_nonneg _ (ps_net _ Hps)); auto|]. intros d p s Hp. destruct (ps_policy _ Hps d p Hp) as [Hpf _].
  destruct (policy_in n' Hwf' d p Hp) as (_ & _ & _ & Hwp). pose proof (wp_wf _ _ _ Hwp) as Hw. pose proof (wp_finite _ _ _ Hwp) as Hf.
  assert (Hd : denotes p (value p)). { intros a Ha. destruct (Hf a Ha) as (q & E). unfold value. rewrite E. auto. }
  assert (Hdat : forall y, In y (f_data p) -> exists q, y = Fin q /\ (0 <= q)%Qc).
  { intros y Hy. rewrite (denotes_data p (value p) zero_asg Hw Hd) in Hy. apply in_map_iff in Hy. destruct Hy as (q & <- & Hq). exists q. split; auto.
    apply in_map_iff in Hq. destruct Hq as (a & <- & Ha). assert (Har : in_range (f_vars p) a) by (eapply worlds_in_range; eauto; apply Hw).
    set (a' := fun id => if existsb (fun v => v_id v =? id) (f_vars p) then a id else 0%nat).
    assert (Ha' : in_range (net_vars n') a').
    { intros v Hv. unfold a'. destruct (vv_surj n' Hwf' v Hv) as (x & Hk & ->). destruct (vv_outcomes n' Hwf' x Hk) as [Eo Hpos].
      destruct (existsb _ (f_vars p)) eqn:Ex.
      - apply existsb_exists in Ex. destruct Ex as (w & Hwi & Ew). apply Z.eqb_eq in Ew. rewrite <- Ew.
        replace (v_outcomes (vv n' x)) with (v_outcomes w); [apply Har; auto|].
        destruct (represents_vv n' Hwf' w (wp_scope _ _ _ Hwp w Hwi)) as (i & nw & Hi & Ei & En & Hkw & Evv & Eid & _).
        assert (nv_name nw = x) by (apply (vv_inj n' Hwf'); auto; congruence). subst x.
        rewrite Eo. destruct (wp_scope _ _ _ Hwp w Hwi) as (j & nv & Hj & Ej & _ & Eow & _). assert (i = j) by lia. subst j. assert (nv = nw) by congruence. subst nv.
        rewrite Eow. unfold num_outcomes. rewrite (proj2 (var_named_in n' Hwf' (nv_name nw) nw)); auto. split; auto. eapply nth_error_In; eauto.
      - rewrite Eo. lia. }
    replace (value p a) with (policy_prob (n_vars n') p (by_name n' a')); [apply (pf_nonneg _ _ _ Hpf); apply (by_name_state n' Hwf'); auto|].
    unfold policy_prob, value, get_at. replace (tuple_of (f_vars p) (positions (n_vars n') (by_name n' a'))) with (tuple_of (f_vars p) a); auto.
    apply map_ext_in. intros w Hwi. f_equal. destruct (represents_vv n' Hwf' w (wp_scope _ _ _ Hwp w Hwi)) as (i & nw & Hi & Ei & _ & Hk & _ & Eid & _).
    replace (v_id w) with (v_id (vv n' (nv_name nw))) by congruence. rewrite (positions_vv n' Hwf'), (by_name_vv n' Hwf') by auto. unfold a'. replace (v_id (vv n' (nv_name nw))) with (v_id w) by congruence.
    assert (Et : existsb (fun v => v_id v =? v_id w) (f_vars p) = true) by (apply existsb_exists; exists w; split; auto; apply Z.eqb_refl). rewrite Et. auto. }
  unfold policy_prob, value, get_at, f_get. destruct (f_index p (tuple_of (f_vars p) (positions (n_vars n') s))) as [i| |]; cbn [gbind]; try apply Qcle_refl.
  destruct (sget (f_data p) i) as [y| |] eqn:Ey; try apply Qcle_refl. apply sget_In in Ey. destruct (Hdat y Ey) as (q & -> & Hq). auto.
Qed.

(** Every chance and decision variable without observation can be asked for. *)
Lemma solved_askable ig ev q : (exists v, var_named (n_vars n) q = Some v /\ nv_type v <> Utility) -> ~ In q (map fst ev) -> askable n' (ignored_by ig ev) ev q.
Proof.
  intros (v & Hv & Ht) Hq. rewrite <- vars_same in Hv. split; [eauto|]. split; auto. apply (var_named_in n' Hwf') in Hv. destruct Hv as [Hv <-].
  destruct (causal_mentioned n' Hwf' (fun _ => false) v solved_causal Hv Ht) as [(f & Hf)|(d & p & i & w & u & Hp & _ & Hi & En & Hu & Eu)]; [left; eauto|].
  destruct (nv_type v) eqn:Et; try congruence.
  - destruct (solved_complete v Hv Et) as (f & Hf & Ef). left. exists f. split; [|rewrite Ef; apply in_app_iff; simpl; auto]. apply filter_In. split; auto.
    rewrite Ef. unfold kind. rewrite (proj2 (var_named_in n' Hwf' (nv_name v) v)) by auto. simpl. rewrite Et. auto.
  - right. assert (Hd : In (nv_name v) (decisions n)).
    { rewrite <- decisions_same. apply in_map. apply filter_In. split; auto. unfold is_kind. rewrite Et. auto. }
    apply stored in Hd. destruct Hd as (p' & Hp'). destruct (policy_in n' Hwf' _ _ Hp') as (_ & _ & _ & Hwp).
    destruct (wp_own _ _ _ Hwp) as (j & nv & w' & H1 & H2 & H3 & H4). exists (nv_name v), p', j, nv, w'. split; auto. split; [|auto].
    unfold ignored_by. destruct ig; auto. simpl. apply not_true_iff_false. rewrite has_key_spec. auto.
Qed.

Lemma observations_same ev : valid_observations n ev -> valid_observations n' ev.
Proof. intros [H1 H2]. split; auto. rewrite vars_same. auto. Qed.

(** SolveUtility without query and evidence gives the value of the policies. *)
Lemma solved_utility sc ig : exists n'' f, net_solve_utility sc n' [] [] "" ig = (n'', Ok f) /\ f_vars f = [] /\
  f_data f = [Fin (expected_value n (table_policy n tables))].
Proof.
  destruct (dn_utilities _ (ps_net _ Hps)) as [Hpl Hso].
  destruct (solve_utility_factor n' Hwf' sc ig [] [] solved_complete Hpl Hso) as (n'' & f & E & Hr); [split; [constructor|intros x o []]|intros q []|].
  exists n'', f. split; auto. pose proof solved_causal as Hca.
  assert (Hnames : f_vars f = []).
  { destruct (f_vars f) as [|v l] eqn:Ef; auto. exfalso.
    pose proof (rf_names _ _ _ _ _ _ _ Hr) as Hn. unfold factor_names in Hn. rewrite Ef in Hn.
    destruct (Hn _ (or_introl eq_refl)) as (_ & _ & t & Ht & [[_ []]|[_ [[]|Ho]]]).
    assert (Hop : exists d, open_decision n' d) by (destruct Ho as [Ho|(g & _ & Ho & _)]; eauto).
    destruct Hop as (d & Hd1 & Hd2). unfold kind in Hd1. destruct (var_named (n_vars n') d) as [w|] eqn:Ew; [|discriminate].
    apply (var_named_in n' Hwf') in Ew. destruct Ew as [Hw <-]. simpl in Hd1. inversion Hd1 as [Hty].
    rewrite (causal_solved n' Hwf' w Hca Hw Hty) in Hd2. discriminate. }
  split; auto. destruct (rf_value _ _ _ _ _ _ _ Hr) as (c & Hc & Hc1 & Hval).
  assert (Ec : c = 1%Qc). { apply Hc1. intros v Hvin Ht _. left. destruct ig; apply (causal_mentioned n' Hwf' _ v Hca); auto. }
  assert (Hs0 : proper_state n' nowhere).
  { intros v Hvin. unfold nowhere. pose proof (wn_outcomes n' Hwf' v Hvin) as H0. unfold zlen in H0. lia. }
  specialize (Hval nowhere Hs0). rewrite Ec, Qcmult_1_l in Hval. unfold factor_names in Hval. rewrite Hnames in Hval. cbn [map same_on forallb] in Hval.
  rewrite (denotes_data f (value f) (positions (n_vars n') nowhere) (rf_wf _ _ _ _ _ _ _ Hr)), Hnames.
  2:{ intros a Ha. destruct (rf_finite _ _ _ _ _ _ _ Hr a Ha) as (q & Eq). unfold value. rewrite Eq. auto. }
  cbn [worlds map]. do 2 f_equal. unfold factor_value in Hval. rewrite Hval. unfold sum_over, expected_value. rewrite filter_all by auto. rewrite worlds_same.
  f_equal. apply map_ext_in. intros s Hin. rewrite utility_same, table_joint_ok by (apply worlds_proper; auto). unfold table_joint.
  rewrite (filter_all (fun d => negb (ignored_by ig [] d)) (decisions n)); [ring|]. unfold ignored_by. destruct ig; auto.
Qed.
End Read.

(** ** A checker for concrete decision networks *)
Definition decision_network_b (n : network xnum) (rank : string -> nat) : bool :=
  network_b n && nodup_b String.eqb (map nf_for (n_factors n)) && complete_b n && forallb (fun f => forallb nonneg_b (slice_of (nf_table f))) (chance_factors n) &&
  forallb (fun f => forallb (fun s => negb (qeq (row_sum (n_vars n) f s) 0%Qc)) (table_states (n_vars n) f)) (chance_factors n) &&
  forallb (fun f => match kind (n_vars n) (nf_for f) with Some Utility => true | _ => forallb (fun g => (rank g <? rank (nf_for f))%nat) (nf_given f) end) (n_factors n) &&
  plain_b n && some_utility_b n &&
  forallb (fun d => existsb (fun f => negb (is_total n (nf_for f)) && match kind (n_vars n) (nf_for f) with Some Decision => false | _ => true end
     && existsb (String.eqb d) (nf_given f)) (n_factors n)) (decisions n).

Theorem decision_network_b_sound n rank : decision_network_b n rank = true -> decision_network n.
Proof.
  unfold decision_network_b. rewrite !andb_true_iff. intros ((((((((H1 & H2) & H3) & H4) & H5) & H6) & H7) & H8) & H9).
  apply network_b_sound in H1. apply string_nodup_b in H2. apply complete_b_sound in H3.
  rewrite forallb_forall in H4, H5, H6, H9. constructor; auto.
  - intros f s Hf. apply nonneg_cell. auto.
  - intros f s Hf Hs. specialize (H5 f Hf). rewrite forallb_forall in H5.
    apply (in_table_cases (n_vars n) f (fun s => row_sum (n_vars n) f s <> 0%Qc)); [apply H1| | |].
    + intros s1 s2 E Hne. rewrite (row_sum_ext _ _ _ _ E). auto.
    + intros s1 Hs1 E. specialize (H5 s1 Hs1). rewrite E in H5. discriminate.
    + first [ intros x Hx; apply (chance_in n H1) in Hf; destruct Hf as (Hf & Hk & Ht & Hwt);
        destruct (proj2 (table_names n f Ht Hwt x Hx)) as (v & Ev); unfold num_outcomes; rewrite Ev; apply (var_named_in n H1) in Ev; destruct Ev as [Hv <-]; apply Hs; auto
      | intros v Hv; apply Hs; tauto ].
  - exists rank. intros f g Hf Hk Hg. specialize (H6 f Hf). destruct (kind (n_vars n) (nf_for f)) as [[]|]; try congruence; rewrite forallb_forall in H6; apply Nat.ltb_lt; auto.
  - split; [apply plain_b_sound|apply some_utility_b_sound]; auto.
  - intros d Hd. specialize (H9 d Hd). apply existsb_exists in H9. destruct H9 as (f & Hf & H9). rewrite !andb_true_iff in H9. destruct H9 as ((A & B) & C).
    exists f. split; auto. apply negb_true_iff in A. split; auto. apply exists_eqb in C. split; auto. intros E. rewrite E in B. discriminate.
Qed.

Definition no_forgetting_b (n : network xnum) : bool :=
  let sub a b := forallb (fun x => existsb (String.eqb x) b) a in
  forallb (fun d => forallb (fun e => String.eqb d e ||
    existsb (String.eqb d) (observed_by n e) && sub (observed_by n d) (observed_by n e) ||
    existsb (String.eqb e) (observed_by n d) && sub (observed_by n e) (observed_by n d)) (decisions n)) (decisions n).
Lemma no_forgetting_b_sound n : no_forgetting_b n = true -> no_forgetting n.
Proof.
  unfold no_forgetting_b. rewrite forallb_forall. intros H d e Hd He Hne. specialize (H d Hd). rewrite forallb_forall in H. specialize (H e He).
  rewrite !orb_true_iff, !andb_true_iff in H. destruct H as [[H|[A B]]|[A B]].
  - apply String.eqb_eq in H. congruence.
  - left. split; [apply exists_eqb; auto|]. intros x Hx. rewrite forallb_forall in B. apply exists_eqb. auto.
  - right. split; [apply exists_eqb; auto|]. intros x Hx. rewrite forallb_forall in B. apply exists_eqb. auto.
Qed.
