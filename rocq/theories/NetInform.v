(** Decisions that observe more, and utilities in other units. *)
From Coq Require Import ZArith List Bool String Lia Permutation QArith Qcanon.
From Verif Require Import Num GoBase VarModel GoFacts SpecFactor XnumFacts VEModel SpecVE VEWorlds NetModel SpecNet NetVars NetFactors NetSums NetQuery NetMass NetCor NetNew
  SpecNetPolicy NetPolicyStep NetPolicyThms SpecGraph StateSums NetGraph NetMarkov NetChange NetReorder TuiTable.
Import ListNotations.
Open Scope string_scope.
Open Scope list_scope.
Open Scope Z_scope.

Lemma in_decisions n d : wf_network n -> In d (decisions n) -> kind (n_vars n) d = Some Decision.
Proof.
  intros Hwf H. unfold decisions in H. apply in_map_iff in H. destruct H as (v & <- & Hv). apply filter_In in Hv. destruct Hv as [Hv Ht]. unfold kind. rewrite (var_named_in' _ v (wn_names n Hwf) Hv). simpl.
  unfold is_kind in Ht. destruct (nv_type v); try discriminate. auto.
Qed.
Lemma value_nsum n policies : expected_value n policies =
  nsum (fun s => tables_weight (n_vars n) (n_factors n) s * qprod (map (fun d => policies d s) (decisions n)) * utility_of n s)%Qc (worldly_of (n_vars n)) nowhere.
Proof. reflexivity. Qed.

(** ** More information *)
Section MI.
Variables n m : network xnum.
Hypothesis Hmi : more_informed n m.
Hypothesis Hwf : wf_network n.
Lemma mi_tables s : tables_weight (n_vars m) (n_factors m) s = tables_weight (n_vars n) (n_factors n) s.
Proof.
  rewrite (mi_vars _ _ Hmi). unfold tables_weight. pose proof (mi_factors _ _ Hmi) as H. induction H as [|f g l l' [E H] Hl IH]; auto. cbn [filter].
  unfold is_chance in *. rewrite E. destruct (kind (n_vars n) (nf_for f)) as [[]|]; auto. cbn [map]. unfold qprod in *. cbn [fold_right]. rewrite IH. f_equal.
  symmetry. apply cond_sig; auto. intros x _. auto.
Qed.
Lemma mi_is_total x : is_total m x = is_total n x.
Proof. unfold is_total. rewrite (mi_vars _ _ Hmi), (mi_total _ _ Hmi). auto. Qed.
Lemma mi_utility s : utility_of m s = utility_of n s.
Proof.
  unfold utility_of, utility_tables. fold (is_utility_table n) (is_utility_table m). pose proof (mi_factors _ _ Hmi) as H. induction H as [|f g l l' [E H] Hl IH]; auto. cbn [filter].
  assert (Ek : is_utility_table m g = is_utility_table n f) by (unfold is_utility_table; rewrite E, mi_is_total, (mi_vars _ _ Hmi); auto). rewrite Ek.
  destruct (is_utility_table n f) eqn:Eu; auto. cbn [map]. unfold qsum in *. cbn [fold_right]. rewrite IH. f_equal. rewrite E, (mi_weights _ _ Hmi). f_equal.
  unfold is_utility_table in Eu. destruct (kind (n_vars n) (nf_for f)) as [[]|]; try (rewrite andb_false_r in Eu; discriminate). symmetry. apply entry_sig; auto. intros x _. rewrite (mi_vars _ _ Hmi). auto.
Qed.
Lemma mi_decisions : decisions m = decisions n.
Proof. unfold decisions. rewrite (mi_vars _ _ Hmi). auto. Qed.
Lemma mi_value policies : expected_value m policies = expected_value n policies.
Proof. rewrite !value_nsum, mi_decisions, (mi_vars _ _ Hmi). apply nsum_ext. intros s _. rewrite mi_utility. rewrite <- (mi_vars _ _ Hmi) at 1. rewrite mi_tables. auto. Qed.
Lemma mi_observed d : In d (decisions n) -> incl (observed_by n d) (observed_by m d).
Proof.
  intros Hd. pose proof (in_decisions n d Hwf Hd) as Hk. unfold observed_by, factor_for. pose proof (mi_factors _ _ Hmi) as H. induction H as [|f g l l' [E H] Hl IH]; [intros x []|].
  cbn [find]. rewrite E. destruct (String.eqb_spec (nf_for f) d) as [Ed|]; auto. subst d. rewrite Hk in H. auto.
Qed.
Lemma mi_policy d p : In d (decisions n) -> policy_for n d p -> policy_for m d p.
Proof.
  intros Hd [H1 H2 H3]. assert (Hp : forall s, proper_state m s -> proper_state n s) by (intros s Hs; unfold proper_state in *; rewrite (mi_vars _ _ Hmi) in Hs; auto). constructor.
  - intros s Hs. apply H1. auto.
  - intros s Hs. rewrite (mi_vars _ _ Hmi). apply H2. auto.
  - intros s s' E. apply H3. intros y [->|Hy]; apply E; auto. right. apply mi_observed; auto.
Qed.
Theorem mi_maximum : decision_network n -> no_forgetting n -> decision_network m -> no_forgetting m ->
  exists b b', maximum_utility n b /\ maximum_utility m b' /\ (b <= b')%Qc.
Proof.
  intros Hdn Hnf Hdm Hnm. destruct (maximum_exists n Hdn Hnf) as (b & Hb & (p & Hp & <-) & _). destruct (maximum_exists m Hdm Hnm) as (b' & Hb' & _ & Hmax).
  exists (expected_value n p), b'. split; auto. split; auto. rewrite <- mi_value. apply Hmax. intros d Hd. rewrite mi_decisions in Hd. apply mi_policy; auto.
Qed.
End MI.

(** ** The weights of all states sum to one *)
Section One.
Variable n : network xnum.
Hypothesis Hdn : decision_network n.
Notation vars := (n_vars n).
Notation Hwf := (dn_wf n Hdn).
Variable policies : string -> nstate -> Qc.
Hypothesis Hpol : forall d, In d (decisions n) -> policy_for n d (policies d).
Definition own_of (v : nvar) : nfactor xnum := match factor_for (n_factors n) (nv_name v) with Some f => f | None => mkNFactor (nv_name v) [] None [] 0 end.
Definition given_of (v : nvar) : cond :=
  match nv_type v with
  | Chance => mkCond v (cond_prob vars (own_of v)) (nf_given (own_of v) ++ [nf_for (own_of v)])
  | _ => mkCond v (policies (nv_name v)) (nv_name v :: observed_by n (nv_name v))
  end.
Lemma own_factor_ok f v : In f (n_factors n) -> nf_for f = nv_name v -> own_of v = f.
Proof.
  intros Hf E. unfold own_of, factor_for. pose proof (dn_single _ Hdn) as Hs. rewrite <- E. clear E. revert Hf Hs. induction (n_factors n) as [|g l IH]; intros []; intros Hs; simpl in *; inversion Hs; subst.
  - rewrite String.eqb_refl. auto.
  - destruct (String.eqb_spec (nf_for g) (nf_for f)) as [E|]; auto. exfalso. apply H2. rewrite E. apply in_map. auto.
Qed.
Lemma own_chance v : In v vars -> nv_type v = Chance -> In (own_of v) (chance_factors n) /\ nf_for (own_of v) = nv_name v.
Proof.
  intros Hv Ht. destruct (dn_complete _ Hdn v Hv Ht) as (f & Hf & E). rewrite (own_factor_ok f v Hf E). split; auto. apply filter_In. split; auto. rewrite E. unfold kind. rewrite (var_named_in' _ v (wn_names n Hwf) Hv). simpl. rewrite Ht. auto.
Qed.
Lemma given_var v : c_var (given_of v) = v.
Proof. unfold given_of. destruct (nv_type v); auto. Qed.
Lemma decision_in v : In v vars -> nv_type v = Decision -> In (nv_name v) (decisions n).
Proof. intros Hv Ht. unfold decisions. apply in_map. apply filter_In. split; auto. unfold is_kind. rewrite Ht. auto. Qed.
Lemma outcomes_of v : In v vars -> num_outcomes vars (nv_name v) = List.length (nv_outcomes v).
Proof. intros Hv. unfold num_outcomes. rewrite (var_named_in' _ v (wn_names n Hwf) Hv). auto. Qed.
Lemma given_good v : In v (worldly_of vars) -> good_cond vars (given_of v).
Proof.
  intros Hv. apply filter_In in Hv. destruct Hv as [Hv Hk]. unfold given_of, is_kind in *. destruct (nv_type v) eqn:Ht; try discriminate Hk.
  - destruct (own_chance v Hv Ht) as [Ho E]. constructor; cbn [c_var c_val c_scope]; auto; [|apply cond_looks]. intros s Hs. cbn [c_var c_val]. rewrite <- (outcomes_of v Hv), <- E. apply cond_prob_sum. apply (dn_rows _ Hdn); auto.
  - pose proof (Hpol _ (decision_in v Hv Ht)) as [P1 P2 P3]. constructor; cbn [c_var c_val c_scope]; auto.
    + intros s Hs. cbn [c_var c_val]. rewrite <- (outcomes_of v Hv). apply P2. auto.
    + intros s s' E. apply P3. intros y [->|Hy]; apply E; simpl; auto.
Qed.
Lemma given_weight s : weight_of_conds (map given_of (worldly_of vars)) s = (tables_weight vars (n_factors n) s * qprod (map (fun d => policies d s) (decisions n)))%Qc.
Proof.
  rewrite (weight_perm _ _ s (Permutation_map given_of (filter_split (is_kind Decision) (worldly_of vars)))). rewrite map_app, weight_app. f_equal.
  - unfold weight_of_conds, tables_weight. change (filter (is_chance vars) (n_factors n)) with (chance_factors n). rewrite map_map.
    set (C := filter (fun v => negb (is_kind Decision v)) (worldly_of vars)).
    assert (HC : forall v, In v C <-> In v vars /\ nv_type v = Chance).
    { intros v. unfold C, worldly_of. rewrite !filter_In. unfold is_kind. destruct (nv_type v); simpl; intuition discriminate. }
    rewrite (map_ext_in _ (fun v => cond_prob vars (own_of v) s)).
    2:{ intros v Hv. apply HC in Hv. unfold given_of. rewrite (proj2 Hv). auto. }
    rewrite <- (map_map own_of (fun f => cond_prob vars f s)). apply qprod_perm. apply Permutation_map. apply NoDup_Permutation.
    + assert (K : NoDup (map nf_for (map own_of C))).
      { rewrite map_map. rewrite (map_ext_in _ nv_name) by (intros v Hv; apply HC in Hv; apply own_chance; tauto). apply names_filter. apply names_filter. apply (wn_names n Hwf). }
      eapply NoDup_map_inv; eauto.
    + eapply NoDup_filter. eapply NoDup_map_inv. apply (dn_single _ Hdn).
    + intros f. split.
      * intros H. apply in_map_iff in H. destruct H as (v & <- & Hv). apply HC in Hv. apply own_chance; tauto.
      * intros H. pose proof H as H0. apply filter_In in H0. destruct H0 as [Hf Hk]. unfold kind in Hk. destruct (var_named vars (nf_for f)) as [v|] eqn:Ev; simpl in Hk; [|discriminate].
        apply var_named_some in Ev. destruct Ev as [Hv Ev]. apply in_map_iff. exists v. split; [apply own_factor_ok; auto|]. apply HC. split; auto. destruct (nv_type v); auto; discriminate.
  - unfold weight_of_conds. f_equal. unfold decisions. rewrite !map_map.
    assert (E : filter (is_kind Decision) (worldly_of vars) = filter (is_kind Decision) vars).
    { unfold worldly_of. rewrite filter_filter. apply filter_ext. intros v. unfold is_kind. destruct (nv_type v); auto. }
    rewrite E. apply map_ext_in. intros v Hv. apply filter_In in Hv. destruct Hv as [_ Hv]. unfold given_of, is_kind in *. destruct (nv_type v); try discriminate. auto.
Qed.
Theorem policies_one : nsum (fun s => tables_weight vars (n_factors n) s * qprod (map (fun d => policies d s) (decisions n)))%Qc (worldly_of vars) nowhere = 1%Qc.
Proof.
  destruct (dn_order _ Hdn) as (rank & Hr).
  rewrite (nsum_ext _ (weight_of_conds (map given_of (worldly_of vars)))) by (intros s _; symmetry; apply given_weight).
  replace (worldly_of vars) with (map c_var (map given_of (worldly_of vars))) at 2 by (rewrite map_map; rewrite (map_ext _ (fun v => v)) by apply given_var; apply map_id).
  apply (conds_one vars (wn_names n Hwf) rank _ _ eq_refl).
  - intros c Hc. apply in_map_iff in Hc. destruct Hc as (v & <- & Hv). apply given_good. auto.
  - rewrite map_map. unfold c_name. rewrite (map_ext _ nv_name) by (intros v; rewrite given_var; auto). apply names_filter. apply (wn_names n Hwf).
  - intros c y Hc Hy Hne _. apply in_map_iff in Hc. destruct Hc as (v & <- & Hv). unfold c_name in *. rewrite given_var in *. apply filter_In in Hv. destruct Hv as [Hv Hk]. unfold given_of, is_kind in *.
    destruct (nv_type v) eqn:Ht; try discriminate Hk; cbn [c_scope] in Hy.
    + destruct (own_chance v Hv Ht) as [Ho E]. apply filter_In in Ho. destruct Ho as [Ho Hko]. rewrite <- E in *. apply in_app_iff in Hy. destruct Hy as [Hy|[Hy|[]]]; [|congruence].
      apply Hr; auto. destruct (kind vars (nf_for (own_of v))) as [[]|]; congruence.
    + destruct Hy as [Hy|Hy]; [congruence|]. unfold observed_by in Hy. destruct (factor_for (n_factors n) (nv_name v)) as [f|] eqn:Ef; [|destruct Hy]. apply find_some in Ef. destruct Ef as [Hf Ef]. apply String.eqb_eq in Ef.
      rewrite <- Ef. apply Hr; auto. rewrite Ef. unfold kind. rewrite (var_named_in' _ v (wn_names n Hwf) Hv). simpl. congruence.
  - apply nowhere_in. apply (vars_nonempty n Hwf).
Qed.
End One.

(** ** Other units *)
Section RS.
Variables n m : network xnum.
Variable a : Qc.
Variable b : string -> Qc.
Hypothesis Hrs : rescaled a b n m.
Hypothesis Ha : (0 < a)%Qc.
Hypothesis Hdn : decision_network n.
Notation Hwf := (dn_wf n Hdn).
Lemma rs_is_total x : is_total m x = is_total n x.
Proof. unfold is_total. rewrite (rs_vars _ _ _ _ Hrs), (rs_total _ _ _ _ Hrs). auto. Qed.
Lemma rs_tables s : tables_weight (n_vars m) (n_factors m) s = tables_weight (n_vars n) (n_factors n) s.
Proof.
  rewrite (rs_vars _ _ _ _ Hrs). unfold tables_weight. pose proof (rs_factors _ _ _ _ Hrs) as H. induction H as [|f g l l' (E1 & E2 & H) Hl IH]; auto. cbn [filter].
  unfold is_chance in *. rewrite E1. destruct (kind (n_vars n) (nf_for f)) as [[]|]; auto. cbn [map]. unfold qprod in *. cbn [fold_right]. rewrite IH. f_equal.
  symmetry. apply cond_sig; [intros x _; auto|]. rewrite andb_false_r in H. repeat split; auto.
Qed.
Lemma rs_entry f g s : In f (n_factors n) -> is_utility_table n f = true -> nf_for g = nf_for f -> nf_given g = nf_given f ->
  (exists l, nf_table f = Some (map Fin l) /\ nf_table g = Some (map (fun x => Fin (a * x + b (nf_for f))%Qc) l)) -> proper_state n s ->
  entry (n_vars m) g s = (a * entry (n_vars n) f s + b (nf_for f))%Qc.
Proof.
  intros Hf Hu E1 E2 (l & T1 & T2) Hs. unfold is_utility_table in Hu. apply andb_true_iff in Hu. destruct Hu as [Htot Hk]. apply negb_true_iff in Htot.
  pose proof (wn_tables n Hwf f Hf Htot) as Ht. destruct (wt_table _ _ Ht) as (l0 & T0 & Hl0); [destruct (kind (n_vars n) (nf_for f)) as [[]|]; congruence|].
  assert (Hl : List.length l = table_size (n_vars n) (nf_given f ++ [nf_for f])). { rewrite <- Hl0. rewrite T1 in T0. injection T0 as T0. rewrite <- (map_length Fin l), T0, map_length. auto. }
  assert (Hc : (cell (n_vars n) (nf_given f ++ [nf_for f]) s < List.length l)%nat).
  { rewrite Hl. apply cell_lt. intros x Hx. assert (Hv : exists v, var_named (n_vars n) x = Some v).
    { apply in_app_iff in Hx. destruct Hx as [Hx|[<-|[]]]; [apply (wt_given _ _ Ht x Hx)|apply (wt_for _ _ Ht)]. }
    destruct Hv as (v & Hv). unfold num_outcomes. rewrite Hv. apply var_named_some in Hv. destruct Hv as [Hv <-]. apply Hs. auto. }
  unfold entry. rewrite E1, E2, T1, T2, (rs_vars _ _ _ _ Hrs). cbn [slice_of]. rewrite !nth_error_map.
  destruct (nth_error l (cell (n_vars n) (nf_given f ++ [nf_for f]) s)) as [x|] eqn:Ex; [reflexivity|]. apply nth_error_None in Ex. lia.
Qed.
Lemma rs_utility s : proper_state n s -> utility_of m s = (a * utility_of n s + shift n b)%Qc.
Proof.
  intros Hs. unfold utility_of, shift, utility_tables. fold (is_utility_table n) (is_utility_table m).
  assert (K : forall L L', Forall2 (fun f g => nf_for g = nf_for f /\ nf_given g = nf_given f /\
    if is_utility_table n f then exists l, nf_table f = Some (map Fin l) /\ nf_table g = Some (map (fun x => Fin (a * x + b (nf_for f))%Qc) l) else nf_table g = nf_table f) L L' ->
    incl L (n_factors n) ->
    qsum (map (fun f => net_weight m (nf_for f) * entry (n_vars m) f s)%Qc (filter (is_utility_table m) L')) =
    (a * qsum (map (fun f => net_weight n (nf_for f) * entry (n_vars n) f s) (filter (is_utility_table n) L)) + qsum (map (fun f => net_weight n (nf_for f) * b (nf_for f)) (filter (is_utility_table n) L)))%Qc).
  { intros L L' H. induction H as [|f g l l' (E1 & E2 & H) Hl IH]; intros Hin; [cbn; ring|]. cbn [filter].
    assert (Ek : is_utility_table m g = is_utility_table n f) by (unfold is_utility_table; rewrite E1, rs_is_total, (rs_vars _ _ _ _ Hrs); auto). rewrite Ek.
    assert (IH' := IH (fun x Hx => Hin x (or_intror Hx))). destruct (is_utility_table n f) eqn:Eu; auto. cbn [map]. unfold qsum in *. cbn [fold_right]. rewrite IH'.
    rewrite (rs_entry f g s); auto; [|apply Hin; simpl; auto]. rewrite E1, (rs_weights _ _ _ _ Hrs). ring. }
  apply K; [exact (rs_factors _ _ _ _ Hrs)|intros f; auto].
Qed.
Lemma rs_decisions : decisions m = decisions n.
Proof. unfold decisions. rewrite (rs_vars _ _ _ _ Hrs). auto. Qed.
Lemma rs_observed d : observed_by m d = observed_by n d.
Proof.
  unfold observed_by, factor_for. pose proof (rs_factors _ _ _ _ Hrs) as H. induction H as [|f g l l' (E1 & E2 & H) Hl IH]; auto. cbn [find]. rewrite E1. destruct (String.eqb (nf_for f) d); auto.
Qed.
Lemma rs_policy d p : policy_for m d p <-> policy_for n d p.
Proof.
  split; intros [H1 H2 H3]; unfold proper_state in *; rewrite ?(rs_vars _ _ _ _ Hrs) in *; constructor; unfold proper_state; rewrite ?(rs_vars _ _ _ _ Hrs); auto; intros s s' E; apply H3; [rewrite rs_observed|rewrite rs_observed in E]; auto.
Qed.
Lemma rs_no_forgetting : no_forgetting n -> no_forgetting m.
Proof. intros H d e. rewrite rs_decisions, !rs_observed. apply H. Qed.
Lemma rs_value policies : (forall d, In d (decisions n) -> policy_for n d (policies d)) -> expected_value m policies = (a * expected_value n policies + shift n b)%Qc.
Proof.
  intros Hp. rewrite !value_nsum. rewrite rs_decisions, (rs_vars _ _ _ _ Hrs).
  set (W := fun s => (tables_weight (n_vars n) (n_factors n) s * qprod (map (fun d => policies d s) (decisions n)))%Qc).
  rewrite (nsum_ext _ (fun s => a * (W s * utility_of n s) + shift n b * W s)%Qc).
  - rewrite nsum_add, !nsum_scale. unfold W at 2. rewrite (policies_one n Hdn policies Hp). unfold W. ring.
  - intros s Hs. rewrite rs_utility by (apply (world_proper n Hwf); auto). rewrite <- (rs_vars _ _ _ _ Hrs) at 1. rewrite rs_tables. unfold W. ring.
Qed.
Theorem rs_maximum : no_forgetting n -> decision_network m -> exists best, maximum_utility n best /\ maximum_utility m (a * best + shift n b)%Qc /\
  forall sc stepwise, exists m' tables, net_solve_policies sc m stepwise = (m', Ok tables) /\ (forall d, In d (decisions n) -> policy_for n d (table_policy n tables d)) /\ expected_value n (table_policy n tables) = best.
Proof.
  intros Hnf Hdm. pose proof (rs_no_forgetting Hnf) as Hnm.
  destruct (maximum_exists n Hdn Hnf) as (b1 & Hb1 & (p1 & Hp1 & E1) & Hmax1). destruct (maximum_exists m Hdm Hnm) as (b2 & Hb2 & (p2 & Hp2 & E2) & Hmax2).
  assert (P1 : forall d, In d (decisions m) -> policy_for m d (p1 d)) by (intros d Hd; apply rs_policy, Hp1; rewrite <- rs_decisions; auto).
  assert (P2 : forall d, In d (decisions n) -> policy_for n d (p2 d)) by (intros d Hd; apply rs_policy, Hp2; rewrite rs_decisions; auto).
  assert (Eb : b2 = (a * b1 + shift n b)%Qc).
  { apply Qcle_antisym.
    - rewrite <- E2, rs_value by auto. apply Qcplus_le_compat; [|apply Qcle_refl]. rewrite !(Qcmult_comm a). apply Qcmult_le_compat_r; [apply Hmax1; auto|apply Qclt_le_weak; auto].
    - rewrite <- E1, <- rs_value by auto. apply Hmax2. auto. }
  exists b1. split; auto. split; [rewrite <- Eb; auto|]. intros sc stepwise. destruct (solve_policies_ok sc m stepwise Hdm Hnm) as (m' & t & E & H). exists m', t. split; auto.
  pose proof (table_policy_for m m' t H) as Hp. pose proof (policies_best m m' t H) as Hb.
  assert (Et : forall d s, table_policy m t d s = table_policy n t d s) by (intros d s; unfold table_policy; rewrite (rs_vars _ _ _ _ Hrs); auto).
  assert (Hpn : forall d, In d (decisions n) -> policy_for n d (table_policy n t d)).
  { intros d Hd. destruct (proj1 (rs_policy d _) (Hp d (eq_rect_r (fun l => In d l) Hd rs_decisions))) as [K1 K2 K3]. constructor; intros; rewrite <- ?Et; auto. rewrite (map_ext _ (fun k => table_policy m t d (nupd s d k))) by (intros k; auto). auto. }
  split; auto. apply Qcle_antisym; [apply Hmax1; auto|].
  assert (Ev : expected_value m (table_policy m t) = (a * expected_value n (table_policy n t) + shift n b)%Qc).
  { rewrite <- rs_value by auto. rewrite !value_nsum. apply nsum_ext. intros s _. do 3 f_equal. apply map_ext. intros d. auto. }
  specialize (Hb p1 P1). rewrite Ev, (rs_value p1 Hp1), E1 in Hb.
  apply Qcnot_lt_le. intros Hlt. apply (Qcle_not_lt _ _ Hb). apply Qclt_minus_iff. apply Qclt_minus_iff in Hlt.
  replace (a * b1 + shift n b + - (a * expected_value n (table_policy n t) + shift n b))%Qc with (a * (b1 + - expected_value n (table_policy n t)))%Qc by ring.
  rewrite <- (Qcmult_0_l (b1 + - expected_value n (table_policy n t))). apply Qcmult_lt_compat_r; auto.
Qed.
End RS.
