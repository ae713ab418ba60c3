(** A further decision that nothing depends on changes no other decision. *)
From Coq Require Import ZArith List Bool String Lia Permutation QArith Qcanon.
From Verif Require Import Num GoBase VarModel GoFacts SpecFactor XnumFacts VEModel SpecVE VEWorlds NetModel SpecNet NetVars NetFactors NetSums NetQuery NetMass NetCor NetNew
  SpecNetPolicy NetPolicyStep NetPolicyThms SpecGraph StateSums NetGraph NetMarkov NetChange NetReorder TuiTable NetInform SpecSpare NetLeafUtility.
Import ListNotations.
Open Scope string_scope.
Open Scope list_scope.
Open Scope Z_scope.

Section Spare.
Variables n n' : network xnum.
Variable v : nvar.
Variable f : nfactor xnum.
Hypothesis Ha : spare_added v f n n'.
Hypothesis Hwf : wf_network n.
Hypothesis Hwf' : wf_network n'.
Notation vars := (n_vars n).

Lemma sp_perm : exists l, Permutation (v :: vars) l /\ Forall2 same_variable l (n_vars n').
Proof.
  exists (n_vars n'). split; [rewrite (sp_vars _ _ _ _ Ha); apply Permutation_cons_append|]. induction (n_vars n'); constructor; auto. repeat split.
Qed.
Lemma sp_sig x : In x (map nv_name vars) -> sig (n_vars n') x = sig vars x.
Proof. intros H. rewrite <- (leaf_sig' n n' v Hwf' sp_perm x). apply leaf_sig. apply (leaf_new n n' v Hwf' sp_perm). auto. Qed.
Lemma sp_kind_new : kind (n_vars n') (nf_for f) = Some Decision.
Proof.
  rewrite <- (sig_kind (v :: vars)); [|apply (leaf_sig' n n' v Hwf' sp_perm)]. unfold kind, var_named. cbn [find]. rewrite (sp_for _ _ _ _ Ha), String.eqb_refl. cbn. rewrite (sp_decision _ _ _ _ Ha). auto.
Qed.
Lemma sp_tables s : tables_weight (n_vars n') (n_factors n') s = tables_weight vars (n_factors n) s.
Proof.
  unfold tables_weight. rewrite (sp_factors _ _ _ _ Ha), filter_app. cbn [filter]. unfold is_chance at 2. rewrite sp_kind_new, app_nil_r.
  rewrite (filter_ext_in _ (is_chance vars)).
  - f_equal. apply map_ext_in. intros g Hg. apply filter_In in Hg. apply cond_sig; [|apply same_factor_refl]. intros x Hx. apply sig_outcomes. apply sp_sig. apply (leaf_scope n Hwf g); auto. apply filter_In. auto.
  - intros g Hg. unfold is_chance. rewrite (sig_kind (n_vars n') vars); auto. apply sp_sig. apply factor_known; auto.
Qed.
Lemma sp_scope g x : In g (n_factors n) -> is_total n (nf_for g) = false -> In x (nf_given g ++ [nf_for g]) -> In x (map nv_name vars).
Proof.
  intros Hg Ht Hx. apply in_app_iff in Hx. destruct Hx as [Hx|[<-|[]]]; [|apply factor_known; auto].
  destruct (wt_given _ _ (wn_tables n Hwf g Hg Ht) x Hx) as (_ & w & Hw). apply (named_in n _ w). auto.
Qed.
Lemma sp_utility s : utility_of n' s = utility_of n s.
Proof.
  unfold utility_of. rewrite (map_ext _ (fun g => net_weight n (nf_for g) * entry (n_vars n') g s)%Qc) by (intros g; rewrite (sp_weights _ _ _ _ Ha); auto).
  unfold utility_tables. rewrite (sp_factors _ _ _ _ Ha), filter_app. cbn [filter]. rewrite sp_kind_new, andb_false_r, app_nil_r.
  rewrite (filter_ext_in _ (fun g => negb (is_total n (nf_for g)) && match kind vars (nf_for g) with Some Utility => true | _ => false end)).
  - f_equal. apply map_ext_in. intros g Hg. apply filter_In in Hg. destruct Hg as [Hg K]. apply andb_true_iff in K. destruct K as [K _]. apply negb_true_iff in K. f_equal.
    apply entry_sig; [|apply same_factor_refl]. intros x Hx. apply sig_outcomes. apply sp_sig. apply (sp_scope g); auto.
  - intros g Hg. rewrite (sp_total _ _ _ _ Ha). rewrite (sig_kind (n_vars n') vars); auto. apply sp_sig. apply factor_known; auto.
Qed.
Lemma sp_utility_looks : looks_at (utility_of n) (fun y => y <> nv_name v).
Proof.
  intros s s' E. unfold utility_of. apply qsum_ext. intros g Hg. f_equal. apply filter_In in Hg. destruct Hg as [Hg K]. apply andb_true_iff in K. destruct K as [K _]. apply negb_true_iff in K.
  apply (entry_looks' vars g). intros y Hy. apply E. apply (leaf_new n n' v Hwf' sp_perm). apply (sp_scope g); auto.
Qed.
Lemma sp_weight_looks : looks_at (tables_weight vars (n_factors n)) (fun y => y <> nv_name v).
Proof.
  intros s s' E. unfold tables_weight. apply (looks_qprod (fun g => cond_prob vars g) (filter (is_chance vars) (n_factors n)) (fun y => y <> nv_name v)); auto.
  intros g Hg. eapply looks_weaken; [apply cond_looks|]. intros y Hy. apply (leaf_new n n' v Hwf' sp_perm). eapply leaf_scope; eauto.
Qed.
Lemma sp_decisions : decisions n' = decisions n ++ [nv_name v].
Proof. unfold decisions. rewrite (sp_vars _ _ _ _ Ha), filter_app, map_app. cbn [filter]. unfold is_kind at 2. rewrite (sp_decision _ _ _ _ Ha). auto. Qed.
Lemma sp_known d : In d (decisions n) -> In d (map nv_name vars).
Proof. intros H. apply in_map_iff in H. destruct H as (w & <- & Hw). apply filter_In in Hw. apply in_map. tauto. Qed.
Lemma sp_observed d : In d (decisions n) -> observed_by n' d = observed_by n d.
Proof.
  intros Hd. unfold observed_by, factor_for. rewrite (sp_factors _ _ _ _ Ha). assert (K : String.eqb (nf_for f) d = false).
  { apply String.eqb_neq. rewrite (sp_for _ _ _ _ Ha). intros E. apply (leaf_new n n' v Hwf' sp_perm d); auto. apply sp_known; auto. }
  induction (n_factors n) as [|g l IH]; cbn [app find]; [rewrite K; auto|]. destruct (String.eqb (nf_for g) d); auto.
Qed.
Lemma sp_unobserved d : In d (decisions n) -> ~ In (nv_name v) (observed_by n d).
Proof.
  intros Hd Hx. unfold observed_by in Hx. destruct (factor_for (n_factors n) d) as [g|] eqn:Eg; [|destruct Hx]. unfold factor_for in Eg. apply find_some in Eg. destruct Eg as [Hg E]. apply String.eqb_eq in E.
  assert (Ht : is_total n (nf_for g) = false). { destruct (is_total n (nf_for g)) eqn:Et; auto. pose proof (NetVE.total_kind n Hwf (nf_for g) Et) as K. rewrite E, (in_decisions n d Hwf Hd) in K. discriminate. }
  apply (leaf_new n n' v Hwf' sp_perm (nv_name v)); auto. apply (sp_scope g); auto. apply in_or_app. auto.
Qed.
Lemma sp_forgetting : no_forgetting n' -> no_forgetting n.
Proof. intros H d e Hd He. pose proof (H d e) as K. rewrite sp_decisions, !sp_observed in K by auto. apply K; apply in_or_app; auto. Qed.
Lemma sp_smaller s : proper_state n' s -> proper_state n s.
Proof. intros H w Hw. apply H. rewrite (sp_vars _ _ _ _ Ha). apply in_or_app. auto. Qed.
Lemma sp_larger s : proper_state n s -> proper_state n' (nupd s (nv_name v) 0).
Proof.
  intros H w Hw. rewrite (sp_vars _ _ _ _ Ha) in Hw. apply in_app_iff in Hw. unfold nupd. destruct Hw as [Hw|[<-|[]]].
  - destruct (String.eqb_spec (nv_name w) (nv_name v)) as [E|]; [|apply H; auto]. exfalso. apply (leaf_new n n' v Hwf' sp_perm (nv_name w)); auto. apply in_map. auto.
  - rewrite String.eqb_refl. assert (Hv : In v (n_vars n')) by (rewrite (sp_vars _ _ _ _ Ha); apply in_or_app; simpl; auto). pose proof (vars_nonempty n' Hwf' v Hv). destruct (nv_outcomes v); [congruence|simpl; lia].
Qed.
Lemma sp_outcomes x : In x (map nv_name vars) -> num_outcomes (n_vars n') x = num_outcomes vars x.
Proof. intros H. apply sig_outcomes. apply sp_sig. auto. Qed.
Lemma sp_policy d p : In d (decisions n) -> policy_for n d p <-> policy_for n' d p.
Proof.
  intros Hd. pose proof (sp_known d Hd) as Hk. pose proof (leaf_new n n' v Hwf' sp_perm d Hk) as Hne. split; intros [H1 H2 H3]; constructor.
  - intros s Hs. apply H1, sp_smaller, Hs.
  - intros s Hs. rewrite sp_outcomes by auto. apply H2, sp_smaller, Hs.
  - intros s s' E. apply H3. intros y Hy. apply E. rewrite sp_observed; auto.
  - intros s Hs. rewrite (H3 s (nupd s (nv_name v) 0)); [apply H1, sp_larger, Hs|]. intros y Hy. unfold nupd. destruct (String.eqb_spec y (nv_name v)) as [->|]; auto.
    exfalso. rewrite sp_observed in Hy by auto. destruct Hy as [Hy|Hy]; [congruence|]. apply (sp_unobserved d); auto.
  - intros s Hs. rewrite <- (H2 (nupd s (nv_name v) 0)) by (apply sp_larger, Hs). rewrite sp_outcomes by auto. apply qsum_ext. intros k _. apply H3. intros y Hy. unfold nupd. destruct (String.eqb_spec y d) as [->|]; auto.
    destruct (String.eqb_spec y (nv_name v)) as [->|]; auto. exfalso. rewrite sp_observed in Hy by auto. destruct Hy as [Hy|Hy]; [congruence|]. apply (sp_unobserved d); auto.
  - intros s s' E. apply H3. intros y Hy. apply E. rewrite sp_observed in Hy; auto.
Qed.
Lemma sp_policies_look p : (forall d, In d (decisions n) -> policy_for n d (p d)) -> looks_at (fun s => qprod (map (fun d => p d s) (decisions n))) (fun y => y <> nv_name v).
Proof.
  intros Hp. apply (looks_qprod p (decisions n)). intros d Hd s s' E. apply (pf_observed _ _ _ (Hp d Hd)). intros y [->|Hy]; apply E.
  - apply (leaf_new n n' v Hwf' sp_perm). apply sp_known; auto.
  - intros ->. apply (sp_unobserved d); auto.
Qed.
Theorem sp_value p : (forall d, In d (decisions n') -> policy_for n' d (p d)) -> expected_value n' p = expected_value n p.
Proof.
  intros Hp'. assert (Hp : forall d, In d (decisions n) -> policy_for n d (p d)) by (intros d Hd; apply sp_policy; auto; apply Hp'; rewrite sp_decisions; apply in_or_app; auto).
  assert (Hpv : policy_for n' (nv_name v) (p (nv_name v))) by (apply Hp'; rewrite sp_decisions; apply in_or_app; simpl; auto).
  rewrite !value_nsum, sp_decisions. replace (worldly_of (n_vars n')) with (worldly_of vars ++ [v]).
  2:{ rewrite (sp_vars _ _ _ _ Ha). unfold worldly_of. rewrite filter_app. cbn [filter]. unfold is_kind. rewrite (sp_decision _ _ _ _ Ha). auto. }
  rewrite nsum_app. apply nsum_ext. intros s Hin. rewrite nsum_cons.
  assert (Hps : proper_state n s).
  { apply (joint_in vars (wn_names n Hwf) (worldly_of vars) nowhere); auto.
    - intros w Hw. apply filter_In in Hw. tauto.
    - apply names_filter. apply (wn_names n Hwf).
    - apply nowhere_in. apply (vars_nonempty n Hwf). }
  rewrite (qsum_ext _ (fun k => (tables_weight vars (n_factors n) s * qprod (map (fun d => p d s) (decisions n)) * utility_of n s) * p (nv_name v) (nupd s (nv_name v) k))%Qc).
  - rewrite qsum_scale. replace (List.length (nv_outcomes v)) with (num_outcomes (n_vars n') (nv_name v)).
    + rewrite (qsum_ext _ (fun k => p (nv_name v) (nupd (nupd s (nv_name v) 0) (nv_name v) k))); [rewrite (pf_rows _ _ _ Hpv) by (apply sp_larger; auto); ring|]. intros k _.
      apply (pf_observed _ _ _ Hpv). intros y _. unfold nupd. destruct (String.eqb y (nv_name v)); auto.
    + assert (Hv : In v (n_vars n')) by (rewrite (sp_vars _ _ _ _ Ha); apply in_or_app; simpl; auto). unfold num_outcomes. rewrite (var_named_in' _ v (wn_names n' Hwf') Hv). auto.
  - intros k _. rewrite nsum_nil, sp_tables, sp_utility, map_app, qprod_app. cbn [map]. rewrite (looks_nupd _ _ s (nv_name v) k sp_weight_looks) by tauto.
    rewrite (looks_nupd _ _ s (nv_name v) k (sp_policies_look p Hp)) by tauto. rewrite (looks_nupd _ _ s (nv_name v) k sp_utility_looks) by tauto. unfold qprod at 2. cbn [fold_right]. ring.
Qed.
Lemma sp_pick : policy_for n' (nv_name v) (fun s => if Nat.eqb (s (nv_name v)) 0 then 1%Qc else 0%Qc).
Proof.
  constructor.
  - intros s _. destruct (Nat.eqb _ _); discriminate.
  - intros s Hs. assert (Hv : In v (n_vars n')) by (rewrite (sp_vars _ _ _ _ Ha); apply in_or_app; simpl; auto). pose proof (vars_nonempty n' Hwf' v Hv) as Hpos.
    unfold num_outcomes. rewrite (var_named_in' _ v (wn_names n' Hwf') Hv). destruct (nv_outcomes v) as [|o l]; [congruence|]. cbn [List.length seq map]. unfold qsum. cbn [fold_right]. unfold nupd at 1. rewrite String.eqb_refl. cbn [Nat.eqb].
    replace (fold_right Qcplus 0%Qc _) with 0%Qc; [ring|]. symmetry. generalize (List.length l) as k. intros k.
    assert (G : forall a, (0 < a)%nat -> fold_right Qcplus 0%Qc (map (fun k0 : nat => if Nat.eqb (nupd s (nv_name v) k0 (nv_name v)) 0 then 1%Qc else 0%Qc) (seq a k)) = 0%Qc).
    { induction k as [|k IH]; intros a Ha'; auto. cbn [seq map fold_right]. rewrite IH by lia. unfold nupd. rewrite String.eqb_refl. destruct a; [lia|]. cbn [Nat.eqb]. ring. }
    apply G. lia.
  - intros s s' E. rewrite (E (nv_name v)); auto.
Qed.
Theorem sp_values b : (exists p, (forall d, In d (decisions n') -> policy_for n' d (p d)) /\ expected_value n' p = b) <->
  exists p, (forall d, In d (decisions n) -> policy_for n d (p d)) /\ expected_value n p = b.
Proof.
  split; intros (p & Hp & E).
  - exists p. split; [|rewrite <- E; symmetry; apply sp_value; auto]. intros d Hd. apply sp_policy; auto. apply Hp. rewrite sp_decisions. apply in_or_app. auto.
  - set (q := fun d => if String.eqb d (nv_name v) then (fun s : nstate => if Nat.eqb (s (nv_name v)) 0 then 1%Qc else 0%Qc) else p d).
    assert (Hq : forall d, In d (decisions n') -> policy_for n' d (q d)).
    { intros d Hd. unfold q. destruct (String.eqb_spec d (nv_name v)) as [Ed|Ed]; [subst d; apply sp_pick|]. rewrite sp_decisions in Hd. apply in_app_iff in Hd. destruct Hd as [Hd|[Hd|[]]]; [|congruence]. apply sp_policy; auto. }
    exists q. split; [exact Hq|]. rewrite sp_value by auto. rewrite <- E.
    rewrite !value_nsum. apply nsum_ext. intros s _. f_equal. f_equal. f_equal. apply map_ext_in. intros d Hd. unfold q. destruct (String.eqb_spec d (nv_name v)) as [Ed|]; auto. exfalso. apply (leaf_new n n' v Hwf' sp_perm d); auto. apply sp_known; auto.
Qed.
End Spare.
