(** A further node that nothing depends on changes no decision. *)
From Coq Require Import ZArith List Bool String Lia Permutation QArith Qcanon.
From Verif Require Import Num GoBase VarModel GoFacts SpecFactor XnumFacts VEModel SpecVE VEWorlds NetModel SpecNet NetVars NetFactors NetSums NetQuery NetMass NetCor NetNew
  SpecNetPolicy NetPolicyStep NetPolicyThms SpecGraph StateSums NetGraph NetMarkov NetChange NetReorder TuiTable NetInform SpecLeaf.
Import ListNotations.
Open Scope string_scope.
Open Scope list_scope.
Open Scope Z_scope.

Section Leaf.
Variables n n' : network xnum.
Variable v : nvar.
Variable f : nfactor xnum.
Hypothesis Ha : leaf_added v f n n'.
Hypothesis Hdn : decision_network n.
Hypothesis Hdn' : decision_network n'.
Let Hwf := dn_wf n Hdn.
Let Hwf' := dn_wf n' Hdn'.
Notation vars := (n_vars n).

Lemma al_perm : exists l, Permutation (v :: vars) l /\ Forall2 same_variable l (n_vars n').
Proof.
  exists (n_vars n'). split; [rewrite (al_vars _ _ _ _ Ha); apply Permutation_cons_append|]. induction (n_vars n'); constructor; auto. repeat split.
Qed.
Lemma al_sig x : In x (map nv_name vars) -> sig (n_vars n') x = sig vars x.
Proof. intros H. rewrite <- (leaf_sig' n n' v Hwf' al_perm x). apply leaf_sig. apply (leaf_new n n' v Hwf' al_perm). auto. Qed.
Lemma al_tables s : tables_weight (n_vars n') (n_factors n') s = (tables_weight vars (n_factors n) s * cond_prob (n_vars n') f s)%Qc.
Proof.
  rewrite <- (weight_sig (v :: vars) (n_vars n') (n_factors n') (n_factors n')); [|apply (leaf_sig' n n' v Hwf' al_perm)|induction (n_factors n'); constructor; auto; apply same_factor_refl].
  rewrite (al_factors _ _ _ _ Ha), <- (weight_reorder _ _ _ _ (Permutation_cons_append (n_factors n) f)).
  rewrite (leaf_weight n n' v f Hwf Hwf' al_perm (al_chance _ _ _ _ Ha) (al_for _ _ _ _ Ha)). f_equal.
  apply cond_sig; [|apply same_factor_refl]. intros x _. apply sig_outcomes. apply (leaf_sig' n n' v Hwf' al_perm).
Qed.
Lemma al_kind_new : kind (n_vars n') (nf_for f) = Some Chance.
Proof.
  rewrite <- (sig_kind (v :: vars)); [|apply (leaf_sig' n n' v Hwf' al_perm)]. unfold kind, var_named. cbn [find]. rewrite (al_for _ _ _ _ Ha), String.eqb_refl. cbn. rewrite (al_chance _ _ _ _ Ha). auto.
Qed.
Lemma al_scope g x : In g (n_factors n) -> is_total n (nf_for g) = false -> In x (nf_given g ++ [nf_for g]) -> In x (map nv_name vars).
Proof.
  intros Hg Ht Hx. apply in_app_iff in Hx. destruct Hx as [Hx|[<-|[]]]; [|apply factor_known; auto].
  destruct (wt_given _ _ (wn_tables n Hwf g Hg Ht) x Hx) as (_ & w & Hw). apply (named_in n _ w). auto.
Qed.
Lemma al_utility s : utility_of n' s = utility_of n s.
Proof.
  unfold utility_of. rewrite (map_ext _ (fun g => net_weight n (nf_for g) * entry (n_vars n') g s)%Qc) by (intros g; rewrite (al_weights _ _ _ _ Ha); auto).
  unfold utility_tables. rewrite (al_factors _ _ _ _ Ha), filter_app. cbn [filter]. rewrite al_kind_new, andb_false_r, app_nil_r.
  rewrite (filter_ext_in _ (fun g => negb (is_total n (nf_for g)) && match kind vars (nf_for g) with Some Utility => true | _ => false end)).
  - f_equal. apply map_ext_in. intros g Hg. apply filter_In in Hg. destruct Hg as [Hg K]. apply andb_true_iff in K. destruct K as [K _]. apply negb_true_iff in K. f_equal.
    apply entry_sig; [|apply same_factor_refl]. intros x Hx. apply sig_outcomes. apply al_sig. apply (al_scope g); auto.
  - intros g Hg. rewrite (al_total _ _ _ _ Ha). rewrite (sig_kind (n_vars n') vars); auto. apply al_sig. apply factor_known; auto.
Qed.
Lemma al_utility_looks : looks_at (utility_of n) (fun y => y <> nv_name v).
Proof.
  intros s s' E. unfold utility_of. apply qsum_ext. intros g Hg. f_equal. apply filter_In in Hg. destruct Hg as [Hg K]. apply andb_true_iff in K. destruct K as [K _]. apply negb_true_iff in K.
  apply (entry_looks' vars g). intros y Hy. apply E. apply (leaf_new n n' v Hwf' al_perm). apply (al_scope g); auto.
Qed.
Lemma al_weight_looks : looks_at (tables_weight vars (n_factors n)) (fun y => y <> nv_name v).
Proof.
  intros s s' E. unfold tables_weight. apply (looks_qprod (fun g => cond_prob vars g) (filter (is_chance vars) (n_factors n)) (fun y => y <> nv_name v)); auto.
  intros g Hg. eapply looks_weaken; [apply cond_looks|]. intros y Hy. apply (leaf_new n n' v Hwf' al_perm). eapply leaf_scope; eauto.
Qed.
Lemma al_decisions : decisions n' = decisions n.
Proof. unfold decisions. rewrite (al_vars _ _ _ _ Ha), filter_app, map_app. cbn [filter]. unfold is_kind at 2. rewrite (al_chance _ _ _ _ Ha). cbn. apply app_nil_r. Qed.
Lemma decision_known d : In d (decisions n) -> In d (map nv_name vars).
Proof. intros H. apply in_map_iff in H. destruct H as (w & <- & Hw). apply filter_In in Hw. apply in_map. tauto. Qed.
Lemma al_observed d : In d (decisions n) -> observed_by n' d = observed_by n d.
Proof.
  intros Hd. unfold observed_by, factor_for. rewrite (al_factors _ _ _ _ Ha). assert (K : String.eqb (nf_for f) d = false).
  { apply String.eqb_neq. rewrite (al_for _ _ _ _ Ha). intros E. apply (leaf_new n n' v Hwf' al_perm d); auto. apply decision_known; auto. }
  induction (n_factors n) as [|g l IH]; cbn [app find]; [rewrite K; auto|]. destruct (String.eqb (nf_for g) d); auto.
Qed.
Lemma al_unobserved d : In d (decisions n) -> ~ In (nv_name v) (observed_by n d).
Proof.
  intros Hd Hx. unfold observed_by in Hx. destruct (factor_for (n_factors n) d) as [g|] eqn:Eg; [|destruct Hx]. unfold factor_for in Eg. apply find_some in Eg. destruct Eg as [Hg E]. apply String.eqb_eq in E.
  assert (Ht : is_total n (nf_for g) = false). { destruct (is_total n (nf_for g)) eqn:Et; auto. pose proof (NetVE.total_kind n Hwf (nf_for g) Et) as K. rewrite E, (in_decisions n d Hwf Hd) in K. discriminate. }
  apply (leaf_new n n' v Hwf' al_perm (nv_name v)); auto. apply (al_scope g); auto. apply in_or_app. auto.
Qed.
Lemma al_forgetting : no_forgetting n -> no_forgetting n'.
Proof. intros H d e. rewrite al_decisions. intros Hd He. rewrite !al_observed by auto. apply H; auto. Qed.
Lemma al_smaller s : proper_state n' s -> proper_state n s.
Proof. intros H w Hw. apply H. rewrite (al_vars _ _ _ _ Ha). apply in_or_app. auto. Qed.
Lemma al_larger s : proper_state n s -> proper_state n' (nupd s (nv_name v) 0).
Proof.
  intros H w Hw. rewrite (al_vars _ _ _ _ Ha) in Hw. apply in_app_iff in Hw. unfold nupd. destruct Hw as [Hw|[<-|[]]].
  - destruct (String.eqb_spec (nv_name w) (nv_name v)) as [E|]; [|apply H; auto]. exfalso. apply (leaf_new n n' v Hwf' al_perm (nv_name w)); auto. apply in_map. auto.
  - rewrite String.eqb_refl. assert (Hv : In v (n_vars n')) by (rewrite (al_vars _ _ _ _ Ha); apply in_or_app; simpl; auto). pose proof (vars_nonempty n' Hwf' v Hv). destruct (nv_outcomes v); [congruence|simpl; lia].
Qed.
Lemma al_outcomes x : In x (map nv_name vars) -> num_outcomes (n_vars n') x = num_outcomes vars x.
Proof. intros H. apply sig_outcomes. apply al_sig. auto. Qed.
Lemma al_policy d p : In d (decisions n) -> policy_for n d p <-> policy_for n' d p.
Proof.
  intros Hd. pose proof (decision_known d Hd) as Hk. pose proof (leaf_new n n' v Hwf' al_perm d Hk) as Hne. split; intros [H1 H2 H3]; constructor.
  - intros s Hs. apply H1, al_smaller, Hs.
  - intros s Hs. rewrite al_outcomes by auto. apply H2, al_smaller, Hs.
  - intros s s' E. apply H3. intros y Hy. apply E. rewrite al_observed; auto.
  - intros s Hs. rewrite (H3 s (nupd s (nv_name v) 0)); [apply H1, al_larger, Hs|]. intros y Hy. unfold nupd. destruct (String.eqb_spec y (nv_name v)) as [->|]; auto.
    exfalso. rewrite al_observed in Hy by auto. destruct Hy as [Hy|Hy]; [congruence|]. apply (al_unobserved d); auto.
  - intros s Hs. rewrite <- (H2 (nupd s (nv_name v) 0)) by (apply al_larger, Hs). rewrite al_outcomes by auto. apply qsum_ext. intros k _. apply H3. intros y Hy. unfold nupd. destruct (String.eqb_spec y d) as [->|]; auto.
    destruct (String.eqb_spec y (nv_name v)) as [->|]; auto. exfalso. rewrite al_observed in Hy by auto. destruct Hy as [Hy|Hy]; [congruence|]. apply (al_unobserved d); auto.
  - intros s s' E. apply H3. intros y Hy. apply E. rewrite al_observed in Hy; auto.
Qed.
Lemma al_policies_look p : (forall d, In d (decisions n) -> policy_for n d (p d)) -> looks_at (fun s => qprod (map (fun d => p d s) (decisions n))) (fun y => y <> nv_name v).
Proof.
  intros Hp. apply (looks_qprod p (decisions n)). intros d Hd s s' E. apply (pf_observed _ _ _ (Hp d Hd)). intros y [->|Hy]; apply E.
  - apply (leaf_new n n' v Hwf' al_perm). apply decision_known; auto.
  - intros ->. apply (al_unobserved d); auto.
Qed.
Lemma al_row s : proper_state n s -> row_sum (n_vars n') f s <> 0%Qc.
Proof.
  intros Hs. replace (row_sum (n_vars n') f s) with (row_sum (n_vars n') f (nupd s (nv_name v) 0)).
  - apply (dn_rows n' Hdn'); [|apply al_larger; auto]. apply filter_In. rewrite al_kind_new. split; auto. rewrite (al_factors _ _ _ _ Ha). apply in_or_app. simpl; auto.
  - unfold row_sum. apply qsum_ext. intros k _. apply (entry_looks' (n_vars n') f). intros y _. unfold nupd. rewrite (al_for _ _ _ _ Ha). destruct (String.eqb y (nv_name v)); auto.
Qed.
Theorem al_value p : (forall d, In d (decisions n) -> policy_for n d (p d)) -> expected_value n' p = expected_value n p.
Proof.
  intros Hp. rewrite !value_nsum, al_decisions. replace (worldly_of (n_vars n')) with (worldly_of vars ++ [v]).
  2:{ rewrite (al_vars _ _ _ _ Ha). unfold worldly_of. rewrite filter_app. cbn [filter]. unfold is_kind at 3. rewrite (al_chance _ _ _ _ Ha). auto. }
  rewrite nsum_app. apply nsum_ext. intros s Hin. rewrite nsum_cons.
  assert (Hps : proper_state n s).
  { apply (joint_in vars (wn_names n Hwf) (worldly_of vars) nowhere); auto.
    - intros w Hw. apply filter_In in Hw. tauto.
    - apply names_filter. apply (wn_names n Hwf).
    - apply nowhere_in. apply (vars_nonempty n Hwf). }
  rewrite (qsum_ext _ (fun k => (tables_weight vars (n_factors n) s * qprod (map (fun d => p d s) (decisions n)) * utility_of n s) * cond_prob (n_vars n') f (nupd s (nf_for f) k))%Qc).
  - rewrite qsum_scale. replace (List.length (nv_outcomes v)) with (num_outcomes (n_vars n') (nf_for f)).
    + rewrite (cond_prob_sum n' f s) by (apply al_row; auto). ring.
    + rewrite (al_for _ _ _ _ Ha). assert (Hv : In v (n_vars n')) by (rewrite (al_vars _ _ _ _ Ha); apply in_or_app; simpl; auto). unfold num_outcomes. rewrite (var_named_in' _ v (wn_names n' Hwf') Hv). auto.
  - intros k _. rewrite nsum_nil, al_tables, al_utility, (al_for _ _ _ _ Ha). rewrite (looks_nupd _ _ s (nv_name v) k al_weight_looks) by tauto.
    rewrite (looks_nupd _ _ s (nv_name v) k (al_policies_look p Hp)) by tauto. rewrite (looks_nupd _ _ s (nv_name v) k al_utility_looks) by tauto. ring.
Qed.
Theorem al_maximum : no_forgetting n -> exists b, maximum_utility n b /\ maximum_utility n' b /\
  forall sc stepwise, exists m tables, net_solve_policies sc n' stepwise = (m, Ok tables) /\
    (forall d, In d (decisions n) -> policy_for n d (table_policy n' tables d)) /\ expected_value n (table_policy n' tables) = b.
Proof.
  intros Hnf. pose proof (al_forgetting Hnf) as Hnf'. destruct (maximum_exists n Hdn Hnf) as (b & Hb & (p & Hp & Ep) & Hmax). destruct (maximum_exists n' Hdn' Hnf') as (b' & Hb' & (p' & Hp' & Ep') & Hmax').
  rewrite al_decisions in *. assert (Eb : b' = b).
  { apply Qcle_antisym.
    - rewrite <- Ep', al_value; [apply Hmax|]; intros d Hd; apply al_policy; auto.
    - rewrite <- Ep, <- (al_value p Hp). apply Hmax'. intros d Hd. apply al_policy; auto. }
  rewrite Eb in Hb', Ep', Hmax'. exists b. split; [exact Hb|]. split; [exact Hb'|]. intros sc stepwise. destruct (solve_policies_ok sc n' stepwise Hdn' Hnf') as (m & t & E & H). exists m, t. split; auto.
  pose proof (table_policy_for n' m t H) as Ht. rewrite al_decisions in Ht. assert (Ht' : forall d, In d (decisions n) -> policy_for n d (table_policy n' t d)) by (intros d Hd; apply al_policy; auto).
  split; [exact Ht'|].
  rewrite <- (al_value _ Ht'). apply Qcle_antisym; [apply Hmax'; auto|]. rewrite <- Ep'. apply (policies_best n' m t H). rewrite al_decisions. auto.
Qed.
End Leaf.
