(** Networks that describe the same joint distribution, and reversed arcs. *)
From Coq Require Import ZArith List Bool String Lia Permutation QArith Qcanon.
From Verif Require Import Num GoBase VarModel GoFacts SpecFactor XnumFacts VEModel SpecVE NetModel SpecNet NetVars NetFactors NetSums NetQuery NetMass NetCor
  SpecNetPolicy NetPolicyStep NetPolicyThms SpecGraph StateSums NetGraph NetMarkov NetChange NetReorder NetInform SpecSame.
From Verif Require NetAdvice NetNew.
Import ListNotations.
Open Scope string_scope.
Open Scope list_scope.
Open Scope Z_scope.

Lemma zero_parts {X} (g : X -> Qc) l : (forall x, In x l -> (0 <= g x)%Qc) -> qsum (map g l) = 0%Qc -> forall x, In x l -> g x = 0%Qc.
Proof.
  intros Hp Hs. apply NetAdvice.qsum_nonneg0; auto. rewrite Hs. apply Qcle_refl.
Qed.

Section Same.
Variables n n' : network xnum.
Hypothesis Hp : proportional n n'.
Hypothesis Hwf : wf_network n.
Lemma pr_mass : exists c, c <> 0%Qc /\ forall ign event, mass n' ign event = (c * mass n ign event)%Qc.
Proof.
  destruct Hp as (Ev & c & Hc & Hj). exists c. split; auto. intros ign event. unfold mass.
  replace (worlds_of n') with (worlds_of n) by (unfold worlds_of; rewrite Ev; auto). rewrite <- XnumFacts.qsum_scale. apply qsum_ext.
  intros s Hs. apply filter_In in Hs. apply Hj. apply (NetMarkov.world_proper n Hwf). tauto.
Qed.
Lemma pr_posterior ign ev q k : posterior n' ign ev q k = posterior n ign ev q k.
Proof.
  destruct pr_mass as (c & Hc & Hm). unfold posterior. rewrite (proj1 Hp), !Hm. destruct (Qc_eq_dec (mass n ign (agrees (n_vars n) ev)) 0%Qc) as [->|H].
  - rewrite Qcmult_0_r. unfold Qcdiv. replace (/ 0)%Qc with 0%Qc by (apply Qc_is_canon; reflexivity). ring.
  - field. auto.
Qed.
Lemma pr_impossible ign ev : mass n' ign (agrees (n_vars n') ev) = 0%Qc <-> mass n ign (agrees (n_vars n) ev) = 0%Qc.
Proof.
  destruct pr_mass as (c & Hc & Hm). rewrite (proj1 Hp), Hm. split; [|intros ->; ring]. intros H. apply Qcmult_integral in H. tauto.
Qed.
End Same.

Section Reverse.
Variables (x y : string) (n n' : network xnum).
Hypothesis Hr : reversed_arc x y n n'.
Hypothesis Hwf : wf_network n.
Hypothesis Hnn : forall f s, In f (chance_factors n) -> (0 <= entry (n_vars n) f s)%Qc.
Hypothesis Hrows : forall f s, In f (chance_factors n) -> proper_state n s -> row_sum (n_vars n) f s <> 0%Qc.
Notation vars := (n_vars n).

Lemma upd_proper s z k : proper_state n s -> (k < num_outcomes vars z)%nat -> proper_state n (nupd s z k).
Proof.
  intros Hs Hk v Hv. unfold nupd. destruct (String.eqb_spec (nv_name v) z) as [E|_]; auto. subst z. unfold num_outcomes in Hk. rewrite (NetNew.var_named_in' _ _ (wn_names n Hwf) Hv) in Hk. auto.
Qed.
Lemma proper_bound s z : proper_state n s -> (exists v, var_named vars z = Some v) -> (s z < num_outcomes vars z)%nat.
Proof.
  intros Hs (v & E). pose proof (find_some _ _ E) as [Hv En]. apply String.eqb_eq in En. unfold num_outcomes. rewrite E. subst z. auto.
Qed.
Lemma kind_known z t : kind vars z = Some t -> exists v, var_named vars z = Some v.
Proof. unfold kind. destruct (var_named vars z); [eauto|discriminate]. Qed.

(** The two new tables have the product of the two old ones. *)
Lemma ra_pair : exists fx fy gx gy rest, Permutation (n_factors n) (fx :: fy :: rest) /\ Permutation (n_factors n') (gx :: gy :: rest) /\
  is_chance vars fx = true /\ is_chance vars fy = true /\ is_chance vars gx = true /\ is_chance vars gy = true /\ 
  nf_for gx = nf_for fx /\ nf_for gy = nf_for fy /\
  forall s, proper_state n s -> (cond_prob vars gx s * cond_prob vars gy s = cond_prob vars fx s * cond_prob vars fy s)%Qc.
Proof.
  destruct Hr as [Hxy Ev _ _ _ [Kx Ky] (fx & fy & gx & gy & rest & P1 & P2 & Fx & Fy & Gx & Gy & Hny & HE)].
  exists fx, fy, gx, gy, rest. split; auto. split; auto. unfold is_chance. rewrite Fx, Fy, Gx, Gy, Kx, Ky. repeat (split; auto).
  assert (Cx : In fx (chance_factors n)). { apply filter_In. split; [eapply Permutation_in; [apply Permutation_sym; eauto|simpl; auto]|rewrite Fx, Kx; auto]. }
  assert (Cy : In fy (chance_factors n)). { apply filter_In. split; [eapply Permutation_in; [apply Permutation_sym; eauto|simpl; auto]|rewrite Fy, Ky; auto]. }
  assert (Sum : forall s, proper_state n s -> row_sum vars gy s = 1%Qc).
  { intros s Hs. unfold row_sum. rewrite Gy.
    rewrite (qsum_ext _ (fun j => qsum (map (fun k => cond_prob vars fx (nupd (nupd s y j) x k) * cond_prob vars fy (nupd (nupd s y j) x k))%Qc (seq 0 (num_outcomes vars x))))).
    2:{ intros j Hj. apply in_seq in Hj. apply HE. apply upd_proper; auto; lia. }
    rewrite (qsum_swap (fun j k => cond_prob vars fx (nupd (nupd s y j) x k) * cond_prob vars fy (nupd (nupd s y j) x k))%Qc).
    rewrite (qsum_ext _ (fun k => cond_prob vars fx (nupd s x k))).
    - pose proof (cond_prob_sum n fx s) as HS. rewrite Fx in HS. apply HS, Hrows; auto.
    - intros k Hk. apply in_seq in Hk.
      rewrite (qsum_ext _ (fun j => cond_prob vars fx (nupd s x k) * cond_prob vars fy (nupd (nupd s x k) y j))%Qc).
      + rewrite XnumFacts.qsum_scale. pose proof (cond_prob_sum n fy (nupd s x k)) as HS. rewrite Fy in HS. rewrite HS; [ring|]. apply Hrows; auto. apply upd_proper; auto; lia.
      + intros j _. rewrite !(cond_prob_proper n _ (nupd (nupd s y j) x k) (nupd (nupd s x k) y j)) by (intros z; apply (nupd_comm); auto). f_equal.
        apply (cond_prob_ignores n). rewrite Fx. intros Hi. apply in_app_iff in Hi. destruct Hi as [Hi|[Hi|[]]]; auto. }
  assert (Row : forall s, proper_state n s -> row_sum vars gx s = entry vars gy s).
  { intros s Hs. rewrite (proj2 (HE s Hs)). unfold row_sum. rewrite Gx. apply qsum_ext. intros k Hk. apply in_seq in Hk. apply HE. apply upd_proper; auto; lia. }
  intros s Hs. destruct (HE s Hs) as [E1 E2]. unfold cond_prob at 2. rewrite (Sum s Hs). replace (qeq 1 0) with false by reflexivity. unfold cond_prob at 1. rewrite (Row s Hs), <- E1.
  destruct (qeq (entry vars gy s) 0) eqn:Eq.
  - apply qeq_spec in Eq. rewrite Eq. rewrite E1. rewrite E2 in Eq.
    assert (Z : (cond_prob vars fx (nupd s x (s x)) * cond_prob vars fy (nupd s x (s x)))%Qc = 0%Qc).
    { apply (zero_parts (fun k => cond_prob vars fx (nupd s x k) * cond_prob vars fy (nupd s x k))%Qc (seq 0 (num_outcomes vars x))); auto.
      - intros k _. rewrite <- (Qcmult_0_l (cond_prob vars fy (nupd s x k))). apply Qcmult_le_compat_r; apply NetQuery.cond_prob_nonneg; auto.
      - apply in_seq. pose proof (proper_bound s x Hs (kind_known _ _ Kx)). lia. }
    rewrite !(cond_prob_proper n _ (nupd s x (s x)) s) in Z by (intros z; unfold nupd; destruct (String.eqb_spec z x); congruence). rewrite Z. unfold Qcdiv. ring.
  - field. split; [discriminate|]. intros H. rewrite H in Eq. discriminate.
Qed.
Lemma ra_tables s : proper_state n s -> tables_weight vars (n_factors n') s = tables_weight vars (n_factors n) s.
Proof.
  intros Hs. destruct ra_pair as (fx & fy & gx & gy & rest & P1 & P2 & C1 & C2 & C3 & C4 & _ & _ & HE).
  rewrite (weight_reorder vars _ _ s P1), (weight_reorder vars _ _ s P2). unfold tables_weight. cbn [filter]. rewrite C1, C2, C3, C4. cbn [map].
  change (qprod (?a :: ?b :: ?l)) with (a * (b * qprod l))%Qc. rewrite !Qcmult_assoc, (HE s Hs). reflexivity.
Qed.
Theorem reversed_proportional : proportional n n'.
Proof.
  split; [apply (ra_vars _ _ _ _ Hr)|]. exists 1%Qc. split; [discriminate|]. intros ign s Hs. unfold joint, chance_factors. rewrite (ra_vars _ _ _ _ Hr), (ra_policies _ _ _ _ Hr).
  pose proof (ra_tables s Hs) as E. unfold tables_weight, is_chance in E. rewrite E. ring.
Qed.

(** Decisions. *)
Lemma ra_is_total z : is_total n' z = is_total n z.
Proof. unfold is_total. rewrite (ra_vars _ _ _ _ Hr), (ra_total _ _ _ _ Hr). auto. Qed.
Lemma ra_utility s : utility_of n' s = utility_of n s.
Proof.
  destruct ra_pair as (fx & fy & gx & gy & rest & P1 & P2 & C1 & C2 & C3 & C4 & _).
  assert (K : forall m a b, n_vars m = vars -> Permutation (n_factors m) (a :: b :: rest) -> is_chance vars a = true -> is_chance vars b = true -> (forall z, is_total m z = is_total n z) -> (forall u, net_weight m u = net_weight n u) ->
    utility_of m s = qsum (map (fun h => net_weight n (nf_for h) * entry vars h s)%Qc (filter (is_utility_table n) rest))).
  { intros m a b Evm Pm Ca Cb Et Ew. unfold utility_of, utility_tables. rewrite Evm. fold (is_utility_table m).
    rewrite (map_ext _ (fun h => net_weight n (nf_for h) * entry vars h s)%Qc) by (intros h; rewrite Ew; auto).
    rewrite (filter_ext _ (is_utility_table n)) by (intros h; unfold is_utility_table; rewrite Et, ?Evm; auto).
    rewrite (qsum_perm _ _ (Permutation_map _ (filter_perm (is_utility_table n) _ _ Pm))). assert (Nu : forall h, is_chance vars h = true -> is_utility_table n h = false).
    { intros h Ch. unfold is_chance in Ch. unfold is_utility_table. destruct (kind vars (nf_for h)) as [[]|]; try discriminate. apply andb_false_r. }
    cbn [filter]. rewrite !Nu by auto. auto. }
  rewrite (K n' gx gy (ra_vars _ _ _ _ Hr) P2 C3 C4 ra_is_total (ra_utilities _ _ _ _ Hr)), (K n fx fy eq_refl P1 C1 C2) by auto. auto.
Qed.
Lemma ra_decisions : decisions n' = decisions n.
Proof. unfold decisions. rewrite (ra_vars _ _ _ _ Hr). auto. Qed.
Lemma ra_observed d : NoDup (map nf_for (n_factors n)) -> NoDup (map nf_for (n_factors n')) -> In d (decisions n) -> observed_by n' d = observed_by n d.
Proof.
  intros N1 N2 Hd. destruct ra_pair as (fx & fy & gx & gy & rest & P1 & P2 & C1 & C2 & C3 & C4 & E1 & E2 & _).
  assert (Kd : kind vars d = Some Decision).
  { apply in_map_iff in Hd. destruct Hd as (v & <- & Hv). apply filter_In in Hv. destruct Hv as [Hv Ht]. unfold kind.
    rewrite (NetNew.var_named_in' _ _ (wn_names n Hwf) Hv). cbn [option_map]. unfold is_kind in Ht. destruct (nv_type v); try discriminate; auto. }
  assert (Nd : forall g, is_chance vars g = true -> String.eqb (nf_for g) d = false).
  { intros g Hg. unfold is_chance in Hg. destruct (String.eqb_spec (nf_for g) d) as [E|]; auto. rewrite E, Kd in Hg. discriminate. }
  unfold observed_by. rewrite (factor_perm _ _ d N1 P1), (factor_perm _ _ d N2 P2). unfold factor_for. cbn [find]. rewrite !Nd by auto. auto.
Qed.
Lemma ra_value p : expected_value n' p = expected_value n p.
Proof.
  unfold expected_value. replace (worlds_of n') with (worlds_of n) by (unfold worlds_of; rewrite (ra_vars _ _ _ _ Hr); auto). rewrite ra_decisions. apply qsum_ext. intros s Hs.
  rewrite ra_utility. unfold chance_factors. rewrite (ra_vars _ _ _ _ Hr). pose proof (ra_tables s (NetMarkov.world_proper n Hwf s Hs)) as E. unfold tables_weight, is_chance in E. rewrite E. auto.
Qed.
End Reverse.

Theorem reversed_maximum x y n n' : reversed_arc x y n n' -> decision_network n -> decision_network n' -> no_forgetting n -> exists b, maximum_utility n b /\ maximum_utility n' b.
Proof.
  intros Hr Hd Hd' Hnf. pose proof (dn_wf _ Hd) as Hwf. 
  assert (Ho : forall d, In d (decisions n) -> observed_by n' d = observed_by n d) by (intros d; apply (ra_observed x y n n' Hr Hwf (dn_nonneg _ Hd) (dn_rows _ Hd)); apply dn_single; auto).
  pose proof (ra_decisions x y n n' Hr) as Ed.
  assert (Hnf' : no_forgetting n') by (intros d e; rewrite Ed; intros H1 H2; rewrite !Ho by auto; auto).
  assert (Hpol : forall d p, In d (decisions n) -> policy_for n d p <-> policy_for n' d p).
  { intros d p Hi. split; intros [H1 H2 H3]; constructor; unfold proper_state in *; rewrite ?(ra_vars _ _ _ _ Hr) in *; auto; intros s s' E; apply H3; intros z Hz; apply E; rewrite Ho in *; auto. }
  destruct (maximum_exists n Hd Hnf) as (b & Hb & (p & Hp & Ep) & Hmax). destruct (maximum_exists n' Hd' Hnf') as (b' & Hb' & (p' & Hp' & Ep') & Hmax').
  rewrite Ed in *. exists b. split; auto. replace b with b'; auto. symmetry. clear Hb Hb'.
  pose proof (ra_value x y n n' Hr Hwf (dn_nonneg _ Hd) (dn_rows _ Hd)) as Ev. apply Qcle_antisym.
  - rewrite <- Ep, <- Ev. apply Hmax'. intros d Hi. apply Hpol; auto.
  - rewrite <- Ep', Ev. apply Hmax. intros d Hi. apply Hpol; auto.
Qed.
