(** Networks that differ in one probability table. *)
From Coq Require Import ZArith List Bool String Lia Permutation QArith Qcanon.
From Verif Require Import Num GoBase VarModel GoFacts SpecFactor XnumFacts VEModel SpecVE NetModel SpecNet NetVars NetFactors NetSums NetQuery NetMass NetCor
  SpecAnswers NetJoint NetBayes SpecNetPolicy NetPolicyStep NetPolicyThms SpecGraph StateSums NetGraph NetMarkov NetChange NetReorder SpecFix.
Import ListNotations.
Open Scope string_scope.
Open Scope list_scope.
Open Scope Z_scope.

Lemma qprod_first x l : qprod (x :: l) = (x * qprod l)%Qc.
Proof. reflexivity. Qed.

Section Fix.
Variables (x : string) (f f' : nfactor xnum) (n n' : network xnum).
Hypothesis Hrt : retabled x f f' n n'.
Hypothesis Hwf : wf_network n.
Hypothesis Hwf' : wf_network n'.
Notation vars := (n_vars n).

Lemma rt_v : n_vars n' = vars.
Proof. apply (rt_vars _ _ _ _ _ Hrt). Qed.
Lemma rt_worlds : worlds_of n' = worlds_of n.
Proof. unfold worlds_of. rewrite rt_v. auto. Qed.
Lemma rt_proper s : proper_state n' s <-> proper_state n s.
Proof. unfold proper_state. rewrite rt_v. tauto. Qed.

Lemma rt_chance : exists pre post, chance_factors n = pre ++ f :: post /\ chance_factors n' = pre ++ f' :: post.
Proof.
  destruct (rt_factors _ _ _ _ _ Hrt) as (pre & post & E & E'). destruct (rt_for _ _ _ _ _ Hrt) as [F F']. unfold chance_factors. rewrite rt_v, E, E', !filter_app. cbn [filter].
  rewrite F, F', (rt_kind _ _ _ _ _ Hrt). eauto.
Qed.

(** The joint weight without the table of [x]. *)
Lemma rt_joint ign : exists rest : nstate -> Qc, forall s,
  joint n ign s = (cond_prob vars f s * rest s)%Qc /\ joint n' ign s = (cond_prob vars f' s * rest s)%Qc.
Proof.
  destruct rt_chance as (pre & post & E & E').
  exists (fun s => qprod (map (fun h => cond_prob vars h s) pre) * qprod (map (fun h => cond_prob vars h s) post) *
    qprod (map (fun dp => policy_prob vars (snd dp) s) (filter (fun dp => negb (ign (fst dp))) (n_policies n))))%Qc.
  intros s. unfold joint. rewrite rt_v, (rt_policies _ _ _ _ _ Hrt), E, E', !map_app, !qprod_app. cbn [map]. rewrite !qprod_first. split; ring.
Qed.

Lemma rt_observations ev : valid_observations n ev -> valid_observations n' ev.
Proof. unfold valid_observations. rewrite rt_v. auto. Qed.

Lemma rt_complete : complete n -> complete n'.
Proof.
  intros Hc v Hv Ht. rewrite rt_v in Hv. destruct (Hc v Hv Ht) as (h & Hh & En). destruct (rt_factors _ _ _ _ _ Hrt) as (pre & post & E & E'). destruct (rt_for _ _ _ _ _ Hrt) as [F F'].
  rewrite E in Hh. rewrite E'. apply in_app_or in Hh. destruct Hh as [Hh|[<-|Hh]].
  - exists h. split; auto. apply in_or_app; auto.
  - exists f'. split; [apply in_or_app; right; left; auto|congruence].
  - exists h. split; auto. apply in_or_app; right; right; auto.
Qed.

(** ** Fixing a variable whose parents are known *)

Section Known.
Variables (ign : string -> bool) (ev : list (string * string)) (o : string) (v : nvar) (k : nat).
Hypothesis Hfix : fixed_at n f' k.
Hypothesis Hnamed : var_named vars x = Some v.
Hypothesis Ho : nth_error (nv_outcomes v) k = Some o.
Hypothesis Hpar : incl (nf_given f) (map fst ev).

Lemma more_agrees s : agrees vars (ev ++ [(x, o)]) s = agrees vars ev s && (s x =? k)%nat.
Proof. eapply (agrees_more n Hwf); eauto. Qed.

Lemma fix_mass : mass n ign (agrees vars (ev ++ [(x, o)])) <> 0%Qc ->
  exists c, c <> 0%Qc /\ forall event, mass n ign (fun s => agrees vars (ev ++ [(x, o)]) s && event s) = (c * mass n' ign (fun s => agrees vars ev s && event s))%Qc.
Proof.
  intros M. destruct (rt_for _ _ _ _ _ Hrt) as [F F']. destruct (rt_joint ign) as (rest & HJ).
  destruct (mass_state n ign _ M) as (s0 & Hs0 & A0).
  assert (Hsame : forall s, agrees vars (ev ++ [(x, o)]) s = true -> cond_prob vars f s = cond_prob vars f s0).
  { intros s A. apply cond_prob_looks. intros y Hy. apply (agrees_same n Hwf (ev ++ [(x, o)])); auto. rewrite map_app. apply in_app_iff. apply in_app_iff in Hy.
    destruct Hy as [Hy|[<-|[]]]; [left; auto|right; rewrite F; simpl; auto]. }
  assert (K : forall event, mass n ign (fun s => agrees vars (ev ++ [(x, o)]) s && event s) = (cond_prob vars f s0 * mass n' ign (fun s => agrees vars ev s && event s))%Qc).
  { intros event. unfold mass. rewrite rt_worlds, !qsum_filter, <- XnumFacts.qsum_scale.
    apply qsum_ext. intros s Hs. pose proof (world_proper n Hwf s Hs) as Hps. destruct (HJ s) as [-> ->]. rewrite (Hfix s Hps), F', more_agrees.
    destruct (agrees vars ev s) eqn:Ea; cbn [andb]; [|destruct (event s); ring].
    destruct (s x =? k)%nat eqn:Ek; cbn [andb]; [|destruct (event s); ring]. rewrite (Hsame s) by (rewrite more_agrees, Ea, Ek; auto). destruct (event s); ring. }
  exists (cond_prob vars f s0). split; auto. intros Z. apply M. specialize (K (fun _ => true)). rewrite Z in K.
  rewrite (mass_same n ign _ (fun s => agrees vars (ev ++ [(x, o)]) s && true)) by (intros; rewrite andb_true_r; auto). rewrite K. ring.
Qed.

Lemma fix_posterior q j : mass n ign (agrees vars (ev ++ [(x, o)])) <> 0%Qc ->
  mass n' ign (agrees vars ev) <> 0%Qc /\ posterior n' ign ev q j = posterior n ign (ev ++ [(x, o)]) q j.
Proof.
  intros M. destruct (fix_mass M) as (c & Hc & K). pose proof (K (fun _ => true)) as K1.
  rewrite (mass_same n ign _ (agrees vars (ev ++ [(x, o)]))) in K1 by (intros; rewrite andb_true_r; auto).
  rewrite (mass_same n' ign _ (agrees vars ev)) in K1 by (intros; rewrite andb_true_r; auto).
  assert (M' : mass n' ign (agrees vars ev) <> 0%Qc). { intros Z. apply M. rewrite K1, Z. ring. }
  split; auto. unfold posterior. rewrite rt_v, (K (fun s => (s q =? j)%nat)), K1. field. auto.
Qed.
End Known.

(** ** What is not below the variable *)

Section Below.
Variables (ign : string -> bool) (free : list string).
Hypothesis Hca : causal n ign free.
Hypothesis Hca' : causal n' ign free.

Lemma rt_names p : factor_names n' p = factor_names n p.
Proof. unfold factor_names. rewrite rt_v. auto. Qed.

Lemma rt_split y : y <> x -> filter (fun h => String.eqb (nf_for h) y) (chance_factors n') = filter (fun h => String.eqb (nf_for h) y) (chance_factors n).
Proof.
  intros Hne. destruct rt_chance as (pre & post & E & E'). destruct (rt_for _ _ _ _ _ Hrt) as [F F']. rewrite E, E', !filter_app. cbn [filter]. rewrite F, F'.
  destruct (String.eqb_spec x y); [congruence|auto].
Qed.
Lemma rt_parents y : y <> x -> parents_of n' ign y = parents_of n ign y.
Proof.
  intros Hne. unfold parents_of. rewrite (rt_split y Hne), (rt_policies _ _ _ _ _ Hrt). f_equal. apply flat_map_ext. intros dp. rewrite rt_names. auto.
Qed.
Lemma rt_conditional y s : y <> x -> conditional n' ign y s = conditional n ign y s.
Proof. intros Hne. unfold conditional. rewrite (rt_split y Hne), (rt_policies _ _ _ _ _ Hrt), rt_v. auto. Qed.

Lemma rt_below y : below n' ign x y -> below n ign x y.
Proof.
  intros H. induction H as [y H|y z H IH Hz].
  - destruct (String.eqb_spec y x) as [->|Hne]; [exfalso; apply (not_below_self n' ign free Hca' x); constructor; auto|]. rewrite rt_parents in H by auto. constructor. auto.
  - destruct (String.eqb_spec z x) as [->|Hne]; [exfalso; apply (not_below_self n' ign free Hca' x); eapply below_step; eauto|]. rewrite rt_parents in Hz by auto. eapply below_step; eauto.
Qed.

(** Events that do not look at the variable or at variables below it have the same probability. *)
Theorem rt_mass event : (forall y, In y free -> y <> x /\ ~ below n ign x y) -> looks_event event (fun y => y <> x /\ ~ below n ign x y) ->
  mass n' ign event = mass n ign event.
Proof.
  intros Hfree Hev. destruct (below_dec n ign free Hca) as (B & HB). set (drop := fun y => String.eqb y x || B x y).
  assert (Bf : forall y, drop y = false <-> y <> x /\ ~ below n ign x y).
  { intros y. unfold drop. rewrite orb_false_iff, String.eqb_neq, <- HB. destruct (B x y); intuition congruence. }
  assert (Hd : forall y, In y free -> drop y = false) by (intros y Hy; apply Bf; auto).
  assert (He : looks_event event (fun y => drop y = false)). { intros s s' E. apply Hev. intros y Hy. apply E. apply Bf. auto. }
  rewrite (mass_drop n Hwf ign free Hca event drop Hd); [|intros v y Hv Hdv Hy|auto].
  2:{ destruct Hy as [<-|Hy]; auto. apply Bf in Hdv. apply Bf. split; [intros ->; apply (proj2 Hdv); constructor; auto|]. intros Hb. apply (proj2 Hdv). eapply below_step; eauto. }
  rewrite (mass_drop n' Hwf' ign free Hca' event drop Hd); [|intros v y Hv Hdv Hy|auto].
  2:{ destruct Hy as [<-|Hy]; auto. apply Bf in Hdv. rewrite rt_parents in Hy by tauto. apply Bf.
      split; [intros ->; apply (proj2 Hdv); constructor; auto|]. intros Hb. apply (proj2 Hdv). eapply below_step; eauto. }
  unfold NetGraph.fixed_vars, NetGraph.worldly_vars. rewrite rt_v. apply nsum_ext. intros s _. f_equal. unfold weight_of_conds. rewrite !map_map. f_equal. apply map_ext_in. intros v Hv.
  apply filter_In in Hv. destruct Hv as [_ Hdv]. apply negb_true_iff, Bf in Hdv. cbn [NetGraph.cond_of c_val]. apply rt_conditional. tauto.
Qed.

Lemma rt_nondescendants ev q j : (forall y, In y free -> y <> x /\ ~ below n ign x y) -> (forall y, In y (q :: map fst ev) -> y <> x /\ ~ below n ign x y) ->
  mass n' ign (agrees vars ev) = mass n ign (agrees vars ev) /\ posterior n' ign ev q j = posterior n ign ev q j.
Proof.
  intros Hfree Hq. assert (Ha : looks_event (agrees vars ev) (fun y => y <> x /\ ~ below n ign x y)).
  { intros s s' E. apply (agrees_looks n). intros y Hy. apply E. apply Hq. right. auto. }
  assert (M : mass n' ign (agrees vars ev) = mass n ign (agrees vars ev)) by (apply rt_mass; auto).
  split; auto. unfold posterior. rewrite rt_v, M. f_equal. apply rt_mass; auto. intros s s' E. rewrite (Ha s s' E), (E q); auto. apply Hq. left. auto.
Qed.
End Below.
End Fix.
