(** The adjustment formula: fixing a variable in terms of answers of the original network. *)
From Coq Require Import ZArith List Bool String Lia Permutation QArith Qcanon.
From Verif Require Import Num GoBase VarModel GoFacts SpecFactor XnumFacts VEModel SpecVE NetModel SpecNet NetVars NetFactors NetSums NetQuery NetMass NetCor
  SpecAnswers NetJoint NetBayes SpecNetPolicy NetPolicyStep NetPolicyThms SpecGraph StateSums NetGraph NetMarkov NetChange NetReorder SpecFix NetFix.
Import ListNotations.
Open Scope string_scope.
Open Scope list_scope.
Open Scope Z_scope.

Definition named_vars (vars : list nvar) (names : list string) : list nvar :=
  flat_map (fun x => match var_named vars x with Some v => [v] | None => [] end) names.

Section Parts.
Variable n : network xnum.
Hypothesis Hwf : wf_network n.
Notation vars := (n_vars n).
Notation wt := (mass n (fun _ => false)).

Lemma named_vars_names names : (forall x, In x names -> exists v, var_named vars x = Some v /\ nv_type v <> Utility) -> map nv_name (named_vars vars names) = names.
Proof.
  induction names as [|x names IH]; intros H; cbn [named_vars flat_map map]; auto. destruct (H x (or_introl eq_refl)) as (v & E & _). rewrite E. cbn [List.app map]. f_equal.
  - unfold var_named in E. apply find_some in E. apply String.eqb_eq. tauto.
  - apply IH. intros y Hy. apply H. right. auto.
Qed.

Lemma observed_one x v k s : var_named vars x = Some v -> (k < List.length (nv_outcomes v))%nat -> 
  agrees vars [(x, nth k (nv_outcomes v) "")] s = (s x =? k)%nat.
Proof.
  intros E Hk. apply (agrees_more n Hwf [] x _ v k s E). apply nth_error_nth'. auto.
Qed.

Lemma mass_parts names : NoDup names -> (forall x, In x names -> exists v, var_named vars x = Some v /\ nv_type v <> Utility) -> forall event s0,
  wt event = qsum (map (fun t => wt (fun s => event s && agrees vars (observe vars names t) s)) (joint_states (named_vars vars names) s0)).
Proof.
  induction names as [|x names IH]; intros Hnd Hin event s0.
  - cbn. rewrite Qcplus_0_r. apply mass_same. intros. rewrite andb_true_r. auto.
  - inversion Hnd as [|? ? Hx Hnd']; subst. destruct (Hin x (or_introl eq_refl)) as (v & E & Ht). assert (Hin' : forall y, In y names -> exists v, var_named vars y = Some v /\ nv_type v <> Utility) by (intros y Hy; apply Hin; right; auto).
    cbn [named_vars flat_map]. rewrite E. cbn [List.app joint_states]. fold (named_vars vars names).
    assert (Hv : In v vars /\ nv_name v = x). { unfold var_named in E. apply find_some in E. rewrite String.eqb_eq in E. auto. }
    rewrite qsum_flat_map. rewrite (mass_cases n Hwf x v event) by tauto. apply qsum_ext. intros k Hk. apply in_seq in Hk. rewrite (proj2 Hv).
    rewrite (IH Hnd' Hin' (fun s => event s && (s x =? k)%nat) (nupd s0 x k)). apply qsum_ext. intros t Hts.
    assert (Et : t x = k). { rewrite (joint_states_same _ _ _ x Hts) by (rewrite named_vars_names; auto). unfold nupd. rewrite String.eqb_refl. auto. }
    apply mass_same. intros s _. rewrite <- andb_assoc. f_equal.
    assert (Eo : observe vars (x :: names) t = [(x, nth k (nv_outcomes v) "")] ++ observe vars names t) by (unfold observe; cbn [map List.app]; rewrite E, Et; auto). rewrite Eo.
    assert (Ea : forall e1 e2, agrees vars (e1 ++ e2) s = agrees vars e1 s && agrees vars e2 s) by (intros; unfold agrees; apply forallb_app).
    rewrite Ea, observed_one by (auto; lia). auto.
Qed.
End Parts.

Lemma observe_names vars names t : map fst (observe vars names t) = names.
Proof. unfold observe. rewrite map_map. cbn [fst]. apply map_id. Qed.

Lemma observe_valid n names t s0 : wf_network n -> NoDup names -> (forall x, In x names -> exists v, var_named (n_vars n) x = Some v /\ nv_type v <> Utility) ->
  In t (joint_states (named_vars (n_vars n) names) s0) -> valid_observations n (observe (n_vars n) names t).
Proof.
  intros Hwf Hnd Hin Ht. split; [rewrite observe_names; auto|]. intros x o Ho. unfold observe in Ho. apply in_map_iff in Ho. destruct Ho as (y & E & Hy). inversion E; subst. clear E.
  destruct (Hin x Hy) as (v & E & Hu). exists v. rewrite E. repeat split; auto. apply nth_In. pose proof E as E'. unfold var_named in E'. apply find_some in E'. destruct E' as [_ En]. apply String.eqb_eq in En. subst x.
  apply (joint_states_range (named_vars (n_vars n) names)) with (s := s0); [rewrite (named_vars_names n); auto|auto|]. unfold named_vars. apply in_flat_map. exists (nv_name v). rewrite E. simpl. auto.
Qed.

Section Adjust.
Variables (x : string) (f f' : nfactor xnum) (n n' : network xnum).
Hypothesis Hrt : retabled x f f' n n'.
Hypothesis Hwf : wf_network n.
Hypothesis Hwf' : wf_network n'.
Notation vars := (n_vars n).
Notation none := (fun _ : string => false).
Hypothesis Hca : causal n none [].
Hypothesis Hca' : causal n' none [].
Hypothesis Hnn' : nonnegative n'.
Variables (v : nvar) (k : nat) (o : string).
Hypothesis Hfix : fixed_at n f' k.
Hypothesis Hnamed : var_named vars x = Some v.
Hypothesis Ho : nth_error (nv_outcomes v) k = Some o.

Lemma table_in : In f (chance_factors n).
Proof. destruct (rt_chance x f f' n n' Hrt) as (pre & post & E & _). rewrite E. apply in_or_app. right. left. auto. Qed.

Lemma table_parents : NoDup (nf_given f) /\ (forall y, In y (nf_given f) -> exists w, var_named vars y = Some w /\ nv_type w <> Utility) /\
  forall y, In y (nf_given f) -> y <> x /\ ~ below n none x y.
Proof.
  destruct (rt_for _ _ _ _ _ Hrt) as [F F']. pose proof table_in as Hf. destruct (NetMass.chance_in n Hwf f Hf) as (_ & _ & _ & Ht). split; [|split].
  - pose proof (wt_distinct n f Ht) as Hd. eapply NetVars.NoDup_app_l; eauto.
  - intros y Hy. destruct (wt_given n f Ht y Hy) as (_ & w & Ew). exists w. split; auto. pose proof (wt_parents n f Ht y Hy) as Hk. unfold kind in Hk. rewrite Ew in Hk. simpl in Hk. congruence.
  - intros y Hy. assert (Hp : In y (parents_of n none x)).
    { unfold parents_of. apply in_or_app. left. apply in_flat_map. exists f. split; auto. apply filter_In. rewrite F, String.eqb_refl. auto. }
    split; [intros ->; apply (not_below_self n none [] Hca x); constructor; auto|]. intros Hb. apply (not_below_self n none [] Hca x). eapply below_step; eauto.
Qed.

Theorem adjustment q j : (forall t, In t (states_of vars (nf_given f)) -> mass n none (agrees vars (observe vars (nf_given f) t)) <> 0%Qc ->
    mass n none (agrees vars (observe vars (nf_given f) t ++ [(x, o)])) <> 0%Qc) ->
  posterior n' none [] q j = qsum (map (fun t => mass n none (agrees vars (observe vars (nf_given f) t)) *
    posterior n none (observe vars (nf_given f) t ++ [(x, o)]) q j)%Qc (states_of vars (nf_given f))).
Proof.
  intros Hpos. destruct table_parents as (Hnd & Hin & Hup). pose proof (rt_v x f f' n n' Hrt) as Ev.
  unfold posterior at 1. rewrite (mass_one n' Hwf' Hca'). 
  assert (E1 : mass n' none (fun s => agrees (n_vars n') [] s && (s q =? j)%nat) = mass n' none (fun s => (s q =? j)%nat)) by (apply mass_same; auto). rewrite E1.
  assert (Hin' : forall y, In y (nf_given f) -> exists w, var_named (n_vars n') y = Some w /\ nv_type w <> Utility) by (rewrite Ev; auto).
  rewrite (mass_parts n' Hwf' (nf_given f) Hnd Hin' (fun s => (s q =? j)%nat) nowhere). rewrite Ev. fold (named_vars vars (nf_given f)). unfold states_of. fold (named_vars vars (nf_given f)).
  transitivity (qsum (map (fun t => mass n' none (fun s => (s q =? j)%nat && agrees vars (observe vars (nf_given f) t) s)) (joint_states (named_vars vars (nf_given f)) nowhere))); [field; discriminate|].
  apply qsum_ext. intros t Ht. set (ev := observe vars (nf_given f) t).
  assert (Hn : map fst ev = nf_given f) by apply observe_names.
  assert (M : mass n' none (agrees vars ev) = mass n none (agrees vars ev)).
  { apply (rt_mass x f f' n n' Hrt Hwf Hwf' none [] Hca Hca'); [intros y []|]. intros s s' E. apply (agrees_looks n). intros y Hy. apply E. apply Hup. rewrite <- Hn. auto. }
  rewrite (mass_same n' none _ (fun s => agrees vars ev s && (s q =? j)%nat)) by (intros; apply andb_comm).
  destruct (qeq (mass n none (agrees vars ev)) 0%Qc) eqn:Z.
  - apply qeq_spec in Z. rewrite Z, Qcmult_0_l. apply (mass_zero n' Hnn' (agrees vars ev)); [intros s H; apply andb_true_iff in H; tauto|congruence].
  - assert (Z' : mass n none (agrees vars ev) <> 0%Qc) by (intros E; apply qeq_spec in E; congruence). clear Z. rename Z' into Z. pose proof (Hpos t Ht Z) as P. destruct (fix_posterior x f f' n n' Hrt Hwf none ev o v k Hfix Hnamed Ho) with (q := q) (j := j) as [M' Ep]; auto; [rewrite Hn; apply incl_refl|].
    rewrite <- Ep. unfold posterior. rewrite Ev, M. field. auto.
Qed.
End Adjust.
