(** Properties C121 and C122: changing one table, and fixing a node by its table (network.go:
    SolveQuery). The vocabulary is in SpecNet.v, SpecGraph.v, SpecAnswers.v and SpecFix.v. *)
From Coq Require Import ZArith List Bool String Lia Permutation QArith Qcanon.
From Verif Require Import Num GoBase VarModel SpecFactor XnumFacts VEModel SpecVE NetModel SpecNet NetNew NetCheck NetVars NetQuery NetMass NetCor SpecAnswers SpecNetPolicy
  NetFactors SpecGraph NetGraph NetGraphThms NetMarkov NetReorder NetBayes SpecFix NetFix NetAdjust Props_VE Props_Net Props_Graph Props_Mix.
Import ListNotations.
Open Scope string_scope.
Open Scope list_scope.
Open Scope Z_scope.

(** ** C121: a table affects its node and the nodes below it only *)

Lemma free_not_below n ign free x y : wf_network n -> causal n ign free -> In x (conditionals n ign) -> In y free -> y <> x /\ ~ below n ign x y.
Proof.
  intros Hwf Hca Hx Hy.
  assert (K : forall z, In z (conditionals n ign) -> ~ In z free).
  { intros z Hz. assert (Hv : exists v, In v (n_vars n) /\ nv_type v <> Utility /\ nv_name v = z).
    { unfold conditionals in Hz. apply in_app_iff in Hz. destruct Hz as [Hz|Hz]; apply in_map_iff in Hz; destruct Hz as (c & <- & Hc).
      - destruct (NetMass.chance_in n Hwf c Hc) as (_ & Hk & _). unfold kind in Hk. destruct (var_named (n_vars n) (nf_for c)) as [v|] eqn:E; [|discriminate].
        apply (var_named_in n Hwf) in E. exists v. simpl in Hk. split; [tauto|]. split; [congruence|tauto].
      - apply filter_In in Hc. destruct c as [d p]. destruct Hc as [Hc _]. pose proof (wp_decision _ _ _ (wn_policies n Hwf _ _ Hc)) as Hk. cbn [fst].
        unfold kind in Hk. destruct (var_named (n_vars n) d) as [v|] eqn:E; [|discriminate]. apply (var_named_in n Hwf) in E. exists v. simpl in Hk. split; [tauto|]. split; [congruence|tauto]. }
    destruct Hv as (v & Hv & Ht & <-). apply (ca_all _ _ _ Hca v); auto. }
  assert (P : forall a z, In a (parents_of n ign z) -> In z (conditionals n ign)).
  { intros a z H. unfold parents_of in H. unfold conditionals. apply in_app_iff. apply in_app_iff in H. destruct H as [H|H]; apply in_flat_map in H; destruct H as (c & Hc & _); apply filter_In in Hc; destruct Hc as [Hc Ec].
    - left. apply String.eqb_eq in Ec. subst z. apply in_map. auto.
    - right. apply andb_true_iff in Ec. destruct Ec as [Ec Ei]. apply String.eqb_eq in Ec. subst z. apply in_map. apply filter_In. auto. }
  split; [intros ->; apply (K x Hx Hy)|]. intros Hb. destruct Hb as [y Hp|y z _ Hp]; eapply (K _ (P _ _ Hp)); auto.
Qed.

Lemma fixed_askable n ign free ev v : wf_network n -> causal n ign free -> In v (n_vars n) -> nv_type v <> Utility -> ~ In (nv_name v) free -> ~ In (nv_name v) (map fst ev) ->
  askable n ign ev (nv_name v).
Proof.
  intros Hwf Hca Hv Ht Hf He. split; [exists v; split; auto; apply (var_named_in n Hwf); auto|]. split; auto.
  assert (Hin : In (nv_name v) (conditionals n ign)) by (apply (ca_all _ _ _ Hca v); auto).
  apply in_app_iff in Hin. destruct Hin as [Hin|Hin]; apply in_map_iff in Hin; destruct Hin as (f & E & Hf').
  - left. exists f. split; auto. apply in_app_iff. simpl. auto.
  - right. apply filter_In in Hf'. destruct Hf' as [Hf' Hi]. apply negb_true_iff in Hi. destruct f as [d p]. simpl in E, Hi. subst d.
    destruct (wp_own _ _ _ (wn_policies n Hwf _ _ Hf')) as (i & nv & w & H1 & H2 & H3 & H4). exists (nv_name v), p, i, nv, w. repeat (split; auto).
Qed.

(** [n'] is [n] with another table for [x], maybe with other parents. Evidence and queries about
    nodes that are neither [x] nor below [x] get the same answers from [n] and [n']. *)
Theorem C121_elsewhere : forall x f f' n n' sc sc' ig ev query free, retabled x f f' n n' -> wf_network n -> wf_network n' -> complete n ->
  causal n (ignored_by ig ev) free -> causal n' (ignored_by ig ev) free -> valid_observations n ev ->
  mass n (ignored_by ig ev) (agrees (n_vars n) ev) <> 0%Qc ->
  (forall y, In y (map fst ev) -> y <> x /\ ~ below n (ignored_by ig ev) x y) ->
  (forall q, In q query -> (exists v, In v (n_vars n) /\ nv_name v = q /\ nv_type v <> Utility) /\ ~ In q free /\ ~ In q (map fst ev) /\ q <> x /\ ~ below n (ignored_by ig ev) x q) ->
  forall q k, In q query -> (k < num_outcomes (n_vars n) q)%nat -> exists p,
    answered (net_solve_query sc n ev query ig) q k p /\ answered (net_solve_query sc' n' ev query ig) q k p.
Proof.
  intros x f f' n n' sc sc' ig ev query free Hrt Hwf Hwf' Hco Hca Hca' Hv M Hev Hq q k Hin Hk.
  pose proof (rt_v x f f' n n' Hrt) as Ev. exists (posterior n (ignored_by ig ev) ev q k).
  assert (Hx : In x (conditionals n (ignored_by ig ev))).
  { unfold conditionals. apply in_or_app. left. destruct (rt_for _ _ _ _ _ Hrt) as [<- _]. apply in_map. eapply table_in; eauto. }
  assert (Hfree : forall y, In y free -> y <> x /\ ~ below n (ignored_by ig ev) x y) by (intros y Hy; eapply free_not_below; eauto).
  assert (Hask : forall m, wf_network m -> n_vars m = n_vars n -> causal m (ignored_by ig ev) free -> forall z, In z query -> askable m (ignored_by ig ev) ev z).
  { intros m Hm Em Hcm z Hz. destruct (Hq z Hz) as ((v & Hvin & <- & Ht) & Hf & He & _). apply fixed_askable with (free := free); auto. rewrite Em. auto. }
  destruct (rt_nondescendants x f f' n n' Hrt Hwf Hwf' (ignored_by ig ev) free Hca Hca' ev q k Hfree) as [M' Ep].
  { intros y [<-|Hy]; auto. destruct (Hq q Hin). tauto. }
  split; [apply answer_exact; auto|]. rewrite <- Ep. apply answer_exact; rewrite ?Ev; auto; [eapply rt_complete; eauto|eapply rt_observations; eauto|congruence].
Qed.

(** ** C122: fixing a node by its table *)

Lemma ignored_chance n x o ig ev : wf_network n -> kind (n_vars n) x = Some Chance -> forall s, joint n (ignored_by ig (ev ++ [(x, o)])) s = joint n (ignored_by ig ev) s.
Proof.
  intros Hwf Hk s. unfold joint. f_equal. f_equal. f_equal. apply filter_ext_in. intros [d p] Hd. cbn [fst]. f_equal. unfold ignored_by. f_equal.
  pose proof (wp_decision _ _ _ (wn_policies n Hwf _ _ Hd)) as Hk'. assert (Hne : d <> x) by congruence.
  unfold has_key. clear - Hne. induction ev as [|[y o'] ev IH]; cbn [List.app sget_map]; [destruct (String.eqb_spec d x)|destruct (String.eqb d y)]; congruence.
Qed.
Lemma ignored_mass n x o ig ev event : wf_network n -> kind (n_vars n) x = Some Chance -> mass n (ignored_by ig (ev ++ [(x, o)])) event = mass n (ignored_by ig ev) event.
Proof. intros Hwf Hk. unfold mass. f_equal. apply map_ext. intros s. apply ignored_chance; auto. Qed.

(** [n'] is [n] with a table for [x] that gives all probability to outcome [o]. If the evidence has
    the parents of [x], [n'] gives the answers that [n] gives when [o] is observed. If [x] has no
    parents, this holds for all evidence. *)
Theorem C122_known_parents : forall x f f' n n' sc sc' ig ev v k o query, retabled x f f' n n' -> wf_network n -> wf_network n' -> complete n ->
  fixed_at n f' k -> var_named (n_vars n) x = Some v -> nth_error (nv_outcomes v) k = Some o ->
  incl (nf_given f) (map fst ev) -> valid_observations n (ev ++ [(x, o)]) -> mass n (ignored_by ig ev) (agrees (n_vars n) (ev ++ [(x, o)])) <> 0%Qc ->
  (forall q, In q query -> askable n (ignored_by ig (ev ++ [(x, o)])) (ev ++ [(x, o)]) q /\ askable n' (ignored_by ig ev) ev q) ->
  forall q j, In q query -> (j < num_outcomes (n_vars n) q)%nat -> exists p,
    answered (net_solve_query sc n (ev ++ [(x, o)]) query ig) q j p /\ answered (net_solve_query sc' n' ev query ig) q j p.
Proof.
  intros x f f' n n' sc sc' ig ev v k o query Hrt Hwf Hwf' Hco Hfix Hnamed Ho Hpar Hv M Hask q j Hin Hj.
  pose proof (rt_v x f f' n n' Hrt) as Ev. pose proof (rt_kind _ _ _ _ _ Hrt) as Hk.
  destruct (fix_posterior x f f' n n' Hrt Hwf (ignored_by ig ev) ev o v k Hfix Hnamed Ho Hpar q j M) as [M' Ep].
  assert (Hv' : valid_observations n ev). { destruct Hv as [Hd Hv]. split; [rewrite map_app in Hd; eapply NetVars.NoDup_app_l; eauto|]. intros y o' Hy. apply Hv. apply in_or_app; auto. }
  exists (posterior n (ignored_by ig ev) (ev ++ [(x, o)]) q j). split.
  - assert (E : posterior n (ignored_by ig ev) (ev ++ [(x, o)]) q j = posterior n (ignored_by ig (ev ++ [(x, o)])) (ev ++ [(x, o)]) q j) by (unfold posterior; rewrite !ignored_mass; auto).
    rewrite E. apply answer_exact; auto; [intros z Hz; apply Hask; auto|rewrite ignored_mass; auto].
  - rewrite <- Ep. apply answer_exact; rewrite ?Ev; auto; [eapply rt_complete; eauto|eapply rt_observations; eauto|intros z Hz; apply Hask; auto].
Qed.

(** Without evidence, the probability of [q] in [n'] is found from answers of [n]: the mean of the
    answers when [o] and the parents of [x] are observed, weighted with the probabilities of the
    parents. So a fixed table acts as an intervention, and not as an observation. *)
Theorem C122_adjustment : forall x f f' n n' sc' v k o q j, retabled x f f' n n' -> wf_network n -> wf_network n' ->
  causal n (fun _ => false) [] -> causal n' (fun _ => false) [] -> nonnegative n' ->
  fixed_at n f' k -> var_named (n_vars n) x = Some v -> nth_error (nv_outcomes v) k = Some o ->
  (exists w, In w (n_vars n) /\ nv_name w = q /\ nv_type w <> Utility) -> q <> x -> ~ In q (nf_given f) -> (j < num_outcomes (n_vars n) q)%nat ->
  (forall t, In t (states_of (n_vars n) (nf_given f)) -> mass n (fun _ => false) (agrees (n_vars n) (observe (n_vars n) (nf_given f) t)) <> 0%Qc ->
    mass n (fun _ => false) (agrees (n_vars n) (observe (n_vars n) (nf_given f) t ++ [(x, o)])) <> 0%Qc) ->
  exists (weight answer : nstate -> Qc), 
    (forall sc t, In t (states_of (n_vars n) (nf_given f)) -> evidence_probability (net_solve_query sc n (observe (n_vars n) (nf_given f) t) [] false) (weight t)) /\
    (forall sc t, In t (states_of (n_vars n) (nf_given f)) -> weight t <> 0%Qc ->
       answered (net_solve_query sc n (observe (n_vars n) (nf_given f) t ++ [(x, o)]) [q] false) q j (answer t)) /\
    answered (net_solve_query sc' n' [] [q] false) q j (qsum (map (fun t => weight t * answer t)%Qc (states_of (n_vars n) (nf_given f)))).
Proof.
  intros x f f' n n' sc' v k o q j Hrt Hwf Hwf' Hca Hca' Hnn' Hfix Hnamed Ho (w & Hw & Ew & Htw) Hqx Hqp Hj Hpos. subst q.
  pose proof (rt_v x f f' n n' Hrt) as Ev. pose proof (rt_kind _ _ _ _ _ Hrt) as Hk.
  destruct (table_parents x f f' n n' Hrt Hwf Hca) as (Hnd & Hin & Hup). set (vars := n_vars n) in *. set (ps := nf_given f) in *.
  assert (Hval : forall t, In t (states_of vars ps) -> valid_observations n (observe vars ps t)). { intros t Ht. eapply observe_valid; eauto. }
  exists (fun t => mass n (fun _ => false) (agrees vars (observe vars ps t))), (fun t => posterior n (fun _ => false) (observe vars ps t ++ [(x, o)]) (nv_name w) j).
  split; [|split].
  - intros sc t Ht. destruct (probability_of_evidence n Hwf sc (observe vars ps t) Hca (Hval t Ht)) as (m & g & E & E1 & E2 & _). exists m, g. auto.
  - intros sc t Ht Hm. assert (Hne : In x (map fst (observe vars ps t)) -> False) by (rewrite observe_names; intros H; destruct (Hup x H); auto).
    apply (answer_exact n sc false (observe vars ps t ++ [(x, o)])); [exact Hwf|eapply causal_complete; eauto| | |exact (Hpos t Ht Hm)|left; auto|exact Hj].
    + eapply more_observations; eauto. unfold kind in Hk. fold vars in Hk. rewrite Hnamed in Hk. simpl in Hk. congruence.
    + intros z [<-|[]]. apply fixed_askable with (free := []); auto. rewrite map_app, observe_names. intros H. apply in_app_iff in H. destruct H as [H|[H|[]]]; auto.
  - assert (Ea : posterior n' (fun _ => false) [] (nv_name w) j = qsum (map (fun t => mass n (fun _ => false) (agrees vars (observe vars ps t)) * posterior n (fun _ => false) (observe vars ps t ++ [(x, o)]) (nv_name w) j)%Qc (states_of vars ps))).
    { apply (adjustment x f f' n n' Hrt Hwf Hwf' Hca Hca' Hnn' v k o Hfix Hnamed Ho). auto. }
    rewrite <- Ea. apply (answer_exact n' sc' false []); [exact Hwf'|eapply causal_complete; eauto|split; [constructor|intros ? ? []]| |change (mass n' (fun _ => false) (agrees (n_vars n') []) <> 0%Qc); rewrite (mass_one n' Hwf' Hca'); discriminate|left; auto|rewrite Ev; auto].
    intros z [<-|[]]. apply fixed_askable with (free := []); auto. rewrite Ev. auto.
Qed.

(** The sprinkler is always on, or the sky is always cloudy. *)
Definition wet_on : network xnum := built (net_new "wet" "" wet_vars [nth 0 wet_factors (cpt "" [] []); cpt "sprinkler" [] [1#1; 0#1]; nth 2 wet_factors (cpt "" [] []); nth 3 wet_factors (cpt "" [] [])]).
Definition wet_cloudy : network xnum := built (net_new "wet" "" wet_vars (cpt "cloudy" [] [1#1; 0#1] :: tl wet_factors)).
Definition sprinkler_table := linked_factor wet_vars (cpt "sprinkler" ["cloudy"] [1#10; 9#10; 1#2; 1#2]).
Definition cloudy_table := linked_factor wet_vars (cpt "cloudy" [] [1#2; 1#2]).
Definition on_table := linked_factor wet_vars (cpt "sprinkler" [] [1#1; 0#1]).
Definition clouds_table := linked_factor wet_vars (cpt "cloudy" [] [1#1; 0#1]).
Example wet_retabled : retabled "sprinkler" sprinkler_table on_table wet wet_on /\ retabled "cloudy" cloudy_table clouds_table wet wet_cloudy.
Proof.
  split; (constructor; [reflexivity..|split; reflexivity|]).
  - exists [linked_factor wet_vars (cpt "cloudy" [] [1#2; 1#2])], (map (linked_factor wet_vars) (skipn 2 wet_factors)). split; reflexivity.
  - exists [], (map (linked_factor wet_vars) (tl wet_factors)). split; reflexivity.
Qed.
Lemma fixed_two n f : nf_given f = [] -> num_outcomes (n_vars n) (nf_for f) = 2%nat -> 
  qeq (cond_prob (n_vars n) f (nupd nowhere (nf_for f) 0)) 1 = true -> qeq (cond_prob (n_vars n) f (nupd nowhere (nf_for f) 1)) 0 = true -> fixed_at n f 0.
Proof.
  intros Hg H2 H0 H1 s Hs. rewrite (cond_prob_looks n f s (nupd nowhere (nf_for f) (s (nf_for f)))).
  - assert (L : (s (nf_for f) < 2)%nat).
    { unfold num_outcomes in H2. destruct (var_named (n_vars n) (nf_for f)) as [v|] eqn:E; [|discriminate]. unfold var_named in E. apply find_some in E. destruct E as [Hin E]. apply String.eqb_eq in E.
      rewrite <- E. rewrite <- H2. apply Hs. auto. }
    destruct (s (nf_for f)) as [|[|k]]; [apply qeq_spec; auto..|lia].
  - intros y Hy. rewrite Hg in Hy. destruct Hy as [<-|[]]. unfold nupd. rewrite String.eqb_refl. auto.
Qed.
Example wet_fixed : fixed_at wet on_table 0 /\ fixed_at wet clouds_table 0.
Proof. split; apply fixed_two; vm_compute; reflexivity. Qed.
Example wet_on_causal : wf_network wet_on /\ wf_network wet_cloudy /\ causal wet_on (fun _ => false) [] /\ nonnegative wet_on.
Proof.
  split; [apply network_b_sound; vm_compute; reflexivity|]. split; [apply network_b_sound; vm_compute; reflexivity|]. split; [|apply nonnegative_b_sound; vm_compute; reflexivity].
  apply causal_b_sound with (rank := fun x => SpecNet.position x ["cloudy"; "sprinkler"; "rain"; "grass"]); [apply network_b_sound|]; vm_compute; reflexivity.
Qed.
Example C121_hypotheses : valid_observations wet [("rain", "yes")] /\ mass wet (ignored_by false [("rain", "yes")]) (agrees (n_vars wet) [("rain", "yes")]) <> 0%Qc /\
  (forall y, In y ["cloudy"; "rain"] -> ~ below wet (ignored_by false [("rain", "yes")]) "sprinkler" y).
Proof.
  split; [apply observations_b_sound; vm_compute; reflexivity|]. split; [apply qeq_false; vm_compute; reflexivity|]. apply (not_below_b wet _ ["cloudy"; "rain"]). vm_compute. reflexivity.
Qed.
(** The clouds do not depend on the sprinkler; the grass does. *)
Example C121_example : 
  shown_answer (net_solve_query sched_id wet [("rain", "yes")] ["cloudy"] false) = Some [("cloudy", [SFin (4#5); SFin (1#5)])] /\
  shown_answer (net_solve_query sched_id wet_on [("rain", "yes")] ["cloudy"] false) = Some [("cloudy", [SFin (4#5); SFin (1#5)])] /\
  shown_answer (net_solve_query sched_id wet [("rain", "yes")] ["grass"] false) = Some [("grass", [SFin (4581#5000); SFin (419#5000)])] /\
  shown_answer (net_solve_query sched_id wet_on [("rain", "yes")] ["grass"] false) = Some [("grass", [SFin (99#100); SFin (1#100)])].
Proof. repeat split; vm_compute; reflexivity. Qed.

Example C122_hypotheses : incl (nf_given cloudy_table) (map fst [("grass", "wet")]) /\ valid_observations wet ([("grass", "wet")] ++ [("cloudy", "yes")]) /\
  mass wet (ignored_by false [("grass", "wet")]) (agrees (n_vars wet) ([("grass", "wet")] ++ [("cloudy", "yes")])) <> 0%Qc /\
  (forall q, In q ["rain"] -> askable wet (ignored_by false ([("grass", "wet")] ++ [("cloudy", "yes")])) ([("grass", "wet")] ++ [("cloudy", "yes")]) q /\
     askable wet_cloudy (ignored_by false [("grass", "wet")]) [("grass", "wet")] q).
Proof.
  split; [intros y []|]. split; [apply observations_b_sound; vm_compute; reflexivity|]. split; [apply qeq_false; vm_compute; reflexivity|].
  intros q [<-|[]]; split; apply askable_b_sound; vm_compute; reflexivity.
Qed.
Example C122_example : 
  shown_answer (net_solve_query sched_id wet [("grass", "wet"); ("cloudy", "yes")] ["rain"] false) = Some [("rain", [SFin (202#207); SFin (5#207)])] /\
  shown_answer (net_solve_query sched_id wet_cloudy [("grass", "wet")] ["rain"] false) = Some [("rain", [SFin (202#207); SFin (5#207)])].
Proof. repeat split; vm_compute; reflexivity. Qed.

Example C122_adjustment_hypotheses : forall t, In t (states_of (n_vars wet) (nf_given sprinkler_table)) ->
  mass wet (fun _ => false) (agrees (n_vars wet) (observe (n_vars wet) (nf_given sprinkler_table) t)) <> 0%Qc ->
  mass wet (fun _ => false) (agrees (n_vars wet) (observe (n_vars wet) (nf_given sprinkler_table) t ++ [("sprinkler", "on")])) <> 0%Qc.
Proof.
  assert (H : forallb (fun t => negb (qeq (mass wet (fun _ => false) (agrees (n_vars wet) (observe (n_vars wet) (nf_given sprinkler_table) t ++ [("sprinkler", "on")]))) 0)) (states_of (n_vars wet) (nf_given sprinkler_table)) = true) by (vm_compute; reflexivity).
  intros t Ht _. rewrite forallb_forall in H. specialize (H t Ht). apply qeq_false. apply negb_true_iff. exact H.
Qed.
(** Turning the sprinkler on says nothing about the rain; seeing that it is on does. *)
Example C122_adjustment_example :
  shown_answer (net_solve_query sched_id wet_on [] ["rain"] false) = Some [("rain", [SFin (1#2); SFin (1#2)])] /\
  shown_answer (net_solve_query sched_id wet [("sprinkler", "on")] ["rain"] false) = Some [("rain", [SFin (3#10); SFin (7#10)])] /\
  shown_answer (net_solve_query sched_id wet_on [] ["grass"] false) = Some [("grass", [SFin (189#200); SFin (11#200)])] /\
  shown_answer (net_solve_query sched_id wet [("sprinkler", "on")] ["grass"] false) = Some [("grass", [SFin (927#1000); SFin (73#1000)])].
Proof. repeat split; vm_compute; reflexivity. Qed.

Print Assumptions C121_elsewhere.
Print Assumptions C122_known_parents.
Print Assumptions C122_adjustment.
