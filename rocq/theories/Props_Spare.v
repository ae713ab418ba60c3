(** Property C133: decisions that nothing depends on (network.go: New, SolvePolicies, SolveUtility).
    The vocabulary is in SpecNet.v, SpecNetPolicy.v, SpecGraph.v and SpecSpare.v. *)
From Coq Require Import ZArith List Bool String Lia Permutation QArith Qcanon.
From Verif Require Import Num GoBase VarModel SpecFactor XnumFacts VEModel SpecVE NetModel SpecNet NetNew NetCheck SpecNetPolicy SpecGraph NetReorder
  NetPolicyThms SpecSpare NetSpare NetLeafNew Props_VE Props_Net Props_Policy Props_Options Props_Unused Props_Dominated.
Import ListNotations.
Open Scope string_scope.
Open Scope list_scope.
Open Scope Z_scope.

(** ** C133: a decision that nothing depends on changes no other decision *)

(** Intended: if [n'] is [n] with a further decision that no utility and no other node depends on, then
    SolvePolicies returns policies for [n'] that are best for the other decisions too. False: SolvePolicies panics,
    see [C133_refuted]. What holds is that such a decision does not matter: whatever is decided there, the
    expected utility is that of the policies for the other decisions. *)
Theorem C133_value_partial : forall v f n n' policies, spare_added v f n n' -> wf_network n -> wf_network n' ->
  (forall d, In d (decisions n') -> policy_for n' d (policies d)) ->
  decisions n' = decisions n ++ [nv_name v] /\ (forall d, In d (decisions n) -> policy_for n d (policies d)) /\ expected_value n' policies = expected_value n policies.
Proof.
  intros v f n n' p H Hn Hn' Hp. pose proof (sp_decisions n n' v f H) as Hd. split; [exact Hd|]. split; [|apply (sp_value n n' v f H Hn Hn' p Hp)].
  intros d Hin. apply (sp_policy n n' v f H Hn Hn'); auto. apply Hp. rewrite Hd. apply in_or_app. auto.
Qed.
(** So the same expected utilities can be had in both networks, and the best policies that SolvePolicies could
    return for [n'] are as good as those that it returns for [n]. *)
Theorem C133_best_partial : forall v f n n', spare_added v f n n' -> decision_network n -> wf_network n' -> no_forgetting n ->
  forall sc stepwise, exists m tables, net_solve_policies sc n stepwise = (m, Ok tables) /\
    (exists policies, (forall d, In d (decisions n') -> policy_for n' d (policies d)) /\ expected_value n' policies = expected_value n (table_policy n tables)) /\
    forall policies, (forall d, In d (decisions n') -> policy_for n' d (policies d)) -> (expected_value n' policies <= expected_value n (table_policy n tables))%Qc.
Proof.
  intros v f n n' H Hn Hn' Hnf sc stepwise. destruct (solve_policies_ok sc n stepwise Hn Hnf) as (m & t & E & Hm). exists m, t. split; [exact E|]. pose proof (table_policy_for n m t Hm) as Ht.
  split; [apply (sp_values n n' v f H (dn_wf n Hn) Hn'); exists (table_policy n t); split; [exact Ht|reflexivity]|].
  intros p Hp. destruct (C133_value_partial v f n n' p H (dn_wf n Hn) Hn' Hp) as (_ & Hp' & ->). apply (policies_best n m t Hm). exact Hp'.
Qed.

(** After looking at the forecast and deciding about the umbrella, a hat can be chosen. *)
Definition hat_var := node Decision "hat" ["straw"; "wool"; "none"].
Definition hat_cpt : nfactor xnum := mkNFactor "hat" ["forecast"; "umbrella"] None [] 0.
Definition hat : network xnum := built (net_new "umbrella" "" (umb_vars ++ [hat_var]) (umb_factors ++ [hat_cpt])).
Lemma hat_inputs : forall w, In w (umb_vars ++ [hat_var]) -> nv_factor w = None.
Proof. intros w [<-|[<-|[<-|[<-|[<-|[]]]]]]; reflexivity. Qed.
Example C133_hypotheses : (exists v f, spare_added v f umb hat) /\ decision_network umb /\ no_forgetting umb /\ wf_network hat /\ no_forgetting hat.
Proof.
  destruct C126_hypotheses as (_ & H2 & H3 & _). split; [|split; [exact H2|split; [exact H3|split]]].
  - destruct (spare_new_added "umbrella" "" umb_vars umb_factors umb "umbrella" "" hat_var hat_cpt hat hat_inputs eq_refl eq_refl eq_refl eq_refl eq_refl) as (v & f & _ & _ & H). eauto.
  - apply network_b_sound. vm_compute. reflexivity.
  - apply no_forgetting_b_sound. vm_compute. reflexivity.
Qed.
(** SolvePolicies panics for the network with the hat. *)
Theorem C133_refuted : ~ (forall v f n n' sc stepwise, spare_added v f n n' -> decision_network n -> wf_network n' -> no_forgetting n -> no_forgetting n' ->
  exists m tables, net_solve_policies sc n' stepwise = (m, Ok tables)).
Proof.
  intros H. destruct C133_hypotheses as ((v & f & Ha) & H1 & H2 & H3 & H4). destruct (H v f umb hat sched_id true Ha H1 H3 H2 H4) as (m & t & E).
  assert (K : match snd (net_solve_policies sched_id hat true) with Panic _ => true | _ => false end = true) by (vm_compute; reflexivity). rewrite E in K. discriminate K.
Qed.
(** The panic, and the same decision with a utility that depends on it. *)
Definition warm : network xnum := built (net_new "umbrella" "" (umb_vars ++ [hat_var; node Utility "comfort" ["value"]]) (umb_factors ++ [hat_cpt; cpt "comfort" ["weather"; "hat"] [10#1; 0#1; 0#1; 0#1; 5#1; 0#1]])).
Definition panic_of (n : network xnum) stepwise : option gopanic := match snd (net_solve_policies sched_id n stepwise) with Panic p => Some p | _ => None end.
Example C133_example : net_new "umbrella" "" (umb_vars ++ [hat_var]) (umb_factors ++ [hat_cpt]) = Ok hat /\
  panic_of hat true = Some (PMsg "found no factors containing variable and its parents") /\ panic_of hat false = Some (PMsg "found no factors containing variable and its parents") /\
  panic_of umb true = None /\ panic_of warm true = None /\ panic_of warm false = None.
Proof. split; [reflexivity|]. split; [vm_compute; reflexivity|]. split; [vm_compute; reflexivity|]. split; [vm_compute; reflexivity|]. split; vm_compute; reflexivity. Qed.

Print Assumptions C133_value_partial.
Print Assumptions C133_best_partial.
Print Assumptions C133_refuted.
