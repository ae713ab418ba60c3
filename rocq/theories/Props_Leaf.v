(** Property C132: nodes that nothing depends on and decisions (network.go: SolvePolicies, SolveUtility).
    The vocabulary is in SpecNet.v, SpecNetPolicy.v, SpecGraph.v and SpecLeaf.v. *)
From Coq Require Import ZArith List Bool String Lia Permutation QArith Qcanon.
From Verif Require Import Num GoBase VarModel SpecFactor XnumFacts VEModel SpecVE NetModel SpecNet NetNew NetCheck SpecNetPolicy SpecGraph NetReorder
  NetPolicyThms SpecLeaf NetLeafUtility NetLeafNew Props_VE Props_Net Props_Policy Props_Options Props_Unused Props_Dominated.
Import ListNotations.
Open Scope string_scope.
Open Scope list_scope.
Open Scope Z_scope.

(** ** C132: a node that nothing depends on changes no decision *)

(** [n'] is [n] with a further chance node that no other node depends on and no decision observes.
    SolvePolicies followed by SolveUtility says the same for both networks. *)
Theorem C132_maximum : forall v f n n', leaf_added v f n n' -> decision_network n -> decision_network n' -> no_forgetting n ->
  exists b, maximum_utility n b /\ maximum_utility n' b.
Proof. intros v f n n' H Hn Hn' Hf. destruct (al_maximum n n' v f H Hn Hn' Hf) as (b & H1 & H2 & _). eauto. Qed.

(** The policies that SolvePolicies returns for [n'] are policies for [n], and the best ones: no other
    policies have a higher expected utility in [n]. *)
Theorem C132_policies : forall v f n n' sc stepwise, leaf_added v f n n' -> decision_network n -> decision_network n' -> no_forgetting n ->
  exists m tables, net_solve_policies sc n' stepwise = (m, Ok tables) /\
    (forall d, In d (decisions n) -> policy_for n d (table_policy n' tables d)) /\
    forall policies, (forall d, In d (decisions n) -> policy_for n d (policies d)) -> (expected_value n policies <= expected_value n (table_policy n' tables))%Qc.
Proof.
  intros v f n n' sc stepwise H Hn Hn' Hf. destruct (al_maximum n n' v f H Hn Hn' Hf) as (b & H1 & _ & H3). destruct (H3 sc stepwise) as (m & t & E & Hp & Ev).
  exists m, t. split; [exact E|]. split; [exact Hp|]. intros q Hq. rewrite Ev. destruct (maximum_exists n Hn Hf) as (c & Hc & _ & Hmax). rewrite (maximum_unique n b c H1 Hc). auto.
Qed.

(** Given any policies for [n], the expected utility is the same in both networks. *)
Theorem C132_value : forall v f n n' policies, leaf_added v f n n' -> decision_network n -> decision_network n' ->
  (forall d, In d (decisions n) -> policy_for n d (policies d)) ->
  decisions n' = decisions n /\ (forall d, In d (decisions n) -> policy_for n' d (policies d)) /\ expected_value n' policies = expected_value n policies.
Proof.
  intros v f n n' p H Hn Hn' Hp. split; [apply (al_decisions n n' v f H)|]. split; [|apply (al_value n n' v f H Hn Hn' p Hp)].
  intros d Hd. apply (al_policy n n' v f H Hn Hn'); auto.
Qed.

(** The same for networks from New: variables and factors in the same order, as in files, and a further
    chance node at the end. *)
Theorem C132_new : forall name info vars factors n name' info' v f n',
  (forall w, In w (vars ++ [v]) -> nv_factor w = None) -> map nf_for factors = map nv_name vars -> nf_for f = nv_name v -> nv_type v = Chance ->
  net_new name info vars factors = Ok n -> net_new name' info' (vars ++ [v]) (factors ++ [f]) = Ok n' ->
  decision_network n -> decision_network n' -> no_forgetting n ->
  exists b, maximum_utility n b /\ maximum_utility n' b /\ forall sc stepwise, exists m tables,
    net_solve_policies sc n' stepwise = (m, Ok tables) /\
    (forall d, In d (decisions n) -> policy_for n d (table_policy n' tables d)) /\ expected_value n (table_policy n' tables) = b.
Proof.
  intros name info vars fs n name' info' v f n' Hnil Ho Hf Hv E E' Hn Hn' Hnf. destruct (leaf_new_added _ _ _ _ _ _ _ _ _ _ Hnil Ho Hf Hv E E') as (v' & f' & _ & _ & H).
  apply (al_maximum n n' v' f' H Hn Hn' Hnf).
Qed.

(** Whether the shoes get wet depends on the weather and the umbrella. *)
Definition shoes_var := node Chance "shoes" ["wet"; "dry"].
Definition shoes_cpt := cpt "shoes" ["weather"; "umbrella"] [0#1; 1#1; 1#4; 3#4; 1#2; 1#2; 9#10; 1#10].
Definition shoes : network xnum := built (net_new "umbrella" "" (umb_vars ++ [shoes_var]) (umb_factors ++ [shoes_cpt])).
Definition shoes_linked : nvar := mkNVar "shoes" Chance ["wet"; "dry"] (0, 0) "" (Some 4%nat).
Definition shoes_table : nfactor xnum := mkNFactor "shoes" ["weather"; "umbrella"] (nf_table shoes_cpt) [2; 2] 2.
Example C132_hypotheses : leaf_added shoes_linked shoes_table umb shoes /\ decision_network umb /\ no_forgetting umb /\ decision_network shoes.
Proof.
  destruct C126_hypotheses as (_ & H2 & H3 & _). split; [constructor; try reflexivity|]. split; [exact H2|]. split; [exact H3|].
  apply (decision_network_b_sound shoes (fun x => SpecNet.position x ["weather"; "forecast"; "umbrella"; "shoes"])). vm_compute. reflexivity.
Qed.
Example C132_inputs : (forall w, In w (umb_vars ++ [shoes_var]) -> nv_factor w = None) /\ map nf_for umb_factors = map nv_name umb_vars /\
  net_new "umbrella" "" umb_vars umb_factors = Ok umb /\ net_new "umbrella" "" (umb_vars ++ [shoes_var]) (umb_factors ++ [shoes_cpt]) = Ok shoes.
Proof. split; [|repeat split; reflexivity]. intros w [<-|[<-|[<-|[<-|[<-|[]]]]]]; reflexivity. Qed.
(** 77 in both networks. If a utility depends on the shoes, the maximum is another one. *)
Definition cold : network xnum := built (net_new "umbrella" "" (umb_vars ++ [shoes_var; node Utility "health" ["value"]]) (umb_factors ++ [shoes_cpt; cpt "health" ["shoes"] [(-100)#1; 0#1]])).
Example C132_example :
  shown_values (net_solve_utility sched_id (fst (net_solve_policies sched_id umb true)) [] [] "" false) = Some [SFin (77#1)] /\
  shown_values (net_solve_utility sched_id (fst (net_solve_policies sched_id shoes true)) [] [] "" false) = Some [SFin (77#1)] /\
  shown_values (net_solve_utility sched_id (fst (net_solve_policies sched_id cold true)) [] [] "" false) <> Some [SFin (77#1)].
Proof. split; [vm_compute; reflexivity|]. split; [vm_compute; reflexivity|]. vm_compute. discriminate. Qed.

Print Assumptions C132_maximum.
Print Assumptions C132_policies.
Print Assumptions C132_value.
Print Assumptions C132_new.
