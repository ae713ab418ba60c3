(** Property C94: the options recommended by SolvePolicies (network.go: SolvePolicies,
    SolveUtility). The vocabulary is in SpecNet.v and SpecNetPolicy.v. *)
From Coq Require Import ZArith List Bool String Lia Permutation QArith Qcanon.
From Verif Require Import Num GoBase VarModel SpecFactor XnumFacts VEModel SpecVE NetModel SpecNet NetCheck SpecNetPolicy NetPolicyThms NetAdvice
  Props_VE Props_Net Props_Policy.
Import ListNotations.
Open Scope string_scope.
Open Scope list_scope.
Open Scope Z_scope.

(** ** C94: recommended options are best *)

(** [ev] is a situation in which decision [d] can be: an outcome for each node it observes. If the
    table that SolvePolicies returned gives option [oi] a positive probability in this situation,
    SolveUtility, with the situation and the option as evidence and with policies of observed
    decisions ignored, returns at least as much for [oi] as for any other option [oj]. The weights
    of the evidence are the same, so the conditional expected utilities compare the same way. The
    situation need not be one that the policies of earlier decisions lead to. *)
Theorem C94_advice : forall sc n stepwise, decision_network n -> no_forgetting n ->
  exists n' tables, net_solve_policies sc n stepwise = (n', Ok tables) /\
    forall d v ev i j oi oj f s, var_named (n_vars n) d = Some v -> nv_type v = Decision -> nth_error (nv_outcomes v) i = Some oi -> nth_error (nv_outcomes v) j = Some oj ->
      valid_observations n ev -> (forall x, In x (map fst ev) <-> In x (observed_by n d)) -> sget_map tables d = Some f ->
      proper_state n s -> agrees (n_vars n) (ev ++ [(d, oi)]) s = true -> entry (n_vars n) f s <> 0%Qc ->
      forall sc1 sc2, exists n1 f1 ui n2 f2 uj,
        net_solve_utility sc1 n' (ev ++ [(d, oi)]) [] "" true = (n1, Ok f1) /\ f_vars f1 = [] /\ f_data f1 = [Fin ui] /\
        net_solve_utility sc2 n' (ev ++ [(d, oj)]) [] "" true = (n2, Ok f2) /\ f_vars f2 = [] /\ f_data f2 = [Fin uj] /\ (uj <= ui)%Qc /\
        table_mass n tables (ignored_by true (ev ++ [(d, oj)])) (agrees (n_vars n) (ev ++ [(d, oj)])) =
        table_mass n tables (ignored_by true (ev ++ [(d, oi)])) (agrees (n_vars n) (ev ++ [(d, oi)])).
Proof.
  intros sc n stepwise Hdn Hnf. destruct (solve_policies_ok sc n stepwise Hdn Hnf) as (n' & tables & E & Hs). exists n', tables. split; auto.
  exact (advice n n' tables Hs).
Qed.

(** Not testing is not what the policies do. Without a report it is best not to drill. *)
Definition untested : nstate := nupd (nupd (nupd nowhere "test" 1) "report" 2) "drill" 1.
Example C94_hypotheses : let ev := [("test", "no"); ("report", "none")] in decision_network oil /\ no_forgetting oil /\ valid_observations oil ev /\
  (forall x, In x (map fst ev) <-> In x (observed_by oil "drill")) /\ proper_state oil untested /\ agrees (n_vars oil) (ev ++ [("drill", "no")]) untested = true /\
  match net_solve_policies sched_id oil true with
  | (_, Ok t) => match sget_map t "drill" with Some f => Some (xshow (Fin (entry (n_vars oil) f untested))) | None => None end
  | _ => None end = Some (SFin (1#1)).
Proof.
  cbn zeta. split; [apply C65_hypotheses|]. split; [apply C65_hypotheses|]. split; [apply observations_b_sound; vm_compute; reflexivity|]. split.
  { assert (E : observed_by oil "drill" = ["test"; "report"]) by (vm_compute; reflexivity). rewrite E. cbn. tauto. }
  split. { intros v Hv. repeat (destruct Hv as [<-|Hv]; [vm_compute; lia|]). destruct Hv. }
  split; vm_compute; reflexivity.
Qed.
Example C94_example : let n' := fst (net_solve_policies sched_id oil true) in
  shown_values (net_solve_utility sched_id n' [("test", "no"); ("report", "none"); ("drill", "no")] [] "" true) = Some [SFin (0#1)] /\
  shown_values (net_solve_utility sched_id n' [("test", "no"); ("report", "none"); ("drill", "yes")] [] "" true) = Some [SFin ((-10)#1)].
Proof. split; vm_compute; reflexivity. Qed.

(** ** C26: which variables a policy mentions *)

(** Stepwise or not, every policy that SolvePolicies returns mentions only the decision and its
    declared parents, provided the decisions can be ordered without forgetting or there is at
    most one. Missing: other networks, where it fails (C26_foreign_parent_refuted). *)
Theorem C26_declared_parents_partial : forall sc n stepwise, decision_network n ->
  no_forgetting n \/ (List.length (decisions n) <= 1)%nat ->
  exists n' tables, net_solve_policies sc n stepwise = (n', Ok tables) /\
    forall d f, sget_map tables d = Some f -> In d (decisions n) /\ nf_for f = d /\ incl (nf_given f) (observed_by n d).
Proof.
  intros sc n stepwise Hdn Hc.
  assert (H : exists n' tables, net_solve_policies sc n stepwise = (n', Ok tables) /\
    (forall d, In d (decisions n) -> exists f, sget_map tables d = Some f /\ returned_policy n d f) /\
    (forall d, ~ In d (decisions n) -> sget_map tables d = None)).
  { destruct Hc as [Hc|Hc]; [destruct (C65_policies_optimal sc n stepwise Hdn Hc) as (n' & t & E & H1 & H2 & _)
                            |destruct (C65_one_decision sc n stepwise Hdn Hc) as (n' & t & E & H1 & H2 & _)]; exists n', t; auto. }
  destruct H as (n' & t & E & H1 & H2). exists n', t. split; auto. intros d f Ef.
  destruct (in_dec string_dec d (decisions n)) as [Hd|Hd]; [|rewrite (H2 d Hd) in Ef; discriminate].
  destruct (H1 d Hd) as (g & Eg & Hg). assert (f = g) by congruence. subst g. split; auto. split; apply Hg.
Qed.

(** In the oil network the drilling policy looks at the test and the report, and the test policy looks at nothing. *)
Example C26_declared_example : decision_network oil /\ no_forgetting oil /\
  option_map (map fst) (shown_tables (net_solve_policies sched_id oil true)) = Some [("drill", ["test"; "report"]); ("test", [])] /\
  observed_by oil "drill" = ["test"; "report"] /\ observed_by oil "test" = [].
Proof. split; [apply C65_hypotheses|]. split; [apply C65_hypotheses|]. vm_compute. auto. Qed.

Print Assumptions C94_advice.
Print Assumptions C26_declared_parents_partial.
