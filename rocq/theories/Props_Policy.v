(** Properties C65, C68-C70: decisions of networks (network.go, Network.SolvePolicies) and table lengths.
    The vocabulary is in SpecNet.v and SpecNetPolicy.v, the proofs in NetPolicy*.v. *)
From Coq Require Import ZArith List Bool String Lia QArith Qcanon.
From Verif Require Import Num GoBase VarModel XnumFacts VEModel SpecVE NetModel SpecNet NetQuery NetCheck SpecNetPolicy NetPolicyLoop NetPolicyThms NetLength Props_VE Props_Net.
Import ListNotations.
Open Scope string_scope.
Open Scope list_scope.
Open Scope Z_scope.

(** Oil drilling: whether to test, then whether to drill, seeing the report of the test. *)
Definition oil_vars := [node Chance "oil" ["dry"; "wet"]; node Decision "test" ["yes"; "no"]; node Chance "report" ["closed"; "open"; "none"];
  node Decision "drill" ["yes"; "no"]; node Utility "cost" ["value"]; node Utility "gain" ["value"]].
Definition oil_factors := [cpt "oil" [] [70#1; 30#1]; cpt "report" ["oil"; "test"] [10#1; 90#1; 0#1; 0#1; 0#1; 1#1; 80#1; 20#1; 0#1; 0#1; 0#1; 1#1];
  mkNFactor "test" [] None [] 0; mkNFactor "drill" ["test"; "report"] None [] 0; cpt "cost" ["test"] [(-10)#1; 0#1];
  cpt "gain" ["oil"; "drill"] [(-70)#1; 0#1; 130#1; 0#1]].
Definition oil : network xnum := built (net_new "oil" "" oil_vars oil_factors).
Definition shown_tables (r : network xnum * gores (list (string * nfactor xnum))) :=
  match snd r with Ok l => Some (map (fun '(d, f) => (d, nf_given f, map xshow (slice_of (nf_table f)))) l) | _ => None end.

(** ** C65: sequences of decisions *)

(** In every decision network without forgetting, SolvePolicies succeeds, stepwise or not. It
    returns for each decision, and for nothing else, a table over the decision and some of what
    it observes whose rows are distributions. No other combination of policies, randomised or
    not, has a higher expected total utility. *)
Theorem C65_policies_optimal : forall sc n stepwise, decision_network n -> no_forgetting n ->
  exists n' tables, net_solve_policies sc n stepwise = (n', Ok tables) /\
    (forall d, In d (decisions n) -> exists f, sget_map tables d = Some f /\ returned_policy n d f) /\
    (forall d, ~ In d (decisions n) -> sget_map tables d = None) /\
    forall policies, (forall d, In d (decisions n) -> policy_for n d (policies d)) ->
      (expected_value n policies <= expected_value n (table_policy n tables))%Qc.
Proof.
  intros sc n stepwise Hdn Hnf. destruct (solve_policies_ok sc n stepwise Hdn Hnf) as (n' & tables & E & Hs). exists n', tables. split; auto.
  split; [apply (returned n n' tables Hs)|]. split; [apply Hs|]. apply (policies_best n n' tables Hs).
Qed.

(** A single decision may observe anything. *)
Theorem C65_one_decision : forall sc n stepwise, decision_network n -> (List.length (decisions n) <= 1)%nat ->
  exists n' tables, net_solve_policies sc n stepwise = (n', Ok tables) /\
    (forall d, In d (decisions n) -> exists f, sget_map tables d = Some f /\ returned_policy n d f) /\
    (forall d, ~ In d (decisions n) -> sget_map tables d = None) /\
    forall policies, (forall d, In d (decisions n) -> policy_for n d (policies d)) ->
      (expected_value n policies <= expected_value n (table_policy n tables))%Qc.
Proof.
  intros sc n stepwise Hdn Hl. assert (Hnf : no_forgetting n).
  { intros d e Hd He Hne. destruct (decisions n) as [|x [|y l]]; [destruct Hd| |simpl in Hl; lia]. destruct Hd as [Hd|[]], He as [He|[]]. congruence. }
  apply C65_policies_optimal; auto.
Qed.

Example C65_hypotheses : decision_network oil /\ no_forgetting oil /\ decisions oil = ["test"; "drill"].
Proof.
  split; [apply (decision_network_b_sound oil (fun x => position x ["oil"; "test"; "report"; "drill"])); vm_compute; reflexivity|].
  split; [apply no_forgetting_b_sound; vm_compute; reflexivity|reflexivity].
Qed.
Example C65_one_hypotheses : decision_network umb /\ decisions umb = ["umbrella"].
Proof.
  split; [apply (decision_network_b_sound umb (fun x => position x ["weather"; "forecast"; "umbrella"])); vm_compute; reflexivity|reflexivity].
Qed.
(** Test, and drill after report "closed". Reports that cannot occur leave the choice open. *)
Example C65_example : shown_tables (net_solve_policies sched_id oil true) =
  Some [("drill", ["test"; "report"], [SFin (1#1); SFin (0#1); SFin (0#1); SFin (1#1); SFin (1#2); SFin (1#2);
           SFin (1#2); SFin (1#2); SFin (1#2); SFin (1#2); SFin (0#1); SFin (1#1)]);
        ("test", [], [SFin (1#1); SFin (0#1)])].
Proof. vm_compute. reflexivity. Qed.
(** All decisions in one pass. *)
Example C65_pass_example : shown_tables (net_solve_policies sched_rev oil false) =
  Some [("test", [], [SFin (1#1); SFin (0#1)]);
        ("drill", ["test"; "report"], [SFin (1#1); SFin (0#1); SFin (0#1); SFin (1#1); SFin (1#2); SFin (1#2);
           SFin (1#2); SFin (1#2); SFin (1#2); SFin (1#2); SFin (0#1); SFin (1#1)])].
Proof. vm_compute. reflexivity. Qed.
(** A competing combination of policies: never test, drill anyway. *)
Definition blind (d : string) (s : nstate) : Qc :=
  if String.eqb d "test" then (if (s "test" =? 1)%nat then 1%Qc else 0%Qc) else if (s "drill" =? 0)%nat then 1%Qc else 0%Qc.
Example C65_competitor : (forall d, In d (decisions oil) -> policy_for oil d (blind d)) /\ expected_value oil blind = qc ((-10)#1) /\
  match net_solve_policies sched_id oil true with (_, Ok t) => Some (xshow (Fin (expected_value oil (table_policy oil t)))) | _ => None end = Some (SFin (163#10)).
Proof.
  split; [|split; [apply qeq_spec; vm_compute; reflexivity|vm_compute; reflexivity]].
  intros d [<-|[<-|[]]]; (constructor;
    [intros s _; unfold blind; simpl; match goal with |- context [if ?b then _ else _] => destruct b end; discriminate
    |intros s _; apply qeq_spec; reflexivity
    |intros s s' H; unfold blind; simpl; rewrite H by auto; reflexivity]).
Qed.

(** ** C68: queries follow the returned policies *)

(** After SolvePolicies the decisions act in queries as random variables with the returned
    tables: every chance or decision variable without evidence can be asked for, and the
    answer is its posterior in the joint distribution made of the probability tables and the
    returned tables. With ignorePolicies the tables of observed decisions are left out. *)
Theorem C68_queries_follow_tables : forall sc n stepwise, decision_network n -> no_forgetting n ->
  exists n' tables, net_solve_policies sc n stepwise = (n', Ok tables) /\
    (forall d, In d (decisions n) -> exists f, sget_map tables d = Some f /\ returned_policy n d f) /\
    forall sc' ev query ig, valid_observations n ev ->
      (forall q, In q query -> (exists v, var_named (n_vars n) q = Some v /\ nv_type v <> Utility) /\ ~ In q (map fst ev)) ->
      let weight := table_mass n tables (ignored_by ig ev) in
      weight (agrees (n_vars n) ev) <> 0%Qc ->
      exists n'' res f, net_solve_query sc' n' ev query ig = (n'', Ok (res, f)) /\
        forall q, In q query -> sget_map res q = Some (map (fun k => Fin (weight (fun s => agrees (n_vars n) ev s && (s q =? k)%nat) / weight (agrees (n_vars n) ev))%Qc)
                                                        (seq 0 (num_outcomes (n_vars n) q))).
Proof.
  intros sc n stepwise Hdn Hnf. destruct (solve_policies_ok sc n stepwise Hdn Hnf) as (n' & tables & E & Hs). exists n', tables. split; auto.
  split; [apply (returned n n' tables Hs)|]. intros sc' ev query ig Hv Hq weight Hw.
  assert (Hwf' : wf_network n') by apply (NetPolicy.ps_net _ (sv_partly _ _ _ Hs)).
  assert (Hm : forall event, mass n' (ignored_by ig ev) event = weight event) by (intros; apply (mass_tables n n' tables Hs)).
  destruct (C27_posterior n' sc' ig ev query Hwf' (solved_complete _ _ _ Hs) (solved_nonnegative _ _ _ Hs) (observations_same _ _ _ Hs ev Hv)) as (n'' & res & f & Er & Hres & _).
  - intros q Hin. destruct (Hq q Hin). apply (solved_askable _ _ _ Hs); auto.
  - rewrite Hm, (vars_same _ _ _ Hs). auto.
  - exists n'', res, f. split; auto. intros q Hin. rewrite (Hres q Hin), (vars_same _ _ _ Hs). unfold posterior. f_equal. apply map_ext. intros k.
    rewrite !Hm, (vars_same _ _ _ Hs). auto.
Qed.

(** Without evidence the joint distribution made of the tables has mass one. *)
Theorem C68_tables_mass : forall sc n stepwise, decision_network n -> no_forgetting n ->
  exists n' tables, net_solve_policies sc n stepwise = (n', Ok tables) /\ table_mass n tables (fun _ => false) (fun _ => true) = 1%Qc.
Proof.
  intros sc n stepwise Hdn Hnf. destruct (solve_policies_ok sc n stepwise Hdn Hnf) as (n' & tables & E & Hs). exists n', tables. split; auto.
  assert (Hwf' : wf_network n') by apply (NetPolicy.ps_net _ (sv_partly _ _ _ Hs)).
  rewrite <- (mass_tables n n' tables Hs). apply (NetCor.mass_one n' Hwf'). apply (solved_causal n n' tables Hs).
Qed.

Example C68_hypotheses : valid_observations oil [("report", "open")] /\
  match net_solve_policies sched_id oil true with
  | (_, Ok t) => Some (xshow (Fin (table_mass oil t (ignored_by false []) (agrees (n_vars oil) [("report", "open")]))))
  | _ => None end = Some (SFin (69#100)).
Proof. split; [apply observations_b_sound; vm_compute; reflexivity|vm_compute; reflexivity]. Qed.
Example C68_example : let n' := fst (net_solve_policies sched_id oil true) in
  shown_answer (net_solve_query sched_id n' [] ["drill"; "test"] false) = Some [("drill", [SFin (31#100); SFin (69#100)]); ("test", [SFin (1#1); SFin (0#1)])] /\
  shown_answer (net_solve_query sched_id n' [("test", "no")] ["drill"; "report"] true) =
    Some [("drill", [SFin (0#1); SFin (1#1)]); ("report", [SFin (0#1); SFin (0#1); SFin (1#1)])].
Proof. split; vm_compute; reflexivity. Qed.

(** ** C70: the maximum expected utility *)

(** After SolvePolicies, SolveUtility without query and evidence returns one number: the
    expected total utility of the returned tables, which no policies exceed. *)
Theorem C70_maximum_utility : forall sc n stepwise, decision_network n -> no_forgetting n ->
  exists n' tables best, net_solve_policies sc n stepwise = (n', Ok tables) /\
    (forall sc' ig, exists n'' f, net_solve_utility sc' n' [] [] "" ig = (n'', Ok f) /\ f_vars f = [] /\ f_data f = [Fin best]) /\
    (forall d, In d (decisions n) -> policy_for n d (table_policy n tables d)) /\ best = expected_value n (table_policy n tables) /\
    forall policies, (forall d, In d (decisions n) -> policy_for n d (policies d)) -> (expected_value n policies <= best)%Qc.
Proof.
  intros sc n stepwise Hdn Hnf. destruct (solve_policies_ok sc n stepwise Hdn Hnf) as (n' & tables & E & Hs).
  exists n', tables, (expected_value n (table_policy n tables)). split; auto. split; [apply (solved_utility n n' tables Hs)|].
  split; [apply (table_policy_for n n' tables Hs)|]. split; auto. apply (policies_best n n' tables Hs).
Qed.
(** 16.3 with the best policies. *)
Example C70_example : shown_values (net_solve_utility sched_id (fst (net_solve_policies sched_id oil true)) [] [] "" false) = Some [SFin (163#10)].
Proof. vm_compute. reflexivity. Qed.
Example C70_pass_example : shown_values (net_solve_utility sched_id (fst (net_solve_policies sched_id oil false)) [] [] "" false) = Some [SFin (163#10)].
Proof. vm_compute. reflexivity. Qed.

Print Assumptions C65_policies_optimal.
Print Assumptions C65_one_decision.
Print Assumptions C68_queries_follow_tables.
Print Assumptions C68_tables_mass.
Print Assumptions C70_maximum_utility.

(** ** C69: tables of the wrong length *)

(** False of the code: New does not look at the length of tables, and every solve of a
    network with a table of the wrong length panics. *)
Theorem C69_wrong_length_refuted : forall n pre f t post, wf_network n -> n_factors n = pre ++ f :: post ->
  is_total n (nf_for f) = false -> kind (n_vars n) (nf_for f) <> Some Decision ->
  List.length t <> table_size (n_vars n) (nf_given f ++ [nf_for f]) -> let bad := with_table n pre f t post in
  (forall sc ev query ig, exists p, snd (net_solve_query sc bad ev query ig) = Panic p) /\
  (forall sc ev query u ig, exists p, snd (net_solve_utility sc bad ev query u ig) = Panic p) /\
  (forall sc stepwise, exists p, snd (net_solve_policies sc bad stepwise) = Panic p).
Proof. intros n pre f t post. apply wrong_length_calls. Qed.
(** New accepts the sprinkler network with three entries for the sprinkler. *)
Definition short_factors := [cpt "rain" [] [1#5; 4#5]; cpt "sprinkler" ["rain"] [1#1; 99#1; 40#1];
  cpt "grass" ["rain"; "sprinkler"] [99#100; 1#100; 4#5; 1#5; 9#10; 1#10; 0#1; 1#1]].
Example C69_example : exists bad, net_new "sprinkler" "" spr_vars short_factors = Ok bad /\
  exists pre f t post, n_factors spr = pre ++ f :: post /\ bad = with_table spr pre f t post /\
    is_total spr (nf_for f) = false /\ kind (n_vars spr) (nf_for f) = Some Chance /\ List.length t <> table_size (n_vars spr) (nf_given f ++ [nf_for f]).
Proof.
  eexists. split; [reflexivity|]. exists (firstn 1 (n_factors spr)). do 3 eexists. split; [reflexivity|]. split; [reflexivity|]. repeat split; auto. discriminate.
Qed.
Print Assumptions C69_wrong_length_refuted.
