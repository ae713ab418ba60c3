(** Properties C86-C91: what answers depend on (network.go: New, SolveQuery, SolvePolicies,
    SolveUtility). The vocabulary is in SpecNet.v, SpecNetPolicy.v and SpecGraph.v. *)
From Coq Require Import ZArith List Bool String Lia Permutation QArith Qcanon.
From Verif Require Import Num GoBase VarModel SpecFactor XnumFacts VEModel SpecVE NetModel SpecNet NetNew NetCheck SpecNetPolicy SpecGraph NetGraph NetChange NetReorder NetInform
  NetGraphThms NetPolicyLoop NetPolicyThms NetQuery Props_VE Props_Net Props_Policy.
Import ListNotations.
Open Scope string_scope.
Open Scope list_scope.
Open Scope Z_scope.

(** Clouds, sprinkler, rain, wet grass. *)
Definition wet_vars := [node Chance "cloudy" ["yes"; "no"]; node Chance "sprinkler" ["on"; "off"]; node Chance "rain" ["yes"; "no"]; node Chance "grass" ["wet"; "dry"]].
Definition wet_factors := [cpt "cloudy" [] [1#2; 1#2]; cpt "sprinkler" ["cloudy"] [1#10; 9#10; 1#2; 1#2]; cpt "rain" ["cloudy"] [4#5; 1#5; 1#5; 4#5];
  cpt "grass" ["sprinkler"; "rain"] [99#100; 1#100; 9#10; 1#10; 9#10; 1#10; 0#1; 1#1]].
Definition wet : network xnum := built (net_new "wet" "" wet_vars wet_factors).
Example wet_wf : wf_network wet. Proof. apply network_b_sound. vm_compute. reflexivity. Qed.
Example wet_causal : causal wet (fun _ => false) [].
Proof. apply causal_b_sound with (rank := fun x => position x ["cloudy"; "sprinkler"; "rain"; "grass"]); [apply wet_wf|]. vm_compute. reflexivity. Qed.
Example wet_complete : complete wet. Proof. apply complete_b_sound. vm_compute. reflexivity. Qed.
Example wet_nonneg : nonnegative wet. Proof. apply nonnegative_b_sound. vm_compute. reflexivity. Qed.

(** ** C86: the order of nodes and tables does not matter *)

(** New accepts the same nodes and tables in any order, and every query that has an answer has
    the same answer for both networks. *)
Theorem C86_queries : forall name info vars factors n name' info' vars' factors', good_input vars factors -> NoDup (map nf_for factors) ->
  net_new name info vars factors = Ok n -> Permutation vars vars' -> Permutation factors factors' ->
  exists n', net_new name' info' vars' factors' = Ok n' /\
    forall sc sc' ig ev query, complete n -> nonnegative n -> valid_observations n ev -> (forall q, In q query -> askable n (ignored_by ig ev) ev q) ->
      mass n (ignored_by ig ev) (agrees (n_vars n) ev) <> 0%Qc ->
      exists m res f m' res' f', net_solve_query sc n ev query ig = (m, Ok (res, f)) /\ net_solve_query sc' n' ev query ig = (m', Ok (res', f')) /\
        (forall q, In q query -> sget_map res q <> None) /\ forall q, sget_map res' q = sget_map res q.
Proof.
  intros name info vars factors n name' info' vars' factors' Hgi Hfor E Hv Hf.
  assert (Hst : valid_structure vars factors) by (apply (new_api name info vars factors (gi_unlinked _ _ Hgi)); exists n; auto). pose proof (st_names _ _ Hst) as Hn.
  destruct (new_reordered vars vars' factors factors' Hv Hf Hn Hfor name info name' info' n (gi_unlinked _ _ Hgi) E) as (n' & E' & Hro). exists n'. split; auto.
  apply reordered_api; auto; [exact (new_wf _ _ _ _ _ Hgi E)|exact (new_wf _ _ _ _ _ (p_input vars vars' factors factors' Hv Hf Hn Hfor Hgi) E')].
Qed.

(** The maximum expected utility is the same too. *)
Theorem C86_utility : forall name info vars factors n name' info' vars' factors', good_input vars factors ->
  net_new name info vars factors = Ok n -> decision_network n -> no_forgetting n -> Permutation vars vars' -> Permutation factors factors' ->
  exists n' b, net_new name' info' vars' factors' = Ok n' /\ maximum_utility n b /\ maximum_utility n' b.
Proof.
  intros name info vars factors n name' info' vars' factors' Hgi E Hdn Hnf Hv Hf.
  destruct (new_api name info vars factors (gi_unlinked _ _ Hgi)) as (Hs & _ & H). assert (Hst : valid_structure vars factors) by (apply Hs; exists n; auto). pose proof (st_names _ _ Hst) as Hn.
  assert (Hfor : NoDup (map nf_for factors)).
  { pose proof (dn_single _ Hdn) as Hd. destruct (H n E) as (_ & _ & _ & _ & _ & Hfs & _). replace (map nf_for factors) with (map nf_for (n_factors n)); auto.
    clear - Hfs. induction Hfs as [|f g l l' G Hl IH]; auto. simpl. rewrite IH, (proj1 G). auto. }
  destruct (new_reordered vars vars' factors factors' Hv Hf Hn Hfor name info name' info' n (gi_unlinked _ _ Hgi) E) as (n' & E' & Hro).
  destruct (reordered_maximum n n' Hro (new_wf _ _ _ _ _ (p_input vars vars' factors factors' Hv Hf Hn Hfor Hgi) E') Hdn Hnf) as (b & Hb & Hb'). exists n', b. auto.
Qed.

Definition oil_rev : network xnum := built (net_new "reversed" "" (rev oil_vars) (rev oil_factors)).
Example C86_hypotheses : good_input wet_vars wet_factors /\ NoDup (map nf_for wet_factors) /\ net_new "wet" "" wet_vars wet_factors = Ok wet /\
  Permutation wet_vars (rev wet_vars) /\ Permutation wet_factors (rev wet_factors) /\
  valid_observations wet [("grass", "wet")] /\ askable wet (ignored_by false [("grass", "wet")]) [("grass", "wet")] "rain" /\
  mass wet (ignored_by false [("grass", "wet")]) (agrees (n_vars wet) [("grass", "wet")]) <> 0%Qc.
Proof.
  split; [apply input_b_sound; vm_compute; reflexivity|]. split; [apply string_nodup_b; reflexivity|]. split; [reflexivity|]. split; [apply Permutation_rev|]. split; [apply Permutation_rev|].
  split; [apply observations_b_sound; vm_compute; reflexivity|]. split; [apply askable_b_sound; vm_compute; reflexivity|]. apply qeq_false. vm_compute. reflexivity.
Qed.
Example C86_example : shown_answer (net_solve_query sched_id (built (net_new "" "" (rev wet_vars) (rev wet_factors))) [("grass", "wet")] ["rain"] false) =
  shown_answer (net_solve_query sched_id wet [("grass", "wet")] ["rain"] false) /\
  shown_answer (net_solve_query sched_id wet [("grass", "wet")] ["rain"] false) = Some [("rain", [SFin (509#719); SFin (210#719)])].
Proof. split; vm_compute; reflexivity. Qed.
Example C86_utility_hypotheses : good_input oil_vars oil_factors /\ net_new "oil" "" oil_vars oil_factors = Ok oil /\ decision_network oil /\ no_forgetting oil.
Proof. split; [apply input_b_sound; vm_compute; reflexivity|]. split; [reflexivity|]. split; apply C65_hypotheses. Qed.
Example C86_utility_example : shown_values (net_solve_utility sched_id (fst (net_solve_policies sched_id oil_rev true)) [] [] "" false) = Some [SFin (163#10)].
Proof. vm_compute. reflexivity. Qed.

(** ** C87: information never hurts *)

(** If decisions observe more, all else the same, the maximum expected utility does not get lower. *)
Theorem C87_information : forall n m, more_informed n m -> decision_network n -> no_forgetting n -> decision_network m -> no_forgetting m ->
  exists b b', maximum_utility n b /\ maximum_utility m b' /\ (b <= b')%Qc.
Proof. intros n m H Hn Hf. apply mi_maximum; auto. apply Hn. Qed.

(** Without and with the forecast: 70 and 77. *)
Definition blind : network xnum := built (net_new "umbrella" "" umb_vars
  [cpt "weather" [] [70#1; 30#1]; cpt "forecast" ["weather"] [70#1; 20#1; 10#1; 15#1; 25#1; 60#1];
   mkNFactor "umbrella" [] None [] 0; cpt "mood" ["weather"; "umbrella"] [20#1; 100#1; 70#1; 0#1]]).
Example C87_hypotheses : more_informed blind umb /\ decision_network blind /\ no_forgetting blind /\ decision_network umb /\ no_forgetting umb.
Proof.
  split.
  - constructor; [reflexivity|reflexivity|reflexivity|]. constructor; [split; [reflexivity|repeat split]|]. constructor; [split; [reflexivity|repeat split]|]. constructor; [split; [reflexivity|intros x []]|]. constructor; [split; [reflexivity|repeat split]|]. constructor.
  - split; [apply (decision_network_b_sound blind (fun x => position x ["weather"; "forecast"; "umbrella"])); vm_compute; reflexivity|]. split; [apply no_forgetting_b_sound; vm_compute; reflexivity|].
    split; [apply C65_one_hypotheses|apply no_forgetting_b_sound; vm_compute; reflexivity].
Qed.
Example C87_example : shown_values (net_solve_utility sched_id (fst (net_solve_policies sched_id blind true)) [] [] "" false) = Some [SFin (70#1)] /\
  shown_values (net_solve_utility sched_id (fst (net_solve_policies sched_id umb true)) [] [] "" false) = Some [SFin (77#1)].
Proof. split; vm_compute; reflexivity. Qed.

(** ** C88: units of utilities *)

(** Change all utilities from [x] to [a * x + b u] for a positive [a]. The maximum expected
    utility changes in the same way, and the policies found are also optimal for the old
    utilities. *)
Theorem C88_units : forall n m a b, rescaled a b n m -> (0 < a)%Qc -> decision_network n -> no_forgetting n -> decision_network m ->
  exists best, maximum_utility n best /\ maximum_utility m (a * best + shift n b)%Qc /\
    forall sc stepwise, exists m' tables, net_solve_policies sc m stepwise = (m', Ok tables) /\
      (forall d, In d (decisions n) -> policy_for n d (table_policy n tables d)) /\ expected_value n (table_policy n tables) = best.
Proof. intros n m a b H Ha Hn Hf Hm. apply rs_maximum; auto. Qed.

(** Costs and gains of the oil drilling in cents, with an extra of 5 for each. *)
Definition cents (q : Q) : xnum := Fin (qc (100#1) * qc q + qc (5#1))%Qc.
Definition oil_cents : network xnum := built (net_new "oil" "" oil_vars
  [cpt "oil" [] [70#1; 30#1]; cpt "report" ["oil"; "test"] [10#1; 90#1; 0#1; 0#1; 0#1; 1#1; 80#1; 20#1; 0#1; 0#1; 0#1; 1#1];
   mkNFactor "test" [] None [] 0; mkNFactor "drill" ["test"; "report"] None [] 0;
   mkNFactor "cost" ["test"] (Some (map cents [(-10)#1; 0#1])) [] 0; mkNFactor "gain" ["oil"; "drill"] (Some (map cents [(-70)#1; 0#1; 130#1; 0#1])) [] 0]).
Example C88_hypotheses : rescaled (qc (100#1)) (fun _ => qc (5#1)) oil oil_cents /\ (0 < qc (100#1))%Qc /\ decision_network oil_cents.
Proof.
  split; [|split; [reflexivity|apply (decision_network_b_sound oil_cents (fun x => position x ["oil"; "test"; "report"; "drill"])); vm_compute; reflexivity]].
  constructor; [reflexivity|reflexivity|reflexivity|].
  constructor; [split; [reflexivity|split; reflexivity]|]. constructor; [split; [reflexivity|split; reflexivity]|]. constructor; [split; [reflexivity|split; reflexivity]|]. constructor; [split; [reflexivity|split; reflexivity]|].
  constructor; [split; [reflexivity|split; [reflexivity|exists (map qc [(-10)#1; 0#1]); split; reflexivity]]|].
  constructor; [split; [reflexivity|split; [reflexivity|exists (map qc [(-70)#1; 0#1; 130#1; 0#1]); split; reflexivity]]|]. constructor.
Qed.
Example C88_example : shown_values (net_solve_utility sched_id (fst (net_solve_policies sched_id oil_cents true)) [] [] "" false) = Some [SFin (1640#1)].
Proof. vm_compute. reflexivity. Qed.

(** ** C89: a further variable that nothing depends on *)

(** Add a chance variable with a table, anywhere in the lists. As long as no other variable has it
    as a parent, all queries that do not mention it keep their answers. *)
Theorem C89_leaf : forall name info vars factors n name' info' vars' factors' n' v f, good_input vars factors -> good_input vars' factors' ->
  net_new name info vars factors = Ok n -> net_new name' info' vars' factors' = Ok n' ->
  Permutation vars' (v :: vars) -> Permutation factors' (f :: factors) -> nv_type v = Chance -> nf_for f = nv_name v ->
  (forall s, proper_state n' s -> row_sum (n_vars n') f s <> 0%Qc) -> complete n -> nonnegative n' ->
  forall sc sc' ig ev query, valid_observations n ev -> (forall q, In q query -> askable n (ignored_by ig ev) ev q) ->
    mass n (ignored_by ig ev) (agrees (n_vars n) ev) <> 0%Qc ->
    exists m res fac m' res' fac', net_solve_query sc n ev query ig = (m, Ok (res, fac)) /\ net_solve_query sc' n' ev query ig = (m', Ok (res', fac')) /\
      (forall q, In q query -> sget_map res q <> None) /\ forall q, sget_map res' q = sget_map res q.
Proof. exact leaf_api. Qed.

(** Slippery grass, listed in front. *)
Definition slip_var := node Chance "slippery" ["yes"; "no"].
Definition slip_factor := cpt "slippery" ["grass"] [7#10; 3#10; 0#1; 1#1].
Definition slip : network xnum := built (net_new "slip" "" (slip_var :: wet_vars) (slip_factor :: wet_factors)).
Example slip_wf : wf_network slip. Proof. apply network_b_sound. vm_compute. reflexivity. Qed.
Example slip_causal : causal slip (fun _ => false) [].
Proof. apply causal_b_sound with (rank := fun x => position x ["cloudy"; "sprinkler"; "rain"; "grass"; "slippery"]); [apply slip_wf|]. vm_compute. reflexivity. Qed.
Example C89_hypotheses : good_input (slip_var :: wet_vars) (slip_factor :: wet_factors) /\ net_new "slip" "" (slip_var :: wet_vars) (slip_factor :: wet_factors) = Ok slip /\
  nonnegative slip /\ forall s, proper_state slip s -> row_sum (n_vars slip) slip_factor s <> 0%Qc.
Proof.
  split; [apply input_b_sound; vm_compute; reflexivity|]. split; [reflexivity|]. split; [apply nonnegative_b_sound; vm_compute; reflexivity|].
  intros s Hs. exact (ca_rows _ _ _ slip_causal (linked_factor (slip_var :: wet_vars) slip_factor) s (or_introl eq_refl) Hs).
Qed.
Example C89_example : shown_answer (net_solve_query sched_id slip [("grass", "wet")] ["rain"] false) = Some [("rain", [SFin (509#719); SFin (210#719)])].
Proof. vm_compute. reflexivity. Qed.

(** ** C90: known parents *)

(** If all parents of a chance variable are observed, and nothing that depends on it, then the
    answer for the variable is the row of its table for the observed parents. Other evidence does
    not change it. *)
Theorem C90_row : forall n sc ig ev f s free, wf_network n -> complete n -> nonnegative n -> causal n (ignored_by ig ev) free -> incl free (map fst ev) ->
  valid_observations n ev -> mass n (ignored_by ig ev) (agrees (n_vars n) ev) <> 0%Qc ->
  In f (chance_factors n) -> ~ In (nf_for f) (map fst ev) -> incl (nf_given f) (map fst ev) ->
  (forall y, In y (map fst ev) -> ~ below n (ignored_by ig ev) (nf_for f) y) -> agrees (n_vars n) ev s = true ->
  exists n' res fac, net_solve_query sc n ev [nf_for f] ig = (n', Ok (res, fac)) /\
    sget_map res (nf_for f) = Some (map (fun k => Fin (cond_prob (n_vars n) f (nupd s (nf_for f) k))) (seq 0 (num_outcomes (n_vars n) (nf_for f)))).
Proof.
  intros n sc ig ev f s free Hwf Hco Hnn Hca Hfree Hv Hm Hf Hnq Hg Hb Hs. destruct (chance_var n f Hwf Hf) as (v & Hin & Ht & E). rewrite <- E in *.
  destruct (markov_api n sc ig ev v s free) as (n' & res & fac & R & Hr); auto; [congruence|rewrite E, (chance_parents n _ free f Hwf Hca Hf); auto|]. exists n', res, fac. split; auto. rewrite Hr. unfold num_outcomes.
  rewrite (var_named_in' _ v (wn_names n Hwf) Hin). f_equal. apply map_ext. intros k. f_equal. rewrite E. apply (conditional_table n (ignored_by ig ev) free Hca). auto.
Qed.

(** The same for every variable, including decisions that follow a stored policy. *)
Theorem C90_markov : forall n sc ig ev v s free, wf_network n -> complete n -> nonnegative n -> causal n (ignored_by ig ev) free -> incl free (map fst ev) ->
  valid_observations n ev -> mass n (ignored_by ig ev) (agrees (n_vars n) ev) <> 0%Qc ->
  In v (n_vars n) -> nv_type v <> Utility -> ~ In (nv_name v) (map fst ev) ->
  incl (parents_of n (ignored_by ig ev) (nv_name v)) (map fst ev) -> (forall y, In y (map fst ev) -> ~ below n (ignored_by ig ev) (nv_name v) y) ->
  agrees (n_vars n) ev s = true ->
  exists n' res f, net_solve_query sc n ev [nv_name v] ig = (n', Ok (res, f)) /\
    sget_map res (nv_name v) = Some (map (fun k => Fin (conditional n (ignored_by ig ev) (nv_name v) (nupd s (nv_name v) k))) (seq 0 (List.length (nv_outcomes v)))).
Proof. exact markov_api. Qed.

Example C90_hypotheses : let ev := [("cloudy", "yes"); ("rain", "yes")] in let f := linked_factor wet_vars (cpt "sprinkler" ["cloudy"] [1#10; 9#10; 1#2; 1#2]) in
  valid_observations wet ev /\ mass wet (ignored_by false ev) (agrees (n_vars wet) ev) <> 0%Qc /\ In f (chance_factors wet) /\ ~ In (nf_for f) (map fst ev) /\ incl (nf_given f) (map fst ev) /\
  (forall y, In y (map fst ev) -> ~ below wet (ignored_by false ev) (nf_for f) y) /\ agrees (n_vars wet) ev nowhere = true.
Proof.
  cbn zeta. split; [apply observations_b_sound; vm_compute; reflexivity|]. split; [apply qeq_false; vm_compute; reflexivity|]. split; [right; left; reflexivity|].
  split; [intros [H|[H|[]]]; discriminate H|]. split; [intros x [<-|[]]; left; reflexivity|]. split; [|vm_compute; reflexivity].
  apply (not_below_b wet _ ["cloudy"; "rain"]). vm_compute. reflexivity.
Qed.
(** With wet grass, which depends on the sprinkler, the answer is another one. *)
Example C90_example : shown_answer (net_solve_query sched_id wet [("cloudy", "yes"); ("rain", "yes")] ["sprinkler"] false) = Some [("sprinkler", [SFin (1#10); SFin (9#10)])] /\
  shown_answer (net_solve_query sched_id wet [("cloudy", "yes"); ("grass", "wet")] ["sprinkler"] false) = Some [("sprinkler", [SFin (3#23); SFin (20#23)])].
Proof. split; vm_compute; reflexivity. Qed.
(** A decision that follows its policy: take the umbrella if the forecast is rainy. *)
Example C90_policy_hypotheses : let ev := [("forecast", "rainy"); ("weather", "sunny")] in let v := node Decision "umbrella" ["take"; "leave"] in
  causal umb_solved (ignored_by false ev) [] /\ valid_observations umb_solved ev /\ mass umb_solved (ignored_by false ev) (agrees (n_vars umb_solved) ev) <> 0%Qc /\
  incl (parents_of umb_solved (ignored_by false ev) "umbrella") (map fst ev) /\ forall y, In y (map fst ev) -> ~ below umb_solved (ignored_by false ev) "umbrella" y.
Proof.
  cbn zeta. split; [apply causal_b_sound with (rank := fun x => position x ["weather"; "forecast"; "umbrella"]); [apply umb_solved_wf|]; vm_compute; reflexivity|].
  split; [apply observations_b_sound; vm_compute; reflexivity|]. split; [apply qeq_false; vm_compute; reflexivity|]. split.
  - assert (E : parents_of umb_solved (ignored_by false [("forecast", "rainy"); ("weather", "sunny")]) "umbrella" = ["forecast"]) by (vm_compute; reflexivity). rewrite E. intros x [<-|[]]. left. reflexivity.
  - apply (not_below_b umb_solved _ ["forecast"; "weather"]). vm_compute. reflexivity.
Qed.
Example C90_policy_example : shown_answer (net_solve_query sched_id umb_solved [("forecast", "rainy"); ("weather", "sunny")] ["umbrella"] false) = Some [("umbrella", [SFin (1#1); SFin (0#1)])].
Proof. vm_compute. reflexivity. Qed.

(** ** C91: irrelevant evidence *)

(** If the given evidence separates a variable from others, evidence on the others does not change
    the answer for the variable. *)
Theorem C91_separation : forall n sc sc' ev more v free, wf_network n -> complete n -> nonnegative n -> causal n (fun _ => false) free -> incl free (map fst ev) ->
  valid_observations n (more ++ ev) -> mass n (fun _ => false) (agrees (n_vars n) (more ++ ev)) <> 0%Qc ->
  In v (n_vars n) -> nv_type v <> Utility -> ~ In (nv_name v) (map fst (more ++ ev)) -> separated n (fun _ => false) (nv_name v) (map fst more) (map fst ev) ->
  exists n1 res f n1' res' f', net_solve_query sc n ev [nv_name v] false = (n1, Ok (res, f)) /\ net_solve_query sc' n (more ++ ev) [nv_name v] false = (n1', Ok (res', f')) /\
    sget_map res (nv_name v) <> None /\ forall q, sget_map res' q = sget_map res q.
Proof. exact separation_api. Qed.

(** Sprinkler and rain are separated by the clouds. *)
Example C91_hypotheses : valid_observations wet ([("rain", "no")] ++ [("cloudy", "yes")]) /\
  mass wet (fun _ => false) (agrees (n_vars wet) ([("rain", "no")] ++ [("cloudy", "yes")])) <> 0%Qc /\ separated wet (fun _ => false) "sprinkler" ["rain"] ["cloudy"].
Proof.
  split; [apply observations_b_sound; vm_compute; reflexivity|]. split; [apply qeq_false; vm_compute; reflexivity|].
  apply (separated_b_sound wet _ (fun x => String.eqb x "sprinkler") ["sprinkler"; "rain"; "cloudy"]). vm_compute. reflexivity.
Qed.
(** Wet grass links them again: with it the rain matters for the sprinkler. *)
Example C91_example : shown_answer (net_solve_query sched_id wet [("cloudy", "yes")] ["sprinkler"] false) = Some [("sprinkler", [SFin (1#10); SFin (9#10)])] /\
  shown_answer (net_solve_query sched_id wet [("rain", "no"); ("cloudy", "yes")] ["sprinkler"] false) = Some [("sprinkler", [SFin (1#10); SFin (9#10)])] /\
  shown_answer (net_solve_query sched_id wet [("rain", "no"); ("cloudy", "yes"); ("grass", "wet")] ["sprinkler"] false) = Some [("sprinkler", [SFin (1#1); SFin (0#1)])].
Proof. split; [|split]; vm_compute; reflexivity. Qed.

Print Assumptions C86_queries.
Print Assumptions C86_utility.
Print Assumptions C87_information.
Print Assumptions C88_units.
Print Assumptions C89_leaf.
Print Assumptions C90_row.
Print Assumptions C90_markov.
Print Assumptions C91_separation.
