(** Properties C111 and C112: only the joint distribution matters, and reversing an arc
    (network.go: SolveQuery, SolvePolicies, SolveUtility). The vocabulary is in SpecNet.v,
    SpecNetPolicy.v, SpecGraph.v and SpecSame.v. *)
From Coq Require Import ZArith List Bool String Lia Permutation QArith Qcanon.
From Verif Require Import Num GoBase VarModel SpecFactor XnumFacts VEModel SpecVE NetModel SpecNet NetNew NetCheck NetQuery NetCor SpecNetPolicy SpecGraph SpecSame NetSame NetPolicyThms
  Props_VE Props_Net Props_Policy.
Import ListNotations.
Open Scope string_scope.
Open Scope list_scope.
Open Scope Z_scope.

(** ** C111: only the joint distribution matters *)

(** If the product of all tables is the same function of the states in both networks, up to a
    constant, both give the same answers to every query, for possible and impossible evidence. *)
Theorem C111_same_answers : forall n n' sc sc' ig ev query, proportional n n' -> wf_network n -> wf_network n' -> complete n -> complete n' -> nonnegative n -> nonnegative n' ->
  valid_observations n ev -> (forall q, In q query -> askable n (ignored_by ig ev) ev q /\ askable n' (ignored_by ig ev) ev q) ->
  exists n1 res f n1' res' f', net_solve_query sc n ev query ig = (n1, Ok (res, f)) /\ net_solve_query sc' n' ev query ig = (n1', Ok (res', f')) /\
    forall q, (In q query -> sget_map res q <> None) /\ sget_map res' q = sget_map res q.
Proof.
  intros n n' sc sc' ig ev query Hp Hwf Hwf' Hco Hco' Hnn Hnn' Hv Hask.
  assert (Hv' : valid_observations n' ev) by (unfold valid_observations in *; rewrite (proj1 Hp); auto).
  destruct (query_exact n Hwf sc ig ev query Hco Hv (fun q Hq => proj1 (Hask q Hq))) as (n1 & res & f & E & Hs).
  destruct (query_exact n' Hwf' sc' ig ev query Hco' Hv' (fun q Hq => proj2 (Hask q Hq))) as (n1' & res' & f' & E' & Hs').
  exists n1, res, f, n1', res', f'. split; auto. split; auto. intros q.
  destruct (in_dec string_dec q query) as [Hq|Hq].
  2:{ split; [tauto|]. rewrite (proj2 (Hs q) Hq), (proj2 (Hs' q) Hq). auto. }
  destruct (proj1 (Hs q) Hq) as (l & El & D1 & D2). destruct (proj1 (Hs' q) Hq) as (l' & El' & D1' & D2'). split; [congruence|]. rewrite El, El'. f_equal.
  rewrite (proj1 Hp) in D1', D2'. destruct (Qc_eq_dec (mass n (ignored_by ig ev) (agrees (n_vars n) ev)) 0%Qc) as [Z|Z].
  - rewrite D2, D2'; auto. rewrite <- (proj1 Hp). apply (pr_impossible n n' Hp Hwf). auto.
  - rewrite D1, D1'; auto.
    + apply map_ext. intros k. f_equal. apply (pr_posterior n n' Hp Hwf).
    + rewrite <- (proj1 Hp). intros Z'. apply Z. apply (pr_impossible n n' Hp Hwf). auto.
Qed.

(** ** C112: reversing an arc *)

(** Reversing an arc does not change the joint distribution, so no answer and no maximum expected utility. *)
Theorem C112_reversed : forall x y n n', reversed_arc x y n n' -> wf_network n -> nonnegative n ->
  (forall f s, In f (chance_factors n) -> proper_state n s -> row_sum (n_vars n) f s <> 0%Qc) -> proportional n n'.
Proof. intros x y n n' Hr Hwf Hnn Hrow. apply (reversed_proportional x y); auto. apply Hnn. Qed.
Theorem C112_answers : forall x y n n' sc sc' ig ev query, reversed_arc x y n n' -> wf_network n -> wf_network n' -> complete n -> complete n' -> nonnegative n -> nonnegative n' ->
  (forall f s, In f (chance_factors n) -> proper_state n s -> row_sum (n_vars n) f s <> 0%Qc) ->
  valid_observations n ev -> (forall q, In q query -> askable n (ignored_by ig ev) ev q /\ askable n' (ignored_by ig ev) ev q) ->
  exists n1 res f n1' res' f', net_solve_query sc n ev query ig = (n1, Ok (res, f)) /\ net_solve_query sc' n' ev query ig = (n1', Ok (res', f')) /\
    forall q, (In q query -> sget_map res q <> None) /\ sget_map res' q = sget_map res q.
Proof. intros. apply C111_same_answers; auto. eapply C112_reversed; eauto. Qed.
Theorem C112_maximum : forall x y n n', reversed_arc x y n n' -> decision_network n -> decision_network n' -> no_forgetting n ->
  exists b, maximum_utility n b /\ maximum_utility n' b.
Proof. exact reversed_maximum. Qed.

(** The sprinkler explains the rain instead of the rain the sprinkler. *)
Definition spr_turned : network xnum := built (net_new "sprinkler" "" spr_vars [cpt "rain" ["sprinkler"] [1#500; 8#25; 99#500; 12#25]; cpt "sprinkler" [] [161#500; 339#500]; nth 2 spr_factors (cpt "" [] [])]).
Ltac two_variables s a b := repeat match goal with |- context [cond_prob ?v ?f s] => change (cond_prob v f s) with (cond_prob v f (fun z => if String.eqb z a then s a else s b)) end;
  repeat match goal with |- context [entry ?v ?f s] => change (entry v f s) with (entry v f (fun z => if String.eqb z a then s a else s b)) end.
Lemma spr_reversed : reversed_arc "rain" "sprinkler" spr spr_turned.
Proof.
  constructor; [discriminate|vm_compute; reflexivity|vm_compute; reflexivity|vm_compute; reflexivity|intros u; reflexivity|split; reflexivity|].
  exists (nth 0 (n_factors spr) (cpt "" [] [])), (nth 1 (n_factors spr) (cpt "" [] [])), (nth 0 (n_factors spr_turned) (cpt "" [] [])), (nth 1 (n_factors spr_turned) (cpt "" [] [])), [nth 2 (n_factors spr) (cpt "" [] [])].
  split; [apply Permutation_refl|]. split; [apply Permutation_refl|]. repeat (split; [reflexivity|]). split; [intros []|].
  intros s Hs. assert (L1 : (s "rain" < 2)%nat) by (apply (Hs _ (or_introl eq_refl))). assert (L2 : (s "sprinkler" < 2)%nat) by (apply (Hs _ (or_intror (or_introl eq_refl)))).
  split.
  - two_variables s "rain" "sprinkler". destruct (s "rain") as [|[|]]; destruct (s "sprinkler") as [|[|]]; try lia; apply qeq_spec; vm_compute; reflexivity.
  - match goal with |- ?a = qsum (map ?F ?l) => change (a = qsum (map (fun k => cond_prob (n_vars spr) (nth 0 (n_factors spr) (cpt "" [] [])) (fun z => if String.eqb z "rain" then k else s "sprinkler") *
        cond_prob (n_vars spr) (nth 1 (n_factors spr) (cpt "" [] [])) (fun z => if String.eqb z "rain" then k else s "sprinkler"))%Qc l)) end.
    two_variables s "rain" "sprinkler". destruct (s "rain") as [|[|]]; destruct (s "sprinkler") as [|[|]]; try lia; apply qeq_spec; vm_compute; reflexivity.
Qed.
Example C112_hypotheses : reversed_arc "rain" "sprinkler" spr spr_turned /\ (wf_network spr /\ wf_network spr_turned) /\ (complete spr /\ complete spr_turned) /\ (nonnegative spr /\ nonnegative spr_turned) /\
  (causal spr (fun _ => false) [] /\ causal spr_turned (fun _ => false) []) /\ valid_observations spr [("grass", "wet")] /\
  (forall q, In q ["rain"; "sprinkler"] -> askable spr (ignored_by false [("grass", "wet")]) [("grass", "wet")] q /\ askable spr_turned (ignored_by false [("grass", "wet")]) [("grass", "wet")] q).
Proof.
  assert (W1 : wf_network spr) by (apply network_b_sound; vm_compute; reflexivity). assert (W2 : wf_network spr_turned) by (apply network_b_sound; vm_compute; reflexivity).
  split; [exact spr_reversed|]. split; [split; assumption|]. split; [split; apply complete_b_sound; vm_compute; reflexivity|]. split; [split; apply nonnegative_b_sound; vm_compute; reflexivity|].
  split.
  { split; [apply (causal_b_sound _ _ _ (fun x => position x ["rain"; "sprinkler"; "grass"]))|apply (causal_b_sound _ _ _ (fun x => position x ["sprinkler"; "rain"; "grass"]))]; try assumption; vm_compute; reflexivity. }
  split; [apply observations_b_sound; vm_compute; reflexivity|].
  intros q Hq. split; apply askable_b_sound; destruct Hq as [<-|[<-|[]]]; vm_compute; reflexivity.
Qed.
Example C112_example : shown_answer (net_solve_query sched_id spr [("grass", "wet")] ["rain"] false) = Some [("rain", [SFin (891#2491); SFin (1600#2491)])] /\
  shown_answer (net_solve_query sched_id spr_turned [("grass", "wet")] ["rain"] false) = Some [("rain", [SFin (891#2491); SFin (1600#2491)])].
Proof. split; vm_compute; reflexivity. Qed.

(** The forecast explains the weather. *)
Definition umb_turned : network xnum := built (net_new "umbrella" "" umb_vars (cpt "weather" ["forecast"] [49#100; 9#200; 7#50; 3#40; 7#100; 9#50] :: cpt "forecast" [] [107#200; 43#200; 1#4] :: tl (tl umb_factors))).
Example C112_maximum_hypotheses : reversed_arc "weather" "forecast" umb umb_turned /\ decision_network umb /\ decision_network umb_turned /\ no_forgetting umb.
Proof.
  split; [|split; [apply (decision_network_b_sound _ (fun x => position x ["weather"; "forecast"; "umbrella"])); vm_compute; reflexivity|split; [apply (decision_network_b_sound _ (fun x => position x ["forecast"; "weather"; "umbrella"])); vm_compute; reflexivity|apply no_forgetting_b_sound; vm_compute; reflexivity]]].
  constructor; [discriminate|vm_compute; reflexivity|vm_compute; reflexivity|vm_compute; reflexivity|intros u; reflexivity|split; reflexivity|].
  exists (nth 0 (n_factors umb) (cpt "" [] [])), (nth 1 (n_factors umb) (cpt "" [] [])), (nth 0 (n_factors umb_turned) (cpt "" [] [])), (nth 1 (n_factors umb_turned) (cpt "" [] [])), (tl (tl (n_factors umb))).
  split; [apply Permutation_refl|]. split; [apply Permutation_refl|]. repeat (split; [reflexivity|]). split; [intros []|].
  intros s Hs. assert (L1 : (s "weather" < 2)%nat) by (apply (Hs _ (or_introl eq_refl))). assert (L2 : (s "forecast" < 3)%nat) by (apply (Hs _ (or_intror (or_introl eq_refl)))).
  split.
  - two_variables s "weather" "forecast". destruct (s "weather") as [|[|]]; destruct (s "forecast") as [|[|[|]]]; try lia; apply qeq_spec; vm_compute; reflexivity.
  - match goal with |- ?a = qsum (map ?F ?l) => change (a = qsum (map (fun k => cond_prob (n_vars umb) (nth 0 (n_factors umb) (cpt "" [] [])) (fun z => if String.eqb z "weather" then k else s "forecast") *
        cond_prob (n_vars umb) (nth 1 (n_factors umb) (cpt "" [] [])) (fun z => if String.eqb z "weather" then k else s "forecast"))%Qc l)) end.
    two_variables s "weather" "forecast". destruct (s "weather") as [|[|]]; destruct (s "forecast") as [|[|[|]]]; try lia; apply qeq_spec; vm_compute; reflexivity.
Qed.
Example C112_maximum_example : shown_values (net_solve_utility sched_id (fst (net_solve_policies sched_id umb true)) [] [] "" false) = Some [SFin (77#1)] /\
  shown_values (net_solve_utility sched_id (fst (net_solve_policies sched_id umb_turned true)) [] [] "" false) = Some [SFin (77#1)].
Proof. split; vm_compute; reflexivity. Qed.

Print Assumptions C111_same_answers.
Print Assumptions C112_reversed.
Print Assumptions C112_answers.
Print Assumptions C112_maximum.
