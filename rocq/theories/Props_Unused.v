(** Property C126: options that are never recommended (network.go: SolvePolicies, SolveUtility).
    The vocabulary is in SpecNet.v, SpecNetPolicy.v, SpecGraph.v and SpecOptions.v. *)
From Coq Require Import ZArith List Bool String Lia Permutation QArith Qcanon.
From Verif Require Import Num GoBase VarModel SpecFactor XnumFacts VEModel SpecVE NetModel SpecNet NetNew NetCheck SpecNetPolicy SpecGraph SpecOptions NetReorder NetOptions
  NetPolicyThms NetUnused Props_VE Props_Net Props_Policy Props_Options.
Import ListNotations.
Open Scope string_scope.
Open Scope list_scope.
Open Scope Z_scope.

(** ** C126: an option that is never recommended can be removed *)

(** [m] has further options of decisions, as in C107. If the policies returned for [m] choose none
    of the further options in any situation, the networks have the same maximum expected utility:
    nothing is lost by removing the options. *)
Theorem C126_unused : forall n m sc stepwise m' tables, more_options n m -> decision_network n -> no_forgetting n -> decision_network m ->
  net_solve_policies sc m stepwise = (m', Ok tables) ->
  (forall d s, In d (decisions n) -> proper_state m s -> (num_outcomes (n_vars n) d <= s d)%nat -> table_policy m tables d s = 0%Qc) ->
  exists b, maximum_utility n b /\ maximum_utility m b.
Proof. exact unused_maximum. Qed.

(** So if further options raise the maximum, then not all policies returned for [m] do without them. *)
Theorem C126_used : forall n m sc stepwise b b', more_options n m -> decision_network n -> no_forgetting n -> decision_network m ->
  maximum_utility n b -> maximum_utility m b' -> b <> b' ->
  exists m' tables, net_solve_policies sc m stepwise = (m', Ok tables) /\
    ~ (forall d s, In d (decisions n) -> proper_state m s -> (num_outcomes (n_vars n) d <= s d)%nat -> table_policy m tables d s = 0%Qc).
Proof.
  intros n m sc stepwise b b' H Hn Hf Hm Hb Hb' Hne. destruct (Hb' sc stepwise) as (m' & t & E & _). exists m', t. split; auto. intros K.
  destruct (unused_maximum n m sc stepwise m' t H Hn Hf Hm E K) as (c & Hc & Hc'). apply Hne. rewrite (maximum_unique _ _ _ Hb Hc). apply (maximum_unique m); auto.
Qed.

(** A leaking umbrella is of no use. *)
Definition leak_vars := [node Chance "weather" ["sunny"; "rainy"]; node Chance "forecast" ["sunny"; "cloudy"; "rainy"];
  node Decision "umbrella" ["take"; "leave"; "leaking"]; node Utility "mood" ["value"]].
Definition leak_factors := [cpt "weather" [] [70#1; 30#1]; cpt "forecast" ["weather"] [70#1; 20#1; 10#1; 15#1; 25#1; 60#1];
  mkNFactor "umbrella" ["forecast"] None [] 0; cpt "mood" ["weather"; "umbrella"] [20#1; 100#1; 10#1; 70#1; 0#1; 5#1]].
Definition leak : network xnum := built (net_new "umbrella" "" leak_vars leak_factors).
Definition leak_tables := match snd (net_solve_policies sched_id leak true) with Ok t => t | _ => [] end.

Example C126_hypotheses : more_options umb leak /\ decision_network umb /\ no_forgetting umb /\ decision_network leak /\
  net_solve_policies sched_id leak true = (fst (net_solve_policies sched_id leak true), Ok leak_tables) /\
  (forall d s, In d (decisions umb) -> proper_state leak s -> (num_outcomes (n_vars umb) d <= s d)%nat -> table_policy leak leak_tables d s = 0%Qc).
Proof.
  assert (Hm : more_options umb leak).
  { constructor; [|reflexivity|reflexivity|].
    - repeat (constructor; [split; [reflexivity|split; [reflexivity|]]|]); [exists []|exists []|exists ["leaking"]|exists []|constructor]; (split; [reflexivity|]); intros H; try reflexivity. destruct H. reflexivity.
    - assert (L : forall s, proper_state umb s -> (s "weather" < 2)%nat /\ (s "forecast" < 3)%nat /\ (s "umbrella" < 2)%nat /\ (s "mood" < 1)%nat).
      { intros s Hs. pose proof (Hs _ (or_introl eq_refl)) as H1. pose proof (Hs _ (or_intror (or_introl eq_refl))) as H2. pose proof (Hs _ (or_intror (or_intror (or_introl eq_refl)))) as H3.
        pose proof (Hs _ (or_intror (or_intror (or_intror (or_introl eq_refl))))) as H4. auto. }
      repeat (constructor; [split; [reflexivity|split; [reflexivity|]]; intros _ Hd s Hs; destruct (L s Hs) as (W & F & U & M)|]); [..|constructor].
      + reflexivity.
      + reflexivity.
      + destruct Hd. reflexivity.
      + same_cells. change (num_outcomes (n_vars leak) "weather") with 2%nat. change (num_outcomes (n_vars umb) "weather") with 2%nat.
        change (num_outcomes (n_vars leak) "umbrella") with 3%nat. change (num_outcomes (n_vars umb) "umbrella") with 2%nat.
        change (num_outcomes (n_vars leak) "mood") with 1%nat. change (num_outcomes (n_vars umb) "mood") with 1%nat.
        few (s "weather"); few (s "umbrella"); few (s "mood"); reflexivity. }
  assert (Hu : decision_network umb) by apply C65_one_hypotheses.
  assert (Hf : no_forgetting umb) by (apply no_forgetting_b_sound; vm_compute; reflexivity).
  assert (Hl : decision_network leak) by (apply (decision_network_b_sound leak (fun x => position x ["weather"; "forecast"; "umbrella"])); vm_compute; reflexivity).
  split; [exact Hm|]. split; [exact Hu|]. split; [exact Hf|]. split; [exact Hl|].
  destruct (solve_policies_ok sched_id leak true Hl (mo_forgetting umb leak Hm Hf)) as (m' & t & E & Hs).
  assert (Et : leak_tables = t) by (unfold leak_tables; rewrite E; reflexivity). rewrite E. split; [rewrite Et; reflexivity|].
  intros d s Hd Hp Hle. destruct Hd as [Hd|[]]. change ("umbrella" = d) in Hd. subst d. change (num_outcomes (n_vars umb) "umbrella") with 2%nat in Hle.
  pose proof (Hp _ (or_intror (or_introl eq_refl))) as H2. pose proof (Hp _ (or_intror (or_intror (or_introl eq_refl)))) as H3.
  change (s "forecast" < 3)%nat in H2. change (s "umbrella" < 3)%nat in H3.
  transitivity (table_policy leak leak_tables "umbrella" (fun x => if String.eqb x "umbrella" then 2%nat else s "forecast")).
  - rewrite Et. apply (pf_observed _ _ _ (table_policy_for leak m' t Hs "umbrella" (or_introl eq_refl))). intros x [H|H]; [subst x; simpl; lia|].
    change (In x ["forecast"]) in H. destruct H as [<-|[]]. reflexivity.
  - few (s "forecast"); apply qeq_spec; vm_compute; reflexivity.
Qed.
(** 77 with and without the leaking umbrella. *)
Example C126_example : shown_values (net_solve_utility sched_id (fst (net_solve_policies sched_id umb true)) [] [] "" false) = Some [SFin (77#1)] /\
  shown_values (net_solve_utility sched_id (fst (net_solve_policies sched_id leak true)) [] [] "" false) = Some [SFin (77#1)].
Proof. split; vm_compute; reflexivity. Qed.

Print Assumptions C126_unused.
Print Assumptions C126_used.
