(** Property C129: options that are always worse than another one (network.go: SolvePolicies).
    The vocabulary is in SpecNet.v, SpecNetPolicy.v and SpecDominated.v. *)
From Coq Require Import ZArith List Bool String Lia Permutation QArith Qcanon.
From Verif Require Import Num GoBase VarModel SpecFactor XnumFacts VEModel SpecVE NetModel SpecNet NetNew NetCheck SpecNetPolicy SpecGraph SpecOptions NetReorder NetOptions
  NetPolicyThms NetUnused SpecDominated NetDominated NetStrict Props_VE Props_Net Props_Policy Props_Options Props_Unused Props_Dominated.
Import ListNotations.
Open Scope string_scope.
Open Scope list_scope.
Open Scope Z_scope.

(** ** C129: an option that is always worse than another one is not recommended *)

(** [ev] is a situation in which the last decision [d] can be: an outcome for each node it observes,
    and it has a positive probability. Then the returned policy gives probability zero to every
    option that is strictly dominated. *)
Theorem C129_strict : forall sc n stepwise, decision_network n -> no_forgetting n ->
  exists n' tables, net_solve_policies sc n stepwise = (n', Ok tables) /\
    forall d v ev k k0 ok f s, last_decision n d -> var_named (n_vars n) d = Some v -> nv_type v = Decision ->
      nth_error (nv_outcomes v) k = Some ok -> (k0 < List.length (nv_outcomes v))%nat -> strictly_dominated n d k k0 ->
      valid_observations n ev -> (forall x, In x (map fst ev) <-> In x (observed_by n d)) ->
      table_mass n tables (ignored_by true (ev ++ [(d, ok)])) (agrees (n_vars n) (ev ++ [(d, ok)])) <> 0%Qc ->
      sget_map tables d = Some f -> proper_state n s -> agrees (n_vars n) (ev ++ [(d, ok)]) s = true -> entry (n_vars n) f s = 0%Qc.
Proof.
  intros sc n stepwise Hdn Hnf. destruct (solve_policies_ok sc n stepwise Hdn Hnf) as (n' & tables & E & Hs). exists n', tables. split; [exact E|].
  intros d v ev k k0 ok f s Hl Ev Ht Hk Hk0 [H1 H2]. eapply (strictly_unused n n' tables Hs Hnf); eauto.
Qed.

(** With a rainy forecast, taking the leaking umbrella is always worse than taking the other one. *)
Definition soaked : nstate := nupd (nupd nowhere "forecast" 2) "umbrella" 2.
Definition leak_policy : nfactor xnum := match sget_map leak_tables "umbrella" with Some f => f | None => cpt "" [] [] end.
Lemma leak_last : last_decision leak "umbrella".
Proof. exact (proj1 (proj2 (proj2 (proj2 (proj2 C128_hypotheses))))). Qed.
Example C129_hypotheses : let ev := [("forecast", "rainy")] in decision_network leak /\ no_forgetting leak /\ last_decision leak "umbrella" /\
  (exists v, var_named (n_vars leak) "umbrella" = Some v /\ nv_type v = Decision /\ nth_error (nv_outcomes v) 2 = Some "leaking" /\ (0 < List.length (nv_outcomes v))%nat) /\
  strictly_dominated leak "umbrella" 2 0 /\ valid_observations leak ev /\ (forall x, In x (map fst ev) <-> In x (observed_by leak "umbrella")) /\
  table_mass leak leak_tables (ignored_by true (ev ++ [("umbrella", "leaking")])) (agrees (n_vars leak) (ev ++ [("umbrella", "leaking")])) <> 0%Qc /\
  proper_state leak soaked /\ agrees (n_vars leak) (ev ++ [("umbrella", "leaking")]) soaked = true.
Proof.
  cbn zeta. destruct C128_hypotheses as (H1 & _ & H3 & H4 & H5 & _). split; [exact H4|]. split; [exact (mo_forgetting umb leak H1 H3)|]. split; [exact H5|].
  split. { eexists. split; [reflexivity|]. split; [reflexivity|]. split; [reflexivity|cbn; lia]. }
  split.
  { split.
    - intros s f Hs Hf. destruct Hf as [<-|[<-|[]]]; reflexivity.
    - intros s Hs. pose proof (Hs _ (or_introl eq_refl)) as W. pose proof (Hs _ (or_intror (or_intror (or_intror (or_introl eq_refl))))) as M. change (s "weather" < 2)%nat in W. change (s "mood" < 1)%nat in M.
      set (t := fun k x => if String.eqb x "umbrella" then k else if String.eqb x "weather" then s "weather" else if String.eqb x "mood" then s "mood" else s x).
      assert (E : forall k, utility_of leak (nupd s "umbrella" k) = utility_of leak (t k)).
      { intros k. apply NetChange.utility_looks. intros y. unfold t, nupd. destruct (String.eqb_spec y "umbrella"); auto. destruct (String.eqb_spec y "weather"); [subst; auto|]. destruct (String.eqb_spec y "mood"); subst; auto. }
      rewrite !E. unfold t. few (s "weather"); few (s "mood"); vm_compute; reflexivity. }
  split; [apply observations_b_sound; vm_compute; reflexivity|]. split.
  { assert (E : observed_by leak "umbrella" = ["forecast"]) by (vm_compute; reflexivity). rewrite E. cbn. tauto. }
  split; [apply qeq_false; vm_compute; reflexivity|]. split; [|vm_compute; reflexivity].
  intros v Hv. repeat (destruct Hv as [<-|Hv]; [vm_compute; lia|]). destruct Hv.
Qed.
Example C129_example : qeq (entry (n_vars leak) leak_policy soaked) 0%Qc = true.
Proof. vm_compute. reflexivity. Qed.

(** The condition on the probability is needed: in situations that cannot happen, all options are
    equally good for SolvePolicies, and it recommends the leaking umbrella like the others. *)
Definition clear_factors := [cpt "weather" [] [70#1; 30#1]; cpt "forecast" ["weather"] [70#1; 0#1; 10#1; 15#1; 0#1; 60#1];
  mkNFactor "umbrella" ["forecast"] None [] 0; cpt "mood" ["weather"; "umbrella"] [20#1; 100#1; 10#1; 70#1; 0#1; 5#1]].
Definition clear : network xnum := built (net_new "umbrella" "" leak_vars clear_factors).
Definition clear_tables := match snd (net_solve_policies sched_id clear true) with Ok t => t | _ => [] end.
Definition clear_policy : nfactor xnum := match sget_map clear_tables "umbrella" with Some f => f | None => cpt "" [] [] end.
Definition cloudy : nstate := nupd (nupd nowhere "forecast" 1) "umbrella" 2.
Example C129_needed : let ev := [("forecast", "cloudy")] in decision_network clear /\ no_forgetting clear /\ last_decision clear "umbrella" /\
  strictly_dominated clear "umbrella" 2 0 /\ agrees (n_vars clear) (ev ++ [("umbrella", "leaking")]) cloudy = true /\
  xshow (Fin (entry (n_vars clear) clear_policy cloudy)) = SFin (1#3).
Proof.
  cbn zeta. split; [apply (decision_network_b_sound clear (fun x => position x ["weather"; "forecast"; "umbrella"])); vm_compute; reflexivity|].
  split; [apply no_forgetting_b_sound; vm_compute; reflexivity|]. split.
  { split; [left; reflexivity|]. intros e [He|[]] Hne. exfalso. apply Hne. rewrite <- He. reflexivity. }
  split; [|split; vm_compute; reflexivity]. split.
  - intros s f Hs Hf. destruct Hf as [<-|[<-|[]]]; reflexivity.
  - intros s Hs. pose proof (Hs _ (or_introl eq_refl)) as W. pose proof (Hs _ (or_intror (or_intror (or_intror (or_introl eq_refl))))) as M. change (s "weather" < 2)%nat in W. change (s "mood" < 1)%nat in M.
    set (t := fun k x => if String.eqb x "umbrella" then k else if String.eqb x "weather" then s "weather" else if String.eqb x "mood" then s "mood" else s x).
    assert (E : forall k, utility_of clear (nupd s "umbrella" k) = utility_of clear (t k)).
    { intros k. apply NetChange.utility_looks. intros y. unfold t, nupd. destruct (String.eqb_spec y "umbrella"); auto. destruct (String.eqb_spec y "weather"); [subst; auto|]. destruct (String.eqb_spec y "mood"); subst; auto. }
    rewrite !E. unfold t. few (s "weather"); few (s "mood"); vm_compute; reflexivity.
Qed.

Print Assumptions C129_strict.
