(** Property C106: what a network is written in does not matter (network.go: New, SolveQuery,
    SolvePolicies, SolveUtility). The vocabulary is in SpecNet.v, SpecNetPolicy.v, SpecGraph.v
    and SpecRewrite.v. *)
From Coq Require Import ZArith List Bool String Lia Permutation QArith Qcanon.
From Verif Require Import Num GoBase VarModel SpecFactor XnumFacts VEModel SpecVE NetModel SpecNet NetNew NetCheck SpecNetPolicy SpecGraph SpecRewrite NetRewrite NetChange
  NetPolicyThms NetQuery Props_VE Props_Net Props_Policy.
Import ListNotations.
Open Scope string_scope.
Open Scope list_scope.
Open Scope Z_scope.

(** ** C106: names and orders do not matter *)

(** Let [n'] be [n] in other words: other names of nodes and outcomes, nodes, tables, parents and
    outcomes in other orders. Every query that has an answer for [n] has the same answer, in other
    words, for [n']. *)
Theorem C106_queries : forall D n n', rewritten D n n' -> wf_network n -> wf_network n' -> complete n -> nonnegative n -> nonnegative n' ->
  forall sc sc' ig ig' ev query, valid_observations n ev -> (forall q, In q query -> askable n (ignored_by ig ev) ev q) ->
    mass n (ignored_by ig ev) (agrees (n_vars n) ev) <> 0%Qc ->
    exists m res f m' res' f', net_solve_query sc n ev query ig = (m, Ok (res, f)) /\
      net_solve_query sc' n' (translate D ev) (map (to_name D) query) ig' = (m', Ok (res', f')) /\
      forall q v o, In q query -> var_named (n_vars n) q = Some v -> In o (nv_outcomes v) ->
        exists p, probability (n_vars n) res q o = Some p /\ probability (n_vars n') res' (to_name D q) (to_outcome D q o) = Some p.
Proof.
  intros D n n' Hrw Hwf Hwf' Hco Hnn Hnn' sc sc' ig ig' ev query Hv Hask Hm.
  destruct (C27_posterior n sc ig ev query) as (m & res & f & E & Hres & _); auto.
  destruct (C27_posterior n' sc' ig' (translate D ev) (map (to_name D) query)) as (m' & res' & f' & E' & Hres' & _); auto.
  - apply (complete_to D n n'); auto.
  - apply (observations_to D n n'); auto.
  - intros q Hq. apply in_map_iff in Hq. destruct Hq as (x & <- & Hx). apply (askable_to D n n' Hwf Hwf' Hrw (ignored_by ig ev)); auto.
  - rewrite <- (evidence_match D n n' Hwf Hwf' Hrw (ignored_by ig ev)); auto.
  - exists m, res, f, m', res', f'. split; [exact E|split; [exact E'|]]. intros q v o Hq Ev Ho.
    destruct (named_inv n q v Ev) as [Hv1 <-]. destruct (rw_node D n n' Hrw v Hv1) as (v' & Hv' & En).
    assert (Ho' : In (to_outcome D (nv_name v) o) (nv_outcomes v')) by (apply (Permutation_in _ (sn_outcomes _ _ _ En)); apply in_map; auto).
    assert (Ht : nv_type v <> Utility) by (destruct (Hask _ Hq) as ((w & Ew & Ht) & _); congruence).
    pose proof (nth_position _ _ Ho) as P1. pose proof (nth_position _ _ Ho') as P2.
    exists (Fin (posterior n (ignored_by ig ev) ev (nv_name v) (position o (nv_outcomes v)))).
    unfold probability. rewrite (Hres _ Hq), Ev, (Hres' (to_name D (nv_name v)) (in_map _ _ _ Hq)), (named_to D n n' Hwf' v v' Hv1 Hv' En).
    assert (K : forall (l : list string) (F : nat -> xnum) k, (k < List.length l)%nat -> nth_error (map F (seq 0 (List.length l))) k = Some (F k)).
    { intros l F k Hk. rewrite nth_error_map. rewrite (nth_error_nth' _ 0%nat) by (rewrite seq_length; auto). rewrite seq_nth by auto. reflexivity. }
    unfold num_outcomes. rewrite Ev, (named_to D n n' Hwf' v v' Hv1 Hv' En). rewrite !K by (apply nth_error_Some; congruence). split; [reflexivity|].
    rewrite (posterior_match D n n' Hwf Hwf' Hrw (ignored_by ig ev) (ignored_by ig' (translate D ev)) ev v v' _ _ o Hv Hv1 Ht Hv' En P1 P2). rewrite (sn_to _ _ _ En). reflexivity.
Qed.

(** The maximum expected utility is the same too. *)
Theorem C106_utility : forall D n n', rewritten D n n' -> decision_network n -> no_forgetting n -> decision_network n' ->
  exists b, maximum_utility n b /\ maximum_utility n' b.
Proof. intros D n n' H Hn Hf Hn'. apply (rewritten_maximum D); auto. Qed.

(** The umbrella network in German, nodes, tables, parents and outcomes in other orders. *)
Definition schirm_vars := [node Utility "Laune" ["Wert"]; node Decision "Schirm" ["daheim"; "mit"]; node Chance "Wetter" ["Regen"; "Sonne"];
  node Chance "Bericht" ["Regen"; "Wolken"; "Sonne"]].
Definition schirm_factors := [cpt "Laune" ["Schirm"; "Wetter"] [0#1; 100#1; 70#1; 20#1]; cpt "Bericht" ["Wetter"] [60#1; 25#1; 15#1; 10#1; 20#1; 70#1];
  mkNFactor "Schirm" ["Bericht"] None [] 0; cpt "Wetter" [] [30#1; 70#1]].
Definition schirm : network xnum := built (net_new "Schirm" "" schirm_vars schirm_factors).
Definition word (l : list (string * string)) (x : string) : string := match sget_map l x with Some y => y | None => x end.
Definition german_names := [("weather", "Wetter"); ("forecast", "Bericht"); ("umbrella", "Schirm"); ("mood", "Laune")].
Definition german_outcomes := [("sunny", "Sonne"); ("cloudy", "Wolken"); ("rainy", "Regen"); ("take", "mit"); ("leave", "daheim"); ("value", "Wert")].
Definition flip (p : string * string) : string * string := (snd p, fst p).
Definition german : dictionary :=
  mkDict (word german_names) (word (map flip german_names)) (fun _ => word german_outcomes) (fun _ => word (map flip german_outcomes)).


Lemma perm_nodes {X} (a b c d : X) : Permutation [c; d; b; a] [a; b; c; d].
Proof.
  apply perm_trans with (a :: [c; d; b]); [apply Permutation_sym, Permutation_cons_append|]. apply perm_skip.
  apply Permutation_sym. apply (Permutation_cons_append [c; d] b).
Qed.
Lemma perm_tables {X} (a b c d : X) : Permutation [d; b; c; a] [a; b; c; d].
Proof.
  apply perm_trans with (a :: [d; b; c]); [apply Permutation_sym, Permutation_cons_append|]. apply perm_skip. apply (Permutation_cons_append [b; c] d).
Qed.
(** The variable [x] with outcomes [l] in [umb] and [l'] in [schirm] has the same outcome in both states. *)
Ltac look H x s s' l l' := let o := fresh "o" in let E1 := fresh "E" in let E2 := fresh "E" in
  destruct (H x) as (o & E1 & E2); [simpl; tauto|];
  change (nth_error l (s x) = Some o) in E1; change (nth_error l' (s' (word german_names x)) = Some (word german_outcomes o)) in E2;
  let y := eval vm_compute in (word german_names x) in change (word german_names x) with y in E2;
  let K := fresh "K" in let K' := fresh "K" in
  destruct (s x) as [|[|[|[|]]]] eqn:K; try discriminate E1; injection E1 as <-;
  destruct (s' y) as [|[|[|[|]]]] eqn:K'; try discriminate E2; clear E2.
Ltac same_entry := match goal with |- entry _ ?f' _ = entry _ ?f _ =>
    let g := eval vm_compute in (nf_given f ++ [nf_for f]) in let g' := eval vm_compute in (nf_given f' ++ [nf_for f']) in
    unfold entry; change (nf_given f ++ [nf_for f]) with g; change (nf_given f' ++ [nf_for f']) with g'
  end; unfold cell; cbn [fold_left]; repeat match goal with K : _ = _ |- _ => rewrite K; clear K end; reflexivity.
Ltac known := intros o Ho; repeat (destruct Ho as [<-|Ho]; [reflexivity|]); destruct Ho.
Ltac weather H s s' := look H "weather" s s' ["sunny"; "rainy"] ["Regen"; "Sonne"].
Ltac forecast H s s' := look H "forecast" s s' ["sunny"; "cloudy"; "rainy"] ["Regen"; "Wolken"; "Sonne"].
Ltac umbrella H s s' := look H "umbrella" s s' ["take"; "leave"] ["daheim"; "mit"].
Ltac mood H s s' := look H "mood" s s' ["value"] ["Wert"].

Example C106_rewritten : rewritten german umb schirm.
Proof.
  constructor.
  - eexists. split; [apply (perm_nodes (nth 0 (n_vars schirm) (node Chance "" [])) (nth 1 (n_vars schirm) (node Chance "" [])) (nth 2 (n_vars schirm) (node Chance "" [])) (nth 3 (n_vars schirm) (node Chance "" [])))|].
    constructor; [|constructor; [|constructor; [|constructor; [|constructor]]]]; (constructor; [reflexivity|reflexivity|reflexivity| |known]).
    + apply perm_swap.
    + apply (Permutation_rev ["Sonne"; "Wolken"; "Regen"]).
    + apply perm_swap.
    + apply Permutation_refl.
  - eexists. split; [apply (perm_tables (nth 0 (n_factors schirm) (cpt "" [] [])) (nth 1 (n_factors schirm) (cpt "" [] [])) (nth 2 (n_factors schirm) (cpt "" [] [])) (nth 3 (n_factors schirm) (cpt "" [] [])))|].
    constructor; [|constructor; [|constructor; [|constructor; [|constructor]]]]; constructor.
    + reflexivity.
    + intros _. apply Permutation_refl.
    + intros _ _ s s' H. weather H s s'; same_entry.
    + reflexivity.
    + intros _. apply Permutation_refl.
    + intros _ _ s s' H. weather H s s'; forecast H s s'; same_entry.
    + reflexivity.
    + intros _. apply Permutation_refl.
    + intros _ H. exfalso. apply H. reflexivity.
    + reflexivity.
    + intros _. apply perm_swap.
    + intros _ _ s s' H. weather H s s'; umbrella H s s'; mood H s s'; same_entry.
  - intros v Hv. repeat (destruct Hv as [<-|Hv]; [reflexivity|]). destruct Hv.
  - intros v Hv _ _. repeat (destruct Hv as [<-|Hv]; [reflexivity|]). destruct Hv.
  - reflexivity.
  - reflexivity.
Qed.
Example C106_hypotheses : wf_network umb /\ wf_network schirm /\ complete umb /\ nonnegative umb /\ nonnegative schirm /\
  valid_observations umb [("forecast", "cloudy")] /\ askable umb (ignored_by false [("forecast", "cloudy")]) [("forecast", "cloudy")] "weather" /\
  mass umb (ignored_by false [("forecast", "cloudy")]) (agrees (n_vars umb) [("forecast", "cloudy")]) <> 0%Qc /\
  decision_network umb /\ no_forgetting umb /\ decision_network schirm.
Proof.
  split; [exact umb_wf|]. split; [apply network_b_sound; vm_compute; reflexivity|]. split; [apply complete_b_sound; vm_compute; reflexivity|].
  split; [apply nonnegative_b_sound; vm_compute; reflexivity|]. split; [apply nonnegative_b_sound; vm_compute; reflexivity|].
  split; [apply observations_b_sound; vm_compute; reflexivity|]. split; [apply askable_b_sound; vm_compute; reflexivity|]. split; [apply qeq_false; vm_compute; reflexivity|].
  split; [apply C65_one_hypotheses|]. split; [apply no_forgetting_b_sound; vm_compute; reflexivity|].
  apply (decision_network_b_sound schirm (fun x => position x ["Wetter"; "Bericht"; "Schirm"])); vm_compute; reflexivity.
Qed.
Example C106_example : shown_answer (net_solve_query sched_id umb [("forecast", "cloudy")] ["weather"] false) = Some [("weather", [SFin (28#43); SFin (15#43)])] /\
  shown_answer (net_solve_query sched_id schirm [("Bericht", "Wolken")] ["Wetter"] false) = Some [("Wetter", [SFin (15#43); SFin (28#43)])] /\
  shown_values (net_solve_utility sched_id (fst (net_solve_policies sched_id schirm true)) [] [] "" false) = Some [SFin (77#1)].
Proof. split; [|split]; vm_compute; reflexivity. Qed.

Print Assumptions C106_queries.
Print Assumptions C106_utility.
