(** Property C128: options that are never better than another one (network.go: SolvePolicies,
    SolveUtility). The vocabulary is in SpecNet.v, SpecNetPolicy.v, SpecOptions.v and SpecDominated.v. *)
From Coq Require Import ZArith List Bool String Lia Permutation QArith Qcanon.
From Verif Require Import Num GoBase VarModel SpecFactor XnumFacts VEModel SpecVE NetModel SpecNet NetNew NetCheck SpecNetPolicy SpecGraph SpecOptions NetReorder NetOptions
  NetPolicyThms NetUnused SpecDominated NetDominated Props_VE Props_Net Props_Policy Props_Options Props_Unused.
Import ListNotations.
Open Scope string_scope.
Open Scope list_scope.
Open Scope Z_scope.

Lemma bounded_choice (P : nat -> nat -> Prop) a b : (forall k, (a <= k < b)%nat -> exists x, P k x) -> exists f, forall k, (a <= k < b)%nat -> P k (f k).
Proof.
  induction b as [|b IH]; intros H; [exists (fun _ => O); lia|]. destruct IH as (f & Hf); [intros k Hk; apply H; lia|]. destruct (Nat.le_gt_cases a b) as [L|L]; [|exists f; lia].
  destruct (H b) as (x & Hx); [lia|]. exists (fun k => if (k =? b)%nat then x else f k). intros k Hk. destruct (Nat.eqb_spec k b) as [->|]; auto. apply Hf. lia.
Qed.

(** ** C128: dominated options of the last decision can be removed *)

(** [m] is [n] with further options of the last decision, each of which has the same effect on the
    chance variables as some option of [n] and gives at most its utility in every state. Then the
    networks have the same maximum expected utility. *)
Theorem C128_dominated : forall n m d, more_options n m -> decision_network n -> no_forgetting n -> decision_network m ->
  last_decision m d -> only_dominated n m d -> exists b, maximum_utility n b /\ maximum_utility m b.
Proof.
  intros n m d Hmo Hn Hf Hm [Hd Hl] [Ho Hk]. destruct (bounded_choice _ _ _ Hk) as (dom & Hdom).
  apply (dominated_maximum n m d dom); auto.
  - intros k H. apply (Hdom k H).
  - intros k s f H. apply (Hdom k H).
  - intros k s H. apply (Hdom k H).
Qed.

(** So SolvePolicies followed by SolveUtility says the same for both networks. *)
Theorem C128_value : forall n m d b, more_options n m -> decision_network n -> no_forgetting n -> decision_network m ->
  last_decision m d -> only_dominated n m d -> (maximum_utility n b <-> maximum_utility m b).
Proof.
  intros n m d b Hmo Hn Hf Hm Hl Ho. destruct (C128_dominated n m d Hmo Hn Hf Hm Hl Ho) as (c & Hc & Hc').
  split; intros H; [rewrite (maximum_unique n b c H Hc)|rewrite (maximum_unique m b c H Hc')]; auto.
Qed.

(** The leaking umbrella is dominated by the other one: it gives 10 in place of 20 when it is sunny
    and 5 in place of 70 when it is rainy. *)
Example C128_hypotheses : more_options umb leak /\ decision_network umb /\ no_forgetting umb /\ decision_network leak /\
  last_decision leak "umbrella" /\ only_dominated umb leak "umbrella".
Proof.
  destruct C126_hypotheses as (H1 & H2 & H3 & H4 & _). split; [exact H1|]. split; [exact H2|]. split; [exact H3|]. split; [exact H4|]. split.
  - split; [left; reflexivity|]. intros e [He|[]] Hne. exfalso. apply Hne. rewrite <- He. reflexivity.
  - split.
    + intros e [He|[]] Hne. exfalso. apply Hne. rewrite <- He. reflexivity.
    + change (num_outcomes (n_vars umb) "umbrella") with 2%nat. change (num_outcomes (n_vars leak) "umbrella") with 3%nat. intros k Hk. assert (k = 2%nat) by lia. subst k. exists O. split; [lia|]. split.
      * intros s f Hs Hf. destruct Hf as [<-|[<-|[]]]; reflexivity.
      * intros s Hs. pose proof (Hs _ (or_introl eq_refl)) as W. pose proof (Hs _ (or_intror (or_intror (or_intror (or_introl eq_refl))))) as M. change (s "weather" < 2)%nat in W. change (s "mood" < 1)%nat in M.
        set (t := fun k x => if String.eqb x "umbrella" then k else if String.eqb x "weather" then s "weather" else if String.eqb x "mood" then s "mood" else s x).
        assert (E : forall k, utility_of leak (nupd s "umbrella" k) = utility_of leak (t k)).
        { intros k. apply NetChange.utility_looks. intros y. unfold t, nupd. destruct (String.eqb_spec y "umbrella"); auto. destruct (String.eqb_spec y "weather"); [subst; auto|]. destruct (String.eqb_spec y "mood"); subst; auto. }
        rewrite !E. unfold t. few (s "weather"); few (s "mood"); vm_compute; discriminate.
Qed.
(** 77 with and without the leaking umbrella (C126_example). The car of C107 is not dominated: it is
    better than the umbrella when it is sunny, and the maximum is higher with it (C107_example). *)
Lemma shown_maximum n b : maximum_utility n b -> shown_values (net_solve_utility sched_id (fst (net_solve_policies sched_id n true)) [] [] "" false) = Some [xshow (Fin b)].
Proof. intros H. destruct (H sched_id true) as (n' & t & E & K). rewrite E. destruct (K sched_id false) as (n2 & f & E2 & _ & Ed). cbn [fst]. rewrite E2. unfold shown_values. cbn [snd]. rewrite Ed. reflexivity. Qed.
Example C128_needed : more_options umb car /\ last_decision car "umbrella" /\ ~ exists b, maximum_utility umb b /\ maximum_utility car b.
Proof.
  destruct C107_hypotheses as (H1 & _). split; [exact H1|]. split.
  - split; [left; reflexivity|]. intros e [He|[]] Hne. exfalso. apply Hne. rewrite <- He. reflexivity.
  - intros (b & Hb & Hb'). apply shown_maximum in Hb. apply shown_maximum in Hb'. destruct C107_example as (E1 & E2). rewrite E1 in Hb. rewrite E2 in Hb'. rewrite <- Hb' in Hb. discriminate Hb.
Qed.

Print Assumptions C128_dominated.
Print Assumptions C128_value.
