(** Properties C107 and C108: further options and other utilities (network.go: SolvePolicies,
    SolveUtility). The vocabulary is in SpecNet.v, SpecNetPolicy.v, SpecGraph.v and SpecOptions.v. *)
From Coq Require Import ZArith List Bool String Lia Permutation QArith Qcanon.
From Verif Require Import Num GoBase VarModel SpecFactor XnumFacts VEModel SpecVE NetModel SpecNet NetNew NetCheck SpecNetPolicy SpecGraph SpecOptions NetReorder NetOptions
  NetPolicyThms Props_VE Props_Net Props_Policy.
Import ListNotations.
Open Scope string_scope.
Open Scope list_scope.
Open Scope Z_scope.

(** ** C107: a further option never hurts *)

(** Decisions get further outcomes; what follows from the old ones stays the same. Then the
    maximum expected utility is the same or higher. *)
Theorem C107_options : forall n m, more_options n m -> decision_network n -> no_forgetting n -> decision_network m ->
  exists b b', maximum_utility n b /\ maximum_utility m b' /\ (b <= b')%Qc.
Proof. intros n m H Hn Hf Hm. apply mo_maximum; auto. Qed.

(** The umbrella can also be left in the car. *)
Definition car_vars := [node Chance "weather" ["sunny"; "rainy"]; node Chance "forecast" ["sunny"; "cloudy"; "rainy"];
  node Decision "umbrella" ["take"; "leave"; "car"]; node Utility "mood" ["value"]].
Definition car_factors := [cpt "weather" [] [70#1; 30#1]; cpt "forecast" ["weather"] [70#1; 20#1; 10#1; 15#1; 25#1; 60#1];
  mkNFactor "umbrella" ["forecast"] None [] 0; cpt "mood" ["weather"; "umbrella"] [20#1; 100#1; 80#1; 70#1; 0#1; 60#1]].
Definition car : network xnum := built (net_new "umbrella" "" car_vars car_factors).

Ltac same_cells := match goal with |- context [entry _ ?f _] =>
    let g := eval vm_compute in (nf_given f ++ [nf_for f]) in unfold entry; repeat change (nf_given _ ++ [nf_for _]) with g
  end; unfold cell; cbn [fold_left].
Ltac few x := destruct x as [|[|[|[|]]]]; try (exfalso; lia).
Example C107_hypotheses : more_options umb car /\ decision_network umb /\ no_forgetting umb /\ decision_network car.
Proof.
  split; [|split; [apply C65_one_hypotheses|split; [apply no_forgetting_b_sound; vm_compute; reflexivity|]]].
  - constructor; [|reflexivity|reflexivity|].
    + repeat (constructor; [split; [reflexivity|split; [reflexivity|]]|]); [exists []|exists []|exists ["car"]|exists []|constructor]; (split; [reflexivity|]); intros H; try reflexivity. destruct H. reflexivity.
    + assert (L : forall s, proper_state umb s -> (s "weather" < 2)%nat /\ (s "forecast" < 3)%nat /\ (s "umbrella" < 2)%nat /\ (s "mood" < 1)%nat).
      { intros s Hs. pose proof (Hs _ (or_introl eq_refl)) as H1. pose proof (Hs _ (or_intror (or_introl eq_refl))) as H2. pose proof (Hs _ (or_intror (or_intror (or_introl eq_refl)))) as H3.
        pose proof (Hs _ (or_intror (or_intror (or_intror (or_introl eq_refl))))) as H4. auto. }
      repeat (constructor; [split; [reflexivity|split; [reflexivity|]]; intros _ Hd s Hs; destruct (L s Hs) as (W & F & U & M)|]); [..|constructor].
      * reflexivity.
      * reflexivity.
      * destruct Hd. reflexivity.
      * same_cells. change (num_outcomes (n_vars car) "weather") with 2%nat. change (num_outcomes (n_vars umb) "weather") with 2%nat.
        change (num_outcomes (n_vars car) "umbrella") with 3%nat. change (num_outcomes (n_vars umb) "umbrella") with 2%nat.
        change (num_outcomes (n_vars car) "mood") with 1%nat. change (num_outcomes (n_vars umb) "mood") with 1%nat.
        few (s "weather"); few (s "umbrella"); few (s "mood"); reflexivity.
  - apply (decision_network_b_sound car (fun x => position x ["weather"; "forecast"; "umbrella"])); vm_compute; reflexivity.
Qed.
(** 77 without and 81.1 with the car. *)
Example C107_example : shown_values (net_solve_utility sched_id (fst (net_solve_policies sched_id umb true)) [] [] "" false) = Some [SFin (77#1)] /\
  shown_values (net_solve_utility sched_id (fst (net_solve_policies sched_id car true)) [] [] "" false) = Some [SFin (811#10)].
Proof. split; vm_compute; reflexivity. Qed.

(** ** C108: other utilities *)

(** Change the utilities so that every entry of utility node [u] grows by at least [lo u]. With
    weights that are not negative the maximum expected utility grows by at least the weighted
    sum of the [lo u]. In particular, it does not fall if no entry falls. *)
Theorem C108_higher : forall n m lo, raised lo n m -> positive_weights n -> decision_network n -> no_forgetting n -> decision_network m ->
  exists b b', maximum_utility n b /\ maximum_utility m b' /\ (b + shift n lo <= b')%Qc.
Proof.
  intros n m lo H Hw Hn Hf Hm. destruct (maximum_exists n Hn Hf) as (b & Hb & (p & Hp & <-) & _). destruct (maximum_exists m Hm (ra_forgetting n m lo H Hf)) as (b' & Hb' & _ & Hmax).
  exists (expected_value n p), b'. split; auto. split; auto. eapply Qcle_trans; [apply (ra_value n m lo H Hn Hw p Hp)|]. apply Hmax. intros d Hd. rewrite (ra_decisions n m lo H) in Hd. apply (ra_policy n m lo H). auto.
Qed.

(** If every entry grows by at least [lo u] and at most [hi u], the maximum expected utility
    changes by no less and no more than the weighted sums of these. The policies found for the
    old utilities can still be used: they are worse than the best ones by at most the difference
    between the sums. *)
Theorem C108_change : forall n m lo hi, raised lo n m -> raised (fun u => - hi u)%Qc m n -> positive_weights n -> decision_network n -> no_forgetting n -> decision_network m ->
  exists b b', maximum_utility n b /\ maximum_utility m b' /\ (b + shift n lo <= b')%Qc /\ (b' <= b + shift n hi)%Qc /\
    forall sc stepwise, exists n' tables, net_solve_policies sc n stepwise = (n', Ok tables) /\
      (forall d, In d (decisions m) -> policy_for m d (table_policy m tables d)) /\
      (b' - (shift n hi - shift n lo) <= expected_value m (table_policy m tables))%Qc.
Proof.
  intros n m lo hi H H' Hw Hn Hf Hm. destruct (maximum_exists n Hn Hf) as (b & Hb & (p & Hp & E) & Hmax). destruct (maximum_exists m Hm (ra_forgetting n m lo H Hf)) as (b' & Hb' & (p' & Hp' & E') & Hmax').
  assert (Pmn : forall q, (forall d, In d (decisions n) -> policy_for n d (q d)) <-> (forall d, In d (decisions m) -> policy_for m d (q d))).
  { intros q. rewrite (ra_decisions n m lo H). split; intros K d Hd; apply (ra_policy n m lo H); auto. }
  assert (Hwm : positive_weights m).
  { intros v Hv Ht Htot. rewrite (ra_vars _ _ _ H) in Hv. rewrite (ra_is_total n m lo H) in Htot. rewrite (ra_weights _ _ _ H). auto. }
  assert (Es : shift m (fun u => - hi u)%Qc = (- shift n hi)%Qc).
  { unfold shift, utility_tables. fold (NetChange.is_utility_table n) (NetChange.is_utility_table m). pose proof (ra_factors _ _ _ H) as HF. induction HF as [|f g l l' (E1 & E2 & K) Hl IH]; [reflexivity|]. cbn [filter].
    assert (Ek : NetChange.is_utility_table m g = NetChange.is_utility_table n f) by (unfold NetChange.is_utility_table; rewrite E1, (ra_is_total n m lo H), (ra_vars _ _ _ H); auto). rewrite Ek.
    destruct (NetChange.is_utility_table n f); auto. cbn [map]. unfold qsum in *. cbn [fold_right]. rewrite IH, E1, (ra_weights _ _ _ H). ring. }
  assert (U : (b' <= b + shift n hi)%Qc).
  { pose proof (ra_value m n _ H' Hm Hwm p' Hp') as K. rewrite Es, E' in K. pose proof (Qcle_trans _ _ _ K (Hmax p' (proj2 (Pmn p') Hp'))) as K'.
    apply (Qcplus_le_compat _ _ (shift n hi) (shift n hi)) in K'; [|apply Qcle_refl]. replace (b' + - shift n hi + shift n hi)%Qc with b' in K' by ring. auto. }
  exists b, b'. split; auto. split; auto. split; [rewrite <- E; eapply Qcle_trans; [apply (ra_value n m lo H Hn Hw p Hp)|apply Hmax', Pmn; auto]|]. split; auto.
  intros sc stepwise. destruct (solve_policies_ok sc n stepwise Hn Hf) as (n' & t & Es' & Hs). exists n', t. split; auto.
  pose proof (table_policy_for n n' t Hs) as Ht. pose proof (policies_best n n' t Hs p Hp) as Hbest. rewrite E in Hbest.
  assert (Et : forall d s, table_policy m t d s = table_policy n t d s) by (intros d s; unfold table_policy; rewrite (ra_vars _ _ _ H); auto).
  assert (Ev : expected_value m (table_policy m t) = expected_value m (table_policy n t)).
  { unfold expected_value. f_equal. apply map_ext. intros s. f_equal. f_equal. f_equal. apply map_ext. intros d. auto. }
  split.
  - intros d Hd. destruct (proj1 (Pmn _) Ht d Hd) as [K1 K2 K3]. constructor; intros; rewrite ?Et; auto. rewrite (map_ext _ (fun k => table_policy n t d (nupd s d k))) by (intros k; auto). auto.
  - rewrite Ev. eapply Qcle_trans; [|apply (ra_value n m lo H Hn Hw _ Ht)].
    replace (b' - (shift n hi - shift n lo))%Qc with (b' + - shift n hi + shift n lo)%Qc by ring. apply Qcplus_le_compat; [|apply Qcle_refl]. eapply Qcle_trans; [|exact Hbest].
    apply (Qcplus_le_compat _ _ (- shift n hi)%Qc (- shift n hi)%Qc) in U; [|apply Qcle_refl]. replace (b + shift n hi + - shift n hi)%Qc with b in U by ring. auto.
Qed.

(** Higher by 1 to 5. *)
Definition happy : network xnum := built (net_new "umbrella" "" umb_vars
  [cpt "weather" [] [70#1; 30#1]; cpt "forecast" ["weather"] [70#1; 20#1; 10#1; 15#1; 25#1; 60#1];
   mkNFactor "umbrella" ["forecast"] None [] 0; cpt "mood" ["weather"; "umbrella"] [25#1; 101#1; 73#1; 5#1]]).
Lemma mood_states n (H : n_vars n = n_vars umb) (P : nstate -> Prop) : (forall s, (s "weather" < 2)%nat -> (s "umbrella" < 2)%nat -> (s "mood" < 1)%nat -> P s) -> forall s, proper_state n s -> P s.
Proof.
  intros K s Hs. unfold proper_state in Hs. rewrite H in Hs. apply K.
  - apply (Hs _ (or_introl eq_refl)).
  - apply (Hs _ (or_intror (or_intror (or_introl eq_refl)))).
  - apply (Hs _ (or_intror (or_intror (or_intror (or_introl eq_refl))))).
Qed.
Ltac check_mood := apply mood_states; [reflexivity|]; intros s W U M; same_cells;
  repeat match goal with |- context [num_outcomes ?v ?x] => let k := eval vm_compute in (num_outcomes v x) in change (num_outcomes v x) with k end;
  few (s "weather"); few (s "umbrella"); few (s "mood"); cbn; discriminate.
Example C108_hypotheses : raised (fun _ => qc (1#1)) umb happy /\ raised (fun _ => - qc (5#1))%Qc happy umb /\ positive_weights umb /\ decision_network umb /\ no_forgetting umb /\ decision_network happy /\
  shift umb (fun _ => qc (1#1)) = qc (1#1) /\ shift umb (fun _ => qc (5#1)) = qc (5#1).
Proof.
  split; [|split; [|split; [|split; [apply C65_one_hypotheses|split; [apply no_forgetting_b_sound; vm_compute; reflexivity|split; [|split; apply qeq_spec; vm_compute; reflexivity]]]]]].
  - constructor; [reflexivity|reflexivity|reflexivity|]. do 3 (constructor; [split; [reflexivity|split; reflexivity]|]). constructor; [|constructor]. split; [reflexivity|]. split; [reflexivity|]. match goal with |- if _ then ?X else _ => change X end. check_mood.
  - constructor; [reflexivity|reflexivity|reflexivity|]. do 3 (constructor; [split; [reflexivity|split; reflexivity]|]). constructor; [|constructor]. split; [reflexivity|]. split; [reflexivity|]. match goal with |- if _ then ?X else _ => change X end. check_mood.
  - intros v Hv Ht _. simpl in Hv. repeat (destruct Hv as [<-|Hv]; [try discriminate Ht|]); [|destruct Hv]. discriminate.
  - apply (decision_network_b_sound happy (fun x => position x ["weather"; "forecast"; "umbrella"])); vm_compute; reflexivity.
Qed.
(** 77 and 79.12: the change is between 1 and 5. *)
Example C108_example : shown_values (net_solve_utility sched_id (fst (net_solve_policies sched_id happy true)) [] [] "" false) = Some [SFin (1978#25)].
Proof. vm_compute; reflexivity. Qed.

Print Assumptions C107_options.
Print Assumptions C108_higher.
Print Assumptions C108_change.
