(** Properties C109 and C110: a table between two tables (network.go: SolveQuery, SolvePolicies,
    SolveUtility). The vocabulary is in SpecNet.v, SpecNetPolicy.v, SpecAnswers.v and SpecMix.v. *)
From Coq Require Import ZArith List Bool String Lia Permutation QArith Qcanon.
From Verif Require Import Num GoBase VarModel SpecFactor XnumFacts VEModel SpecVE NetModel SpecNet NetNew NetCheck NetQuery NetCor SpecAnswers SpecNetPolicy SpecMix NetMix
  SpecGraph NetReorder NetPolicyThms Props_VE Props_Net Props_Policy.
Import ListNotations.
Open Scope string_scope.
Open Scope list_scope.
Open Scope Z_scope.

(** ** C109: answers lie between the answers *)

Lemma answer_exact n sc ig ev query q k : wf_network n -> complete n -> valid_observations n ev -> (forall q, In q query -> askable n (ignored_by ig ev) ev q) ->
  mass n (ignored_by ig ev) (agrees (n_vars n) ev) <> 0%Qc -> In q query -> (k < num_outcomes (n_vars n) q)%nat ->
  answered (net_solve_query sc n ev query ig) q k (posterior n (ignored_by ig ev) ev q k).
Proof.
  intros Hwf Hco Hv Hask Hm Hq Hk. destruct (query_exact n Hwf sc ig ev query Hco Hv Hask) as (n' & res & f & E & Hs).
  destruct (proj1 (Hs q) Hq) as (l & El & Hd & _). exists n', res, f, l. split; auto. split; auto. rewrite (Hd Hm).
  rewrite nth_error_map, (nth_error_nth' _ 0%nat) by (rewrite seq_length; auto). rewrite seq_nth by auto. reflexivity.
Qed.

(** The networks [n], [n1] and [n2] differ in one probability table, and that of [n] is between
    those of [n1] and [n2]. For evidence that is possible in [n1] and [n2], all three answer any
    query, and every probability that [n] gives is between those that [n1] and [n2] give. *)
Theorem C109_between : forall w n n1 n2 sc sc1 sc2 ig ev query, between w n n1 n2 -> wf_network n -> wf_network n1 -> wf_network n2 -> complete n ->
  nonnegative n1 -> nonnegative n2 -> valid_observations n ev -> (forall q, In q query -> askable n (ignored_by ig ev) ev q) ->
  mass n1 (ignored_by ig ev) (agrees (n_vars n) ev) <> 0%Qc -> mass n2 (ignored_by ig ev) (agrees (n_vars n) ev) <> 0%Qc ->
  forall q k, In q query -> (k < num_outcomes (n_vars n) q)%nat -> exists p p1 p2,
    answered (net_solve_query sc n ev query ig) q k p /\ answered (net_solve_query sc1 n1 ev query ig) q k p1 /\ answered (net_solve_query sc2 n2 ev query ig) q k p2 /\
    ((p1 <= p)%Qc /\ (p <= p2)%Qc \/ (p2 <= p)%Qc /\ (p <= p1)%Qc).
Proof.
  intros w n n1 n2 sc sc1 sc2 ig ev query Hb Hwf Hwf1 Hwf2 Hco Hn1 Hn2 Hv Hask M1 M2 q k Hq Hk.
  destruct (bt_posterior w n n1 n2 Hb Hwf _ ev q k Hn1 Hn2 M1 M2) as [M Hp].
  destruct (bt_complete w n n1 n2 Hb Hco) as [Hc1 Hc2]. destruct (bt_observations w n n1 n2 Hb ev Hv) as [Hv1 Hv2].
  pose proof (bt_v1 w n n1 n2 Hb) as E1. pose proof (bt_v2 w n n1 n2 Hb) as E2.
  exists (posterior n (ignored_by ig ev) ev q k), (posterior n1 (ignored_by ig ev) ev q k), (posterior n2 (ignored_by ig ev) ev q k).
  split; [|split; [|split; [|exact Hp]]]; apply answer_exact; rewrite ?E1, ?E2; auto; intros x Hx; apply (bt_askable w n n1 n2 Hb); auto.
Qed.

(** If the evidence is as probable in [n1] as in [n2], the probabilities mix like the tables. *)
Theorem C109_mixture : forall w n n1 n2 sc sc1 sc2 ig ev query, between w n n1 n2 -> wf_network n -> wf_network n1 -> wf_network n2 -> complete n ->
  valid_observations n ev -> (forall q, In q query -> askable n (ignored_by ig ev) ev q) ->
  mass n1 (ignored_by ig ev) (agrees (n_vars n) ev) <> 0%Qc ->
  mass n1 (ignored_by ig ev) (agrees (n_vars n) ev) = mass n2 (ignored_by ig ev) (agrees (n_vars n) ev) ->
  forall q k, In q query -> (k < num_outcomes (n_vars n) q)%nat -> exists p p1 p2,
    answered (net_solve_query sc n ev query ig) q k p /\ answered (net_solve_query sc1 n1 ev query ig) q k p1 /\ answered (net_solve_query sc2 n2 ev query ig) q k p2 /\
    p = (w * p1 + (1 - w) * p2)%Qc.
Proof.
  intros w n n1 n2 sc sc1 sc2 ig ev query Hb Hwf Hwf1 Hwf2 Hco Hv Hask M1 M12 q k Hq Hk.
  destruct (bt_complete w n n1 n2 Hb Hco) as [Hc1 Hc2]. destruct (bt_observations w n n1 n2 Hb ev Hv) as [Hv1 Hv2].
  pose proof (bt_v1 w n n1 n2 Hb) as E1. pose proof (bt_v2 w n n1 n2 Hb) as E2.
  assert (M : mass n (ignored_by ig ev) (agrees (n_vars n) ev) = mass n1 (ignored_by ig ev) (agrees (n_vars n) ev)).
  { rewrite (bt_mass w n n1 n2 Hb Hwf), <- M12. ring. }
  exists (posterior n (ignored_by ig ev) ev q k), (posterior n1 (ignored_by ig ev) ev q k), (posterior n2 (ignored_by ig ev) ev q k).
  split; [|split; [|split]]; [apply answer_exact; rewrite ?E1, ?E2, ?M, <- ?M12; auto; intros x Hx; apply (bt_askable w n n1 n2 Hb); auto..|].
  unfold posterior. rewrite E1, E2, M, <- M12, (bt_mass w n n1 n2 Hb Hwf _ (fun s => agrees (n_vars n) ev s && (s q =? k)%nat)). field. auto.
Qed.

(** This is so without evidence. *)
Theorem C109_prior : forall w n n1 n2 sc sc1 sc2 query, between w n n1 n2 -> wf_network n -> wf_network n1 -> wf_network n2 -> complete n ->
  causal n1 (fun _ => false) [] -> causal n2 (fun _ => false) [] -> (forall q, In q query -> askable n (fun _ => false) [] q) ->
  forall q k, In q query -> (k < num_outcomes (n_vars n) q)%nat -> exists p p1 p2,
    answered (net_solve_query sc n [] query false) q k p /\ answered (net_solve_query sc1 n1 [] query false) q k p1 /\ answered (net_solve_query sc2 n2 [] query false) q k p2 /\
    p = (w * p1 + (1 - w) * p2)%Qc.
Proof.
  intros w n n1 n2 sc sc1 sc2 query Hb Hwf Hwf1 Hwf2 Hco Hca1 Hca2 Hask. pose proof (mass_one n1 Hwf1 Hca1) as M1. pose proof (mass_one n2 Hwf2 Hca2) as M2.
  change (agrees (n_vars n1) []) with (agrees (n_vars n) []) in M1. change (agrees (n_vars n2) []) with (agrees (n_vars n) []) in M2.
  apply C109_mixture; auto.
  - split; [constructor|intros x o []].
  - change (mass n1 (fun _ => false) (agrees (n_vars n) []) <> 0%Qc). rewrite M1. discriminate.
  - change (mass n1 (fun _ => false) (agrees (n_vars n) []) = mass n2 (fun _ => false) (agrees (n_vars n) [])). rewrite M1, M2. auto.
Qed.

(** Rain with probability 1/5 is between 1/10 and 1/2. *)
Definition spr_dry : network xnum := built (net_new "sprinkler" "" spr_vars (cpt "rain" [] [1#10; 9#10] :: tl spr_factors)).
Definition spr_rainy : network xnum := built (net_new "sprinkler" "" spr_vars (cpt "rain" [] [50#1; 50#1] :: tl spr_factors)).
Ltac first_table x := match goal with |- cond_prob ?v ?f ?s = (_ * cond_prob ?v ?f1 ?s + _ * cond_prob ?v ?f2 ?s)%Qc =>
    change (cond_prob v f s) with (cond_prob v f (fun _ => s x)); change (cond_prob v f1 s) with (cond_prob v f1 (fun _ => s x)); change (cond_prob v f2 s) with (cond_prob v f2 (fun _ => s x))
  end.
Lemma spr_between : between (Q2Qc (3#4)) spr spr_dry spr_rainy.
Proof.
  constructor; [split; vm_compute; discriminate|split; vm_compute; reflexivity|split; vm_compute; reflexivity|split; vm_compute; reflexivity|split; reflexivity|].
  exists [], (hd (cpt "" [] []) (n_factors spr)), (hd (cpt "" [] []) (n_factors spr_dry)), (hd (cpt "" [] []) (n_factors spr_rainy)), (tl (n_factors spr)).
  repeat (split; [reflexivity|]). intros s Hs. first_table "rain".
  assert (L : (s "rain" < 2)%nat) by (apply (Hs _ (or_introl eq_refl))). destruct (s "rain") as [|[|]]; [..|lia]; apply qeq_spec; vm_compute; reflexivity.
Qed.
Example C109_hypotheses : between (Q2Qc (3#4)) spr spr_dry spr_rainy /\ (wf_network spr /\ wf_network spr_dry /\ wf_network spr_rainy /\ complete spr) /\
  (nonnegative spr_dry /\ nonnegative spr_rainy) /\ valid_observations spr [("grass", "wet")] /\
  (forall q, In q ["rain"; "sprinkler"] -> askable spr (ignored_by false [("grass", "wet")]) [("grass", "wet")] q) /\
  mass spr_dry (ignored_by false [("grass", "wet")]) (agrees (n_vars spr) [("grass", "wet")]) <> 0%Qc /\
  mass spr_rainy (ignored_by false [("grass", "wet")]) (agrees (n_vars spr) [("grass", "wet")]) <> 0%Qc.
Proof.
  split; [apply spr_between|]. split; [split; [|split; [|split]]; first [apply network_b_sound; vm_compute; reflexivity|apply complete_b_sound; vm_compute; reflexivity]|].
  split; [split; apply nonnegative_b_sound; vm_compute; reflexivity|]. split; [apply observations_b_sound; vm_compute; reflexivity|].
  split; [intros q [<-|[<-|[]]]; apply askable_b_sound; vm_compute; reflexivity|]. split; apply qeq_false; vm_compute; reflexivity.
Qed.
(** 0.36 is between 0.20 and 0.69. *)
Example C109_example : shown_answer (net_solve_query sched_id spr [("grass", "wet")] ["rain"] false) = Some [("rain", [SFin (891#2491); SFin (1600#2491)])] /\
  shown_answer (net_solve_query sched_id spr_dry [("grass", "wet")] ["rain"] false) = Some [("rain", [SFin (99#499); SFin (400#499)])] /\
  shown_answer (net_solve_query sched_id spr_rainy [("grass", "wet")] ["rain"] false) = Some [("rain", [SFin (891#1291); SFin (400#1291)])].
Proof. repeat split; vm_compute; reflexivity. Qed.

Example C109_prior_hypotheses : causal spr_dry (fun _ => false) [] /\ causal spr_rainy (fun _ => false) [] /\ (forall q, In q ["grass"] -> askable spr (fun _ => false) [] q).
Proof.
  split; [|split]; [apply (causal_b_sound _ _ _ (fun x => position x ["rain"; "sprinkler"; "grass"])); [apply network_b_sound|]; vm_compute; reflexivity..|].
  intros q [<-|[]]; apply askable_b_sound; vm_compute; reflexivity.
Qed.
(** 0.44838 = 3/4 * 0.40419 + 1/4 * 0.58095 *)
Example C109_prior_example : shown_answer (net_solve_query sched_id spr [] ["grass"] false) = Some [("grass", [SFin (22419#50000); SFin (27581#50000)])] /\
  shown_answer (net_solve_query sched_id spr_dry [] ["grass"] false) = Some [("grass", [SFin (40419#100000); SFin (59581#100000)])] /\
  shown_answer (net_solve_query sched_id spr_rainy [] ["grass"] false) = Some [("grass", [SFin (11619#20000); SFin (8381#20000)])].
Proof. repeat split; vm_compute; reflexivity. Qed.

(** ** C110: knowing which table is right never hurts *)

(** The maximum expected utility of [n] is at most the weighted mean of those of [n1] and [n2]. *)
Theorem C110_convex : forall w n n1 n2, between w n n1 n2 -> decision_network n -> decision_network n1 -> decision_network n2 -> no_forgetting n ->
  exists b b1 b2, maximum_utility n b /\ maximum_utility n1 b1 /\ maximum_utility n2 b2 /\ (b <= w * b1 + (1 - w) * b2)%Qc.
Proof.
  intros w n n1 n2 Hb Hd Hd1 Hd2 Hf. destruct (bt_forgetting w n n1 n2 Hb Hf) as [Hf1 Hf2].
  destruct (maximum_exists n Hd Hf) as (b & Mb & (p & Hp & E) & _). destruct (maximum_exists n1 Hd1 Hf1) as (b1 & Mb1 & _ & H1). destruct (maximum_exists n2 Hd2 Hf2) as (b2 & Mb2 & _ & H2).
  exists b, b1, b2. repeat (split; auto). rewrite <- E, (bt_value w n n1 n2 Hb (dn_wf _ Hd) p). destruct (bt_weight _ _ _ _ Hb) as [W0 W1].
  destruct (bt_decisions w n n1 n2 Hb) as [D1 D2].
  apply Qcplus_le_compat; [rewrite !(Qcmult_comm w)|rewrite !(Qcmult_comm (1 - w))]; apply Qcmult_le_compat_r; auto.
  - apply H1. intros d. rewrite D1. intros Hi. apply (bt_policy w n n1 n2 Hb); auto.
  - apply H2. intros d. rewrite D2. intros Hi. apply (bt_policy w n n1 n2 Hb); auto.
  - unfold Qcminus. apply (proj1 (Qcle_minus_iff _ _)). exact W1.
Qed.

(** The sun with probability 0.7 is between 0.9 and 0.5. *)
Definition umb_sunny : network xnum := built (net_new "umbrella" "" umb_vars (cpt "weather" [] [9#10; 1#10] :: tl umb_factors)).
Definition umb_mixed : network xnum := built (net_new "umbrella" "" umb_vars (cpt "weather" [] [1#2; 1#2] :: tl umb_factors)).
Example C110_hypotheses : between (Q2Qc (1#2)) umb umb_sunny umb_mixed /\ decision_network umb /\ decision_network umb_sunny /\ decision_network umb_mixed /\ no_forgetting umb.
Proof.
  split; [|split; [|split; [|split]]; first [apply no_forgetting_b_sound; vm_compute; reflexivity|
    eapply (decision_network_b_sound _ (fun x => position x ["weather"; "forecast"; "umbrella"])); vm_compute; reflexivity]].
  constructor; [split; vm_compute; discriminate|split; vm_compute; reflexivity|split; vm_compute; reflexivity|split; vm_compute; reflexivity|split; reflexivity|].
  exists [], (hd (cpt "" [] []) (n_factors umb)), (hd (cpt "" [] []) (n_factors umb_sunny)), (hd (cpt "" [] []) (n_factors umb_mixed)), (tl (n_factors umb)).
  repeat (split; [reflexivity|]). intros s Hs. first_table "weather".
  assert (L : (s "weather" < 2)%nat) by (apply (Hs _ (or_introl eq_refl))). destruct (s "weather") as [|[|]]; [..|lia]; apply qeq_spec; vm_compute; reflexivity.
Qed.
(** 77 is at most the mean of 90 and 67.75. *)
Example C110_example : shown_values (net_solve_utility sched_id (fst (net_solve_policies sched_id umb true)) [] [] "" false) = Some [SFin (77#1)] /\
  shown_values (net_solve_utility sched_id (fst (net_solve_policies sched_id umb_sunny true)) [] [] "" false) = Some [SFin (90#1)] /\
  shown_values (net_solve_utility sched_id (fst (net_solve_policies sched_id umb_mixed true)) [] [] "" false) = Some [SFin (271#4)].
Proof. repeat split; vm_compute; reflexivity. Qed.

Print Assumptions C109_between.
Print Assumptions C109_mixture.
Print Assumptions C109_prior.
Print Assumptions C110_convex.
