(** Properties C123 and C124: networks whose tables differ a little, or have the same zeros
    (network.go: SolveQuery, SolvePolicies, SolveUtility). The vocabulary is in SpecNet.v,
    SpecNetPolicy.v, SpecGraph.v, SpecAnswers.v and SpecNear.v. *)
From Coq Require Import ZArith List Bool String Lia Permutation QArith Qcanon.
From Verif Require Import Num GoBase VarModel SpecFactor XnumFacts VEModel SpecVE NetModel SpecNet NetNew NetCheck NetVars NetFactors NetQuery NetMass NetCor SpecAnswers SpecNetPolicy
  SpecGraph NetGraph NetMarkov NetReorder NetChange SpecNear NetNear NetPolicyThms  Props_VE Props_Net Props_Graph Props_Mix.
Import ListNotations.
Open Scope string_scope.
Open Scope list_scope.
Open Scope Z_scope.

(** ** C123: small changes of tables change answers little *)

(** No conditional probability of [x] differs by more than the factor [r x], and [R] is the product of
    these factors. For evidence that is possible in [n], no answer differs by more than the
    factor [R * R]. *)
Theorem C123_queries : forall r n n' sc sc' ig ev query, near r n n' -> wf_network n -> wf_network n' -> complete n -> nonnegative n -> nonnegative n' ->
  valid_observations n ev -> (forall q, In q query -> askable n (ignored_by ig ev) ev q) -> mass n (ignored_by ig ev) (agrees (n_vars n) ev) <> 0%Qc ->
  let R := total_ratio r n in
  forall q k, In q query -> (k < num_outcomes (n_vars n) q)%nat -> exists p p',
    answered (net_solve_query sc n ev query ig) q k p /\ answered (net_solve_query sc' n' ev query ig) q k p' /\ (p <= R * R * p')%Qc /\ (p' <= R * R * p)%Qc.
Proof.
  intros r n n' sc sc' ig ev query Hn Hwf Hwf' Hco Hnn Hnn' Hv Hask M R q k Hq Hk. destruct (near_posterior r n n' Hn Hwf (ignored_by ig ev) ev q k Hnn Hnn' M) as [A B].
  pose proof (near_possible r n n' Hn Hwf _ _ Hnn Hnn' M) as M'. destruct Hn as [Hr Ho]. pose proof (ot_v _ _ _ Ho) as Ev.
  exists (posterior n (ignored_by ig ev) ev q k), (posterior n' (ignored_by ig ev) ev q k). split; [apply answer_exact; auto|]. split; [|split; auto].
  apply answer_exact; rewrite ?Ev; auto; [apply (ot_complete _ _ _ Ho); auto|apply (ot_observations _ _ _ Ho); auto|intros z Hz; apply (ot_askable _ _ _ Ho); auto].
Qed.

(** Without evidence, the factor is [R]. *)
Theorem C123_prior : forall r n n' sc sc' query, near r n n' -> wf_network n -> wf_network n' -> nonnegative n -> nonnegative n' ->
  causal n (fun _ => false) [] -> causal n' (fun _ => false) [] -> (forall q, In q query -> askable n (fun _ => false) [] q) ->
  let R := total_ratio r n in
  forall q k, In q query -> (k < num_outcomes (n_vars n) q)%nat -> exists p p',
    answered (net_solve_query sc n [] query false) q k p /\ answered (net_solve_query sc' n' [] query false) q k p' /\ (p <= R * p')%Qc /\ (p' <= R * p)%Qc.
Proof.
  intros r n n' sc sc' query Hn Hwf Hwf' Hnn Hnn' Hca Hca' Hask R q k Hq Hk. destruct (near_prior r n n' Hn Hwf q k Hnn Hnn' Hwf' Hca Hca') as [A B].
  destruct Hn as [Hr Ho]. pose proof (ot_v _ _ _ Ho) as Ev.
  assert (V : forall m, valid_observations m []) by (split; [constructor|intros ? ? []]).
  exists (posterior n (fun _ => false) [] q k), (posterior n' (fun _ => false) [] q k). split; [|split; [|split; auto]].
  - apply (answer_exact n sc false []); auto; [eapply causal_complete; eauto|].
    change (mass n (fun _ => false) (agrees (n_vars n) []) <> 0%Qc). rewrite (mass_one n Hwf Hca). discriminate.
  - apply (answer_exact n' sc' false []); rewrite ?Ev; auto; [eapply causal_complete; eauto|intros z Hz; apply (ot_askable _ _ _ Ho (fun _ => false) []); auto|].
    change (mass n' (fun _ => false) (agrees (n_vars n) []) <> 0%Qc). rewrite <- Ev, (mass_one n' Hwf' Hca'). discriminate.
Qed.

(** If no utility is negative, the maximum expected utilities do not differ by more than the factor [R]. *)
Theorem C123_utility : forall r n n', near r n n' -> nonnegative n -> nonnegative n' -> decision_network n -> decision_network n' -> no_forgetting n ->
  (forall s, 0 <= utility_of n s)%Qc ->
  let R := total_ratio r n in
  exists b b', maximum_utility n b /\ maximum_utility n' b' /\ (b <= R * b')%Qc /\ (b' <= R * b)%Qc.
Proof.
  intros r n n' Hn Hnn Hnn' Hd Hd' Hf Hu R. pose proof (ratio_one r n n' Hn) as HR. assert (HR0 : (0 <= R)%Qc) by (apply Qcle_trans with 1%Qc; [discriminate|exact HR]). pose proof (proj2 Hn) as Ho.
  destruct (maximum_exists n Hd Hf) as (b & Mb & (p & Hp & E) & Hmax). destruct (maximum_exists n' Hd' (ot_forgetting _ _ _ Ho Hf)) as (b' & Mb' & (p' & Hp' & E') & Hmax').
  assert (Q : forall d, In d (decisions n') -> policy_for n' d (p d)). { intros d. rewrite (ot_decisions _ _ _ Ho). intros Hi. apply (ot_policy _ _ _ Ho). auto. }
  assert (Q' : forall d, In d (decisions n) -> policy_for n d (p' d)). { intros d Hi. apply (ot_policy _ _ _ Ho). apply Hp'. rewrite (ot_decisions _ _ _ Ho). auto. }
  destruct (near_value r n n' Hn (dn_wf _ Hd) p Hnn Hnn' Hu Hp) as [A _]. destruct (near_value r n n' Hn (dn_wf _ Hd) p' Hnn Hnn' Hu Q') as [_ B].
  exists b, b'. repeat (split; auto).
  - rewrite <- E. eapply Qcle_trans; [exact A|]. fold R. rewrite !(Qcmult_comm R). apply Qcmult_le_compat_r; auto.
  - rewrite <- E'. eapply Qcle_trans; [exact B|]. fold R. rewrite !(Qcmult_comm R). apply Qcmult_le_compat_r; auto.
Qed.

(** ** C124: the zeros of tables decide what is possible *)

(** If the same conditional probabilities are zero in [n] and [n'], the same evidence is possible in both
    (otherwise all answers are NaN), and the same answers are zero. *)
Theorem C124_zeros : forall n n' sc sc' ig ev query, same_zeros n n' -> wf_network n -> wf_network n' -> complete n -> nonnegative n -> nonnegative n' ->
  valid_observations n ev -> (forall q, In q query -> askable n (ignored_by ig ev) ev q) ->
  exists n1 res f n1' res' f', net_solve_query sc n ev query ig = (n1, Ok (res, f)) /\ net_solve_query sc' n' ev query ig = (n1', Ok (res', f')) /\
    forall q, In q query -> exists l l', sget_map res q = Some l /\ sget_map res' q = Some l' /\
      Forall2 (fun x x' => x = NaN /\ x' = NaN \/ exists p p', x = Fin p /\ x' = Fin p' /\ (p = 0%Qc <-> p' = 0%Qc)) l l'.
Proof.
  intros n n' sc sc' ig ev query Hz Hwf Hwf' Hco Hnn Hnn' Hv Hask. pose proof (ot_v _ _ _ Hz) as Ev.
  destruct (query_exact n Hwf sc ig ev query Hco Hv Hask) as (n1 & res & f & E & Hs).
  destruct (query_exact n' Hwf' sc' ig ev query (ot_complete _ _ _ Hz Hco) (ot_observations _ _ _ Hz ev Hv)) as (n1' & res' & f' & E' & Hs'); [intros q Hq; apply (ot_askable _ _ _ Hz); auto|].
  exists n1, res, f, n1', res', f'. split; auto. split; auto. intros q Hq. destruct (proj1 (Hs q) Hq) as (l & El & Hd & Hi). destruct (proj1 (Hs' q) Hq) as (l' & El' & Hd' & Hi').
  exists l, l'. split; auto. split; auto. rewrite Ev in *. destruct (Qc_eq_dec (mass n (ignored_by ig ev) (agrees (n_vars n) ev)) 0%Qc) as [Z|M].
  - pose proof (proj1 (zeros_mass n n' Hz Hwf _ _ Hnn Hnn') Z) as Z'. rewrite (Hi Hnn Z), (Hi' Hnn' Z'). generalize (num_outcomes (n_vars n) q). intros m. induction m; cbn [repeat]; constructor; auto.
  - assert (M' : mass n' (ignored_by ig ev) (agrees (n_vars n) ev) <> 0%Qc) by (intros Z; apply M; exact (proj2 (zeros_mass n n' Hz Hwf _ _ Hnn Hnn') Z)).
    rewrite (Hd M), (Hd' M'). generalize (seq 0 (num_outcomes (n_vars n) q)). intros ks. induction ks as [|k ks IH]; cbn [map]; constructor; auto.
    right. exists (posterior n (ignored_by ig ev) ev q k), (posterior n' (ignored_by ig ev) ev q k). split; auto. split; auto. exact (zeros_posterior n n' Hz Hwf _ ev q k Hnn Hnn' M).
Qed.

(** *** Examples *)

(** Checking all entries of a pair of tables *)
Definition in_scope_b (n : network xnum) (f : nfactor xnum) : bool := forallb (fun x => existsb (fun v => String.eqb (nv_name v) x) (n_vars n)) (nf_given f ++ [nf_for f]).
Definition pair_b (n : network xnum) (test : Qc -> Qc -> bool) (f f' : nfactor xnum) : bool :=
  in_scope_b n f && in_scope_b n f' && forallb (fun s => test (cond_prob (n_vars n) f s) (cond_prob (n_vars n) f' s)) (joint_states (n_vars n) nowhere).
Lemma pair_b_sound n test f f' : wf_network n -> pair_b n test f f' = true -> forall s, proper_state n s -> test (cond_prob (n_vars n) f s) (cond_prob (n_vars n) f' s) = true.
Proof.
  intros Hwf H s Hs. unfold pair_b in H. rewrite !andb_true_iff, forallb_forall in H. destruct H as [[S S'] H]. destruct (states_cover (n_vars n) (wn_names n Hwf) s nowhere Hs) as (t & Ht & E & _).
  assert (K : forall g, in_scope_b n g = true -> cond_prob (n_vars n) g s = cond_prob (n_vars n) g t).
  { intros g Hg. apply cond_prob_looks. intros y Hy. unfold in_scope_b in Hg. rewrite forallb_forall in Hg. specialize (Hg y Hy). apply existsb_exists in Hg. destruct Hg as (v & Hv & En). apply String.eqb_eq in En. subst y. symmetry. auto. }
  rewrite (K f S), (K f' S'). auto.
Qed.

(** The probability of the sprinkler on a cloudy day is 0.11 instead of 0.1, and 0.89 instead of 0.9. *)
Definition wet_factors_with (a b : Q) : list (nfactor xnum) :=
  [nth 0 wet_factors (cpt "" [] []); cpt "sprinkler" ["cloudy"] [a; b; 1#2; 1#2]; nth 2 wet_factors (cpt "" [] []); nth 3 wet_factors (cpt "" [] [])].
Definition wet_other (a b : Q) : network xnum := built (net_new "wet" "" wet_vars (wet_factors_with a b)).
Definition wet_ratio (x : string) : Qc := if String.eqb x "sprinkler" then Q2Qc (11#10) else 1%Qc.
Definition within_b (r p p' : Qc) : bool := match Qccompare p (r * p')%Qc, Qccompare p' (r * p)%Qc with Gt, _ | _, Gt => false | _, _ => true end.
Lemma within_b_sound r p p' : within_b r p p' = true -> (p <= r * p' /\ p' <= r * p)%Qc.
Proof. unfold within_b. intros H. split; rewrite Qcle_alt; intros E; rewrite E in H; [discriminate|]. destruct (p ?= r * p')%Qc; discriminate. Qed.

Lemma tables_check (R : string -> nfactor xnum -> nfactor xnum -> Prop) n n' l l' (test : string -> nfactor xnum -> nfactor xnum -> bool) :
  n_vars n' = n_vars n -> n_tui n' = n_tui n -> n_policies n' = n_policies n -> (forall u, net_weight n' u = net_weight n u) -> n_factors n = l -> n_factors n' = l' ->
  Forall2 (fun f f' => nf_for f' = nf_for f /\ nf_given f' = nf_given f /\
    (match kind (n_vars n) (nf_for f) with Some Chance => true | _ => false end = true /\ test (nf_for f) f f' = true \/
     match kind (n_vars n) (nf_for f) with Some Chance => true | _ => false end = false /\ f' = f)) l l' ->
  (forall f f', test (nf_for f) f f' = true -> R (nf_for f) f f') -> other_tables R n n'.
Proof.
  intros H1 H2 H3 H4 E E' HF Ht. constructor; auto. rewrite E, E'. clear E E'. induction HF as [|f f' l l' (A & B & C) _ IH]; constructor; auto. split; auto. split; auto.
  destruct C as [[-> C]|[-> C]]; auto.
Qed.
Example wet_near : near wet_ratio wet (wet_other (11#100) (89#100)).
Proof.
  split; [intros x; unfold wet_ratio; destruct (String.eqb x "sprinkler"); vm_compute; discriminate|].
  apply (tables_check _ _ _ (map (linked_factor wet_vars) wet_factors) (map (linked_factor wet_vars) (wet_factors_with (11#100) (89#100))) (fun x => pair_b wet (within_b (wet_ratio x)))); [reflexivity..|intros u; reflexivity|reflexivity|reflexivity| |].
  - unfold wet_factors_with, wet_factors. cbn [map nth]. repeat (apply Forall2_cons; [split; [reflexivity|split; [reflexivity|left; split; vm_compute; reflexivity]]|]). apply Forall2_nil.
  - intros f f' H s Hs. apply within_b_sound. exact (pair_b_sound wet _ f f' wet_wf H s Hs).
Qed.
(** With 0 and 1 in place of 0.1 and 0.9, other answers are zero; with 0.3 and 0.7, the same. *)
Example wet_zeros : same_zeros wet (wet_other (3#10) (7#10)).
Proof.
  apply (tables_check _ _ _ (map (linked_factor wet_vars) wet_factors) (map (linked_factor wet_vars) (wet_factors_with (3#10) (7#10))) (fun x => pair_b wet (fun p p' => Bool.eqb (qeq p 0) (qeq p' 0)))); [reflexivity..|intros u; reflexivity|reflexivity|reflexivity| |].
  - unfold wet_factors_with, wet_factors. cbn [map nth]. repeat (apply Forall2_cons; [split; [reflexivity|split; [reflexivity|left; split; vm_compute; reflexivity]]|]). apply Forall2_nil.
  - intros f f' H s Hs. pose proof (pair_b_sound wet _ f f' wet_wf H s Hs) as K. cbv beta in K. apply eqb_prop in K. rewrite <- !qeq_spec, K. tauto.
Qed.
Example wet_other_wf : (wf_network (wet_other (11#100) (89#100)) /\ nonnegative (wet_other (11#100) (89#100)) /\ causal (wet_other (11#100) (89#100)) (fun _ => false) []) /\
  wf_network (wet_other (3#10) (7#10)) /\ nonnegative (wet_other (3#10) (7#10)).
Proof.
  split; [split; [|split]|split]; try (apply network_b_sound; vm_compute; reflexivity); try (apply nonnegative_b_sound; vm_compute; reflexivity).
  apply causal_b_sound with (rank := fun x => SpecNet.position x ["cloudy"; "sprinkler"; "rain"; "grass"]); [apply network_b_sound|]; vm_compute; reflexivity.
Qed.
Example C123_hypotheses : valid_observations wet [("grass", "wet")] /\ askable wet (ignored_by false [("grass", "wet")]) [("grass", "wet")] "sprinkler" /\
  mass wet (ignored_by false [("grass", "wet")]) (agrees (n_vars wet) [("grass", "wet")]) <> 0%Qc /\ total_ratio wet_ratio wet = Q2Qc (11#10).
Proof.
  split; [apply observations_b_sound; vm_compute; reflexivity|]. split; [apply askable_b_sound; vm_compute; reflexivity|]. split; [apply qeq_false; vm_compute; reflexivity|]. apply qeq_spec. vm_compute. reflexivity.
Qed.
(** 0.4298 and 0.4364 *)
Example C123_example : shown_answer (net_solve_query sched_id wet [("grass", "wet")] ["sprinkler"] false) = Some [("sprinkler", [SFin (309#719); SFin (410#719)])] /\
  shown_answer (net_solve_query sched_id (wet_other (11#100) (89#100)) [("grass", "wet")] ["sprinkler"] false) = Some [("sprinkler", [SFin (786#1801); SFin (1015#1801)])].
Proof. repeat split; vm_compute; reflexivity. Qed.

(** The sun with probability 0.72 instead of 0.7. *)
Definition umb_near_factors := cpt "weather" [] [72#100; 28#100] :: tl umb_factors.
Definition umb_near : network xnum := built (net_new "umbrella" "" umb_vars umb_near_factors).
Definition umb_ratio (x : string) : Qc := if String.eqb x "weather" then Q2Qc (15#14) else 1%Qc.
Example umb_nearly : near umb_ratio umb umb_near.
Proof.
  assert (Hwf : wf_network umb) by (apply network_b_sound; vm_compute; reflexivity).
  split; [intros x; unfold umb_ratio; destruct (String.eqb x "weather"); vm_compute; discriminate|].
  apply (tables_check _ _ _ (map (linked_factor umb_vars) umb_factors) (map (linked_factor umb_vars) umb_near_factors) (fun x => pair_b umb (within_b (umb_ratio x)))); [reflexivity..|intros u; reflexivity|reflexivity|reflexivity| |].
  - unfold umb_near_factors, umb_factors. cbn [map tl]. repeat (apply Forall2_cons; [split; [reflexivity|split; [reflexivity|first [left; split; [reflexivity|vm_compute; reflexivity]|right; split; reflexivity]]]|]). apply Forall2_nil.
  - intros f f' H s Hs. apply within_b_sound. exact (pair_b_sound umb _ f f' Hwf H s Hs).
Qed.
Definition at_least_zero (q : Qc) : bool := match Qccompare 0%Qc q with Gt => false | _ => true end.
Lemma at_least_zero_sound q : at_least_zero q = true -> (0 <= q)%Qc.
Proof. unfold at_least_zero. intros H. rewrite Qcle_alt. intros E. rewrite E in H. discriminate. Qed.
Lemma utilities_check n : forallb (fun f => at_least_zero (net_weight n (nf_for f)) &&
  forallb (fun x => match x with Fin q => at_least_zero q | _ => true end) (slice_of (nf_table f))) (utility_tables n) = true -> forall s, (0 <= utility_of n s)%Qc.
Proof.
  intros H s. rewrite forallb_forall in H.
  unfold utility_of. apply XnumFacts.qsum_nonneg. intros x Hx. apply in_map_iff in Hx. destruct Hx as (f & <- & Hf). specialize (H f Hf). apply andb_true_iff in H. destruct H as [W T]. rewrite forallb_forall in T.
  replace 0%Qc with (0 * entry (n_vars n) f s)%Qc by ring. apply Qcmult_le_compat_r; [apply at_least_zero_sound; auto|]. unfold entry. destruct (nth_error _ _) as [y|] eqn:E; [|apply Qcle_refl]. apply nth_error_In in E.
  cbn [fin_value]. specialize (T y E). destruct y; try apply Qcle_refl. apply at_least_zero_sound. auto.
Qed.
Example C123_utility_hypotheses : (nonnegative umb /\ nonnegative umb_near) /\ (decision_network umb /\ decision_network umb_near /\ no_forgetting umb) /\ (forall s, 0 <= utility_of umb s)%Qc /\
  total_ratio umb_ratio umb = Q2Qc (15#14).
Proof.
  split; [split; apply nonnegative_b_sound; vm_compute; reflexivity|].
  split; [split; [|split]|].
  1: apply (decision_network_b_sound umb (fun x => SpecNet.position x ["weather"; "forecast"; "umbrella"])); vm_compute; reflexivity.
  1: apply (decision_network_b_sound umb_near (fun x => SpecNet.position x ["weather"; "forecast"; "umbrella"])); vm_compute; reflexivity.
  1: apply no_forgetting_b_sound; vm_compute; reflexivity.
  split; [apply utilities_check; vm_compute; reflexivity|]. apply qeq_spec. vm_compute. reflexivity.
Qed.
Example C123_utility_example : shown_values (net_solve_utility sched_id (fst (net_solve_policies sched_id umb true)) [] [] "" false) = Some [SFin (77#1)] /\
  shown_values (net_solve_utility sched_id (fst (net_solve_policies sched_id umb_near true)) [] [] "" false) = Some [SFin (78#1)].
Proof. repeat split; vm_compute; reflexivity. Qed.

Example C124_hypotheses : valid_observations wet [("grass", "wet"); ("sprinkler", "off")] /\ askable wet (ignored_by false [("grass", "wet"); ("sprinkler", "off")]) [("grass", "wet"); ("sprinkler", "off")] "rain".
Proof. split; [apply observations_b_sound; vm_compute; reflexivity|apply askable_b_sound; vm_compute; reflexivity]. Qed.
Example C124_example : let m := wet_other (3#10) (7#10) in
  shown_answer (net_solve_query sched_id wet [("grass", "wet"); ("sprinkler", "off")] ["rain"] false) = Some [("rain", [SFin 1; SFin 0])] /\
  shown_answer (net_solve_query sched_id m [("grass", "wet"); ("sprinkler", "off")] ["rain"] false) = Some [("rain", [SFin 1; SFin 0])] /\
  shown_answer (net_solve_query sched_id wet [("grass", "wet"); ("sprinkler", "off"); ("rain", "no")] ["cloudy"] false) = Some [("cloudy", [SNaN; SNaN])] /\
  shown_answer (net_solve_query sched_id m [("grass", "wet"); ("sprinkler", "off"); ("rain", "no")] ["cloudy"] false) = Some [("cloudy", [SNaN; SNaN])].
Proof. repeat split; vm_compute; reflexivity. Qed.

Print Assumptions C123_queries.
Print Assumptions C123_prior.
Print Assumptions C123_utility.
Print Assumptions C124_zeros.
