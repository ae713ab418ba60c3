(** Property C130: expected utilities of different calls (network.go: SolveUtility, SolveQuery).
    The vocabulary is in SpecNet.v, SpecAnswers.v and SpecTower.v. *)
From Coq Require Import ZArith List Bool String Lia Permutation QArith Qcanon.
From Verif Require Import Num GoBase VarModel GoFacts SpecFactor XnumFacts VEModel SpecVE NetModel SpecNet NetVars NetNew NetCheck NetQuery SpecNetPolicy NetPolicy NetPolicyThms SpecAnswers NetJoint NetBayes
  NetFactors NetCor NetMass SpecTower NetTower Props_VE Props_Net Props_Policy.
Import ListNotations.
Open Scope string_scope.
Open Scope list_scope.
Open Scope Z_scope.

(** ** C130: expected utilities of different calls fit together *)

(** SolveUtility with evidence gives the sum of what it gives with a further observation, over all outcomes. *)
Theorem C130_sum : forall n sc1 sc2 ev x v, wf_network n -> complete n -> solved n -> plain_utilities n -> some_utility n ->
  valid_observations n ev -> var_named (n_vars n) x = Some v -> nv_type v <> Utility -> ~ In x (map fst ev) ->
  exists u (ux : nat -> Qc), valued (net_solve_utility sc1 n ev [] "" false) u /\
    (forall i o, nth_error (nv_outcomes v) i = Some o -> valued (net_solve_utility (sc2 i) n (ev ++ [(x, o)]) [] "" false) (ux i)) /\
    u = qsum (map ux (seq 0 (List.length (nv_outcomes v)))).
Proof.
  intros n sc1 sc2 ev x v Hwf Hco Hsv Hpl Hso Hv Hx Ht Hno. exists (value_given n (fun _ => false) ev), (fun i => value_given n (fun _ => false) (ev ++ [(x, nth i (nv_outcomes v) "")])). split; [|split].
  - apply (utility_given n Hwf Hco Hsv Hpl Hso sc1 false ev Hv).
  - intros i o Hi. rewrite (nth_error_nth _ _ "" Hi). apply (utility_given n Hwf Hco Hsv Hpl Hso (sc2 i) false). eapply more_observations; eauto.
  - apply value_cases; auto.
Qed.

(** The expected utility given the evidence is the average of those given a further observation,
    weighted by the probabilities that SolveQuery gives. *)
Theorem C130_average : forall n sc1 sc2 sc3 ev x v, wf_network n -> complete n -> solved n -> plain_utilities n -> some_utility n -> nonnegative n ->
  valid_observations n ev -> evidence_prob n ev <> 0%Qc -> var_named (n_vars n) x = Some v -> askable n (fun _ => false) ev x ->
  exists u (ux px : nat -> Qc), valued (net_solve_utility sc1 n ev [] "" false) u /\
    (forall i o, nth_error (nv_outcomes v) i = Some o -> valued (net_solve_utility (sc2 i) n (ev ++ [(x, o)]) [] "" false) (ux i) /\
       answered (net_solve_query sc3 n ev [x] false) x i (px i)) /\
    (u / evidence_prob n ev = qsum (map (fun i => px i * (ux i / evidence_prob n (ev ++ [(x, nth i (nv_outcomes v) "")]))) (seq 0 (List.length (nv_outcomes v)))))%Qc.
Proof.
  intros n sc1 sc2 sc3 ev x v Hwf Hco Hsv Hpl Hso Hnn Hv Hm Hx Hax.
  assert (Ht : nv_type v <> Utility) by (destruct Hax as ((w & E & Ht) & _); congruence).
  exists (value_given n (fun _ => false) ev), (fun i => value_given n (fun _ => false) (ev ++ [(x, nth i (nv_outcomes v) "")])), (posterior n (fun _ => false) ev x). split; [|split].
  - apply (utility_given n Hwf Hco Hsv Hpl Hso sc1 false ev Hv).
  - intros i o Hi. split.
    + rewrite (nth_error_nth _ _ "" Hi). apply (utility_given n Hwf Hco Hsv Hpl Hso (sc2 i) false). eapply more_observations; eauto. apply Hax.
    + apply query_answered; auto; [intros q [<-|[]]; auto|left; auto|]. eapply index_lt; eauto.
  - rewrite (value_cases n Hwf (fun _ => false) ev x v Hx). unfold Qcdiv at 1. rewrite Qcmult_comm, <- NetAdvice.qsum_scale. apply f_equal. apply map_ext_in. intros i Hi. apply in_seq in Hi.
    assert (Ei : nth_error (nv_outcomes v) i = Some (nth i (nv_outcomes v) "")) by (apply nth_error_nth'; lia).
    unfold posterior, evidence_prob in *. rewrite <- (mass_more n Hwf ev x _ v i Hx Ei). set (o := nth i (nv_outcomes v) ""). set (a := mass n (fun _ => false) (agrees (n_vars n) (ev ++ [(x, o)]))). set (b := mass n (fun _ => false) (agrees (n_vars n) ev)) in *.
    destruct (Qc_eq_dec a 0%Qc) as [Ea|Na].
    + unfold value_given. rewrite (zero_value n Hnn) by exact Ea. rewrite Ea. unfold Qcdiv. ring.
    + field. split; auto.
Qed.

(** Observing what is certain anyway does not change expected utilities. *)
Theorem C130_certain : forall n sc1 sc2 sc3 ev x v i o, wf_network n -> complete n -> solved n -> plain_utilities n -> some_utility n -> nonnegative n ->
  valid_observations n ev -> evidence_prob n ev <> 0%Qc -> var_named (n_vars n) x = Some v -> nth_error (nv_outcomes v) i = Some o -> askable n (fun _ => false) ev x ->
  answered (net_solve_query sc3 n ev [x] false) x i 1%Qc ->
  exists u, valued (net_solve_utility sc1 n ev [] "" false) u /\ valued (net_solve_utility sc2 n (ev ++ [(x, o)]) [] "" false) u.
Proof.
  intros n sc1 sc2 sc3 ev x v i o Hwf Hco Hsv Hpl Hso Hnn Hv Hm Hx Hi Hax Hone. exists (value_given n (fun _ => false) ev). split; [apply (utility_given n Hwf Hco Hsv Hpl Hso sc1 false ev Hv)|].
  assert (Ht : nv_type v <> Utility) by (destruct Hax as ((w & E & Ht) & _); congruence).
  assert (Hv2 : valid_observations n (ev ++ [(x, o)])) by (eapply more_observations; eauto; apply Hax).
  replace (value_given n (fun _ => false) ev) with (value_given n (fun _ => false) (ev ++ [(x, o)])); [apply (utility_given n Hwf Hco Hsv Hpl Hso sc2 false _ Hv2)|].
  assert (Hp : posterior n (fun _ => false) ev x i = 1%Qc).
  { destruct Hone as (n1 & r1 & f1 & l1 & E1 & G1 & H1).
    destruct (query_answered n Hwf Hco sc3 ev [x] x i Hv) as (n2 & r2 & f2 & l2 & E2 & G2 & H2); [intros q [<-|[]]; auto|exact Hm|left; auto|eapply index_lt; eauto|].
    rewrite E1 in E2. assert (r1 = r2) by congruence. assert (l1 = l2) by congruence. assert (Some (Fin 1%Qc) = Some (Fin (posterior n (fun _ => false) ev x i))) as Hsm by congruence. symmetry. apply Fin_inj. exact (f_equal (fun z => match z with Some w => w | None => NaN end) Hsm). }
  pose proof (proj1 (NetFactors.var_named_in n Hwf x v) Hx) as [Hin Hn]. assert (Hil : (i < List.length (nv_outcomes v))%nat) by (apply nth_error_Some; congruence).
  rewrite (value_cases n Hwf (fun _ => false) ev x v Hx).
  rewrite (map_ext_in _ (fun k => if (k =? i)%nat then value_given n (fun _ => false) (ev ++ [(x, o)]) else 0%Qc)).
  - symmetry. apply (NetSums.qsum_pick (fun _ => value_given n (fun _ => false) (ev ++ [(x, o)])) i); auto.
  - intros k Hk. apply in_seq in Hk. destruct (Nat.eqb_spec k i) as [->|Hki]; [rewrite (nth_error_nth _ _ "" Hi); auto|].
    assert (Ek : nth_error (nv_outcomes v) k = Some (nth k (nv_outcomes v) "")) by (apply nth_error_nth'; lia).
    unfold value_given. apply zero_value; auto. rewrite (mass_more n Hwf ev x _ v k Hx Ek).
    assert (Hs := mass_cases n Hwf x v (agrees (n_vars n) ev) Hin Hn). 
    unfold posterior in Hp. unfold evidence_prob in Hm.
    set (g := fun k => mass n (fun _ => false) (fun s => agrees (n_vars n) ev s && (s x =? k)%nat)) in *. set (b := mass n (fun _ => false) (agrees (n_vars n) ev)) in *.
    assert (Egi : g i = b) by (transitivity (g i / b * b)%Qc; [field; auto|unfold g; rewrite Hp; ring]).
    assert (Hz : qsum (map (fun j => if (j =? i)%nat then 0%Qc else g j) (seq 0 (List.length (nv_outcomes v)))) = 0%Qc).
    { assert (E : (qsum (map (fun j => if (j =? i)%nat then g j else 0%Qc) (seq 0 (List.length (nv_outcomes v)))) + qsum (map (fun j => if (j =? i)%nat then 0%Qc else g j) (seq 0 (List.length (nv_outcomes v)))))%Qc = b).
      { rewrite <- NetAdvice.qsum_plus. rewrite (Hs Ht). f_equal. apply map_ext. intros j. destruct (j =? i)%nat; fold (g j); ring. }
      rewrite (NetSums.qsum_pick g i) in E by auto. rewrite Egi in E. match type of E with (_ + ?z)%Qc = _ => transitivity (b + z - b)%Qc; [ring|rewrite E; ring] end. }
    pose proof (NetSame.zero_parts (fun j => if (j =? i)%nat then 0%Qc else g j) (seq 0 (List.length (nv_outcomes v)))) as Z. cbn beta in Z.
    specialize (Z (fun j _ => match (j =? i)%nat as c return (0 <= (if c then 0%Qc else g j))%Qc with true => Qcle_refl 0 | false => mass_nonneg n _ _ Hnn end) Hz k). destruct (Nat.eqb_spec k i); [contradiction|]. apply Z. apply in_seq. lia.
Qed.

(** The expected utility given evidence lies between the lowest and the highest utility. *)
Theorem C130_bounds : forall n sc ev lo hi, wf_network n -> complete n -> solved n -> plain_utilities n -> some_utility n -> nonnegative n ->
  valid_observations n ev -> evidence_prob n ev <> 0%Qc -> (forall s, proper_state n s -> (lo <= utility_of n s)%Qc /\ (utility_of n s <= hi)%Qc) ->
  exists u, valued (net_solve_utility sc n ev [] "" false) u /\ (lo <= u / evidence_prob n ev)%Qc /\ (u / evidence_prob n ev <= hi)%Qc.
Proof.
  intros n sc ev lo hi Hwf Hco Hsv Hpl Hso Hnn Hv Hm Hb. exists (value_given n (fun _ => false) ev). split; [apply (utility_given n Hwf Hco Hsv Hpl Hso sc false ev Hv)|].
  destruct (value_bounds n Hwf Hnn (fun _ => false) ev lo hi Hb) as [H1 H2]. unfold evidence_prob in *. pose proof (mass_nonneg n (fun _ => false) (agrees (n_vars n) ev) Hnn) as H0. set (m := mass n _ _) in *. set (u := value_given _ _ _) in *.
  assert (Hp : (0 < m)%Qc) by (destruct (Qcle_lt_or_eq _ _ H0) as [|E]; [auto|congruence]).
  split; apply (Qcmult_lt_0_le_reg_r _ _ m Hp).
  - replace (u / m * m)%Qc with u by (field; auto). exact H1.
  - replace (u / m * m)%Qc with u by (field; auto). exact H2.
Qed.

(** The hypotheses hold after SolvePolicies. *)
Lemma after_policies sc n stepwise : decision_network n -> no_forgetting n -> exists n' tables, net_solve_policies sc n stepwise = (n', Ok tables) /\
  wf_network n' /\ complete n' /\ solved n' /\ plain_utilities n' /\ some_utility n' /\ nonnegative n' /\
  (forall ev, valid_observations n ev -> valid_observations n' ev) /\
  (forall ev q, (exists v, var_named (n_vars n) q = Some v /\ nv_type v <> Utility) -> ~ In q (map fst ev) -> askable n' (fun _ => false) ev q).
Proof.
  intros Hd Hf. destruct (solve_policies_ok sc n stepwise Hd Hf) as (n' & t & E & Hs). exists n', t. split; [exact E|]. pose proof (sv_partly _ _ _ Hs) as Hp. destruct (dn_utilities _ (ps_net n' Hp)) as [H1 H2].
  split; [exact (dn_wf _ (ps_net n' Hp))|]. split; [exact (solved_complete n n' t Hs)|]. split; [exact (NetAdvice.solved_all n n' t Hs)|]. split; [exact H1|]. split; [exact H2|]. split; [exact (solved_nonnegative n n' t Hs)|].
  split; [exact (observations_same n n' t Hs)|]. intros ev q. exact (solved_askable n n' t Hs false ev q).
Qed.
Definition umb_advised : network xnum := fst (net_solve_policies sched_id umb true).
Example C130_hypotheses : let ev := [("forecast", "rainy")] in wf_network umb_advised /\ complete umb_advised /\ solved umb_advised /\ plain_utilities umb_advised /\ some_utility umb_advised /\ nonnegative umb_advised /\
  valid_observations umb_advised ev /\ evidence_prob umb_advised ev <> 0%Qc /\ (exists v, var_named (n_vars umb_advised) "weather" = Some v) /\ askable umb_advised (fun _ => false) ev "weather".
Proof.
  cbn zeta. assert (Hf : no_forgetting umb) by (apply no_forgetting_b_sound; vm_compute; reflexivity).
  destruct (after_policies sched_id umb true (proj1 C65_one_hypotheses) Hf) as (n' & t & E & H1 & H2 & H3 & H4 & H5 & H6 & H7 & H8). assert (En : umb_advised = n') by (unfold umb_advised; rewrite E; reflexivity).
  assert (Hm : evidence_prob umb_advised [("forecast", "rainy")] <> 0%Qc) by (apply qeq_false; vm_compute; reflexivity).
  assert (Hx : exists v, var_named (n_vars umb_advised) "weather" = Some v) by (eexists; vm_compute; reflexivity).
  rewrite En in *. split; [exact H1|]. split; [exact H2|]. split; [exact H3|]. split; [exact H4|]. split; [exact H5|]. split; [exact H6|].
  split; [apply H7; apply observations_b_sound; vm_compute; reflexivity|]. split; [exact Hm|]. split; [exact Hx|].
  apply H8; [eexists; split; [reflexivity|discriminate]|]. intros [K|[]]. discriminate K.
Qed.
(** The forecast is rainy with probability 1/4: 7% with sunny weather and 18% with rainy weather. Then
    the umbrella is taken: 7/100 * 20 + 18/100 * 70 = 14. *)
Example C130_example : shown_values (net_solve_utility sched_id umb_advised [("forecast", "rainy")] [] "" false) = Some [SFin (14#1)] /\
  shown_values (net_solve_utility sched_id umb_advised [("forecast", "rainy"); ("weather", "sunny")] [] "" false) = Some [SFin (7#5)] /\
  shown_values (net_solve_utility sched_id umb_advised [("forecast", "rainy"); ("weather", "rainy")] [] "" false) = Some [SFin (63#5)] /\
  shown_answer (net_solve_query sched_id umb_advised [("forecast", "rainy")] ["weather"] false) = Some [("weather", [SFin (7#25); SFin (18#25)])] /\
  qeq (evidence_prob umb_advised [("forecast", "rainy")]) (Q2Qc (1#4)) = true.
Proof. split; [vm_compute; reflexivity|]. split; [vm_compute; reflexivity|]. split; [vm_compute; reflexivity|]. split; vm_compute; reflexivity. Qed.

Print Assumptions C130_sum.
Print Assumptions C130_average.
Print Assumptions C130_certain.
Print Assumptions C130_bounds.
