(** Property C100: possible evidence and numbers out of range (network.go, ve/), with float64 numbers.
    Specification vocabulary: SpecNet.v and SpecRound.v. *)
From Coq Require Import ZArith List Bool String Lia Permutation QArith Qcanon.
From Coq Require Import Floats.SpecFloat.
From Verif Require Import Num GoBase VarModel GoFacts SpecFactor XnumFacts VEModel SpecVE NetModel SpecNet SpecRound
  NetVars NetFactors NetQuery NetExtra NetCheck RoundNet RoundQuery RoundCheck Props_VE Props_Net Props_Float.
Import ListNotations.
Open Scope string_scope.
Open Scope list_scope.
Open Scope Z_scope.

(** A disease and [k] symptoms, each of which shows with probability 0.01 or 0.005. *)
Definition digit (k : nat) : string := String (Ascii.ascii_of_nat (48 + k)) "".
Definition symptom (k : nat) : string := "s" ++ digit (k / 100) ++ digit (k / 10 mod 10) ++ digit (k mod 10).
Definition clinic (k : nat) : network f64 := built64 (net_new "clinic" ""
  (node Chance "disease" ["yes"; "no"] :: map (fun i => node Chance (symptom i) ["yes"; "no"]) (seq 0 k))
  (cpt64 "disease" [] [(1, 2); (99, 2)] :: map (fun i => cpt64 (symptom i) ["disease"] [(1, 2); (99, 2); (5, 3); (995, 3)]) (seq 0 k))).
Definition all_symptoms (k : nat) : list (string * string) := map (fun i => (symptom i, "yes")) (seq 0 k).

(** The state in which all variables have their first outcome. *)
Fixpoint all_first (vars : list nvar) (s : nstate) : nstate :=
  match vars with [] => s | v :: r => all_first r (nupd s (nv_name v) 0%nat) end.

Lemma all_first_state vars : Forall (fun v => nv_outcomes v <> []) vars -> forall s, In (all_first vars s) (joint_states vars s).
Proof.
  induction 1 as [|v r Hv H IH]; intros s; cbn [all_first joint_states]; [left; auto|].
  apply in_flat_map. exists 0%nat. split; [|apply IH]. apply in_seq. destruct (nv_outcomes v); [congruence|simpl; lia].
Qed.

Lemma mass_by_state n ign event s : nonnegative n -> In s (worlds_of n) -> event s = true -> joint n ign s <> 0%Qc -> mass n ign event <> 0%Qc.
Proof.
  intros Hn Hs He Hj Hm. apply Hj. unfold mass in Hm. refine (qsum_zero_all _ _ Hm _ _).
  - intros x Hx. apply in_map_iff in Hx. destruct Hx as (s' & <- & _). apply joint_nonneg; auto.
  - apply in_map. apply filter_In. auto.
Qed.

Definition first_of_all (n : network xnum) : nstate := all_first (filter (fun v => negb (is_kind Utility v)) (n_vars n)) nowhere.
Definition positive_b (n : network xnum) (ev : list (string * string)) : bool :=
  let s := first_of_all n in
  forallb (fun v => negb (zlen (nv_outcomes v) =? 0)) (n_vars n) && agrees (n_vars n) ev s &&
  forallb (fun f => negb (qeq (cond_prob (n_vars n) f s) 0%Qc)) (chance_factors n) &&
  forallb (fun dp => negb (qeq (policy_prob (n_vars n) (snd dp) s) 0%Qc)) (n_policies n).

Lemma qprod_nonzero {X} (g : X -> Qc) l : (forall x, In x l -> g x <> 0%Qc) -> qprod (map g l) <> 0%Qc.
Proof.
  induction l as [|x l IH]; intros H; [discriminate|]. change (qprod (map g (x :: l))) with (g x * qprod (map g l))%Qc.
  intros E. apply Qcmult_integral in E. destruct E as [E|E]; [apply (H x); simpl; auto|apply IH; auto]. intros y Hy. apply H. simpl. auto.
Qed.

Lemma positive_b_sound n ev : nonnegative n -> positive_b n ev = true -> mass n (ignored_by false ev) (agrees (n_vars n) ev) <> 0%Qc.
Proof.
  unfold positive_b. cbv zeta. rewrite !andb_true_iff. intros Hn [[[H1 H2] H3] H4]. rewrite forallb_forall in H3, H4.
  apply (mass_by_state _ _ _ (first_of_all n)); auto.
  - apply all_first_state. apply Forall_forall. intros v Hv. apply filter_In in Hv. rewrite forallb_forall in H1. specialize (H1 v (proj1 Hv)).
    destruct (nv_outcomes v); [discriminate H1|discriminate].
  - unfold joint. intros E. apply Qcmult_integral in E. destruct E as [E|E]; revert E; apply qprod_nonzero.
    + intros f Hf E. specialize (H3 f Hf). rewrite E, qeq_refl in H3. discriminate.
    + intros dp Hf E. apply filter_In in Hf. specialize (H4 dp (proj1 Hf)). rewrite E, qeq_refl in H4. discriminate.
Qed.

(** ** C100: possible evidence gives probabilities *)

(** False of the code: with enough evidence the product of the probabilities is too small for a float64 number.
    165 symptoms with ordinary probabilities are possible together, but the answer is NaN. *)
Theorem C100_possible_evidence_refuted :
  float_network (clinic 165) /\ wf_network (exact_net (clinic 165)) /\ complete (exact_net (clinic 165)) /\ nonnegative (exact_net (clinic 165)) /\
  valid_observations (exact_net (clinic 165)) (all_symptoms 165) /\
  askable (exact_net (clinic 165)) (ignored_by false (all_symptoms 165)) (all_symptoms 165) "disease" /\
  mass (exact_net (clinic 165)) (ignored_by false (all_symptoms 165)) (agrees (n_vars (clinic 165)) (all_symptoms 165)) <> 0%Qc /\
  exists n' f, net_solve_query sched_id (clinic 165) (all_symptoms 165) ["disease"] false = (n', Ok ([("disease", [S754_nan; S754_nan])], f)).
Proof.
  split; [apply float_b_sound; vm_compute; reflexivity|].
  assert (Hw : wf_network (exact_net (clinic 165))) by (apply network_b_sound; vm_compute; reflexivity).
  assert (Hc : complete (exact_net (clinic 165))) by (apply complete_b_sound; vm_compute; reflexivity).
  assert (Hn : nonnegative (exact_net (clinic 165))) by (apply nonnegative_b_sound; vm_compute; reflexivity).
  split; [exact Hw|]. split; [exact Hc|]. split; [exact Hn|].
  split; [apply observations_b_sound; vm_compute; reflexivity|].
  split; [apply askable_b_sound; vm_compute; reflexivity|].
  split; [apply (positive_b_sound (exact_net (clinic 165))); [exact Hn|vm_compute; reflexivity]|].
  assert (E : match snd (net_solve_query sched_id (clinic 165) (all_symptoms 165) ["disease"] false) with
              | Ok (res, _) => res = [("disease", [S754_nan; S754_nan])] | _ => False end) by (vm_compute; reflexivity).
  destruct (net_solve_query sched_id (clinic 165) (all_symptoms 165) ["disease"] false) as [n' [[res f]| |]]; cbn [snd] in E; try contradiction.
  subst res. eauto.
Qed.

(** What holds: as long as the numbers stay in range (see [in_float_range]), possible evidence gives finite probabilities, for every order of
    the maps. Missing for the full property: numbers out of range (refuted above). *)
Theorem C100_in_range_partial : forall n b s sc ig ev query, float_setting n b s -> valid_observations (exact_net n) ev ->
  (forall q, In q query -> askable (exact_net n) (ignored_by ig ev) ev q) ->
  mass (exact_net n) (ignored_by ig ev) (agrees (n_vars n) ev) <> 0%Qc ->
  exists n' res f, net_solve_query sc n ev query ig = (n', Ok (res, f)) /\
    (zlen (f_data f) <= 2 ^ 49 -> forall q ps, In q query -> sget_map res q = Some ps -> forall p, In p ps -> exists r, f64_exact p = Fin r).
Proof.
  intros n b s sc ig ev query Hs Hv Ha Hm. destruct (C83_accurate n b s sc ig ev query Hs Hv Ha Hm) as (n' & res & f & E & _ & _).
  exists n', res, f. split; auto. intros Hl q ps Hq Hps p Hp.
  destruct (C83_normalized n b s sc ig ev query n' res f q ps Hs Hv Ha Hm E Hl Hq Hps) as (rs & Hrs & _).
  apply (in_map f64_exact) in Hp. rewrite Hrs in Hp. apply in_map_iff in Hp. destruct Hp as (r & Hr & _). eauto.
Qed.

Example C100_example : float_setting spr64 (fun _ => 20%nat) 3 /\ valid_observations (exact_net spr64) [("grass", "wet")] /\
  mass (exact_net spr64) (ignored_by false [("grass", "wet")]) (agrees (n_vars spr64) [("grass", "wet")]) <> 0%Qc.
Proof. split; [apply spr64_setting|]. split; apply C83_hypotheses. Qed.

Print Assumptions C100_possible_evidence_refuted.
Print Assumptions C100_in_range_partial.
