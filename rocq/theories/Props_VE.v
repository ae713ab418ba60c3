(** Properties C19-C26: variable elimination (package ve, ve.go).
    Specification vocabulary: SpecFactor.v, SpecVE.v, SpecPolicy.v. *)
From Coq Require Import ZArith List Bool Lia Permutation QArith Qcanon.
From Verif Require Import Num GoBase VarModel GoFacts SpecFactor VEModel SpecVE VEFacts VETopo VEHidden VEThms VEUtil
  SpecPolicy VEPolicy VEOptimal VECor VECheck.
Import ListNotations.
Open Scope Z_scope.

(** ** Example: rain, sprinkler, wet grass *)
Definition lit (l : list Q) : list xnum := map xq l.
Definition rsg_r := mkVar 0 0 2 Chance.
Definition rsg_s := mkVar 1 1 2 Chance.
Definition rsg_g := mkVar 2 2 2 Chance.
Definition rsg_vs := mkVS 3 [rsg_r; rsg_s; rsg_g] [].
Definition rsg_fs : list (factor xnum) :=
  [mkFactor 0 [rsg_r] (lit [1#5; 4#5]);
   mkFactor 1 [rsg_r; rsg_s] (lit [1#100; 99#100; 2#5; 3#5]);
   mkFactor 2 [rsg_r; rsg_s; rsg_g] (lit [99#100; 1#100; 4#5; 1#5; 9#10; 1#10; 0#1; 1#1])].

Example rsg_problem : ve_problem rsg_vs rsg_fs [].
Proof. apply problem_b_sound. vm_compute. reflexivity. Qed.

(** Reading off a result without printing the proofs inside rational numbers. *)
Definition shown_result {S} (r : gores (S * factor xnum)) : option (list variable * list shown) :=
  match r with Ok (_, f) => Some (f_vars f, map xshow (f_data f)) | _ => None end.
Lemma shown_result_ok {S} (r : gores (S * factor xnum)) vs l : shown_result r = Some (vs, l) ->
  exists s' f, r = Ok (s', f) /\ f_vars f = vs /\ map xshow (f_data f) = l.
Proof. destruct r as [[s f]| |]; simpl; try discriminate. intros E. inversion E; subst. exists s, f. auto. Qed.
Definition shown_policy {S} (r : gores (S * option (list (variable * (factor xnum * factor xnum)))))
  : option (variable * list variable * list shown) :=
  match r with Ok (_, Some [(d, (_, p))]) => Some (d, f_vars p, map xshow (f_data p)) | _ => None end.
Lemma shown_policy_ok {S} (r : gores (S * option (list (variable * (factor xnum * factor xnum))))) d vs l :
  shown_policy r = Some (d, vs, l) ->
  exists s' fac pol, r = Ok (s', Some [(d, (fac, pol))]) /\ f_vars pol = vs /\ map xshow (f_data pol) = l.
Proof.
  destruct r as [[s [[|[d0 [g p]] [|]]|]]| |]; simpl; try discriminate. intros E. inversion E; subst.
  exists s, g, p. auto.
Qed.

(** ** Example: weather, forecast, umbrella *)
Definition umb_w := mkVar 0 0 2 Chance.
Definition umb_f := mkVar 1 1 3 Chance.
Definition umb_d := mkVar 2 2 2 Decision.
Definition umb_u := mkVar 3 3 1 Utility.
Definition umb_vs := mkVS 3 [umb_w; umb_f; umb_d; umb_u] [].
Definition umb_pw := mkFactor 0 [umb_w] (lit [7#10; 3#10]).
Definition umb_pf := mkFactor 1 [umb_w; umb_f] (lit [7#10; 2#10; 1#10; 15#100; 25#100; 60#100]).
Definition umb_fu := mkFactor 2 [umb_w; umb_d; umb_u] (lit [20#1; 100#1; 70#1; 0#1]).
Definition umb_fs : list (factor xnum) := [umb_pw; umb_pf; umb_fu].
Definition umb_deps : depmap := [(umb_d, [umb_f])].
Definition umb_cpt (v : variable) := if v_id v =? 0 then umb_pw else umb_pf.
Definition umb_rank (id : Z) : nat := Z.to_nat id.

Example umb_diagram : influence_diagram umb_vs umb_fs umb_deps umb_cpt umb_rank.
Proof. apply diagram_b_sound; [reflexivity|vm_compute; reflexivity]. Qed.

(** ** C19: SolveQuery computes the exact sum-product *)

(** For every map iteration order [sc]: the call succeeds, the result is a well-formed factor
    over the variables that are mentioned by a non-utility factor, not observed and not
    hidden, and its value at any assignment is the sum over the hidden variables of the
    product of all non-utility factors with the observations plugged in. The last hypothesis
    says that each hidden variable occurs in a factor; [C19_orphan_panics] shows what happens otherwise. *)
Theorem C19_solve_query : forall sc t vs fs deps w evs query,
  ve_problem vs fs deps -> valid_evidence (vs_vars vs) evs ->
  let V := vs_vars vs in
  let H := hidden_in V deps evs query in
  (forall h, In h H -> exists f, In f (prob_factors fs) /\ In h (f_vars f)) ->
  exists s' f, ve_solve_query sc (ve_new t vs fs deps w) evs query = Ok (s', f) /\
    wf_factor f /\
    (forall v, In v (f_vars f) <->
       (exists g, In g (prob_factors fs) /\ In v (f_vars g)) /\ is_evidence evs v = false /\ ~ In v H) /\
    (forall a, in_range V a ->
       get_at f a = Ok (Fin (qsum (map (weight_of (prob_factors fs)) (worlds H (plug evs a)))))).
Proof.
  intros sc t vs fs deps w evs query Hp He V H Hc.
  destruct (solve_query_exact sc t vs fs deps w evs query Hp He Hc) as (s' & f & E & Hw & Hi & Hv & _ & _ & G).
  exists s', f. do 2 (split; auto). split; auto. intros v. split; intros Hin.
  - apply Hv; auto.
  - apply Hv; auto. destruct Hin as ((g & Hg & Hgv) & _). apply filter_In in Hg. apply (vp_factors _ _ _ Hp g); tauto.
Qed.

(** P(rain | wet) from the sprinkler network: joint weights of rain and wet grass. *)
Example C19_example :
  valid_evidence (vs_vars rsg_vs) [mkEv rsg_g 0] /\
  hidden_in (vs_vars rsg_vs) [] [mkEv rsg_g 0] [rsg_r] = [rsg_s] /\
  exists s' f, ve_solve_query sched_rev (ve_new 0 rsg_vs rsg_fs [] None) [mkEv rsg_g 0] [rsg_r] = Ok (s', f) /\
  f_vars f = [rsg_r] /\ map xshow (f_data f) = [SFin (8019#50000); SFin (36#125)].
Proof.
  split; [|split; [reflexivity|]].
  - intros ev [<-|[]]. split; [vm_compute; auto|]. split; [discriminate|]. vm_compute. split; congruence.
  - apply shown_result_ok. vm_compute. reflexivity.
Qed.

(** A hidden variable in no factor at all makes the query panic. *)
Example C19_orphan_panics :
  exists p, ve_solve_query sched_id (ve_new 0 rsg_vs (firstn 2 rsg_fs) [] None) [] [rsg_r] = Panic p.
Proof. eexists. vm_compute. reflexivity. Qed.

(** ** C20: answers do not depend on the map iteration order *)

Theorem C20_query_schedule : forall sc1 sc2 t1 t2 vs fs deps w evs query,
  ve_problem vs fs deps -> valid_evidence (vs_vars vs) evs ->
  (forall h, In h (hidden_in (vs_vars vs) deps evs query) -> exists f, In f (prob_factors fs) /\ In h (f_vars f)) ->
  exists s1 f1 s2 f2,
    ve_solve_query sc1 (ve_new t1 vs fs deps w) evs query = Ok (s1, f1) /\
    ve_solve_query sc2 (ve_new t2 vs fs deps w) evs query = Ok (s2, f2) /\
    (forall v, In v (f_vars f1) <-> In v (f_vars f2)) /\
    (forall a, in_range (vs_vars vs) a -> get_at f1 a = get_at f2 a).
Proof. exact query_schedule. Qed.

Theorem C20_utility_schedule : forall sc1 sc2 t1 t2 vs fs deps w evs query,
  ve_problem vs fs deps -> valid_evidence (vs_vars vs) evs ->
  utilities_of (vs_vars vs) <> [] ->
  match w with None => True | Some l => length l = length (utilities_of (vs_vars vs)) end ->
  (forall h, In h (utilities_of (vs_vars vs) ++ hidden_in (vs_vars vs) deps evs query) ->
     exists f, In f fs /\ In h (f_vars f)) ->
  exists s1 f1 s2 f2,
    ve_solve_utility sc1 (ve_new t1 vs fs deps (finite_weights w)) evs query None = Ok (s1, f1) /\
    ve_solve_utility sc2 (ve_new t2 vs fs deps (finite_weights w)) evs query None = Ok (s2, f2) /\
    (forall v, In v (f_vars f1) <-> In v (f_vars f2)) /\
    (forall a, in_range (vs_vars vs) a -> get_at f1 a = get_at f2 a).
Proof. exact utility_schedule. Qed.

Theorem C20_one_utility_schedule : forall sc1 sc2 t1 t2 vs fs deps w evs query u,
  ve_problem vs fs deps -> valid_evidence (vs_vars vs) evs ->
  (forall h, In h (hidden_in (vs_vars vs) deps evs query) ->
     exists f, In f (factors_without_other_utilities u fs) /\ In h (f_vars f)) ->
  exists s1 f1 s2 f2,
    ve_solve_utility sc1 (ve_new t1 vs fs deps w) evs query (Some u) = Ok (s1, f1) /\
    ve_solve_utility sc2 (ve_new t2 vs fs deps w) evs query (Some u) = Ok (s2, f2) /\
    (forall v, In v (f_vars f1) <-> In v (f_vars f2)) /\
    (forall a, in_range (vs_vars vs) a -> get_at f1 a = get_at f2 a).
Proof. exact one_utility_schedule. Qed.

(** Two iteration orders. *)
Example C20_example : exists s1 f1 s2 f2,
  ve_solve_query sched_id (ve_new 0 umb_vs umb_fs [] None) [] [umb_w; umb_f] = Ok (s1, f1) /\
  ve_solve_query sched_rev (ve_new 0 umb_vs umb_fs [] None) [] [umb_w; umb_f] = Ok (s2, f2) /\
  f_vars f1 = [umb_w; umb_f] /\ map xshow (f_data f1) = map xshow (f_data f2).
Proof.
  destruct (shown_result_ok (ve_solve_query sched_id (ve_new 0 umb_vs umb_fs [] None) [] [umb_w; umb_f])
    [umb_w; umb_f] [SFin (49#100); SFin (7#50); SFin (7#100); SFin (9#200); SFin (3#40); SFin (9#50)]) as (s1 & f1 & E1 & V1 & D1).
  { vm_compute. reflexivity. }
  destruct (shown_result_ok (ve_solve_query sched_rev (ve_new 0 umb_vs umb_fs [] None) [] [umb_w; umb_f])
    [umb_w; umb_f] [SFin (49#100); SFin (7#50); SFin (7#100); SFin (9#200); SFin (3#40); SFin (9#50)]) as (s2 & f2 & E2 & V2 & D2).
  { vm_compute. reflexivity. }
  exists s1, f1, s2, f2. repeat split; auto. congruence.
Qed.

(** ** C21: bitwise reproducibility *)

(** False of the code: with float64 numbers the answer depends on the order in which Go
    iterates over a map. *)
Definition rep_x := mkVar 0 0 1 Chance.
Definition rep_fs : list (factor f64) :=
  [mkFactor 0 [rep_x] [f64_dec 1 1]; mkFactor 1 [rep_x] [f64_dec 2 1]; mkFactor 2 [rep_x] [f64_dec 3 1]].
Theorem C21_reproducible_refuted : exists s1 f1 s2 f2,
  ve_solve_query sched_id (ve_new 0 (mkVS 3 [rep_x] []) rep_fs [] None) [] [rep_x] = Ok (s1, f1) /\
  ve_solve_query sched_rev (ve_new 0 (mkVS 3 [rep_x] []) rep_fs [] None) [] [rep_x] = Ok (s2, f2) /\
  f_vars f1 = f_vars f2 /\ f_data f1 <> f_data f2.
Proof. eexists; eexists; eexists; eexists. repeat split; try (vm_compute; reflexivity). vm_compute. discriminate. Qed.

(** ** C22: SolveUtility computes the weighted expected utility *)

Theorem C22_total_utility : forall sc t vs fs deps w evs query,
  ve_problem vs fs deps -> valid_evidence (vs_vars vs) evs ->
  let V := vs_vars vs in
  let H := hidden_in V deps evs query in
  utilities_of V <> [] -> (forall u, In u (utilities_of V) -> v_outcomes u = 1%nat) ->
  match w with None => True | Some l => length l = length (utilities_of V) end ->
  (forall h, In h (utilities_of V ++ H) -> exists f, In f fs /\ In h (f_vars f)) ->
  exists s' f, ve_solve_utility sc (ve_new t vs fs deps (finite_weights w)) evs query None = Ok (s', f) /\
    wf_factor f /\
    (forall v, In v (f_vars f) <-> In v V /\
       (exists g, In g fs /\ In v (f_vars g)) /\ v_type v <> Utility /\ is_evidence evs v = false /\ ~ In v H) /\
    (forall a, in_range V a -> get_at f a = Ok (Fin (qsum (map (fun x =>
        weight_of (prob_factors fs) x * total_utility V w fs x)%Qc (worlds H (plug evs a)))))).
Proof. exact expected_utility_exact. Qed.

Theorem C22_one_utility : forall sc t vs fs deps w evs query u,
  ve_problem vs fs deps -> valid_evidence (vs_vars vs) evs ->
  let V := vs_vars vs in
  let H := hidden_in V deps evs query in
  let K := factors_without_other_utilities u fs in
  (forall h, In h H -> exists f, In f K /\ In h (f_vars f)) ->
  exists s' f, ve_solve_utility sc (ve_new t vs fs deps w) evs query (Some u) = Ok (s', f) /\
    wf_factor f /\
    (forall v, In v (f_vars f) <->
       (exists g, In g K /\ In v (f_vars g)) /\ is_evidence evs v = false /\ ~ In v H) /\
    (forall a, in_range V a -> get_at f a = Ok (Fin (qsum (map (weight_of K) (worlds H (plug evs a)))))).
Proof.
  intros sc t vs fs deps w evs query u Hp He V H K Hc.
  destruct (solve_one_utility_exact sc t vs fs deps w evs query u Hp He Hc) as (s' & f & E & Hw & Hi & Hv & _ & _ & G).
  exists s', f. do 2 (split; auto). split; auto. intros v. split; intros Hin.
  - apply Hv; auto.
  - apply Hv; auto. destruct Hin as ((g & Hg & Hgv) & _). apply filter_In in Hg. apply (vp_factors _ _ _ Hp g); tauto.
Qed.

(** The umbrella network, forecast observed and umbrella left at home, weight 2. *)
Example C22_example :
  hidden_in (vs_vars umb_vs) umb_deps [mkEv umb_f 2; mkEv umb_d 1] [] = [umb_w] /\
  (exists s' f, ve_solve_utility sched_id (ve_new 0 umb_vs umb_fs umb_deps (Some [xq 2])) [mkEv umb_f 2; mkEv umb_d 1] [] None = Ok (s', f) /\
     f_vars f = [] /\ map xshow (f_data f) = [SFin 14]) /\
  (exists s' f, ve_solve_utility sched_id (ve_new 0 umb_vs umb_fs umb_deps (Some [xq 2])) [mkEv umb_f 2; mkEv umb_d 1] [] (Some umb_u) = Ok (s', f) /\
     f_vars f = [umb_u] /\ map xshow (f_data f) = [SFin 7]).
Proof. split; [reflexivity|]. split; apply shown_result_ok; vm_compute; reflexivity. Qed.

(** ** C23: the total is the weighted sum of the separate utilities *)

(** False of the code when a utility variable has several outcomes: the total counts the
    other utilities once for each of them. Here the separate utilities sum to 3 and 10,
    the total is 23. *)
Definition two_u1 := mkVar 0 0 2 Utility.
Definition two_u2 := mkVar 1 1 1 Utility.
Definition two_vs := mkVS 2 [two_u1; two_u2] [].
Definition two_fs : list (factor xnum) := [mkFactor 0 [two_u1] (lit [1#1; 2#1]); mkFactor 1 [two_u2] (lit [10#1])].
Theorem C23_many_outcomes_refuted :
  ve_problem two_vs two_fs [] /\
  (exists s f, ve_solve_utility sched_id (ve_new 0 two_vs two_fs [] None) [] [] None = Ok (s, f) /\
     f_vars f = [] /\ map xshow (f_data f) = [SFin 23]) /\
  (exists s f, ve_solve_utility sched_id (ve_new 0 two_vs two_fs [] None) [] [] (Some two_u1) = Ok (s, f) /\
     f_vars f = [two_u1] /\ map xshow (f_data f) = [SFin 1; SFin 2]) /\
  (exists s f, ve_solve_utility sched_id (ve_new 0 two_vs two_fs [] None) [] [] (Some two_u2) = Ok (s, f) /\
     f_vars f = [two_u2] /\ map xshow (f_data f) = [SFin 10]).
Proof.
  split; [apply problem_b_sound; vm_compute; reflexivity|].
  repeat split; apply shown_result_ok; vm_compute; reflexivity.
Qed.

(** What holds: for utility variables with a single outcome, each with a factor of its own,
    the total is the weighted sum of the separately computed utilities. Missing: several
    outcomes (refuted above). *)
Theorem C23_weighted_sum_partial : forall sc t vs fs deps w evs query own (scu : variable -> sched) (tu : variable -> nat),
  ve_problem vs fs deps -> valid_evidence (vs_vars vs) evs ->
  let V := vs_vars vs in
  let H := hidden_in V deps evs query in
  utilities_of V <> [] -> (forall u, In u (utilities_of V) -> v_outcomes u = 1%nat) ->
  Permutation (map own (utilities_of V)) (utility_factors fs) /\
    (forall u u', In u (utilities_of V) -> In u' (utilities_of V) -> (In u' (f_vars (own u)) <-> u' = u)) ->
  match w with None => True | Some l => length l = length (utilities_of V) end ->
  (forall h, In h H -> exists f, In f (prob_factors fs) /\ In h (f_vars f)) ->
  exists s' f, ve_solve_utility sc (ve_new t vs fs deps (finite_weights w)) evs query None = Ok (s', f) /\
    forall a, in_range V a -> exists vals,
      Forall2 (fun u x => exists s'' g,
         ve_solve_utility (scu u) (ve_new (tu u) vs fs deps (finite_weights w)) evs query (Some u) = Ok (s'', g) /\
         get_at g a = Ok (Fin x)) (utilities_of V) vals /\
      get_at f a = Ok (Fin (qsum (map (fun p => fst p * snd p)%Qc
        (combine (match w with None => repeat 1%Qc (length (utilities_of V)) | Some l => l end) vals)))).
Proof. exact total_is_weighted_sum. Qed.

Example C23_example : exists own,
  Permutation (map own (utilities_of (vs_vars umb_vs))) (utility_factors umb_fs) /\
  (forall u u', In u (utilities_of (vs_vars umb_vs)) -> In u' (utilities_of (vs_vars umb_vs)) -> (In u' (f_vars (own u)) <-> u' = u)).
Proof.
  exists (fun _ => umb_fu). split; [vm_compute; apply Permutation_refl|].
  intros u u' [<-|[]] [<-|[]]. vm_compute. tauto.
Qed.

(** ** C24: the order of decisions *)

(** Every decision is listed exactly once, whatever the arcs; and if the arcs between
    decisions are acyclic (they descend in some rank), the decisions among the parents of a
    decision come before it. *)
Theorem C24_decision_order : forall sc t vs fs deps w, ve_problem vs fs deps ->
  exists s' r, get_decisions sc (ve_new t vs fs deps w) = Ok (s', r) /\
    Permutation (decision_vars (vs_vars vs)) r /\
    forall rank : variable -> nat,
      (forall d ps p, In (d, ps) deps -> v_type d = Decision -> In p ps -> v_type p = Decision -> (rank p < rank d)%nat) ->
      forall before d after, r = before ++ d :: after ->
        forall ps p, In (d, ps) deps -> In p ps -> v_type p = Decision -> In p before.
Proof.
  intros sc t vs fs deps w Hp.
  pose proof (problem_ready vs fs deps (ve_new t vs fs deps w) Hp eq_refl eq_refl (repeat_length _ _)) as Hr.
  destruct (get_decisions_spec sc _ (r_wf _ Hr) (r_closed _ Hr)) as (t' & r & E & Hpr & Hpf).
  eexists; exists r. split; [exact E|]. split; [exact Hpr|].
  intros rank Hrk before d after Er ps p Hd Hin Ht.
  assert (Pf : parents_first deps r).
  { apply (Hpf rank). intros x q Hx (k & ps' & Hk & Ek & Hq & Htq). apply in_decisions in Hx. destruct Hx as [Hx Hxt].
    destruct (vp_deps _ _ _ Hp k ps' Hk) as [Hk1 _].
    assert (k = x) by (apply (wf_vars_inj (vs_vars vs)); auto; apply Hp). subst k. eauto. }
  apply (Pf before d after Er). exists d, ps. auto.
Qed.

(** Three decisions declared in the wrong order. *)
Definition dec_a := mkVar 0 0 2 Decision.
Definition dec_b := mkVar 1 1 2 Decision.
Definition dec_c := mkVar 2 2 2 Decision.
Example C24_example : exists s',
  ve_problem (mkVS 0 [dec_a; dec_b; dec_c] []) [] [(dec_a, [dec_b]); (dec_b, [dec_c])] /\
  get_decisions sched_id (ve_new (A := xnum) 0 (mkVS 0 [dec_a; dec_b; dec_c] []) [] [(dec_a, [dec_b]); (dec_b, [dec_c])] None)
    = Ok (s', [dec_c; dec_b; dec_a]).
Proof. eexists. split; [apply problem_b_sound; vm_compute; reflexivity|]. vm_compute. reflexivity. Qed.

(** ** C25: single-decision policies are optimal *)

(** For every influence diagram with one decision [d]: SolvePolicies succeeds; the policy
    factor mentions only [d] and its declared parents; read as a function of assignments it
    is a distribution over [d] for each observation; and no policy, randomised or not, has
    a higher expected utility. *)
Theorem C25_one_decision_optimal : forall sc t vs fs deps w single cpt rank d,
  influence_diagram vs fs deps cpt rank ->
  let V := vs_vars vs in
  utilities_of V <> [] ->
  match w with None => True | Some l => length l = length (utilities_of V) end ->
  decision_vars V = [d] -> (0 < v_outcomes d)%nat ->
  (forall u, In u (utilities_of V ++ [d]) -> exists f, In f fs /\ In u (f_vars f)) ->
  exists s' fac pol,
    ve_solve_policies sc (ve_new t vs fs deps (finite_weights w)) single = Ok (s', Some [(d, (fac, pol))]) /\
    wf_factor pol /\ finite_factor pol /\
    (forall v, In v (f_vars pol) -> v = d \/ In v V /\ observes deps d v = true) /\
    is_policy V deps d (value pol) /\
    forall p, is_policy V deps d p -> forall a, in_range V a ->
      (expected_utility V w fs d p a <= expected_utility V w fs d (value pol) a)%Qc.
Proof. exact one_decision_optimal. Qed.

(** The umbrella is taken only when the forecast is rainy (outcome 2). *)
Example C25_example : exists s' fac pol,
  ve_solve_policies sched_id (ve_new 0 umb_vs umb_fs umb_deps None) true = Ok (s', Some [(umb_d, (fac, pol))]) /\
  f_vars pol = [umb_f; umb_d] /\
  map xshow (f_data pol) = [SFin 0; SFin 1; SFin 0; SFin 1; SFin 1; SFin 0].
Proof. apply shown_policy_ok. vm_compute. reflexivity. Qed.

Example C25_example_hypotheses : decision_vars (vs_vars umb_vs) = [umb_d] /\ utilities_of (vs_vars umb_vs) = [umb_u] /\
  forall u, In u (utilities_of (vs_vars umb_vs) ++ [umb_d]) -> exists f, In f umb_fs /\ In u (f_vars f).
Proof. repeat split. intros u [<-|[<-|[]]]; exists umb_fu; vm_compute; tauto. Qed.

(** ** C26: a policy is conditioned only on the declared parents *)

(** False of the code with two decisions: neither observes the other, yet the policy of the
    second one mentions the first. *)
Definition two_d1 := mkVar 0 0 2 Decision.
Definition two_d2 := mkVar 1 1 2 Decision.
Definition two_du := mkVar 2 2 1 Utility.
Definition two_dvs := mkVS 1 [two_d1; two_d2; two_du] [].
Definition two_dfs : list (factor xnum) := [mkFactor 0 [two_d1; two_d2; two_du] (lit [1#1; 0#1; 0#1; 1#1])].
Theorem C26_foreign_parent_refuted :
  influence_diagram two_dvs two_dfs [(two_d1, []); (two_d2, [])] (fun _ => mkFactor 0 [] []) (fun _ => 0%nat) /\
  exists s' fac pol, ve_solve_policies sched_id (ve_new 0 two_dvs two_dfs [(two_d1, []); (two_d2, [])] None) true
    = Ok (s', Some [(two_d2, (fac, pol))]) /\
  In two_d1 (f_vars pol).
Proof.
  split; [apply diagram_b_sound; [reflexivity|vm_compute; reflexivity]|].
  destruct (shown_policy_ok (ve_solve_policies sched_id (ve_new 0 two_dvs two_dfs [(two_d1, []); (two_d2, [])] None) true)
    two_d2 [two_d1; two_d2] [SFin 1; SFin 0; SFin 0; SFin 1]) as (s' & fac & pol & E & Ev & _).
  { vm_compute. reflexivity. }
  exists s', fac, pol. split; auto. rewrite Ev. simpl. auto.
Qed.

(** What holds: in any influence diagram, the policy found in a step mentions, besides the
    decision itself, only its declared parents and other decisions. Missing: that the other
    decisions are parents too (refuted above). *)
Theorem C26_policy_scope_partial : forall sc t vs fs deps w cpt rank,
  influence_diagram vs fs deps cpt rank ->
  let V := vs_vars vs in
  utilities_of V <> [] -> match w with None => True | Some l => length l = length (utilities_of V) end ->
  (forall u, In u (utilities_of V ++ decision_vars V) -> exists f, In f fs /\ In u (f_vars f)) ->
  decision_vars V <> [] -> (forall d, In d (decision_vars V) -> (0 < v_outcomes d)%nat) ->
  exists s' d fac pol,
    ve_solve_policies sc (ve_new t vs fs deps (finite_weights w)) true = Ok (s', Some [(d, (fac, pol))]) /\
    In d (decision_vars V) /\
    (forall k ps, In (k, ps) deps -> In k (decision_vars V) -> ~ In d ps) /\
    (forall v, In v (f_vars pol) -> v = d \/ observes deps d v = true \/ In v (decision_vars V)).
Proof.
  intros sc t vs fs deps w cpt rank Hid V HU Hw Hcov Hne Hpos.
  destruct (policy_step sc t vs fs deps w true cpt rank Hid HU Hw Hcov Hne Hpos (or_introl eq_refl))
    as (s' & d & fac & pol & E & Hd & Hnp & Hwf & Hfin & Hi & _ & Hv & _).
  exists s', d, fac, pol. do 3 (split; auto). intros v Hin. destruct (Hv v Hin) as [H|[H|H]]; auto.
  - left. apply (wf_vars_inj V); auto. apply (di_problem _ _ _ _ _ Hid). apply in_decisions in Hd. tauto.
  - right. right. apply in_decisions. auto.
Qed.

Example C26_example : decision_vars (vs_vars two_dvs) = [two_d1; two_d2] /\
  forall u, In u (utilities_of (vs_vars two_dvs) ++ decision_vars (vs_vars two_dvs)) -> exists f, In f two_dfs /\ In u (f_vars f).
Proof. split; auto. intros u [<-|[<-|[<-|[]]]]; eexists; (split; [left; reflexivity|vm_compute; tauto]). Qed.

Print Assumptions C19_solve_query.
Print Assumptions C20_query_schedule.
Print Assumptions C20_utility_schedule.
Print Assumptions C20_one_utility_schedule.
Print Assumptions C21_reproducible_refuted.
Print Assumptions C22_total_utility.
Print Assumptions C22_one_utility.
Print Assumptions C23_many_outcomes_refuted.
Print Assumptions C23_weighted_sum_partial.
Print Assumptions C24_decision_order.
Print Assumptions C25_one_decision_optimal.
Print Assumptions C26_foreign_parent_refuted.
Print Assumptions C26_policy_scope_partial.
