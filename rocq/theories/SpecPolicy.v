(** Specification vocabulary for decision policies. *)
From Coq Require Import ZArith List Bool QArith Qcanon Permutation.
From Verif Require Import Num GoBase VarModel SpecFactor VEModel SpecVE.
Import ListNotations.
Open Scope Z_scope.

Definition chance_vars (V : list variable) : list variable := filter (fun v => nodeType_eqb (v_type v) Chance) V.
Definition decision_vars (V : list variable) : list variable := filter (fun v => nodeType_eqb (v_type v) Decision) V.

(** [v] is declared as a parent of [d]. *)
Definition observes (deps : depmap) (d v : variable) : bool :=
  existsb (fun '(k, parents) => var_eqb k d && contains_id parents (v_id v)) deps.

(** The chance variables the decision [d] does not observe. *)
Definition unobserved (V : list variable) (deps : depmap) (d : variable) : list variable :=
  filter (fun v => nodeType_eqb (v_type v) Chance && negb (observes deps d v)) V.

(** An influence diagram: the probability factors are one conditional distribution [cpt c]
    per chance variable [c], and the arcs respect an order of the variables. *)
Record influence_diagram (vs : vstate) (fs : list (factor xnum)) (deps : depmap)
  (cpt : variable -> factor xnum) (rank : Z -> nat) : Prop := {
  di_problem : ve_problem vs fs deps;
  di_cpts : Permutation (map cpt (chance_vars (vs_vars vs))) (prob_factors fs);
  di_own : forall c, In c (chance_vars (vs_vars vs)) -> In c (f_vars (cpt c));
  di_rows : forall c a, In c (chance_vars (vs_vars vs)) -> in_range (vs_vars vs) a ->
    qsum (map (fun k => value (cpt c) (upd a (v_id c) k)) (seq 0 (v_outcomes c))) = 1%Qc;
  di_nonneg : forall c a, In c (chance_vars (vs_vars vs)) -> in_range (vs_vars vs) a -> (0 <= value (cpt c) a)%Qc;
  di_order : forall c u, In c (chance_vars (vs_vars vs)) -> In u (f_vars (cpt c)) -> v_id u <> v_id c ->
    (rank (v_id u) < rank (v_id c))%nat;
  di_info : forall d parents p, In (d, parents) deps -> v_type d = Decision -> In p parents ->
    (rank (v_id p) < rank (v_id d))%nat
}.

(** The weighted sum of the utilities in a world (utility variables summed over their outcomes). *)
Definition utility_in (V : list variable) (weights : option (list Qc)) (fs : list (factor xnum)) (a : asg) : Qc :=
  qsum (map (total_utility V weights fs) (worlds (utilities_of V) a)).

(** A (randomised) policy for [d]: a distribution over its outcomes given what it observes. *)
Record is_policy (V : list variable) (deps : depmap) (d : variable) (p : asg -> Qc) : Prop := {
  po_nonneg : forall a, in_range V a -> (0 <= p a)%Qc;
  po_rows : forall a, in_range V a -> qsum (map (fun k => p (upd a (v_id d) k)) (seq 0 (v_outcomes d))) = 1%Qc;
  po_observed : forall a b, (forall v, In v V -> v_id v = v_id d \/ observes deps d v = true -> a (v_id v) = b (v_id v)) ->
    p a = p b
}.

(** The expected utility when the decision [d] follows policy [p]; [a] fixes the rest. *)
Definition expected_utility (V : list variable) (weights : option (list Qc)) (fs : list (factor xnum))
  (d : variable) (p : asg -> Qc) (a : asg) : Qc :=
  qsum (map (fun w => weight_of (prob_factors fs) w * p w * utility_in V weights fs w)%Qc
    (worlds (chance_vars V ++ [d]) a)).
