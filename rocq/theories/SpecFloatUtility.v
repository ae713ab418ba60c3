(** Specification vocabulary for the accuracy of float64 utilities. *)
From Coq Require Import ZArith List Bool String QArith Qcanon Qcabs.
From Coq Require Import Floats.SpecFloat.
From Verif Require Import Num GoBase VarModel SpecFactor VEModel SpecVE NetModel SpecNet SpecRound.
Import ListNotations.
Open Scope string_scope.
Open Scope list_scope.
Open Scope Z_scope.

(** No utility is so small or so large that results could leave the range of float64. Entries
    of utility tables and weights are zero, or their absolute values are between 2^-e and 2^e.
    There are at most 2^e utility tables. [b] and [s] are as in [in_float_range]. *)
Record utilities_in_range (n : network xnum) (b : string -> nat) (s e : nat) : Prop := {
  ur_entries : forall f w, In f (utility_tables n) -> in_table (n_vars n) f w ->
    entry (n_vars n) f w = 0%Qc \/ (two_to_minus e <= Qcabs (entry (n_vars n) f w) <= two_to e)%Qc;
  ur_weights : forall v, In v (n_vars n) -> nv_type v = Utility -> is_total n (nv_name v) = false ->
    net_weight n (nv_name v) = 0%Qc \/ (two_to_minus e <= Qcabs (net_weight n (nv_name v)) <= two_to e)%Qc;
  ur_count : (Q2Qc (inject_Z (zlen (utility_tables n))) <= two_to e)%Qc;
  ur_sum : (list_sum (map (fun f => b (nf_for f)) (chance_factors n)) +
    list_sum (map (fun dp => b (fst dp)) (n_policies n)) + s + 3 * e <= 1000)%nat
}.

(** The roundings of [rounding_steps], and those for the utilities: the sum of all tables, the
    weights, and the sum over the single outcome of each utility node. *)
Definition utility_steps (n : network xnum) : nat :=
  (rounding_steps n + List.length (utility_tables n) + 2 * List.length (filter (is_kind Utility) (n_vars n)) + 3)%nat.

(** The total utility of a state with all numbers replaced by their absolute values. *)
Definition utility_magnitude (n : network xnum) (s : nstate) : Qc :=
  qsum (map (fun f => Qcabs (net_weight n (nf_for f)) * Qcabs (entry (n_vars n) f s))%Qc (utility_tables n)).

(** The names of the variables of a factor. *)
Definition names_of (n : network xnum) (f : factor f64) : list string := factor_names n (exact_factor f).

(** A float64 factor returned by SolveUtility, see [result_factor]. The entries differ from
    the exact sums of [F] by at most [k] times 2^-52 times the sums of the magnitude [M]. *)
Record float_result (n : network xnum) (ev : list (string * string)) (query uts : list string)
  (rel : string -> Prop) (F M : nstate -> Qc) (k : nat) (f : factor f64) : Prop := {
  fu_wf : wf_factor f;
  fu_query : forall x, In x query -> rel x -> ~ In x (map fst ev) -> In x (names_of n f);
  fu_names : forall x, In x (names_of n f) ->
    rel x /\ ~ In x (map fst ev) /\ exists t, kind (n_vars n) x = Some t /\
    (t = Utility /\ In x uts \/ t <> Utility /\ (In x query \/ open_decision n x \/ informs n x));
  fu_value : exists c, (0 < c)%Qc /\
    ((forall v, In v (n_vars n) -> nv_type v <> Utility -> ~ In (nv_name v) (map fst ev) -> rel (nv_name v)) -> c = 1%Qc) /\
    forall s, proper_state n s ->
      let event := fun s' => agrees (n_vars n) ev s' && same_on (names_of n f) s s' in
      exists x r, get_at f (positions (n_vars n) s) = Ok x /\ f64_exact x = Fin r /\
        (Qcabs (c * r - sum_over n F event) <= error_of k * sum_over n M event)%Qc
}.
