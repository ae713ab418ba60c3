(** Specification vocabulary for decision policies computed with float64 numbers. *)
From Coq Require Import ZArith List Bool String QArith Qcanon.
From Coq Require Import Floats.SpecFloat.
From Verif Require Import Num GoBase VarModel SpecFactor VEModel SpecVE NetModel SpecNet SpecNetPolicy SpecRound SpecFloatUtility.
Import ListNotations.
Open Scope string_scope.
Open Scope list_scope.
Open Scope Z_scope.

(** The tables and utilities are in range as in [in_float_range] and [utilities_in_range], with
    no policies stored. A decision [d] has at most 2^(b d) options, and the sum of the exponents
    of all tables and decisions is small enough. *)
Record policies_in_range (n : network xnum) (b : string -> nat) (s e : nat) : Prop := {
  pr_tables : in_float_range (with_policies n []) b s;
  pr_utilities : utilities_in_range (with_policies n []) b s e;
  pr_options : forall d, In d (decisions n) -> Z.of_nat (num_outcomes (n_vars n) d) <= 2 ^ Z.of_nat (b d);
  pr_sum : (list_sum (map (fun f => b (nf_for f)) (chance_factors n)) + list_sum (map b (decisions n)) + s + 3 * e <= 1000)%nat
}.

(** The roundings of [utility_steps], and two for each decision solved before: the weight of the
    option, and the product with it. *)
Definition policy_rounding_steps (n : network xnum) : nat :=
  (utility_steps (with_policies n []) + 2 * List.length (decisions n))%nat.

(** A returned table recommends the options with non-zero entries. The policy it stands for
    chooses evenly among them. *)
Definition recommended (vars : list nvar) (f : nfactor f64) (x : nstate) : bool :=
  negb (qeq (entry vars (exact_table f) x) 0%Qc).
Definition recommended_options (vars : list nvar) (f : nfactor f64) (x : nstate) : nat :=
  List.length (filter (fun k => recommended vars f (nupd x (nf_for f) k)) (seq 0 (num_outcomes vars (nf_for f)))).
Definition even_choice (vars : list nvar) (f : nfactor f64) (x : nstate) : Qc :=
  if recommended vars f x then (1 / Q2Qc (inject_Z (Z.of_nat (recommended_options vars f x))))%Qc else 0%Qc.
Definition even_policy (vars : list nvar) (tables : list (string * nfactor f64)) (d : string) (x : nstate) : Qc :=
  match sget_map tables d with Some f => even_choice vars f x | None => 0%Qc end.

(** The table returned for a decision: an entry for each outcome of the decision (last axis) given
    some of what it observes. The entries are the float64 numbers closest to the even choice
    among the recommended options, and every row recommends some option. *)
Record returned_float_policy (n : network xnum) (d : string) (f : nfactor f64) : Prop := {
  fr_for : nf_for f = d;
  fr_given : incl (nf_given f) (observed_by n d);
  fr_distinct : NoDup (nf_given f ++ [d]);
  fr_table : exists l, nf_table f = Some l /\ List.length l = table_size (n_vars n) (nf_given f ++ [d]);
  fr_entry : forall x, proper_state n x ->
    exists p, nth_error (slice_of (nf_table f)) (cell (n_vars n) (nf_given f ++ [d]) x) = Some p /\ nearest_float p (even_choice (n_vars n) f x);
  fr_policy : policy_for n d (even_choice (n_vars n) f)
}.

(** The expected utility that can be lost by rounding, if the utilities of all states have
    magnitude at most [u]. *)
Definition utilities_at_most (n : network xnum) (u : Qc) : Prop := forall x, proper_state n x -> (utility_magnitude n x <= u)%Qc.
Definition policy_loss (n : network xnum) (u : Qc) : Qc :=
  (Q2Qc (inject_Z (Z.of_nat (2 * List.length (decisions n)))) * error_of (policy_rounding_steps n) * u)%Qc.
