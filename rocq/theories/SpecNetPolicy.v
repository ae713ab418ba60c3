(** Specification vocabulary for decision policies of networks. *)
From Coq Require Import ZArith List Bool String QArith Qcanon.
From Verif Require Import Num GoBase VarModel SpecFactor NetModel SpecNet.
Import ListNotations.
Open Scope string_scope.
Open Scope list_scope.
Open Scope Z_scope.

(** What a decision observes: the parents in its factor. *)
Definition observed_by (n : network xnum) (d : string) : list string :=
  match factor_for (n_factors n) d with Some f => nf_given f | None => [] end.
Definition decisions (n : network xnum) : list string := map nv_name (filter (is_kind Decision) (n_vars n)).

(** A decision problem: every chance variable has one table without negative entries or empty
    rows, the arcs to chance variables and decisions have no cycle, there is a utility node,
    and each decision influences something. *)
Record decision_network (n : network xnum) : Prop := {
  dn_wf : wf_network n;
  dn_single : NoDup (map nf_for (n_factors n));
  dn_complete : complete n;
  dn_nonneg : forall f s, In f (chance_factors n) -> (0 <= entry (n_vars n) f s)%Qc;
  dn_rows : forall f s, In f (chance_factors n) -> proper_state n s -> row_sum (n_vars n) f s <> 0%Qc;
  dn_order : exists rank : string -> nat, forall f g, In f (n_factors n) -> kind (n_vars n) (nf_for f) <> Some Utility ->
    In g (nf_given f) -> (rank g < rank (nf_for f))%nat;
  dn_utilities : plain_utilities n /\ some_utility n;
  dn_used : forall d, In d (decisions n) -> exists f, In f (n_factors n) /\ is_total n (nf_for f) = false /\
    kind (n_vars n) (nf_for f) <> Some Decision /\ In d (nf_given f)
}.

(** Of two decisions, one observes the other and everything the other observes. *)
Definition no_forgetting (n : network xnum) : Prop :=
  forall d e, In d (decisions n) -> In e (decisions n) -> d <> e ->
    (In d (observed_by n e) /\ incl (observed_by n d) (observed_by n e)) \/
    (In e (observed_by n d) /\ incl (observed_by n e) (observed_by n d)).

(** A policy for a decision, possibly randomised: a distribution over its outcomes that depends
    on what it observes. *)
Record policy_for (n : network xnum) (d : string) (p : nstate -> Qc) : Prop := {
  pf_nonneg : forall s, proper_state n s -> (0 <= p s)%Qc;
  pf_rows : forall s, proper_state n s -> qsum (map (fun k => p (nupd s d k)) (seq 0 (num_outcomes (n_vars n) d))) = 1%Qc;
  pf_observed : forall s s', (forall y, y = d \/ In y (observed_by n d) -> s y = s' y) -> p s = p s'
}.

(** The expected total utility if each decision follows its policy. *)
Definition expected_value (n : network xnum) (policies : string -> nstate -> Qc) : Qc :=
  qsum (map (fun s => qprod (map (fun f => cond_prob (n_vars n) f s) (chance_factors n))
                      * qprod (map (fun d => policies d s) (decisions n)) * utility_of n s)%Qc (worlds_of n)).

(** The policy given by a table. *)
Definition table_policy (n : network xnum) (tables : list (string * nfactor xnum)) (d : string) (s : nstate) : Qc :=
  match sget_map tables d with Some f => entry (n_vars n) f s | None => 0%Qc end.

(** The table returned for a decision: finite entries for the outcomes of the decision (last
    axis) given some of what it observes, and each row is a distribution. *)
Record returned_policy (n : network xnum) (d : string) (f : nfactor xnum) : Prop := {
  rp_for : nf_for f = d;
  rp_given : incl (nf_given f) (observed_by n d);
  rp_distinct : NoDup (nf_given f ++ [d]);
  rp_table : exists l, nf_table f = Some (map Fin l) /\ List.length l = table_size (n_vars n) (nf_given f ++ [d]);
  rp_policy : policy_for n d (entry (n_vars n) f)
}.

(** The joint weight when decisions follow the returned tables, except those ignored. *)
Definition table_joint (n : network xnum) (tables : list (string * nfactor xnum)) (ign : string -> bool) (s : nstate) : Qc :=
  (qprod (map (fun f => cond_prob (n_vars n) f s) (chance_factors n)) *
   qprod (map (fun d => table_policy n tables d s) (filter (fun d => negb (ign d)) (decisions n))))%Qc.
Definition table_mass (n : network xnum) (tables : list (string * nfactor xnum)) (ign : string -> bool) (event : nstate -> bool) : Qc :=
  qsum (map (table_joint n tables ign) (filter event (worlds_of n))).
