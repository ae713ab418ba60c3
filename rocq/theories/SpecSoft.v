(** Specification vocabulary for soft evidence: a further variable that reports on another one. *)
From Coq Require Import ZArith List Bool String Permutation QArith Qcanon.
From Verif Require Import Num GoBase VarModel SpecFactor NetModel SpecNet.
Import ListNotations.
Open Scope string_scope.
Open Scope list_scope.
Open Scope Z_scope.

(** [n'] is [n] with a further chance variable [v] that has the only parent [x] and the table [f],
    at any place in the lists. *)
Record with_report (x : string) (v : nvar) (f : nfactor xnum) (n n' : network xnum) : Prop := {
  wr_vars : exists l, Permutation (v :: n_vars n) l /\ Forall2 same_variable l (n_vars n');
  wr_factors : exists l, Permutation (f :: n_factors n) l /\ Forall2 same_factor l (n_factors n');
  wr_kind : nv_type v = Chance;
  wr_for : nf_for f = nv_name v;
  wr_given : nf_given f = [x];
  wr_known : In x (map nv_name (n_vars n));
  wr_open : n_policies n = [];
  wr_open' : n_policies n' = []
}.

(** The probability of report [i] if the variable [x] has outcome [k]: an entry of the table, divided
    by the sum of its row. *)
Definition likelihood (n' : network xnum) (f : nfactor xnum) (i k : nat) : Qc :=
  cond_prob (n_vars n') f (fun z => if String.eqb z (nf_for f) then i else k).
