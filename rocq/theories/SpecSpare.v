(** Specification vocabulary for decision problems with a further decision that nothing depends on. *)
From Coq Require Import ZArith List Bool String QArith Qcanon.
From Verif Require Import Num GoBase VarModel SpecFactor NetModel SpecNet.
Import ListNotations.
Open Scope string_scope.
Open Scope list_scope.
Open Scope Z_scope.

(** [n'] is [n] with a further decision [v], and [f] lists what it observes, at the end. All other
    nodes and tables are the same, so none of them has [v] as a parent: no other decision knows what
    is decided, and no utility depends on it. The weights of the utility nodes are the same. *)
Record spare_added (v : nvar) (f : nfactor xnum) (n n' : network xnum) : Prop := {
  sp_vars : n_vars n' = n_vars n ++ [v];
  sp_factors : n_factors n' = n_factors n ++ [f];
  sp_decision : nv_type v = Decision;
  sp_for : nf_for f = nv_name v;
  sp_total : forall u, is_total n' u = is_total n u;
  sp_weights : forall u, net_weight n' u = net_weight n u
}.
