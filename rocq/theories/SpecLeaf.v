(** Specification vocabulary for decision problems with a further node that nothing depends on. *)
From Coq Require Import ZArith List Bool String QArith Qcanon.
From Verif Require Import Num GoBase VarModel SpecFactor NetModel SpecNet.
Import ListNotations.
Open Scope string_scope.
Open Scope list_scope.
Open Scope Z_scope.

(** [n'] is [n] with a further chance node [v] and its table [f] at the end. All other nodes and
    tables are the same, so none of them has [v] as a parent: it is not observed by a decision and
    no utility depends on it. The weights of the utility nodes are the same. *)
Record leaf_added (v : nvar) (f : nfactor xnum) (n n' : network xnum) : Prop := {
  al_vars : n_vars n' = n_vars n ++ [v];
  al_factors : n_factors n' = n_factors n ++ [f];
  al_chance : nv_type v = Chance;
  al_for : nf_for f = nv_name v;
  al_total : forall u, is_total n' u = is_total n u;
  al_weights : forall u, net_weight n' u = net_weight n u
}.
