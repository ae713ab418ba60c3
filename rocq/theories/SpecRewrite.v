(** Specification vocabulary for networks that say the same in other words: other names, other
    orders of nodes, tables, parents and outcomes. *)
From Coq Require Import ZArith List Bool String QArith Qcanon Permutation.
From Verif Require Import Num GoBase VarModel SpecFactor NetModel SpecNet.
Import ListNotations.
Open Scope string_scope.
Open Scope list_scope.
Open Scope Z_scope.

(** A dictionary, in both directions: names of nodes, and names of outcomes of each node. *)
Record dictionary := mkDict {
  to_name : string -> string;
  from_name : string -> string;
  to_outcome : string -> string -> string;
  from_outcome : string -> string -> string
}.

(** The name of the outcome of variable [x] in a state. *)
Definition outcome_in (vars : list nvar) (s : nstate) (x : string) : option string :=
  match var_named vars x with Some v => nth_error (nv_outcomes v) (s x) | None => None end.

(** Variable [x] has in state [s] of [n] the same outcome as its translation in state [s'] of [n']. *)
Definition same_outcome (D : dictionary) (n n' : network xnum) (s s' : nstate) (x : string) : Prop :=
  exists o, outcome_in (n_vars n) s x = Some o /\ outcome_in (n_vars n') s' (to_name D x) = Some (to_outcome D x o).

(** [v'] is the translation of [v]: its outcomes can be in any order. *)
Record same_node (D : dictionary) (v v' : nvar) : Prop := {
  sn_to : nv_name v' = to_name D (nv_name v);
  sn_from : nv_name v = from_name D (nv_name v');
  sn_type : nv_type v' = nv_type v;
  sn_outcomes : Permutation (map (to_outcome D (nv_name v)) (nv_outcomes v)) (nv_outcomes v');
  sn_back : forall o, In o (nv_outcomes v) -> from_outcome D (nv_name v') (to_outcome D (nv_name v) o) = o
}.

(** [f'] is the translation of [f]: its parents can be in any order, and the entries for the same
    outcomes are the same. Decisions have no entries. *)
Record same_table (D : dictionary) (n n' : network xnum) (f f' : nfactor xnum) : Prop := {
  st_for : nf_for f' = to_name D (nf_for f);
  st_given : is_total n (nf_for f) = false -> Permutation (map (to_name D) (nf_given f)) (nf_given f');
  st_entries : is_total n (nf_for f) = false -> kind (n_vars n) (nf_for f) <> Some Decision ->
    forall s s', (forall x, In x (nf_given f ++ [nf_for f]) -> same_outcome D n n' s s' x) ->
      entry (n_vars n') f' s' = entry (n_vars n) f s
}.

(** [n'] says the same as [n] in other words: its nodes and tables are those of [n], translated
    and in any order, and utility nodes have the same weights. Both are without policies, as New
    builds them. *)
Record rewritten (D : dictionary) (n n' : network xnum) : Prop := {
  rw_vars : exists l, Permutation l (n_vars n') /\ Forall2 (same_node D) (n_vars n) l;
  rw_factors : exists l, Permutation l (n_factors n') /\ Forall2 (same_table D n n') (n_factors n) l;
  rw_total : forall v, In v (n_vars n) -> is_total n' (to_name D (nv_name v)) = is_total n (nv_name v);
  rw_weights : forall v, In v (n_vars n) -> nv_type v = Utility -> is_total n (nv_name v) = false ->
    net_weight n' (to_name D (nv_name v)) = net_weight n (nv_name v);
  rw_open : n_policies n = [];
  rw_open' : n_policies n' = []
}.

(** Evidence in other words. *)
Definition translate (D : dictionary) (ev : list (string * string)) : list (string * string) :=
  map (fun '(x, o) => (to_name D x, to_outcome D x o)) ev.

(** The probability of an outcome in the result of SolveQuery. *)
Definition probability (vars : list nvar) (res : list (string * list xnum)) (x o : string) : option xnum :=
  match sget_map res x, var_named vars x with
  | Some l, Some v => nth_error l (position o (nv_outcomes v))
  | _, _ => None
  end.
