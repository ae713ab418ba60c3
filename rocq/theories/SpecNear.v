(** Specification vocabulary for networks whose tables differ a little. *)
From Coq Require Import ZArith List Bool String QArith Qcanon.
From Verif Require Import Num GoBase VarModel SpecFactor NetModel SpecNet.
Import ListNotations.
Open Scope string_scope.
Open Scope list_scope.
Open Scope Z_scope.

(** [n'] has the nodes, arcs and policies of [n], and the same tables except for chance variables.
    Every two tables of the same chance variable are related by [R]. *)
Record other_tables (R : string -> nfactor xnum -> nfactor xnum -> Prop) (n n' : network xnum) : Prop := {
  ot_vars : n_vars n' = n_vars n;
  ot_total : n_tui n' = n_tui n;
  ot_policies : n_policies n' = n_policies n;
  ot_weights : forall u, net_weight n' u = net_weight n u;
  ot_factors : Forall2 (fun f f' => nf_for f' = nf_for f /\ nf_given f' = nf_given f /\
    if match kind (n_vars n) (nf_for f) with Some Chance => true | _ => false end then R (nf_for f) f f' else f' = f) (n_factors n) (n_factors n')
}.

(** No conditional probability of variable [x] differs by more than the factor [r x]. *)
Definition near (r : string -> Qc) (n n' : network xnum) : Prop :=
  (forall x, 1 <= r x)%Qc /\
  other_tables (fun x f f' => forall s, proper_state n s ->
    (cond_prob (n_vars n) f s <= r x * cond_prob (n_vars n) f' s)%Qc /\ (cond_prob (n_vars n) f' s <= r x * cond_prob (n_vars n) f s)%Qc) n n'.

(** The product of the factors [r x] of all chance variables. *)
Definition total_ratio (r : string -> Qc) (n : network xnum) : Qc := qprod (map (fun f => r (nf_for f)) (chance_factors n)).

(** The same conditional probabilities are zero. *)
Definition same_zeros (n n' : network xnum) : Prop :=
  other_tables (fun x f f' => forall s, proper_state n s -> (cond_prob (n_vars n) f s = 0%Qc <-> cond_prob (n_vars n) f' s = 0%Qc)) n n'.
