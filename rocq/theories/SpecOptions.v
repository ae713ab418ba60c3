(** Specification vocabulary for changes of decision problems: further options, other utilities. *)
From Coq Require Import ZArith List Bool String QArith Qcanon.
From Verif Require Import Num GoBase VarModel SpecFactor NetModel SpecNet.
Import ListNotations.
Open Scope string_scope.
Open Scope list_scope.
Open Scope Z_scope.

(** [m] is [n] with further outcomes of decisions, listed after the old ones. Where all decisions
    have old outcomes, all tables have the old entries. The weights of the utility nodes are the same. *)
Record more_options (n m : network xnum) : Prop := {
  mo_vars : Forall2 (fun v w => nv_name w = nv_name v /\ nv_type w = nv_type v /\
    exists more, nv_outcomes w = nv_outcomes v ++ more /\ (nv_type v <> Decision -> more = [])) (n_vars n) (n_vars m);
  mo_total : n_tui m = n_tui n;
  mo_weights : forall u, net_weight m u = net_weight n u;
  mo_factors : Forall2 (fun f g => nf_for g = nf_for f /\ nf_given g = nf_given f /\
    (is_total n (nf_for f) = false -> kind (n_vars n) (nf_for f) <> Some Decision ->
     forall s, proper_state n s -> entry (n_vars m) g s = entry (n_vars n) f s)) (n_factors n) (n_factors m)
}.

(** [m] is [n] with other utilities: every entry of utility node [u] is higher by at least [amount u],
    which may be negative. All else is the same, including the weights of the utility nodes. *)
Record raised (amount : string -> Qc) (n m : network xnum) : Prop := {
  ra_vars : n_vars m = n_vars n;
  ra_total : n_tui m = n_tui n;
  ra_weights : forall u, net_weight m u = net_weight n u;
  ra_factors : Forall2 (fun f g => nf_for g = nf_for f /\ nf_given g = nf_given f /\
    if negb (is_total n (nf_for f)) && match kind (n_vars n) (nf_for f) with Some Utility => true | _ => false end
    then forall s, proper_state n s -> (entry (n_vars n) f s + amount (nf_for f) <= entry (n_vars m) g s)%Qc
    else nf_table g = nf_table f) (n_factors n) (n_factors m)
}.

(** No utility node has a negative weight. *)
Definition positive_weights (n : network xnum) : Prop :=
  forall v, In v (n_vars n) -> nv_type v = Utility -> is_total n (nv_name v) = false -> (0 <= net_weight n (nv_name v))%Qc.
