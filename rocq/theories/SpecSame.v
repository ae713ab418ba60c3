(** Specification vocabulary for networks that describe the same joint distribution. *)
From Coq Require Import ZArith List Bool String Permutation QArith Qcanon.
From Verif Require Import Num GoBase VarModel SpecFactor NetModel SpecNet.
Import ListNotations.
Open Scope string_scope.
Open Scope list_scope.
Open Scope Z_scope.

(** The same variables, and the joint weights of all states in proportion. *)
Definition proportional (n n' : network xnum) : Prop :=
  n_vars n' = n_vars n /\ exists c, c <> 0%Qc /\ forall ign s, proper_state n s -> joint n' ign s = (c * joint n ign s)%Qc.

(** [n'] is [n] with the arc between the chance variables [x] and [y] reversed: the table of [y]
    has the sums over [x] of P(x) P(y | x), and that of [x] has the products P(x) P(y | x), all
    given the other parents. Nothing else differs. *)
Record reversed_arc (x y : string) (n n' : network xnum) : Prop := {
  ra_different : x <> y;
  ra_vars : n_vars n' = n_vars n;
  ra_total : n_tui n' = n_tui n;
  ra_policies : n_policies n' = n_policies n;
  ra_utilities : forall u, net_weight n' u = net_weight n u;
  ra_kinds : kind (n_vars n) x = Some Chance /\ kind (n_vars n) y = Some Chance;
  ra_factors : exists fx fy gx gy rest,
    Permutation (n_factors n) (fx :: fy :: rest) /\ Permutation (n_factors n') (gx :: gy :: rest) /\
    nf_for fx = x /\ nf_for fy = y /\ nf_for gx = x /\ nf_for gy = y /\ ~ In y (nf_given fx) /\
    forall s, proper_state n s ->
      entry (n_vars n) gx s = (cond_prob (n_vars n) fx s * cond_prob (n_vars n) fy s)%Qc /\
      entry (n_vars n) gy s = qsum (map (fun k => cond_prob (n_vars n) fx (nupd s x k) * cond_prob (n_vars n) fy (nupd s x k))%Qc (seq 0 (num_outcomes (n_vars n) x)))
}.
