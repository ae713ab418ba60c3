(** Specification: options that are never better than another one (C128). *)
From Coq Require Import ZArith List Bool String QArith Qcanon.
From Verif Require Import Num GoBase VarModel SpecFactor XnumFacts VEModel NetModel SpecNet SpecNetPolicy SpecGraph SpecOptions.
Import ListNotations.
Open Scope list_scope.
Open Scope string_scope.

(** Option [k] of the decision [d] is dominated by option [k0]: the chance tables do not tell them
    apart, and in no state of the other variables does it give more utility. *)
Definition dominated (m : network xnum) (d : string) (k k0 : nat) : Prop :=
  (forall s f, proper_state m s -> In f (chance_factors m) -> cond_prob (n_vars m) f (nupd s d k) = cond_prob (n_vars m) f (nupd s d k0)) /\
  (forall s, proper_state m s -> (utility_of m (nupd s d k) <= utility_of m (nupd s d k0))%Qc).

(** No other decision is taken with knowledge of [d]. *)
Definition last_decision (m : network xnum) (d : string) : Prop :=
  In d (decisions m) /\ forall e, In e (decisions m) -> e <> d -> ~ In d (observed_by m e).

(** Beside the options of [n], the network [m] has further options of [d] only, and each of them is
    dominated by one of the options in [n]. *)
Definition only_dominated (n m : network xnum) (d : string) : Prop :=
  (forall e, In e (decisions m) -> e <> d -> num_outcomes (n_vars m) e = num_outcomes (n_vars n) e) /\
  (forall k, (num_outcomes (n_vars n) d <= k < num_outcomes (n_vars m) d)%nat -> exists k0, (k0 < num_outcomes (n_vars n) d)%nat /\ dominated m d k k0).

(** Option [k] is strictly dominated by option [k0]: it gives less utility in every state. *)
Definition strictly_dominated (m : network xnum) (d : string) (k k0 : nat) : Prop :=
  (forall s f, proper_state m s -> In f (chance_factors m) -> cond_prob (n_vars m) f (nupd s d k) = cond_prob (n_vars m) f (nupd s d k0)) /\
  (forall s, proper_state m s -> (utility_of m (nupd s d k) < utility_of m (nupd s d k0))%Qc).
