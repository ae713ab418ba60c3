(** Specification vocabulary for networks that differ in one probability table. *)
From Coq Require Import ZArith List Bool String QArith Qcanon.
From Verif Require Import Num GoBase VarModel SpecFactor NetModel SpecNet.
Import ListNotations.
Open Scope string_scope.
Open Scope list_scope.
Open Scope Z_scope.

(** [n'] is [n] with table [f'] instead of [f] for the chance variable [x], which may have other
    parents. Nothing else differs. *)
Record retabled (x : string) (f f' : nfactor xnum) (n n' : network xnum) : Prop := {
  rt_vars : n_vars n' = n_vars n;
  rt_total : n_tui n' = n_tui n;
  rt_policies : n_policies n' = n_policies n;
  rt_kind : kind (n_vars n) x = Some Chance;
  rt_for : nf_for f = x /\ nf_for f' = x;
  rt_factors : exists pre post, n_factors n = pre ++ f :: post /\ n_factors n' = pre ++ f' :: post
}.

(** The table gives all the probability to the outcome at position [k]. *)
Definition fixed_at (n : network xnum) (f : nfactor xnum) (k : nat) : Prop :=
  forall s, proper_state n s -> cond_prob (n_vars n) f s = if (s (nf_for f) =? k)%nat then 1%Qc else 0%Qc.

(** The observations that the named variables have the outcomes of a state. *)
Definition observe (vars : list nvar) (names : list string) (s : nstate) : list (string * string) :=
  map (fun x => (x, nth (s x) (match var_named vars x with Some v => nv_outcomes v | None => [] end) "")) names.

(** All joint states of the named variables. *)
Definition states_of (vars : list nvar) (names : list string) : list nstate :=
  joint_states (flat_map (fun x => match var_named vars x with Some v => [v] | None => [] end) names) nowhere.

(** The call without query returns the probability of the evidence. *)
Definition evidence_probability (r : network xnum * gores (list (string * list xnum) * factor xnum)) (p : Qc) : Prop :=
  exists n' f, r = (n', Ok ([], f)) /\ f_vars f = [] /\ f_data f = [Fin p].
