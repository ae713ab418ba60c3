(** Specification vocabulary for networks that leave out details of another network: variables
    that are left out, and outcomes that are put together. *)
From Coq Require Import ZArith List Bool String Permutation QArith Qcanon.
From Verif Require Import Num GoBase VarModel SpecFactor NetModel SpecNet.
Import ListNotations.
Open Scope string_scope.
Open Scope list_scope.
Open Scope Z_scope.

(** For each variable, the position of the new outcome that an old outcome belongs to. *)
Definition grouping := string -> nat -> nat.
Definition grouped (h : grouping) (s : nstate) : nstate := fun x => h x (s x).

(** The state [s] of the detailed network shows the state [s'] of [n']. *)
Definition shows (h : grouping) (n' : network xnum) (s' s : nstate) : bool :=
  same_on (map nv_name (filter (fun v => negb (is_kind Utility v)) (n_vars n'))) s' (grouped h s).

(** [n'] is a summary of [n]: its chance and decision variables are variables of [n], each outcome
    of them belongs to one of [n'], and the joint weight of a state of [n'] is the sum of those of
    all states of [n] that show it, up to a constant. *)
Record summary (h : grouping) (n n' : network xnum) : Prop := {
  sy_vars : forall v', In v' (n_vars n') -> nv_type v' <> Utility ->
    exists v, var_named (n_vars n) (nv_name v') = Some v /\ nv_type v <> Utility /\
      forall k, (k < List.length (nv_outcomes v))%nat -> (h (nv_name v') k < List.length (nv_outcomes v'))%nat;
  sy_joint : exists c, c <> 0%Qc /\ forall ign s', proper_state n' s' -> joint n' ign s' = (c * mass n ign (shows h n' s'))%Qc
}.

(** Evidence about outcomes that are not put together with others. *)
Definition same_observation (h : grouping) (n n' : network xnum) (xo xo' : string * string) : Prop :=
  fst xo' = fst xo /\ exists v v' i, var_named (n_vars n) (fst xo) = Some v /\ var_named (n_vars n') (fst xo) = Some v' /\
    nth_error (nv_outcomes v) i = Some (snd xo) /\ nth_error (nv_outcomes v') (h (fst xo) i) = Some (snd xo') /\
    forall k, (k < List.length (nv_outcomes v))%nat -> h (fst xo) k = h (fst xo) i -> k = i.

(** The sum of the numbers [p k] for all [k] below [m] that belong to [j]. *)
Definition group_sum (g : nat -> nat) (p : nat -> Qc) (m j : nat) : Qc :=
  qsum (map p (filter (fun k => (g k =? j)%nat) (seq 0 m))).

(** [n'] is [n] with outcomes of the chance variable [x] put together that no other table tells
    apart: [g] gives the new outcome of each old one. The table of [x] has the sums, in all other
    tables of chance variables the entries are the same. *)
Record merged_outcomes (x : string) (g : nat -> nat) (n n' : network xnum) : Prop := {
  mo_kind : kind (n_vars n) x = Some Chance;
  mo_vars : Forall2 (fun v v' => nv_name v' = nv_name v /\ nv_type v' = nv_type v /\ (nv_name v <> x -> nv_outcomes v' = nv_outcomes v)) (n_vars n) (n_vars n');
  mo_groups : forall k, (k < num_outcomes (n_vars n) x)%nat -> (g k < num_outcomes (n_vars n') x)%nat;
  mo_onto : forall j, (j < num_outcomes (n_vars n') x)%nat -> exists k, (k < num_outcomes (n_vars n) x)%nat /\ g k = j;
  mo_single : NoDup (map nf_for (n_factors n));
  mo_factors : Forall2 (fun f f' => nf_for f' = nf_for f /\ nf_given f' = nf_given f /\
    (kind (n_vars n) (nf_for f) = Some Chance -> forall s, proper_state n s ->
       entry (n_vars n') f' (nupd s x (g (s x))) =
       if String.eqb (nf_for f) x then group_sum g (fun k => entry (n_vars n) f (nupd s x k)) (num_outcomes (n_vars n) x) (g (s x))
       else entry (n_vars n) f s)) (n_factors n) (n_factors n');
  mo_open : n_policies n = [];
  mo_open' : n_policies n' = []
}.

(** [n'] is [n] without the chance variable [x], which is a parent of [y] only: the table of [y] has
    the sums over [x] of P(x) P(y | x), given the parents of both. *)
Record absorbed (x y : string) (n n' : network xnum) : Prop := {
  ab_different : x <> y;
  ab_kinds : kind (n_vars n) x = Some Chance /\ kind (n_vars n) y = Some Chance;
  ab_vars : exists vx l, nv_name vx = x /\ Permutation (n_vars n) (vx :: l) /\ Forall2 same_variable l (n_vars n');
  ab_factors : exists fx fy gy rest rest', Permutation (n_factors n) (fx :: fy :: rest) /\ Permutation (n_factors n') (gy :: rest') /\
    Forall2 same_factor rest rest' /\ nf_for fx = x /\ nf_for fy = y /\ nf_for gy = y /\ ~ In y (nf_given fx) /\
    (forall f, In f rest -> ~ In x (nf_given f ++ [nf_for f])) /\ ~ In x (nf_given gy) /\
    forall s, proper_state n s -> entry (n_vars n') gy s =
      qsum (map (fun k => cond_prob (n_vars n) fx (nupd s x k) * cond_prob (n_vars n) fy (nupd s x k))%Qc (seq 0 (num_outcomes (n_vars n) x)));
  ab_open : n_policies n = [];
  ab_open' : n_policies n' = []
}.
