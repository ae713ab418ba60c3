(** Specification vocabulary for the graph of a network: parents, descendants, separation. *)
From Coq Require Import ZArith List Bool String QArith Qcanon.
From Verif Require Import Num GoBase VarModel SpecFactor NetModel SpecNet.
Import ListNotations.
Open Scope string_scope.
Open Scope list_scope.
Open Scope Z_scope.

(** The parents of a variable: those in its probability table, or in its stored policy. *)
Definition parents_of (n : network xnum) (ign : string -> bool) (x : string) : list string :=
  flat_map nf_given (filter (fun f => String.eqb (nf_for f) x) (chance_factors n)) ++
  flat_map (fun dp => filter (fun y => negb (String.eqb y x)) (factor_names n (snd dp)))
    (filter (fun dp => String.eqb (fst dp) x && negb (ign (fst dp))) (n_policies n)).

(** [y] is below [x]: there is a path of arcs from [x] to [y]. *)
Inductive below (n : network xnum) (ign : string -> bool) (x : string) : string -> Prop :=
| below_child y : In x (parents_of n ign y) -> below n ign x y
| below_step y z : below n ign x y -> In y (parents_of n ign z) -> below n ign x z.

(** The probability of a variable's value given the values of its parents in a state. *)
Definition conditional (n : network xnum) (ign : string -> bool) (x : string) (s : nstate) : Qc :=
  (qprod (map (fun f => cond_prob (n_vars n) f s) (filter (fun f => String.eqb (nf_for f) x) (chance_factors n))) *
   qprod (map (fun dp => policy_prob (n_vars n) (snd dp) s)
     (filter (fun dp => String.eqb (fst dp) x && negb (ign (fst dp))) (n_policies n))))%Qc.

(** [x] matters for the listed variables: it is one of them or above one of them. *)
Definition matters (n : network xnum) (ign : string -> bool) (targets : list string) (x : string) : Prop :=
  In x targets \/ exists t, In t targets /\ below n ign x t.

(** [x] is separated from [ys] by [zs]. Forget all variables that do not matter for [x], [ys] and
    [zs]. Link variables that are parent and child, or parents of the same variable. Then
    every path of links from [x] to one of [ys] meets [zs]: the variables outside of [zs] can be
    split into two sides without links between them, with [x] on one side and all [ys] on the other. *)
Definition separated (n : network xnum) (ign : string -> bool) (x : string) (ys zs : list string) : Prop :=
  exists side : string -> bool, side x = true /\ (forall y, In y ys -> side y = false) /\
    forall c a b, matters n ign (x :: ys ++ zs) c -> In a (c :: parents_of n ign c) -> In b (c :: parents_of n ign c) ->
      ~ In a zs -> ~ In b zs -> side a = side b.

(** ** Changes of networks *)

(** [m] is [n] with decisions that observe the same or more; all else is the same, including the
    weights of the utility nodes. *)
Record more_informed (n m : network xnum) : Prop := {
  mi_vars : n_vars m = n_vars n;
  mi_total : n_tui m = n_tui n;
  mi_weights : forall u, net_weight m u = net_weight n u;
  mi_factors : Forall2 (fun f g => nf_for g = nf_for f /\
    if match kind (n_vars n) (nf_for f) with Some Decision => true | _ => false end
    then incl (nf_given f) (nf_given g) else same_factor f g) (n_factors n) (n_factors m)
}.

(** [m] is [n] with utilities in other units: every entry [x] of the table of utility node [u]
    becomes [a * x + b u]; all else is the same, including the weights of the utility nodes. *)
Record rescaled (a : Qc) (b : string -> Qc) (n m : network xnum) : Prop := {
  rs_vars : n_vars m = n_vars n;
  rs_total : n_tui m = n_tui n;
  rs_weights : forall u, net_weight m u = net_weight n u;
  rs_factors : Forall2 (fun f g => nf_for g = nf_for f /\ nf_given g = nf_given f /\
    if negb (is_total n (nf_for f)) && match kind (n_vars n) (nf_for f) with Some Utility => true | _ => false end
    then exists l, nf_table f = Some (map Fin l) /\ nf_table g = Some (map (fun x => Fin (a * x + b (nf_for f))%Qc) l)
    else nf_table g = nf_table f) (n_factors n) (n_factors m)
}.

(** The sum of what the shifts [b] add to the total utility. *)
Definition shift (n : network xnum) (b : string -> Qc) : Qc :=
  qsum (map (fun f => net_weight n (nf_for f) * b (nf_for f))%Qc (utility_tables n)).

(** SolvePolicies, then SolveUtility without evidence, query and utility name: the maximum
    expected utility is [b], however the maps of the solver are ordered. *)
Definition maximum_utility (n : network xnum) (b : Qc) : Prop :=
  forall sc stepwise, exists n' tables, net_solve_policies sc n stepwise = (n', Ok tables) /\
    forall sc' ig, exists n'' f, net_solve_utility sc' n' [] [] "" ig = (n'', Ok f) /\ f_vars f = [] /\ f_data f = [Fin b].
