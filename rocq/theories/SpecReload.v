(** Specification vocabulary for networks that were saved and loaded again. *)
From Coq Require Import ZArith List Bool String.
From Verif Require Import Num GoBase VarModel VEModel NetModel SpecNet LogicModel TextModel DocModel SpecDoc.
Import ListNotations.
Open Scope list_scope.

Section Reload.
Context {A : Type} {N : NumOps A}.

(** What a call returns. *)
Inductive returned : Type :=
| RQuery (r : gores (list (string * list A) * factor A))
| RFactor (r : gores (factor A))
| RPolicies (r : gores (list (string * nfactor A)))
| RNumbers (r : gores (list A)).
Definition value_of {X} (r : gores (network A * X)) : gores X := match r with Ok (_, x) => Ok x | Err e => Err e | Panic p => Panic p end.
Definition reply (n : network A) (c : call) : returned :=
  match c with
  | CSolveQuery sc ev q ig => RQuery (snd (net_solve_query sc n ev q ig))
  | CSolveUtility sc ev q u ig => RFactor (snd (net_solve_utility sc n ev q u ig))
  | CSolvePolicies sc st => RPolicies (snd (net_solve_policies sc n st))
  | CNormalize f => RFactor (value_of (net_normalize n f))
  | CNormalizeUtility u p => RFactor (value_of (net_normalize_utility n u p))
  | CMarginal f v => RFactor (value_of (net_marginal n f v))
  | CRearrange f l => RFactor (value_of (net_rearrange n f l))
  | CToEvidence v x => RNumbers (net_to_evidence n v x)
  end.

(** The order of a loop over a map depends on the positions of its entries, not on what is stored there. *)
Definition by_position (sc : sched) : Prop :=
  forall t X Y (h : X -> Y) (l : list X), shuffle sc t (map h l) = map h (shuffle sc t l).
Definition orderly (c : call (A := A)) : Prop := match c with CSolvePolicies sc _ => by_position sc | _ => True end.

(** Documents hold everything a network needs: all nodes have outcomes and a table with full rows. A table without numbers
    must be nil, since documents can't tell this from an empty table. *)
Definition storable (n : network A) : Prop :=
  forall v, In v (n_vars n) -> nv_outcomes v <> [] /\ exists f, factor_of n v = Some f /\
    (exists rows, List.length (slice_of (nf_table f)) = (rows * List.length (nv_outcomes v))%nat) /\ nf_table f <> Some [].

(** No call, after any calls, can tell the networks apart. *)
Definition same_replies (n n' : network A) : Prop :=
  forall history c, (forall d, In d history -> orderly d) -> orderly c -> reply (after n' history) c = reply (after n history) c.
End Reload.
Arguments returned A : clear implicits.
