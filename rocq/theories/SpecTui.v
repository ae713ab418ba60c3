(** Specification vocabulary for the terminal application. *)
From Coq Require Import ZArith List Bool String QArith Qcanon.
From Verif Require Import Num GoBase VarModel SpecFactor NetModel SpecNet CliModel.
Import ListNotations.
Open Scope string_scope.
Open Scope list_scope.
Open Scope Z_scope.

(** ** What is shown for a node *)

(** The probability of an outcome and the expectation of a quantity, given the evidence; not
    a number if the evidence is impossible. *)
Definition shown_posterior (n : network xnum) (ign : string -> bool) (ev : list (string * string)) (x : string) (k : nat) : xnum :=
  if qeq (mass n ign (agrees (n_vars n) ev)) 0 then NaN else Fin (posterior n ign ev x k).
Definition shown_expectation (n : network xnum) (ign : string -> bool) (ev : list (string * string)) (F : nstate -> Qc) : xnum :=
  let m := mass n ign (agrees (n_vars n) ev) in
  if qeq m 0 then NaN else Fin (sum_over n (fun s => joint n ign s * F s)%Qc (agrees (n_vars n) ev) / m).
Definition one_hot (v : nvar) (o : string) : list xnum :=
  map (fun o' => if String.eqb o' o then Fin 1%Qc else Fin 0%Qc) (nv_outcomes v).

(** The numbers for a node: the observed outcome, the posterior, the expected utility of the node and
    the total, or the weighted utilities and the total. *)
Definition shown_numbers (n : network xnum) (ig : bool) (ev : list (string * string)) (v : nvar) : list xnum :=
  let ign := ignored_by ig ev in
  let total := shown_expectation n ign ev (utility_of n) in
  match sget_map ev (nv_name v) with
  | Some o => one_hot v o
  | None =>
    if is_total n (nv_name v) then
      match total_factor n with
      | None => []
      | Some f => map (fun '((g, w) : string * xnum) => nmul (shown_expectation n ign ev (one_utility n g)) w)
                    (combine (nf_given f) (slice_of (nf_table f))) ++ [total]
      end
    else
      match nv_type v with
      | Utility => [shown_expectation n ign ev (one_utility n (nv_name v)); total]
      | _ => map (shown_posterior n ign ev (nv_name v)) (seq 0 (List.length (nv_outcomes v)))
      end
  end.
(** All numbers are as they should be, and there are no others. *)
Definition displayed (n : network xnum) (ig : bool) (ev : list (string * string)) (m : list (string * list xnum)) : Prop :=
  forall x, sget_map m x = option_map (shown_numbers n ig ev) (var_named (n_vars n) x).

(** A network whose decisions have policies. The total utility has parents, which are other utilities. *)
Record displayable (n : network xnum) : Prop := {
  dp_wf : wf_network n;
  dp_complete : complete n;
  dp_nonneg : nonnegative n;
  dp_solved : solved n;
  dp_plain : plain_utilities n;
  dp_total : forall f g, total_factor n = Some f -> In g (nf_given f) -> is_total n g = false /\ kind (n_vars n) g = Some Utility;
  dp_parents : forall f, total_factor n = Some f -> nf_given f <> []
}.
(** The network was used before: it knows its variables by name. *)
Definition used_before (n : network xnum) : Prop :=
  forall x v, var_named (n_vars n) x = Some v -> is_total n x = false ->
    exists e, sget_map (n_names n) x = Some e /\ nv_outcomes (en_var e) = nv_outcomes v.
(** The nodes are those of the network. *)
Definition nodes_of (n : network xnum) (nodes : list (nvar * option (nfactor xnum))) : Prop :=
  Forall2 (fun v node => nv_name (fst node) = nv_name v /\ nv_type (fst node) = nv_type v) (n_vars n) nodes /\
  forall node, 0 <= n_tui n -> nth_error nodes (Z.to_nat (n_tui n)) = Some node -> snd node = total_factor n.
