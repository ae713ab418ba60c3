(** Specification vocabulary for nodes with a logic operator: the outcome an operator gives to a
    node, for each combination of outcomes of the node's parents. *)
From Coq Require Import ZArith List Bool String.
From Verif Require Import Num GoBase SpecLogic.
Import ListNotations.
Open Scope string_scope.
Open Scope list_scope.
Open Scope Z_scope.

(** The first outcome of a variable with two outcomes stands for true, the second for false. *)
Definition truths (p : list nat) : list bool := map (fun k => (k =? 0)%nat) p.
Definition outcome_of (b : bool) : nat := if b then 0%nat else 1%nat.

(** [m] parents with two outcomes each *)
Definition two_valued (m : nat) : list nat := repeat 2%nat m.
(** The table fits into memory (Go's limit of 2^48 bytes). *)
Definition fits (rows columns : Z) : Prop := rows * columns <= 2 ^ 45.

Definition comparisons : list (string * (Z -> Z -> bool)) := [("count-is", Z.eqb); ("count-less", Z.ltb); ("count-greater", Z.gtb)].

(** [operator_value op args sizes F]: for parents with numbers of outcomes [sizes], the operator
    gives the node outcome [F p] if [p] are the outcomes of the parents (all as positions). The
    operators if-then and the like are not listed, they can leave the node open. *)
Inductive operator_value : string -> list Z -> list nat -> (list nat -> nat) -> Prop :=
| val_unary name f : In (name, f) unary_formulas ->
    operator_value name [] (two_valued 1) (fun p => outcome_of (f (parent 0 (truths p))))
| val_binary name f : In (name, f) binary_formulas ->
    operator_value name [] (two_valued 2) (fun p => outcome_of (f (parent 0 (truths p)) (parent 1 (truths p))))
| val_count name compare value m : In (name, compare) comparisons -> fits (2 ^ Z.of_nat m) 2 ->
    operator_value name [value] (two_valued m) (fun p => outcome_of (compare (count_true (truths p)) value))
| val_count_true m : fits (2 ^ Z.of_nat m) (Z.of_nat m + 1) ->
    operator_value "count-true" [] (two_valued m) (fun p => Z.to_nat (count_true (truths p)))
| val_count_false m : fits (2 ^ Z.of_nat m) (Z.of_nat m + 1) ->
    operator_value "count-false" [] (two_valued m) (fun p => Z.to_nat (count_false (truths p)))
| val_bits m : fits (2 ^ Z.of_nat m) (2 ^ Z.of_nat m) ->
    operator_value "bits" [] (two_valued m) (fun p => Z.to_nat (bits_value (truths p)))
| val_given m idx : 0 <= idx < Z.of_nat m -> fits (2 ^ Z.of_nat m) 2 ->
    operator_value "given" [idx] (two_valued m) (fun p => outcome_of (parent (Z.of_nat m - 1 - idx) (truths p)))
| val_given_not m idx : 0 <= idx < Z.of_nat m -> fits (2 ^ Z.of_nat m) 2 ->
    operator_value "given-not" [idx] (two_valued m) (fun p => outcome_of (negb (parent (Z.of_nat m - 1 - idx) (truths p))))
| val_given_excl m idx : 0 <= idx < Z.of_nat m -> fits (2 ^ Z.of_nat m) 2 ->
    operator_value "given-excl" [idx] (two_valued m) (fun p => outcome_of (only_parent (Z.of_nat m) (Z.of_nat m - 1 - idx) (truths p)))
| val_is m idx : 0 <= idx < Z.of_nat m -> fits (Z.of_nat m) 2 ->
    operator_value "outcome-is" [idx; Z.of_nat m] [m] (fun p => outcome_of (Z.of_nat (hd 0%nat p) =? idx))
| val_is_not m idx : 0 <= idx < Z.of_nat m -> fits (Z.of_nat m) 2 ->
    operator_value "outcome-is-not" [idx; Z.of_nat m] [m] (fun p => outcome_of (negb (Z.of_nat (hd 0%nat p) =? idx)))
| val_either m indices : indices <> [] -> (forall i, In i indices -> 0 <= i < Z.of_nat m) -> fits (Z.of_nat m) 2 ->
    operator_value "outcome-either" (indices ++ [Z.of_nat m]) [m] (fun p => outcome_of (existsb (Z.eqb (Z.of_nat (hd 0%nat p))) indices))
| val_less m idx : 0 <= idx <= Z.of_nat m -> fits (Z.of_nat m) 2 ->
    operator_value "outcome-less" [idx; Z.of_nat m] [m] (fun p => outcome_of (Z.of_nat (hd 0%nat p) <? idx))
| val_greater m idx : 0 <= idx <= Z.of_nat m -> fits (Z.of_nat m) 2 ->
    operator_value "outcome-greater" [idx; Z.of_nat m] [m] (fun p => outcome_of (Z.of_nat (hd 0%nat p) >=? idx)).

(** The conditions: if the parent is [fst] then the node is [snd]. *)
Definition implications : list (string * (bool * bool)) :=
  [("if-then", (true, true)); ("if-not-then", (false, true)); ("if-then-not", (true, false)); ("if-not-then-not", (false, false))].
