(** Specification vocabulary for logic operators: truth values of parents and table rows. *)
From Coq Require Import ZArith List Bool String.
From Verif Require Import Num GoBase.
Import ListNotations.
Open Scope string_scope.
Open Scope list_scope.
Open Scope Z_scope.

(** All combinations of truth values of [n] parents, in the order of table rows: the last
    parent changes fastest, and true (outcome 0) comes before false (outcome 1). *)
Fixpoint configurations (n : nat) : list (list bool) :=
  match n with
  | O => [[]]
  | S k => map (cons true) (configurations k) ++ map (cons false) (configurations k)
  end.

Definition count_true (p : list bool) : Z := zlen (filter (fun b => b) p).
Definition count_false (p : list bool) : Z := zlen (filter negb p).
(** The integer with binary digits [p], first digit most significant. *)
Definition bits_value (p : list bool) : Z := fold_left (fun v (b : bool) => 2 * v + if b then 1 else 0) p 0.
(** The truth value of parent number [i], counting from 0. *)
Definition parent (i : Z) (p : list bool) : bool := nth (Z.to_nat i) p false.
(** Parent number [k] is true and all other parents of [n] are false. *)
Definition only_parent (n k : Z) (p : list bool) : bool := forallb (fun j => Bool.eqb (parent j p) (j =? k)) (zrange 0 n).

(** The operators about the outcome of a parent; their last argument is its number of outcomes. *)
Definition outcome_operators : list string := ["outcome-is"; "outcome-is-not"; "outcome-either"; "outcome-less"; "outcome-greater"].
Definition named (name : string) (l : list string) : bool := existsb (String.eqb name) l.
(** The number of parent configurations of a node with an operator, and of its outcomes. *)
Definition node_rows (name : string) (args : list Z) (parents : Z) : Z :=
  if named name outcome_operators then last args 0 else 2 ^ parents.
Definition node_columns (name : string) (parents : Z) : Z :=
  if named name ["bits"] then 2 ^ parents else if named name ["count-true"; "count-false"] then parents + 1 else 2.

Section Rows.
Context {A : Type} {N : NumOps A}.

(** A row of [c] entries with probability one for outcome [k]. *)
Definition certain (c k : Z) : list A := map (fun j => if j =? k then n1 else n0) (zrange 0 c).
(** A row of a variable with outcomes true and false. *)
Definition truth (b : bool) : list A := if b then [n1; n0] else [n0; n1].
(** The row of a variable about which nothing is known. *)
Definition unknown : list A := [ndiv n1 (nofint 2); ndiv n1 (nofint 2)].
(** The table with one row for every combination of truth values of the parents. *)
Definition table_by (n : Z) (row : list bool -> list A) : list A := flat_map row (configurations (Z.to_nat n)).
(** The table with one row for every outcome of a parent with [n] outcomes. *)
Definition table_by_outcome (n : Z) (row : Z -> list A) : list A := flat_map row (zrange 0 n).

(** The documented formulas (simple.go) for one and two parents. *)
Definition unary_formulas : list (string * (bool -> bool)) :=
  [("not", fun a => negb a); ("equals", fun a => a); ("equals-not", fun a => negb a)].
Definition binary_formulas : list (string * (bool -> bool -> bool)) := [
  ("and", fun a b => a && b); ("not-and", fun a b => negb a && b); ("and-not", fun a b => a && negb b);
  ("not-and-not", fun a b => negb a && negb b);
  ("or", fun a b => a || b); ("not-or", fun a b => negb a || b); ("or-not", fun a b => a || negb b);
  ("not-or-not", fun a b => negb a || negb b);
  ("xor", fun a b => xorb a b);
  ("cond", fun a b => implb a b); ("not-cond", fun a b => implb (negb a) b); ("cond-not", fun a b => implb a (negb b));
  ("not-cond-not", fun a b => implb (negb a) (negb b));
  ("bicond", fun a b => Bool.eqb a b)].
(** One-parent conditions "if premise then consequence": the premise is the parent or its
    negation, the consequence this variable or its negation. *)
Definition conditions : list (string * (bool -> list A)) := [
  ("if-then", fun a : bool => if a then truth true else unknown);
  ("if-not-then", fun a : bool => if negb a then truth true else unknown);
  ("if-then-not", fun a : bool => if a then truth false else unknown);
  ("if-not-then-not", fun a : bool => if negb a then truth false else unknown)].

(** A row of a conditional probability table with entries 0, 1 and 0.5. *)
Definition valid_row (columns : Z) (r : list A) : Prop :=
  (exists k, 0 <= k < columns /\ r = certain columns k) \/ (columns = 2 /\ r = unknown).
End Rows.
