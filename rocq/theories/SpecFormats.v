(** Specification vocabulary for networks that are given in both formats. *)
From Coq Require Import ZArith List Bool String Ascii.
From Verif Require Import Num GoBase VarModel NetModel SpecNet LogicModel TextModel DocModel SpecDoc.
Import ListNotations.
Open Scope string_scope.
Open Scope list_scope.
Open Scope Z_scope.

Section Formats.
Context {A : Type} {N : NumOps A}.
(** The number that a word stands for. *)
Variable parse_float : string -> option A.

(** The node [v] of a YAML document and the node [w] of the XML document [d] say the same. XML has
    neither colors nor logic operators: the color is free, and an operator is written as its table.
    Tables have full rows, or there is none. *)
Record same_node (d : xdoc) (v : yvar A) (w : xvar) : Prop := {
  sn_name : x_name w = y_name v;
  sn_type : exists t, type_text (y_type v) t /\ type_text (x_type w) t;
  sn_outcomes : x_outcomes w = y_outcomes v;
  sn_position : position_of (x_props w) (y_pos v);
  sn_table : exists def table, definition_for d (x_name w) def /\ x_given def = y_given v /\ node_table_of v (Ok table) /\
    Forall2 (fun word x => parse_float word = Some x) (fields (x_table def)) (slice_of table) /\ table <> Some [] /\
    exists rows, List.length (slice_of table) = (rows * List.length (y_outcomes v))%nat
}.
Definition same_document (y : ydoc A) (x : xdoc) : Prop :=
  xd_name x = yd_name y /\ Forall2 (same_node x) (yd_vars y) (xd_vars x).
End Formats.
