(** Specification vocabulary for documents. *)
From Coq Require Import ZArith List Bool String Ascii.
From Verif Require Import Num GoBase VarModel NetModel SpecNet LogicModel TextModel DocModel.
Import ListNotations.
Open Scope string_scope.
Open Scope list_scope.
Open Scope Z_scope.

Definition text (l : list ascii) : string := string_of_list_ascii l.
Definition chars (s : string) : list ascii := list_ascii_of_string s.

(** [s] consists of the given parts, separated by [sep]. *)
Definition parts_of (sep : ascii) (s : string) (parts : list string) : Prop :=
  parts <> [] /\ (forall w, In w parts -> ~ In sep (chars w)) /\ String.concat (String sep "") parts = s.

(** Decimal numbers *)
Definition digit_char (d : nat) : ascii := ascii_of_nat (48 + d).
Definition digits_value (ds : list nat) : Z := fold_left (fun z d => z * 10 + Z.of_nat d) ds 0.
Definition number_text (s : string) (z : Z) : Prop :=
  exists sign ds, (sign = "" \/ sign = "+" \/ sign = "-") /\ ds <> [] /\ (forall d, In d ds -> (d < 10)%nat) /\
    s = (sign ++ text (map digit_char ds))%string /\
    z = (if String.eqb sign "-" then - digits_value ds else digits_value ds) /\ - 2 ^ 63 <= z < 2 ^ 63.

(** The node types of documents *)
Definition type_text (s : string) (t : nodeType) : Prop :=
  match t with
  | Chance => s = "" \/ s = "nature"
  | Decision => s = "decision"
  | Utility => s = "utility"
  end.

Section Y.
Context {A : Type} {N : NumOps A}.

(** The table of a logic operator whose arguments were just set *)
Definition operator_table (name : string) (args : list Z) (given : nat) : gores (list A) :=
  fst (use_operator factors name args (Z.of_nat given)).
Definition operator_names : list string := map fst (factors (A := A)).

(** The logic text of a node: an operator and integers, separated by single spaces *)
Definition logic_text (s : string) (op : string) (args : list Z) : Prop :=
  exists w ws, parts_of " " s (w :: ws) /\ op = to_lower w /\ Forall2 number_text ws args.

(** The table of a node of a YAML document *)
Definition node_table_of (v : yvar A) (r : gores (option (list A))) : Prop :=
  (y_logic v = "" /\ y_table v = [] /\ r = Ok None) \/
  (y_logic v = "" /\ y_table v <> [] /\ r = Ok (Some (List.concat (y_table v)))) \/
  (y_logic v <> "" /\ y_table v = [] /\ exists op args, logic_text (y_logic v) op args /\ In op operator_names /\
     r = match operator_table op args (List.length (y_given v)) with Ok t => Ok (Some t) | Err e => Err e | Panic p => Panic p end).

(** What New gets for a node *)
Definition node_input (v : yvar A) (p : nvar * nfactor A) : Prop :=
  exists t table, type_text (y_type v) t /\ node_table_of v (Ok table) /\
    p = (mkNVar (y_name v) t (y_outcomes v) (y_pos v) (y_color v) None, mkNFactor (y_name v) (y_given v) table [] 0).

(** Mistakes in a node *)
Inductive faulty (v : yvar A) : Prop :=
| bad_type : (forall t, ~ type_text (y_type v) t) -> faulty v
| table_and_logic : y_table v <> [] -> y_logic v <> "" -> faulty v
| bad_operator w ws : y_logic v <> "" -> parts_of " " (y_logic v) (w :: ws) -> ~ In (to_lower w) operator_names -> faulty v
| bad_number w ws a : y_logic v <> "" -> parts_of " " (y_logic v) (w :: ws) -> In a ws -> (forall z, ~ number_text a z) -> faulty v
| operator_error op args e : y_logic v <> "" -> logic_text (y_logic v) op args ->
    operator_table op args (List.length (y_given v)) = Err e -> faulty v.
(** An operator with arguments that make it panic *)
Definition crashing (v : yvar A) : Prop := (exists t, type_text (y_type v) t) /\ exists p, node_table_of v (Panic p).

(** ** Round trip *)

(** The same variable except for its color, and the same factor. *)
Definition same_but_color (v v' : nvar) : Prop :=
  nv_name v' = nv_name v /\ nv_type v' = nv_type v /\ nv_outcomes v' = nv_outcomes v /\ nv_pos v' = nv_pos v.
Definition factor_of (n : network A) (v : nvar) : option (nfactor A) :=
  match nv_factor v with Some k => nth_error (n_factors n) k | None => None end.
(** Equal factors; an empty table and no table are the same. *)
Definition equal_factors (f f' : nfactor A) : Prop :=
  nf_for f' = nf_for f /\ nf_given f' = nf_given f /\ slice_of (nf_table f') = slice_of (nf_table f) /\
  nf_outcomes f' = nf_outcomes f /\ nf_columns f' = nf_columns f.
(** Every variable has a factor of its own with full rows. *)
Definition full_rows (vars : list nvar) (factors : list (nfactor A)) : Prop :=
  forall v, In v vars -> nv_outcomes v <> [] /\ exists f, factor_for factors (nv_name v) = Some f /\
    exists rows, List.length (slice_of (nf_table f)) = (rows * List.length (nv_outcomes v))%nat.
End Y.

(** ** XML *)

(** The text of a position property *)
Definition position_text (s : string) (p : Z * Z) : Prop :=
  exists key value a b x y, parts_of "=" s [key; value] /\ trim_space key = "position" /\
    parts_of "," (trim_parens (trim_space value)) [a; b] /\ number_text (trim_space a) x /\ number_text (trim_space b) y /\
    p = (Z.quot x 2, Z.quot y 12).
Definition is_position (s : string) : Prop := exists key value, parts_of "=" s [key; value] /\ trim_space key = "position".

(** The position given by the properties: the last one that is a position, if all are correct. *)
Inductive position_of : list string -> Z * Z -> Prop :=
| pos_none : position_of [] (0, 0)
| pos_skip props s p : position_of props p -> ~ is_position s -> position_of (props ++ [s]) p
| pos_last props s p p' : position_of props p -> position_text s p' -> position_of (props ++ [s]) p'.

(** The definition that is used for a name is the last one. *)
Definition definition_for (d : xdoc) (x : string) (def : xdef) : Prop :=
  exists l1 l2, xd_defs d = l1 ++ def :: l2 /\ x_for def = x /\ forall e, In e l2 -> x_for e <> x.

Section X.
Context {A : Type}.
Variable parse_float : string -> option A.

(** What New gets for a node *)
Definition xml_input (d : xdoc) (v : xvar) (p : nvar * nfactor A) : Prop :=
  exists def t pos values, definition_for d (x_name v) def /\ type_text (x_type v) t /\ position_of (x_props v) pos /\
    Forall2 (fun w x => parse_float w = Some x) (fields (x_table def)) values /\
    (x_outcomes v <> [] -> exists rows, List.length values = (rows * List.length (x_outcomes v))%nat) /\
    p = (mkNVar (x_name v) t (x_outcomes v) pos "" None,
         mkNFactor (x_name v) (x_given def) (match values with [] => None | _ => Some values end) [] 0).

(** Mistakes in a node *)
Inductive xml_faulty (d : xdoc) (v : xvar) : Prop :=
| x_bad_type : (forall t, ~ type_text (x_type v) t) -> xml_faulty d v
| x_bad_length def : definition_for d (x_name v) def -> x_outcomes v <> [] ->
    (forall rows, List.length (fields (x_table def)) <> (rows * List.length (x_outcomes v))%nat) -> xml_faulty d v
| x_bad_position prop : In prop (x_props v) -> is_position prop -> (forall p, ~ position_text prop p) -> xml_faulty d v
| x_bad_value def w : definition_for d (x_name v) def -> In w (fields (x_table def)) -> parse_float w = None -> xml_faulty d v.
(** There is no definition for the variable. *)
Definition undefined (d : xdoc) (v : xvar) : Prop := forall def, In def (xd_defs d) -> x_for def <> x_name v.
End X.
