(** Model of yml.go and xml.go: networks from and to documents. The documents are the values
    that the YAML and XML decoders deliver; decoding and encoding bytes is not modelled. *)
From Coq Require Import ZArith List Bool String Ascii.
From Verif Require Import Num GoBase VarModel VEModel NetModel LogicModel TextModel.
Import ListNotations.
Open Scope string_scope.
Open Scope list_scope.
Open Scope Z_scope.

Section Doc.
Context {A : Type} {N : NumOps A}.

(** yml.go:19-24 nodeTypes *)
Definition node_types : list (string * nodeType) :=
  [("", Chance); ("nature", Chance); ("decision", Decision); ("utility", Utility)].
(** yml.go:26-30 nodeTypeNames *)
Definition node_type_name (t : nodeType) : string :=
  match t with Chance => "" | Decision => "decision" | Utility => "utility" end.

(** yml.go:32-41 variableYaml, without distinguishing nil and empty lists (empty lists are left
    out when encoding) *)
Record yvar := mkYVar {
  y_name : string;
  y_given : list string;
  y_type : string;
  y_outcomes : list string;
  y_pos : Z * Z;
  y_color : string;
  y_logic : string;
  y_table : list (list A)
}.
(** yml.go:43-47 networkYaml *)
Record ydoc := mkYDoc { yd_name : string; yd_info : string; yd_vars : list yvar }.

Notation registry := (list (string * lfactor A)).

(** yml.go:92-131 toTable. The logic operators are shared objects, so their state [reg] is passed
    on. A nil table is None. *)
Definition to_table (reg : registry) (v : yvar) : gores (option (list A)) * registry :=
  if (0 <? zlen (y_table v)) && negb (String.eqb (y_logic v) "") then (Err (EMsg "node can only have one of table or logic"), reg)
  else if String.eqb (y_logic v) "" then
    (Ok (if 0 <? zlen (y_table v) then Some (List.concat (y_table v)) else None), reg)
  else
    match split " " (y_logic v) with
    | [] => (Panic PIndex, reg)
    | op :: words =>
      let op := to_lower op in
      match logic_get reg op with
      | None => (Err (EMsg "unknown logic operator"), reg)
      | Some _ =>
        match mapM atoi words with
        | Ok args => let '(r, reg') := use_operator reg op args (zlen (y_given v)) in
                     (let! t := r in Ok (Some t), reg')
        | Err e => (Err e, reg)
        | Panic p => (Panic p, reg)
        end
      end
    end.

(** yml.go:64-87, one iteration: the variable and its factor *)
Definition yaml_node (reg : registry) (v : yvar) : gores (nvar * nfactor A) * registry :=
  match mget String.eqb node_types (y_type v) with
  | None => (Err (EMsg "unknown node type"), reg)
  | Some t =>
    let '(r, reg') := to_table reg v in
    (let! table := r in
     Ok (mkNVar (y_name v) t (y_outcomes v) (y_pos v) (y_color v) None, mkNFactor (y_name v) (y_given v) table [] 0), reg')
  end.
Fixpoint yaml_nodes (reg : registry) (l : list yvar) : gores (list (nvar * nfactor A)) * registry :=
  match l with
  | [] => (Ok [], reg)
  | v :: r =>
    let '(x, reg) := yaml_node reg v in
    match x with
    | Ok x => let '(xs, reg) := yaml_nodes reg r in (let! xs := xs in Ok (x :: xs), reg)
    | Err e => (Err e, reg)
    | Panic p => (Panic p, reg)
    end
  end.

(** yml.go:50-90 FromYAML after decoding *)
Definition from_yaml (reg : registry) (d : ydoc) : gores (network A) * registry :=
  let '(l, reg) := yaml_nodes reg (yd_vars d) in
  (let! l := l in net_new (yd_name d) (yd_info d) (map fst l) (map snd l), reg).

(** yml.go:135-152, one iteration *)
Definition yaml_var (n : network A) (v : nvar) : gores yvar :=
  let! f := match nv_factor v with
            | None => Panic PNil
            | Some k => match nth_error (n_factors n) k with Some f => Ok f | None => Panic PNil end
            end in
  let cols := zlen (nv_outcomes v) in
  if cols =? 0 then Panic PDiv
  else
    let table := slice_of (nf_table f) in
    let! rows := mapM (fun i => sslice table (i * cols) ((i + 1) * cols)) (zrange 0 (Z.quot (zlen table) cols)) in
    Ok (mkYVar (nv_name v) (nf_given f) (node_type_name (nv_type v)) (nv_outcomes v) (nv_pos v) "" "" rows).
(** yml.go:133-157 ToYAML before encoding: neither Info nor Color are set. *)
Definition to_yaml (n : network A) : gores ydoc :=
  let! vars := mapM (yaml_var n) (n_vars n) in
  Ok (mkYDoc (n_name n) "" vars).

(** xml.go:22-32 variableXml, definitionXml *)
Record xvar := mkXVar { x_name : string; x_type : string; x_outcomes : list string; x_props : list string }.
Record xdef := mkXDef { x_for : string; x_given : list string; x_table : string }.
(** xml.go:11-20 bifXmlWrapper, networkXml *)
Record xdoc := mkXDoc { xd_name : string; xd_vars : list xvar; xd_defs : list xdef }.

(** xml.go:101-130 parsePosition *)
Definition parse_position (props : list string) : gores (Z * Z) :=
  foldM (fun pos prop =>
    match split "=" prop with
    | [key; value] =>
      if negb (String.eqb (trim_space key) "position") then Ok pos
      else
        match split "," (trim_parens (trim_space value)) with
        | [a; b] =>
          let! x := atoi (trim_space a) in
          let! y := atoi (trim_space b) in
          Ok (Z.quot x 2, Z.quot y 12)
        | _ => Err (EMsg "syntax error in property position")
        end
    | _ => Ok pos
    end) (0, 0) props.

(** strconv.ParseFloat(s, 64); None for an error. The model is for every such function. *)
Variable parse_float : string -> option A.

(** xml.go:55-97, one iteration *)
Definition xml_node (defs : list (string * xdef)) (v : xvar) : gores (nvar * nfactor A) :=
  match mget String.eqb defs (x_name v) with
  | None => Panic PNil
  | Some def =>
    let columns := zlen (x_outcomes v) in
    let values := fields (x_table def) in
    if (0 <? columns) && negb (Z.rem (zlen values) columns =? 0) then Err (EMsg "number of values does not match")
    else
      let! pos := parse_position (x_props v) in
      match mget String.eqb node_types (x_type v) with
      | None => Err (EMsg "unknown node type")
      | Some t =>
        let! table := (if 0 <? zlen values then
            let! l := mapM (fun w => match parse_float w with Some x => Ok x | None => Err (EMsg "error parsing table value") end) values in
            Ok (Some l)
          else Ok None) in
        Ok (mkNVar (x_name v) t (x_outcomes v) pos "" None, mkNFactor (x_name v) (x_given def) table [] 0)
      end
  end.

(** xml.go:35-98 FromBIFXML after decoding; the last definition for a name is used. *)
Definition from_xml (d : xdoc) : gores (network A) :=
  let defs := fold_left (fun m x => mset String.eqb m (x_for x) x) (xd_defs d) [] in
  let! l := mapM (xml_node defs) (xd_vars d) in
  net_new (xd_name d) "" (map fst l) (map snd l).
End Doc.
Arguments yvar A : clear implicits.
Arguments ydoc A : clear implicits.
