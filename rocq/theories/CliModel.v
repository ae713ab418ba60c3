(** Model of internal/tui/bounds.go, util.go and training.go: boxes on the screen, evidence given on
    the command line and training from CSV files. *)
From Coq Require Import ZArith List Bool String Ascii.
From Verif Require Import Num GoBase TextModel VarModel VEModel NetModel TrainModel.
Import ListNotations.
Open Scope string_scope.
Open Scope list_scope.
Open Scope Z_scope.

(** ** Bounds *)

(** internal/tui/bounds.go:3-14 Bounds, NewBounds. Overflow of int is not modelled. *)
Record bounds := mkBounds { b_x : Z; b_y : Z; b_w : Z; b_h : Z }.

(** internal/tui/bounds.go:16-18 Contains *)
Definition b_contains (b : bounds) (x y : Z) : bool :=
  (b_x b <=? x) && (x <? b_x b + b_w b) && (b_y b <=? y) && (y <? b_y b + b_h b).

(** internal/tui/bounds.go:20-22 Centroid; the division of Go rounds towards zero *)
Definition b_centroid (b : bounds) : Z * Z := (b_x b + Z.quot (b_w b) 2, b_y b + Z.quot (b_h b) 2).

(** internal/tui/bounds.go:24-39 Extend: the bounds afterwards, statement by statement *)
Definition b_extend (b other : bounds) : bounds :=
  let b := if b_x other <? b_x b then mkBounds (b_x other) (b_y b) (b_w b + (b_x b - b_x other)) (b_h b) else b in
  let b := if b_y other <? b_y b then mkBounds (b_x b) (b_y other) (b_w b) (b_h b + (b_y b - b_y other)) else b in
  let b := if b_x b + b_w b <? b_x other + b_w other then mkBounds (b_x b) (b_y b) (b_x other + b_w other - b_x b) (b_h b) else b in
  if b_y b + b_h b <? b_y other + b_h other then mkBounds (b_x b) (b_y b) (b_w b) (b_y other + b_h other - b_y b) else b.

(** ** Evidence *)

(** internal/tui/util.go:8-18 ParseEvidence *)
Definition parse_evidence (evidence : list string) : gores (list (string * string)) :=
  foldM (fun ev entry =>
    match split "=" entry with
    | [k; v] => Ok (sset_map ev k v)
    | _ => Err (EMsg "syntax error in evidence")
    end) [] evidence.

(** ** Training from CSV files *)
Section Csv.
Context {A : Type} {N : NumOps A}.
(** strconv.ParseFloat(s, 64); None for an error. The model is for every such function. *)
Variable parse_float : string -> option A.

(** What prepare finds for one node: the column, whether it is a utility node and the map of outcomes. *)
Record column := mkColumn { c_index : Z; c_utility : bool; c_outcomes : list (string * Z) }.

(** internal/tui/training.go:87-95: the outcomes by name *)
Definition outcome_map (outcomes : list string) (noData : string) : gores (list (string * Z)) :=
  let! m := foldM (fun m '((j, o) : Z * string) =>
      if String.eqb o noData then Err (EMsg "no-data value appears as outcome")
      else Ok (sset_map m o j)) [] (combine (zrange 0 (zlen outcomes)) outcomes) in
  Ok (sset_map m noData (-1)).

(** internal/tui/training.go:75-100 prepare. The three result slices are one list of records. *)
Definition prepare (nodes : list nvar) (header : list string) (noData : string) : gores (list column) :=
  mapM (fun node =>
    let idx := str_index header (nv_name node) in
    if idx <? 0 then Err (EMsg "no column in training data file")
    else
      let! m := outcome_map (nv_outcomes node) noData in
      Ok (mkColumn idx (nodeType_eqb (nv_type node) Utility) m)) nodes.

(** internal/tui/training.go:50-68, one iteration: the entries of the slices sample and utility. The
    slices are reused for all records; the entries not set here are zero throughout. In line 54 NaN is
    stored for the no-data value, and line 56 overwrites it. *)
Definition read_cell (record : list string) (c : column) : gores (Z * A) :=
  let! s := sget record (c_index c) in
  if c_utility c then
    match parse_float s with
    | None => Err (EMsg "unable to parse utility value")
    | Some u => Ok (0, u)
    end
  else
    match sget_map (c_outcomes c) s with
    | None => Err (EMsg "outcome not available in node")
    | Some k => Ok (k, n0)
    end.

(** internal/tui/training.go:42-69: one record. The reader of encoding/csv gives an error for records
    with another number of fields than the first one (the header). *)
Definition train_record (net : network A) (header : list string) (columns : list column) (t : trainer A) (record : list string)
  : gores (trainer A) :=
  if negb (zlen record =? zlen header) then Err (EMsg "wrong number of fields")
  else
    let! cells := mapM (read_cell record) columns in
    add_sample net t (map fst cells) (Some (map snd cells)).

(** internal/tui/training.go:16-73 TrainNetwork, on the contents of the file: the lines as split by
    encoding/csv. Returns the network as left by the call, and whether it succeeded (TrainNetwork
    returns nil with an error, but the caller's network is the same object). [nodes] is
    net.Variables(). *)
Definition train_csv (net : network A) (lines : list (list string)) (noData : string) : network A * gores unit :=
  match lines with
  | [] => (net, Err (EMsg "EOF"))
  | header :: records =>
    match (let! columns := prepare (n_vars net) header noData in
           let! t := new_trainer net in
           foldM (train_record net header columns) t records) with
    | Ok t => update_network net t
    | Err e => (net, Err e)
    | Panic p => (net, Panic p)
    end
  end.

(** ** The terminal application: options *)

(** internal/tui/app.go:10-37: the options of an App (the rest of its state is in TuiModel) *)
Record options := mkOptions {
  op_file : string;
  op_evidence : list (string * string);
  op_training : string;
  op_no_data : string;
  op_delimiter : Z
}.

(** internal/tui/app.go:39-49 New: the field noData is not set. A nil map of evidence is replaced by
    an empty one; both are the empty list here. *)
Definition app_options (file : string) (evidence : list (string * string)) (trainingFile noData : string) (delimiter : Z) : options :=
  mkOptions file evidence trainingFile "" delimiter.

(** internal/tui/app.go:60-65: the training at the start of Run. [lines] gives the contents of a file
    as split at a delimiter; None if it can't be opened. *)
Definition app_train (lines : string -> Z -> option (list (list string))) (op : options) (net : network A) : network A * gores unit :=
  if String.eqb (op_training op) "" then (net, Ok tt)
  else match lines (op_training op) (op_delimiter op) with
       | None => (net, Err (EMsg "can't open file"))
       | Some l => train_csv net l (op_no_data op)
       end.
End Csv.
