(** Model of the commands bbn (cmd/bbn) and bbni (cmd/bbni): the files read, and what is printed. The wiring by cobra
    is not modelled: the commands start with the values of their arguments and options. *)
From Coq Require Import ZArith List Bool String Ascii.
From Verif Require Import Num GoBase TextModel VarModel VEModel NetModel TrainModel LogicModel DocModel CliModel TuiModel.
Import ListNotations.
Open Scope string_scope.
Open Scope list_scope.
Open Scope Z_scope.

(** filepath.Ext on Unix: the text from the last dot of the last element of the path on *)
Fixpoint scan_ext (rev_path : list ascii) (seen : list ascii) : list ascii :=
  match rev_path with
  | [] => []
  | c :: r => if Ascii.eqb c "/" then [] else if Ascii.eqb c "." then c :: seen else scan_ext r (c :: seen)
  end.
Definition file_ext (path : string) : string := string_of_list_ascii (scan_ext (rev (list_ascii_of_string path)) []).

Section Shell.
Context {A : Type} {N : NumOps A}.
(** strconv.ParseFloat(s, 64); None for an error. *)
Variable parse_float : string -> option A.
(** The files: their contents (None if a file can't be read), decoded as YAML or XML (None if there is a syntax error), and
    the lines of CSV files for a delimiter (None if the file can't be opened or there is a syntax error). *)
Variable D : Type.
Variable read_file : string -> option D.
Variable yaml_of : D -> option (ydoc A).
Variable xml_of : D -> option xdoc.
Variable csv_of : string -> Z -> option (list (list string)).

(** network.go:107-131 FromFile. [reg] are the logic operators, which the program shares. *)
Definition from_file (reg : list (string * lfactor A)) (path : string) : gores (network A) * list (string * lfactor A) :=
  match read_file path with
  | None => (Err (EMsg "can't read file"), reg)
  | Some data =>
    let ext := to_lower (file_ext path) in
    if String.eqb ext ".yml" then
      match yaml_of data with
      | None => (Err (EMsg "YAML syntax error"), reg)
      | Some doc => from_yaml reg doc
      end
    else if String.eqb ext ".xml" || String.eqb ext ".bifxml" then
      match xml_of data with
      | None => (Err (EMsg "XML syntax error"), reg)
      | Some doc => (from_xml parse_float doc, reg)
      end
    else (Err (EMsg "unsupported file format"), reg)
  end.

(** cmd/bbn/train.go:26-53: the document that is printed as YAML. A new process has the operators [factors]. *)
Definition train_command (netFile dataFile delim noData : string) : gores (ydoc A) :=
  match runes_of delim with
  | [r] =>
    let! net := fst (from_file factors netFile) in
    match csv_of dataFile r with
    | None => Err (EMsg "can't read CSV file")
    | Some lines => let '(net, res) := train_csv parse_float net lines noData in let! _ := res in to_yaml net
    end
  | _ => Err (EMsg "argument for --delim must be a single rune")
  end.
End Shell.

(** cmd/bbn/inference.go:33-50: the two lines for a node, without the line ends. *)
Definition inference_lines (ev : list (string * string)) (result : list (string * list xnum)) (v : nvar) : list (list Z) :=
  let outcomes := flat_map (fun s => 32 :: pad 10 (runes_of s)) (nv_outcomes v) in
  let probs := match sget_map result (nv_name v) with Some l => l | None => [] end in
  let numbers := flat_map (fun p => if is_utility v then 32 :: fmt_fixed 10 p else 32 :: fmt_fixed 9 (nmul p (nofint 100)) ++ [rune "%"]) probs in
  [repeat 32 30 ++ outcomes; pad 30 (runes_of (nv_name v)) ++ numbers ++ (if has_key ev (nv_name v) then runes_of "  +" else [])].

Section Commands.
Variable parse_float : string -> option xnum.
Variable D : Type.
Variable read_file : string -> option D.
Variable yaml_of : D -> option (ydoc xnum).
Variable xml_of : D -> option xdoc.
Variable csv_of : string -> Z -> option (list (list string)).
Notation from_file := (from_file parse_float D read_file yaml_of xml_of).

(** cmd/bbn/inference.go:26-54 with runInferenceCommand: the lines printed *)
Definition inference_command (scs : nat -> sched) (scp : sched) (path : string) (evidence : list string) : gores (list (list Z)) :=
  let! net := fst (from_file factors path) in
  let! (ev, result) := run_inference scs scp net evidence in
  Ok (flat_map (inference_lines ev result) (n_vars net)).

(** cmd/bbni/main.go:36-49 with internal/tui/app.go:51-65, up to the first event *)
Definition bbni_command (scs : nat -> sched) (scp : sched) (path : string) (evidence : list string) (training noData delim : string) : gores app :=
  let! ev := parse_evidence evidence in
  match runes_of delim with
  | [r] =>
    let op := app_options path ev training noData r in
    let! net := fst (from_file factors (op_file op)) in
    let '(net, res) := app_train parse_float csv_of op net in
    let! _ := res in
    app_run scs scp net (op_evidence op)
  | _ => Err (EMsg "argument for --delim must be a single rune")
  end.
End Commands.
