(** The inputs of the Go unit tests of packages bbn, logic, internal/tui and cmd/bbn, run on the
    model. See Conform_VE.v: these are tests of the model. *)
From Coq Require Import ZArith List Bool String Ascii QArith Qcanon SpecFloat.
From Verif Require Import Num GoBase TextModel VarModel VEModel NetModel TrainModel LogicModel DocModel CliModel TuiModel ShellModel Conform_VE.
Import ListNotations.
Open Scope string_scope.
Open Scope list_scope.
Open Scope Z_scope.

(** A Variable literal and a Factor literal *)
Definition var (name : string) (t : nodeType) (outcomes : list string) : nvar := mkNVar name t outcomes (0, 0) "" None.
Definition fac (for_ : string) (given : list string) (table : list f64) : nfactor f64 := mkNFactor for_ given (Some table) [] 0.
Definition fac_nil (for_ : string) (given : list string) : nfactor f64 := mkNFactor for_ given None [] 0.

Fixpoint equal_strings (a b : list string) : bool :=
  match a, b with
  | [], [] => true
  | x :: a', y :: b' => String.eqb x y && equal_strings a' b'
  | _, _ => false
  end.
(** assert.Equal on map[string][]float64 and on map[string]Factor: same keys, and equal values.
    The unexported fields of the expected factors are zero. *)
Definition equal_results (expected result : list (string * list f64)) : bool :=
  (zlen expected =? zlen result) &&
  forallb (fun '(k, t) => match sget_map result k with Some t' => equal_data t t' | None => false end) expected.
Definition equal_policies (expected : list (string * (list string * list f64))) (result : list (string * nfactor f64)) : bool :=
  (zlen expected =? zlen result) &&
  forallb (fun '(k, (given, t)) =>
    match sget_map result k with
    | Some f => String.eqb (nf_for f) k && equal_strings given (nf_given f) &&
                match nf_table f with Some t' => equal_data t t' | None => false end &&
                match nf_outcomes f with [] => true | _ => false end && (nf_columns f =? 0)
    | None => false
    end) expected.

(** ** network_test.go *)

(** TestFactorRow *)
Definition row_test : gores (list (gores (Z * bool))) :=
  let! n := net_new "test" "" [var "a" Chance ["yes"; "no"; "maybe"]; var "b" Chance ["yes"; "no"]; var "c" Decision ["yes"; "no"; "maybe"]]
    [fac "c" ["a"; "b"] (fi [0; 1; 2; 3; 4; 5; 6; 7; 8; 9; 10; 11; 12; 13; 14; 15; 16; 17])] in
  let! v := sget (n_vars n) 2 in
  match nv_factor v with
  | Some k => match nth_error (n_factors n) k with
              | Some f => Ok (map (nf_row_index f) [[0; 0]; [1; 1]; [2; 0]; [-1; 0]])
              | None => Panic PNil
              end
  | None => Panic PNil
  end.
Example test_factor_row :
  match row_test with
  | Ok [Ok (0, true); Ok (3, true); Ok (4, true); Ok (_, false)] => True
  | _ => False
  end.
Proof. vm_compute. exact I. Qed.

(** The network of TestNetworkToVE and TestNetworkSolveUmbrella *)
Definition umbrella_vars : list nvar :=
  [var "weather" Chance ["rainy"; "sunny"]; var "forecast" Chance ["sunny"; "cloudy"; "rainy"];
   var "umbrella" Decision ["yes"; "no"]; var "utility" Utility ["utility"]].
Definition umbrella_net : gores (network f64) := net_new "umbrella" "" umbrella_vars
  [fac "weather" [] (fd 1 [3; 7]); fac "forecast" ["weather"] (fd 2 [15; 25; 60; 70; 20; 10]);
   fac_nil "umbrella" ["forecast"]; fac "utility" ["weather"; "umbrella"] (fi [70; 0; 20; 100])].

(** TestNetworkToVE *)
Example test_network_to_ve :
  both (fun sc =>
    let! n := umbrella_net in
    let! r := to_ve sc 0 n [] in
    let '(s, names) := r in
    let! a := ve_solve_utility sc s [] [] None in
    match sget_map names "forecast", sget_map names "umbrella" with
    | Some forecast, Some umbrella =>
        let! p := rearrange (ve_vs (fst a)) (snd a) [en_ve forecast; en_ve umbrella] in
        Ok (near_data (fd 2 [1295; 4900; 805; 1400; 1400; 700]) (f_data (snd p)))
    | _, _ => Ok false
    end).
Proof. split; vm_compute; reflexivity. Qed.

(** TestNetworkSolveUmbrella *)
Definition solve_umbrella (sc : sched) : gores bool :=
  let! n := umbrella_net in
  let '(n, policies) := net_solve_policies sc n true in
  let! policies := policies in
  let '(n, result) := net_solve_query sc n [("forecast", "rainy")] ["weather"] false in
  let! result := result in
  let '(n, utility) := net_solve_utility sc n [("forecast", "rainy")] ["weather"] "" false in
  let! utility := utility in
  let! m := net_marginal n utility "weather" in
  let! norm := net_normalize_utility (fst m) utility (snd result) in
  Ok (equal_policies [("umbrella", (["forecast"], fi [0; 1; 0; 1; 1; 0]))] policies &&
      near_data (fi [70; 20]) (f_data (snd norm))).
Example test_network_solve_umbrella : both solve_umbrella.
Proof. split; vm_compute; reflexivity. Qed.

(** TestNetworkSolveOil: beside the policies, nothing may fail *)
Definition solve_oil (sc : sched) : gores bool :=
  let! n := net_new "oil" "" [var "oil" Chance ["dry"; "wet"; "soaking"]; var "test" Decision ["yes"; "no"];
      var "test-result" Chance ["closed"; "open"; "diffuse"]; var "drill" Decision ["yes"; "no"];
      var "drill-utility" Utility ["utility"]; var "test-utility" Utility ["utility"]]
    [fac "oil" [] (fd 1 [5; 3; 2]);
     fac "test-result" ["oil"; "test"] (fd 3 [100; 300; 600; 333; 333; 333; 300; 400; 300; 333; 333; 333; 500; 400; 100; 333; 333; 333]);
     fac_nil "test" []; fac_nil "drill" ["test"; "test-result"];
     fac "drill-utility" ["oil"; "drill"] (fi [-70; 0; 50; 0; 200; 0]); fac "test-utility" ["test"] (fi [-10; 0])] in
  let '(n, policies) := net_solve_policies sc n true in
  let! policies := policies in
  let '(n, result) := net_solve_query sc n [] ["test-result"] false in
  let! result := result in
  let '(n, utility) := net_solve_utility sc n [] ["test-result"] "" false in
  let! utility := utility in
  let! m := net_marginal n utility "test-result" in
  let! norm := net_normalize_utility (fst m) utility (snd result) in
  let '(n, utility) := net_solve_utility sc (fst norm) [] ["test-result"] "test-utility" false in
  let! utility := utility in
  let! norm := net_normalize_utility n utility (snd result) in
  let '(n, utility) := net_solve_utility sc (fst norm) [] ["test-result"] "drill-utility" false in
  let! utility := utility in
  let! norm := net_normalize_utility n utility (snd result) in
  Ok (equal_policies [("drill", (["test"; "test-result"], fi [1; 0; 1; 0; 0; 1; 1; 0; 1; 0; 1; 0])); ("test", ([], fi [1; 0]))] policies).
Example test_network_solve_oil : both solve_oil.
Proof. split; vm_compute; reflexivity. Qed.

(** TestNetworkRearrange *)
Definition network_rearrange (sc : sched) : gores bool :=
  let! n := net_new "test" "" [var "a" Chance ["yes"; "no"]; var "b" Chance ["yes"; "no"]; var "c" Chance ["yes"; "no"]; var "d" Chance ["yes"; "no"]]
    [fac_nil "d" ["a"; "b"; "c"]] in
  let '(n, result) := net_solve_query sc n [] ["a"; "b"; "c"; "d"] true in
  let! result := result in
  let f := snd result in
  match f_vars f with
  | [a; b; c; d] =>
    let! r1 := rearrange_variables n f ["a"; "b"; "c"; "d"] in
    let! r2 := rearrange_variables n f ["d"; "c"; "b"; "a"] in
    let! r3 := rearrange_variables n f ["d"; "a"] in
    Ok (equal_vars [a; b; c; d] r1 && equal_vars [d; c; b; a] r2 && equal_vars [d; b; c; a] r3)
  | _ => Ok false
  end.
Example test_network_rearrange : both network_rearrange.
Proof. split; vm_compute; reflexivity. Qed.

(** ** training_test.go *)

(** TestTrainer *)
Definition wet_vars : list nvar := [var "Rain" Chance ["yes"; "no"]; var "Sprinkler" Chance ["yes"; "no"]; var "GrassWet" Chance ["yes"; "no"]].
Definition trainer_test (sc : sched) : gores bool :=
  let! n := net_new "Sprinkler" "" wet_vars
    [fac "Rain" [] (fi [0; 0]); fac "Sprinkler" ["Rain"] (fi [0; 0; 0; 0]);
     fac "GrassWet" ["Rain"; "Sprinkler"] (fi [0; 0; 0; 0; 0; 0; 0; 0])] in
  let '(n, trained) := train n [([0; 0; 0], None); ([0; 1; 0], None); ([1; 0; 0], None); ([1; 1; 1], None)] in
  let! _ := trained in
  let '(n, result) := net_solve_query sc n [("Rain", "no"); ("GrassWet", "yes")] ["Sprinkler"] false in
  let! result := result in
  Ok (equal_results [("Sprinkler", fi [1; 0])] (fst result)).
Example test_trainer : both trainer_test.
Proof. split; vm_compute; reflexivity. Qed.

(** TestTrainerDecision *)
Definition trainer_decision (sc : sched) : gores bool :=
  let! n := net_new "umbrella" "" umbrella_vars
    [fac "weather" [] (fi [0; 0]); fac "forecast" ["weather"] (fi [0; 0; 0; 0; 0; 0]);
     fac_nil "umbrella" ["forecast"]; fac "utility" ["weather"; "umbrella"] (fi [0; 0; 0; 0])] in
  let '(n, trained) := train n [([0; 2; 0; 0], Some (fi [0; 0; 0; 70])); ([0; 2; 1; 0], Some (fi [0; 0; 0; 0]));
                                ([1; 0; 0; 0], Some (fi [0; 0; 0; 20])); ([1; 0; 1; 0], Some (fi [0; 0; 0; 100]))] in
  let! _ := trained in
  let '(n, policies) := net_solve_policies sc n true in
  let! policies := policies in
  Ok (match sget_map policies "umbrella" with
      | Some f => equal_data (fd 1 [0; 10; 5; 5; 10; 0]) (slice_of (nf_table f))
      | None => false
      end).
Example test_trainer_decision : both trainer_decision.
Proof. split; vm_compute; reflexivity. Qed.

(** ** examples_test.go and yml_test.go *)

Definition wet_net : gores (network f64) := net_new "Sprinkler" "" wet_vars
  [fac "Rain" [] (fd 1 [2; 8]); fac "Sprinkler" ["Rain"] (fd 2 [1; 99; 20; 80]);
   fac "GrassWet" ["Rain"; "Sprinkler"] (fd 2 [99; 1; 80; 20; 90; 10; 0; 100])].
Definition ask_sprinkler (sc : sched) (n : network f64) : gores bool :=
  let '(n, result) := net_solve_query sc n [("GrassWet", "yes"); ("Rain", "no")] ["Sprinkler"] false in
  let! result := result in
  Ok (equal_results [("Sprinkler", fi [1; 0])] (fst result)).

(** Example_sprinkler *)
Example test_sprinkler : both (fun sc => let! n := wet_net in ask_sprinkler sc n).
Proof. split; vm_compute; reflexivity. Qed.

(** TestFromYaml, after decoding the text: nothing may fail *)
Definition from_yaml_test (sc : sched) : gores bool :=
  let! n := fst (from_yaml factors (mkYDoc "Umbrella Decision Network" ""
    [mkYVar "Weather" [] "" ["Sunny"; "Rainy"] (16, 0) "" "" [fi [70; 30]];
     mkYVar "Forecast" ["Weather"] "" ["Sunny"; "Cloudy"; "Rainy"] (1, 8) "" "" [fi [70; 20; 10]; fi [15; 25; 60]];
     mkYVar "Umbrella" ["Forecast"] "decision" ["Take"; "Leave"] (16, 16) "" "" [];
     mkYVar "Utility" ["Weather"; "Umbrella"] "utility" ["Expected"] (31, 8) "" "" [fi [20]; fi [100]; fi [70]; fi [0]];
     mkYVar "Logic" ["Weather"] "" ["yes"; "no"] (0, 0) "" "outcome-is 1 2" []])) in
  let! policies := snd (net_solve_policies sc n true) in
  Ok (has_key policies "Umbrella").
Example test_from_yaml : both from_yaml_test.
Proof. split; vm_compute; reflexivity. Qed.

(** TestToYAML: the document before encoding, and the network read from it. The empty type is left
    out by the encoder, as are the empty lists of parents. *)
Definition equal_rows (a b : list (list f64)) : bool :=
  (zlen a =? zlen b) && forallb (fun '(x, y) => equal_data x y) (combine a b).
Definition equal_yvar (name : string) (given : list string) (table : list (list f64)) (v : yvar f64) : bool :=
  String.eqb (y_name v) name && equal_strings (y_given v) given && String.eqb (y_type v) "" &&
  equal_strings (y_outcomes v) ["yes"; "no"] && (fst (y_pos v) =? 0) && (snd (y_pos v) =? 0) &&
  String.eqb (y_color v) "" && String.eqb (y_logic v) "" && equal_rows (y_table v) table.
Definition to_yaml_test (sc : sched) : gores bool :=
  let! n := wet_net in
  let! doc := to_yaml n in
  let! n' := fst (from_yaml factors doc) in
  let! asked := ask_sprinkler sc n' in
  Ok (String.eqb (yd_name doc) "Sprinkler" && String.eqb (yd_info doc) "" &&
      match yd_vars doc with
      | [a; b; c] => equal_yvar "Rain" [] [fd 1 [2; 8]] a && equal_yvar "Sprinkler" ["Rain"] [fd 2 [1; 99]; fd 1 [2; 8]] b &&
                     equal_yvar "GrassWet" ["Rain"; "Sprinkler"] [fd 2 [99; 1]; fd 1 [8; 2]; fd 1 [9; 1]; fi [0; 1]] c
      | _ => false
      end && asked).
Example test_to_yaml : both to_yaml_test.
Proof. split; vm_compute; reflexivity. Qed.

(** ** xml_test.go *)

(** strconv.ParseFloat for the numbers of the file: digits, a dot, digits. *)
Definition digits (s : string) : option Z :=
  fold_left (fun acc c => match acc with
    | Some n => let d := Z.of_nat (nat_of_ascii c) - 48 in if (0 <=? d) && (d <=? 9) then Some (10 * n + d) else None
    | None => None
    end) (list_ascii_of_string s) (Some 0).
Definition decimal (s : string) : option f64 :=
  match split "." s with
  | [a; b] => match digits a, digits b with
              | Some m, Some n => let k := Z.of_nat (String.length b) in Some (f64_dec (m * 10 ^ k + n) k)
              | _, _ => None
              end
  | _ => None
  end.

(** TestFromBIFXML, _examples/bbn/dog-problem.xml after decoding. The test only asks that nothing
    fails; here the positions and one table are compared too. *)
Definition dog_doc : xdoc := mkXDoc "Dog-Problem"
  [mkXVar "light-on" "nature" ["true"; "false"] ["position = (73, 165)"]; mkXVar "bowel-problem" "nature" ["true"; "false"] ["position = (190, 69)"];
   mkXVar "dog-out" "nature" ["true"; "false"] ["position = (155, 165)"]; mkXVar "hear-bark" "nature" ["true"; "false"] ["position = (154, 241)"];
   mkXVar "family-out" "nature" ["true"; "false"] ["position = (112, 69)"]]
  [mkXDef "light-on" ["family-out"] "0.6 0.4 0.05 0.95 "; mkXDef "bowel-problem" [] "0.01 0.99 ";
   mkXDef "dog-out" ["bowel-problem"; "family-out"] "0.99 0.01 0.97 0.03 0.9 0.1 0.3  0.7 ";
   mkXDef "hear-bark" ["dog-out"] "0.7 0.3 0.01 0.99 "; mkXDef "family-out" [] "0.15 0.85 "].
Example test_from_bif_xml :
  match from_xml decimal dog_doc with
  | Ok n => map nv_pos (n_vars n) = [(36, 13); (95, 5); (77, 13); (77, 20); (56, 5)] /\
            match n_factors n with
            | [_; _; f; _; _] => nf_for f = "dog-out" /\ nf_given f = ["bowel-problem"; "family-out"] /\
                                 nf_table f = Some (fd 2 [99; 1; 97; 3; 90; 10; 30; 70])
            | _ => False
            end
  | _ => False
  end.
Proof. vm_compute. repeat split. Qed.

(** ** logic *)

(** One of the constructors, SetArgs, and the table compared with the expected one *)
Definition table_is (f : lfactor f64) (args : list Z) (given : Z) (expected : list f64) : Prop :=
  passes (let! f := set_args f args in let! t := table f given in Ok (equal_data expected t)).
Ltac table_test := vm_compute; reflexivity.

(** bits_test.go TestBits *)
Example test_bits : table_is LBits [] 3 (fi
  [0; 0; 0; 0; 0; 0; 0; 1;
   0; 0; 0; 0; 0; 0; 1; 0;
   0; 0; 0; 0; 0; 1; 0; 0;
   0; 0; 0; 0; 1; 0; 0; 0;
   0; 0; 0; 1; 0; 0; 0; 0;
   0; 0; 1; 0; 0; 0; 0; 0;
   0; 1; 0; 0; 0; 0; 0; 0;
   1; 0; 0; 0; 0; 0; 0; 0]).
Proof. table_test. Qed.
(** count_test.go TestCountIs, TestCountLess, TestCountGreater, TestCountTrue, TestCountFalse *)
Example test_count :
  table_is (LCount RIs 0) [2] 3 (fi [0; 1; 1; 0; 1; 0; 0; 1; 1; 0; 0; 1; 0; 1; 0; 1]) /\
  table_is (LCount RLess 0) [3] 3 (fi [0; 1; 1; 0; 1; 0; 1; 0; 1; 0; 1; 0; 1; 0; 1; 0]) /\
  table_is (LCount RGreater 0) [2] 3 (fi [1; 0; 0; 1; 0; 1; 0; 1; 0; 1; 0; 1; 0; 1; 0; 1]) /\
  table_is LCountTrue [] 3 (fi [0; 0; 0; 1; 0; 0; 1; 0; 0; 0; 1; 0; 0; 1; 0; 0; 0; 0; 1; 0; 0; 1; 0; 0; 0; 1; 0; 0; 1; 0; 0; 0]) /\
  table_is LCountFalse [] 3 (fi [1; 0; 0; 0; 0; 1; 0; 0; 0; 1; 0; 0; 0; 0; 1; 0; 0; 1; 0; 0; 0; 0; 1; 0; 0; 0; 1; 0; 0; 0; 0; 1]).
Proof. repeat split; table_test. Qed.
(** given_test.go TestGiven, TestGivenNot, TestGivenExcl *)
Example test_given :
  table_is (LGiven 0) [1] 3 (fi [1; 0; 1; 0; 0; 1; 0; 1; 1; 0; 1; 0; 0; 1; 0; 1]) /\
  table_is (LGivenNot 0) [1] 3 (fi [0; 1; 0; 1; 1; 0; 1; 0; 0; 1; 0; 1; 1; 0; 1; 0]) /\
  table_is (LGivenExcl 0) [1] 3 (fi [0; 1; 0; 1; 0; 1; 0; 1; 0; 1; 1; 0; 0; 1; 0; 1]).
Proof. repeat split; table_test. Qed.
(** outcome_test.go TestOutcomeIs, TestOutcomeIsNot, TestOutcomeEither, TestOutcomeLess, TestOutcomeGreater *)
Example test_outcome :
  table_is (LOutcomeIs 0 0) [1; 4] 1 (fi [0; 1; 1; 0; 0; 1; 0; 1]) /\
  table_is (LOutcomeIsNot 0 0) [2; 4] 1 (fi [1; 0; 1; 0; 0; 1; 1; 0]) /\
  table_is (LOutcomeEither [] 0) [1; 2; 4] 1 (fi [0; 1; 1; 0; 1; 0; 0; 1]) /\
  table_is (LOutcomeLess 0 0) [2; 4] 1 (fi [1; 0; 1; 0; 0; 1; 0; 1]) /\
  table_is (LOutcomeGreater 0 0) [2; 4] 1 (fi [0; 1; 0; 1; 1; 0; 1; 0]).
Proof. repeat split; table_test. Qed.
(** simple_test.go TestFactorTable; the constructors have the contents registered under their names *)
Definition named_table (name : string) (given : Z) : gores (list f64) := reg_table factors name given.
Definition named_is (name : string) (given : Z) (expected : list f64) : Prop :=
  passes (let! t := named_table name given in Ok (equal_data expected t)).
Example test_factor_table :
  named_is "not" 1 (fi [0; 1; 1; 0]) /\
  match named_table "not" 2 with Err _ => True | _ => False end /\
  named_is "and" 2 (fi [1; 0; 0; 1; 0; 1; 0; 1]) /\
  named_is "or" 2 (fi [1; 0; 1; 0; 1; 0; 0; 1]) /\
  named_is "cond" 2 (fi [1; 0; 0; 1; 1; 0; 1; 0]) /\
  named_is "bicond" 2 (fi [1; 0; 0; 1; 0; 1; 1; 0]) /\
  named_is "if-then" 1 (fd 1 [10; 0; 5; 5]) /\
  passes (let! t := table (A := f64) (LBool [true; true; true; true; true; true; true; true]) 3 in Ok true).
Proof. repeat split; try table_test. Qed.
(** factor_test.go TestFactorGet *)
Example test_factor_get :
  passes (let! t := named_table "and" 2 in Ok (zlen t =? 8)) /\ logic_get (A := f64) factors "foobar" = None.
Proof. split; reflexivity. Qed.

(** ** internal/tui *)

(** bounds_test.go TestBoundsContains, TestBoundsCentroid, TestBoundsExtend *)
Example test_bounds :
  map (fun '(x, y) => b_contains (mkBounds 10 20 20 30) x y) [(11, 22); (9, 22); (35, 22); (11, 15); (11, 51)] = [true; false; false; false; false] /\
  b_centroid (mkBounds 10 20 20 30) = (20, 35) /\
  b_extend (mkBounds 3 4 5 6) (mkBounds 1 2 12 13) = mkBounds 1 2 12 13 /\
  b_extend (mkBounds 3 4 5 6) (mkBounds 5 6 12 13) = mkBounds 3 4 14 15.
Proof. repeat split. Qed.

(** node_test.go TestNodeRender *)
Definition render_test : gores (list (list Z)) :=
  let! node := new_node (var "TestNode" Chance ["yes"; "no"; "maybe"]) None in
  let! node := render_node node [xq (1 # 10); xq (2 # 10); xq (7 # 10)] true 1 false in
  Ok (t_runes node).
Example test_node_render : render_test = Ok (map runes_of
  ["╔══════════════════════════╗";
   "║ TestNode                 ║";
   "║ yes   █░░░░░░░░░  10.000 ║";
   "║[no    ██░░░░░░░░  20.000]║";
   "║ maybe ███████░░░  70.000 ║";
   "╚══════════════════════════╝"]).
Proof. vm_compute. reflexivity. Qed.

(** util_test.go TestParseEvidence *)
Example test_parse_evidence :
  parse_evidence ["a=b"; "c=d"] = Ok [("a", "b"); ("c", "d")] /\
  match parse_evidence ["a=b"; "c=d=e"] with Err _ => True | _ => False end.
Proof. split; vm_compute; auto. Qed.

(** ** cmd/bbn *)

(** inference_test.go TestRunInferenceCommand on _examples/bbn/sprinkler.yml, after decoding. The
    test only asks that nothing fails; here is what the command prints, too. *)
Definition ql (k : Z) (l : list Z) : list xnum := map (fun m => xq (m # Z.to_pos (10 ^ k))) l.
Definition sprinkler_doc : ydoc xnum := mkYDoc "Sprinkler" "The famous sprinkler example."
  [mkYVar "Rain" [] "" ["yes"; "no"] (20, 0) "" "" [ql 1 [2; 8]];
   mkYVar "Sprinkler" ["Rain"] "" ["yes"; "no"] (1, 7) "" "" [ql 2 [1; 99]; ql 1 [2; 8]];
   mkYVar "GrassWet" ["Rain"; "Sprinkler"] "" ["yes"; "no"] (36, 10) "" "" [ql 2 [99; 1]; ql 1 [8; 2]; ql 1 [9; 1]; ql 0 [0; 1]]].
Example test_run_inference :
  inference_command (fun _ => None) unit (fun _ => Some tt) (fun _ => Some sprinkler_doc) (fun _ => None)
    (fun _ => sched_id) sched_id "../../_examples/bbn/sprinkler.yml" ["Rain=no"] =
  Ok (map runes_of
  ["                                      yes         no";
   "                          Rain     0.000%   100.000%  +";
   "                                      yes         no";
   "                     Sprinkler    20.000%    80.000%";
   "                                      yes         no";
   "                      GrassWet    18.000%    82.000%"]).
Proof. vm_compute. reflexivity. Qed.
