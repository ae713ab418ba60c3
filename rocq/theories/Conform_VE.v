(** The inputs of the Go unit tests of package ve, run on the model.

    These are tests of the model, not theorems about it: each example takes the literals of one
    test function and the values that function asserts. Where a test uses assert.Equal on float64
    slices the comparison here is equality of binary64 numbers; where it uses a tolerance, the
    same tolerance is used. Tests of the solver are run with two orders of iteration over maps. *)
From Coq Require Import ZArith List Bool String SpecFloat.
From Verif Require Import Num GoBase VarModel VEModel.
Import ListNotations.
Open Scope Z_scope.

(** A Go integer literal and a Go decimal literal m/10^k, as float64. *)
Definition fi (l : list Z) : list f64 := map f64_of_int l.
Definition fd (k : Z) (l : list Z) : list f64 := map (fun m => f64_dec m k) l.
Definition fsub : f64 -> f64 -> f64 := SFsub f64_prec f64_emax.

(** assert.Equal on []float64: same length and == in every place. *)
Fixpoint equal_data (a b : list f64) : bool :=
  match a, b with
  | [], [] => true
  | x :: a', y :: b' => SFeqb x y && equal_data a' b'
  | _, _ => false
  end.
(** assert.Equal(len, len) and assert.Less(math.Abs(e-x), 0.0001) in every place. *)
Fixpoint near_data (a b : list f64) : bool :=
  match a, b with
  | [], [] => true
  | x :: a', y :: b' => SFltb (SFabs (fsub x y)) (f64_dec 1 4) && near_data a' b'
  | _, _ => false
  end.
(** assert.Equal on []Variable *)
Fixpoint equal_vars (a b : list variable) : bool :=
  match a, b with
  | [], [] => true
  | x :: a', y :: b' => var_eqb x y && equal_vars a' b'
  | _, _ => false
  end.

(** The test passes: it ends without error or panic and all its assertions hold. *)
Definition passes (t : gores bool) : Prop := t = Ok true.
Definition both (t : sched -> gores bool) : Prop := passes (t sched_id) /\ passes (t sched_rev).

(** A Variable literal {id: i, outcomes: n} *)
Definition vlit (i : Z) (n : nat) : variable := mkVar i 0 n Chance.

(** AddVariable several times *)
Definition adds (l : list (Z * nodeType * nat)) : gores (vstate * list variable) :=
  foldM (fun '(s, vs) '(i, t, n) => let! r := add_variable s i t n in Ok (fst r, (vs ++ [snd r])%list)) (new_variables, []) l.
Definition at_ (vs : list variable) (i : nat) : variable := nth i vs (vlit 0 0).

(** ** ve/factor_test.go *)

(** TestFactorIndex *)
Example test_factor_index :
  let f := mkFactor 0 [vlit 0 3; vlit 1 2] ([] : list f64) in
  map (f_index f) [[0; 0]; [0; 1]; [1; 0]; [2; 1]] = [Ok 0; Ok 1; Ok 2; Ok 5].
Proof. reflexivity. Qed.

(** TestFactorRowIndex *)
Example test_factor_row_index :
  let f := mkFactor 0 [vlit 0 3; vlit 1 2; vlit 2 4] ([] : list f64) in
  map (f_row_index f) [[0; 0]; [0; 1]; [1; 0]; [1; 1]] = [Ok (0, 4); Ok (4, 4); Ok (8, 4); Ok (12, 4)].
Proof. reflexivity. Qed.

(** TestFactorIndexWithNoData *)
Example test_factor_index_nodata :
  let f := mkFactor 0 [vlit 0 3; vlit 1 2] ([] : list f64) in
  f_index_nodata f [0; 0] = Ok (0, true) /\
  f_index_nodata f [2; 1] = Ok (5, true) /\
  (let! r := f_index_nodata f [2; -1] in Ok (snd r)) = Ok false.
Proof. repeat split; reflexivity. Qed.

(** TestFactorOutcomes *)
Example test_factor_outcomes :
  let f := mkFactor 0 [vlit 0 3; vlit 1 2] ([] : list f64) in
  map (fun i => f_outcomes f i [0; 0]) [0; 1; 2; 5] = [Ok [0; 0]; Ok [0; 1]; Ok [1; 0]; Ok [2; 1]].
Proof. reflexivity. Qed.

(** ** ve/variable_test.go TestVariable *)
Example test_variable :
  let v1 := mkVar 0 0 2 Chance in let v2 := mkVar 1 1 2 Chance in let v3 := withNodeType v1 Utility in
  v_id v2 = 1 /\ v_type v1 = Chance /\ v_type v3 = Utility /\ var_is v1 v3 = true /\ var_is v1 v2 = false.
Proof. repeat split. Qed.

(** ** ve/examples_test.go ExampleVariables; the other example is [test_eliminate] without Marginal *)
Example test_example_variables :
  passes (let! r := adds [(0, Chance, 2%nat); (1, Chance, 2%nat); (2, Chance, 2%nat)] in
          let a := at_ (snd r) 0 in let b := at_ (snd r) 1 in let c := at_ (snd r) 2 in
          let! f1 := create_factor (fst r) [a; c] (Some (fd 1 [5; 5; 10; 0])) in
          let! f2 := create_factor (fst f1) [b; c] (Some (fi [0; 1; 1; 0])) in
          let! p := product (fst f2) [snd f1; snd f2] in
          let! rows := mapM (fun i => f_outcomes (snd p) (i * 2) [0; 0; 0]) [0; 1; 2; 3] in
          Ok (equal_data (fd 1 [0; 5; 5; 0; 0; 10; 0; 0]) (f_data (snd p)) &&
              match map (firstn 2) rows with [[0; 0]; [0; 1]; [1; 0]; [1; 1]] => true | _ => false end)).
Proof. vm_compute. reflexivity. Qed.

(** ** ve/variables_test.go *)

(** TestVariablesCreateFactor *)
Example test_create_factor :
  passes (let! r := adds [(0, Chance, 2%nat); (1, Chance, 3%nat)] in
          let! c := create_factor (fst r) (snd r) (Some (fd 1 [1; 2; 7; 6; 2; 2])) in
          let! i := f_index (snd c) [1; 2] in
          let! x := f_get (snd c) [1; 2] in
          Ok ((i =? 5) && SFeqb x (f64_dec 2 1))).
Proof. vm_compute. reflexivity. Qed.

(** TestVariablesNormalize *)
Example test_normalize :
  passes (let! r := normalize new_variables (mkFactor 0 [vlit 0 3] (fi [2; 1; 1])) in
          Ok (equal_data (fd 2 [50; 25; 25]) (f_data (snd r)))).
Proof. vm_compute. reflexivity. Qed.

(** TestVariablesInvert *)
Example test_invert :
  passes (let! r := invert new_variables (mkFactor 0 [vlit 0 3] (fd 2 [200; 25; 0])) in
          Ok (equal_data [f64_dec 5 1; f64_of_int 4; S754_infinity false] (f_data (snd r)))).
Proof. vm_compute. reflexivity. Qed.

(** TestVariablesNormalizeFor *)
Example test_normalize_for :
  passes (let f := mkFactor 0 [vlit 0 2; vlit 1 3] (fi [2; 1; 1; 6; 4; 0]) in
          let! r := normalize_for new_variables f (vlit 1 3) in
          let! r' := normalize_for (fst r) f (vlit 0 2) in
          Ok (equal_vars [vlit 0 2; vlit 1 3] (f_vars (snd r)) &&
              equal_data (fd 2 [50; 25; 25; 60; 40; 0]) (f_data (snd r)) &&
              equal_vars [vlit 1 3; vlit 0 2] (f_vars (snd r')) &&
              equal_data (fd 2 [25; 75; 20; 80; 100; 0]) (f_data (snd r')))).
Proof. vm_compute. reflexivity. Qed.

(** TestVariablesRestrict *)
Example test_restrict :
  passes (let! r := adds [(0, Chance, 2%nat); (1, Chance, 3%nat)] in
          let v1 := at_ (snd r) 0 in let v2 := at_ (snd r) 1 in
          let! c := create_factor (fst r) [v1; v2] (Some (fd 1 [1; 2; 7; 6; 2; 2])) in
          let! r1 := restrict (fst c) (snd c) v1 1 in
          let! r2 := restrict (fst r1) (snd c) v2 2 in
          Ok (equal_vars [v2] (f_vars (snd r1)) && equal_data (fd 1 [6; 2; 2]) (f_data (snd r1)) &&
              equal_vars [v1] (f_vars (snd r2)) && equal_data (fd 1 [7; 2]) (f_data (snd r2)))).
Proof. vm_compute. reflexivity. Qed.

(** TestVariablesSumOut *)
Example test_sum_out :
  passes (let! r := adds [(0, Chance, 2%nat); (1, Chance, 3%nat)] in
          let v1 := at_ (snd r) 0 in let v2 := at_ (snd r) 1 in
          let! c := create_factor (fst r) [v1; v2] (Some (fi [1; 2; 7; 6; 2; 2])) in
          let! r1 := sum_out (fst c) (snd c) v1 in
          let! r2 := sum_out (fst r1) (snd c) v2 in
          Ok (equal_vars [v2] (f_vars (snd r1)) && equal_data (fi [7; 4; 9]) (f_data (snd r1)) &&
              equal_vars [v1] (f_vars (snd r2)) && equal_data (fi [10; 10]) (f_data (snd r2)))).
Proof. vm_compute. reflexivity. Qed.

(** The two factors of TestVariablesProduct and TestVariablesSum, combined, compared with [op]
    of the factors' entries in the places the tests look at. *)
Definition two_factors (combine : vstate -> list (factor f64) -> gores (vstate * factor f64)) (op : f64 -> f64 -> f64) : gores bool :=
  let! r := adds [(0, Chance, 3%nat); (1, Chance, 2%nat); (2, Chance, 2%nat)] in
  let v1 := at_ (snd r) 0 in let v3 := at_ (snd r) 1 in let v2 := at_ (snd r) 2 in
  let! c1 := create_factor (fst r) [v1; v2] (Some (fd 1 [1; 9; 5; 5; 8; 2])) in
  let! c2 := create_factor (fst c1) [v2; v3] (Some (fd 1 [1; 9; 8; 2])) in
  let! c3 := combine (fst c2) [snd c1; snd c2] in
  let! oks := mapM (fun '(i, j, k) =>
                let! x := f_get (snd c3) [i; j; k] in
                let! y := f_get (snd c1) [i; j] in
                let! z := f_get (snd c2) [j; k] in
                Ok (SFeqb x (op y z)))
              [(0, 0, 0); (0, 0, 1); (0, 1, 0); (1, 0, 0); (2, 1, 1)] in
  Ok (equal_vars [v1; v2; v3] (f_vars (snd c3)) && forallb (fun b => b) oks).

(** TestVariablesProduct *)
Example test_product : passes (two_factors product nmul).
Proof. vm_compute. reflexivity. Qed.
(** TestVariablesSum *)
Example test_sum : passes (two_factors sum nadd).
Proof. vm_compute. reflexivity. Qed.

(** TestVariablesProductMulti1 *)
Example test_product_multi1 :
  passes (let! r := adds [(0, Chance, 2%nat); (1, Chance, 2%nat); (2, Chance, 2%nat)] in
          let! a := create_factor (fst r) [at_ (snd r) 0] (Some (fi [1; 2])) in
          let! b := create_factor (fst a) [at_ (snd r) 1] (Some (fi [2; 3])) in
          let! c := create_factor (fst b) [at_ (snd r) 2] (Some (fi [4; 5])) in
          let! p := product (fst c) [snd a; snd b; snd c] in
          Ok (equal_data (fi [8; 10; 12; 15; 16; 20; 24; 30]) (f_data (snd p)))).
Proof. vm_compute. reflexivity. Qed.

(** TestVariablesProductMulti2 *)
Example test_product_multi2 :
  passes (let! r := adds [(0, Chance, 2%nat); (1, Chance, 2%nat)] in
          let! a := create_factor (fst r) [at_ (snd r) 0] (Some (fi [1; 2])) in
          let! b := create_factor (fst a) [at_ (snd r) 1] (Some (fi [2; 3])) in
          let! c := create_factor (fst b) [at_ (snd r) 1] (Some (fi [4; 5])) in
          let! p := product (fst c) [snd a; snd b; snd c] in
          Ok (equal_data (fi [8; 15; 16; 30]) (f_data (snd p)))).
Proof. vm_compute. reflexivity. Qed.

(** TestVariablesProductMulti3 *)
Example test_product_multi3 :
  passes (let! r := adds [(0, Chance, 2%nat); (1, Chance, 3%nat); (2, Decision, 2%nat); (3, Utility, 1%nat)] in
          let weather := at_ (snd r) 0 in let forecast := at_ (snd r) 1 in let umbrella := at_ (snd r) 2 in
          let! a := create_factor (fst r) [weather] (Some (fd 1 [3; 7])) in
          let! b := create_factor (fst a) [weather; forecast] (Some (fd 2 [15; 25; 60; 70; 20; 10])) in
          let! c := create_factor (fst b) [weather; umbrella] (Some (fi [70; 0; 20; 100])) in
          let! p := product (fst c) [snd a; snd b; snd c] in
          Ok (near_data (fd 2 [315; 0; 525; 0; 1260; 0; 980; 4900; 280; 1400; 140; 700]) (f_data (snd p)))).
Proof. vm_compute. reflexivity. Qed.

(** The variables of TestVariablesProductScalar, TestVariablesPolicy and TestVariablesRearrange *)
Definition five : gores (vstate * list variable) :=
  adds [(0, Chance, 3%nat); (1, Chance, 3%nat); (2, Chance, 3%nat); (3, Chance, 2%nat); (4, Chance, 3%nat)].

(** TestVariablesProductScalar *)
Example test_product_scalar :
  passes (let! r := five in
          let v1 := at_ (snd r) 1 in let v2 := at_ (snd r) 3 in
          let! a := create_factor (fst r) [v1; v2] (Some (fi [1; 9; 5; 5; 8; 2])) in
          let! b := create_factor (fst a) [] (Some (fi [2])) in
          let! p := product (fst b) [snd a; snd b] in
          Ok (equal_vars [v1; v2] (f_vars (snd p)) &&
              equal_data (fi [2; 18; 10; 10; 16; 4]) (f_data (snd p)))).
Proof. vm_compute. reflexivity. Qed.

(** TestVariablesPolicy *)
Example test_policy :
  passes (let! r := five in
          let v1 := at_ (snd r) 1 in let v2 := at_ (snd r) 3 in
          let! a := create_factor (fst r) [v1; v2] (Some (fd 1 [4; 6; 9; 1; 2; 8])) in
          let! p := policy (fst a) (snd a) v2 in
          let! q := policy (fst p) (snd a) v1 in
          Ok (equal_vars [v1; v2] (f_vars (snd p)) && equal_data (fi [0; 1; 1; 0; 0; 1]) (f_data (snd p)) &&
              equal_vars [v2; v1] (f_vars (snd q)) && equal_data (fi [0; 1; 0; 0; 0; 1]) (f_data (snd q)))).
Proof. vm_compute. reflexivity. Qed.

(** TestVariablesRearrange *)
Example test_rearrange :
  passes (let! r := five in
          let v1 := at_ (snd r) 1 in let v2 := at_ (snd r) 3 in
          let! a := create_factor (fst r) [v1; v2] (Some (fd 1 [4; 6; 9; 1; 2; 8])) in
          let! p := rearrange (fst a) (snd a) [v2; v1] in
          let! q := rearrange (fst p) (snd p) [v1; v2] in
          Ok (equal_vars [v1; v2] (f_vars (snd a)) &&
              equal_vars [v2; v1] (f_vars (snd p)) && equal_data (fd 1 [4; 9; 2; 6; 1; 8]) (f_data (snd p)) &&
              equal_vars [v1; v2] (f_vars (snd q)) && equal_data (fd 1 [4; 6; 9; 1; 2; 8]) (f_data (snd q)))).
Proof. vm_compute. reflexivity. Qed.

(** ** ve/ve_test.go *)

(** TestEliminate, and ve/examples_test.go Example, which has the same network. *)
Definition eliminate (sc : sched) : gores bool :=
  let! r := adds [(0, Chance, 2%nat); (1, Chance, 2%nat); (2, Chance, 2%nat)] in
  let rain := at_ (snd r) 0 in let sprinkler := at_ (snd r) 1 in let grass := at_ (snd r) 2 in
  let! a := create_factor (fst r) [rain] (Some (fd 1 [2; 8])) in
  let! b := create_factor (fst a) [rain; sprinkler] (Some (fd 2 [1; 99; 20; 80])) in
  let! c := create_factor (fst b) [rain; sprinkler; grass] (Some (fd 2 [99; 1; 80; 20; 90; 10; 0; 100])) in
  let! s := ve_solve_query sc (ve_new 0 (fst c) [snd a; snd b; snd c] [] None) [mkEv sprinkler 1; mkEv grass 0] [rain] in
  let! m := marginal (ve_vs (fst s)) (snd s) rain in
  let! p := normalize (fst m) (snd m) in
  Ok (equal_data (fi [1; 0]) (f_data (snd p))).
Example test_eliminate : both eliminate.
Proof. split; vm_compute; reflexivity. Qed.

(** The network of TestDecisionUmbrella and TestDecisionUmbrella2; [deps] is what the umbrella
    decision depends on, [ask] the rest of the test. *)
Definition umbrella_ve (deps : variable -> variable -> list variable)
  (ask : vestate f64 -> variable -> variable -> variable -> gores bool) : gores bool :=
  let! r := adds [(0, Chance, 2%nat); (1, Chance, 3%nat); (2, Decision, 2%nat); (3, Utility, 1%nat)] in
  let weather := at_ (snd r) 0 in let forecast := at_ (snd r) 1 in let umbrella := at_ (snd r) 2 in
  let utility := at_ (snd r) 3 in
  let! a := create_factor (fst r) [weather] (Some (fd 1 [3; 7])) in
  let! b := create_factor (fst a) [weather; forecast] (Some (fd 2 [15; 25; 60; 70; 20; 10])) in
  let! c := create_factor (fst b) [weather; umbrella; utility] (Some (fi [70; 0; 20; 100])) in
  ask (ve_new 0 (fst c) [snd a; snd b; snd c] [(umbrella, deps weather forecast)] None) weather forecast umbrella.

(** TestDecisionUmbrella *)
Example test_decision_umbrella :
  both (fun sc => umbrella_ve (fun weather forecast => [forecast]) (fun ve weather forecast umbrella =>
    let! s := ve_solve_utility sc ve [] [] None in
    let! p := rearrange (ve_vs (fst s)) (snd s) [forecast; umbrella] in
    Ok (near_data (fd 2 [1295; 4900; 805; 1400; 1400; 700]) (f_data (snd p))))).
Proof. split; vm_compute; reflexivity. Qed.

(** The map SolvePolicies returns, empty for nil *)
Definition policies_of (s : vestate f64 * option (list (variable * (factor f64 * factor f64)))) :=
  match snd s with Some l => l | None => [] end.

(** TestDecisionUmbrella2 *)
Example test_decision_umbrella2 :
  both (fun sc => umbrella_ve (fun weather forecast => [weather; forecast]) (fun ve weather forecast umbrella =>
    let! s := ve_solve_policies sc ve false in
    Ok (match mget var_eqb (policies_of s) umbrella with
        | Some (_, p) => equal_vars [weather; umbrella] (f_vars p)
        | None => false
        end))).
Proof. split; vm_compute; reflexivity. Qed.

(** TestDecisionEvacuate *)
Definition evacuate_test (sc : sched) : gores bool :=
  let! r := adds [(0, Chance, 3%nat); (1, Chance, 3%nat); (2, Chance, 2%nat); (3, Decision, 2%nat);
                  (4, Utility, 1%nat); (5, Utility, 1%nat); (6, Utility, 1%nat)] in
  let earthquake := at_ (snd r) 0 in let sensor := at_ (snd r) 1 in let maintenance := at_ (snd r) 2 in
  let evacuate := at_ (snd r) 3 in
  let! a := create_factor (fst r) [earthquake] (Some (fd 2 [1; 5; 94])) in
  let! b := create_factor (fst a) [maintenance; earthquake; sensor]
              (Some (fd 2 [90; 10; 0; 5; 90; 5; 0; 10; 90; 60; 40; 0; 20; 60; 20; 0; 40; 60])) in
  let! c := create_factor (fst b) [maintenance] (Some (fd 1 [5; 5])) in
  let! d := create_factor (fst c) [earthquake; at_ (snd r) 4] (Some (fi [-1000; -250; 0])) in
  let! e := create_factor (fst d) [evacuate; earthquake; at_ (snd r) 5] (Some (fi [-100; -20; 0; -5000; -250; 0])) in
  let! f := create_factor (fst e) [evacuate; at_ (snd r) 6] (Some (fi [-100; 0])) in
  let! s := ve_solve_utility sc (ve_new 0 (fst f) [snd a; snd b; snd c; snd d; snd e; snd f] [(evacuate, [sensor])] None) [] [] None in
  let! m := marginal (ve_vs (fst s)) (snd s) evacuate in
  Ok (equal_data (fd 1 [-1245; -850]) (f_data (snd m))).
Example test_decision_evacuate : both evacuate_test.
Proof. split; vm_compute; reflexivity. Qed.

(** TestDecisionOil *)
Definition oil_test (sc : sched) : gores bool :=
  let! r := adds [(0, Chance, 3%nat); (1, Decision, 2%nat); (2, Chance, 3%nat); (3, Decision, 2%nat);
                  (4, Utility, 1%nat); (5, Utility, 1%nat)] in
  let oil := at_ (snd r) 0 in let test := at_ (snd r) 1 in let result := at_ (snd r) 2 in let drill := at_ (snd r) 3 in
  let! a := create_factor (fst r) [oil] (Some (fd 1 [5; 3; 2])) in
  let! b := create_factor (fst a) [oil; test; result]
              (Some (fd 3 [100; 300; 600; 333; 333; 333; 300; 400; 300; 333; 333; 333; 500; 400; 100; 333; 333; 333])) in
  let! c := create_factor (fst b) [oil; drill; at_ (snd r) 4] (Some (fi [-70; 0; 50; 0; 200; 0])) in
  let! d := create_factor (fst c) [test; at_ (snd r) 5] (Some (fi [-10; 0])) in
  let! s := ve_solve_policies sc (ve_new 0 (fst d) [snd a; snd b; snd d; snd c] [(drill, [test; result])] None) false in
  match mget var_eqb (policies_of s) test, mget var_eqb (policies_of s) drill with
  | Some (_, p), Some (_, q) =>
      let! q' := rearrange (ve_vs (fst s)) q [test; result; drill] in
      Ok (equal_data (fi [1; 0]) (f_data p) &&
          equal_data (fi [1; 0; 1; 0; 0; 1; 1; 0; 1; 0; 1; 0]) (f_data (snd q')))
  | _, _ => Ok false
  end.
Example test_decision_oil : both oil_test.
Proof. split; vm_compute; reflexivity. Qed.

(** TestDecisionRobot *)
Definition robot_test (sc : sched) : gores bool :=
  let p := f64_dec 1 1 in
  let! r := adds [(0, Decision, 2%nat); (1, Decision, 2%nat); (2, Chance, 2%nat); (3, Utility, 1%nat)] in
  let short := at_ (snd r) 0 in let pads := at_ (snd r) 1 in let accident := at_ (snd r) 2 in
  let! a := create_factor (fst r) [short; accident] (Some [p; fsub (f64_of_int 1) p; f64_of_int 0; f64_of_int 1]) in
  let! b := create_factor (fst a) [pads; short; accident; at_ (snd r) 3] (Some (fi [2; 8; 0; 4; 0; 10; 0; 6])) in
  let! s := ve_solve_utility sc (ve_new 0 (fst b) [snd a; snd b] [] None) [] [] None in
  let! q := rearrange (ve_vs (fst s)) (snd s) [short; pads] in
  Ok (equal_data [fsub (f64_of_int 8) (nmul (f64_of_int 6) p); fsub (f64_of_int 10) (nmul (f64_of_int 10) p); f64_of_int 4; f64_of_int 6]
        (f_data (snd q))).
Example test_decision_robot : both robot_test.
Proof. split; vm_compute; reflexivity. Qed.

(** TestSortDecisions *)
Example test_sort_decisions :
  both (fun sc =>
    let! r := adds [(0, Decision, 2%nat); (1, Decision, 2%nat); (2, Decision, 2%nat)] in
    let d3 := at_ (snd r) 0 in let d2 := at_ (snd r) 1 in let d1 := at_ (snd r) 2 in
    let! s := get_decisions sc (ve_new 0 (fst r) ([] : list (factor f64)) [(d2, [d1]); (d3, [d2])] None) in
    Ok (equal_vars [d1; d2; d3] (snd s))).
Proof. split; vm_compute; reflexivity. Qed.
