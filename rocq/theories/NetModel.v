(** Model of network.go: the public Network API. *)
From Coq Require Import ZArith List Bool String.
From Verif Require Import Num GoBase VarModel VEModel.
Import ListNotations.
Open Scope string_scope.
Open Scope list_scope.
Open Scope Z_scope.

(** network.go:14-21 Variable. [nv_factor] is the pointer Factor: the position in the
    network's slice of factors, None for nil. NodeType is one of the three declared
    constants (simplification: Go would accept any uint8). *)
Record nvar := mkNVar {
  nv_name : string;
  nv_type : nodeType;
  nv_outcomes : list string;
  nv_pos : Z * Z;
  nv_color : string;
  nv_factor : option nat
}.

(** network.go:74-77 variable *)
Record nentry := mkEntry { en_var : nvar; en_ve : variable }.
(** The zero value of variable. *)
Definition zero_entry : nentry :=
  mkEntry (mkNVar "" Chance [] (0, 0) "" None) (mkVar 0 0 0 Chance).

(** Maps keyed by strings. *)
Notation sget_map := (mget String.eqb).
Notation sset_map := (mset String.eqb).
Definition has_key {V} (m : list (string * V)) (k : string) : bool :=
  match sget_map m k with Some _ => true | None => false end.

(** slices.Index on []string *)
Definition str_index (l : list string) (s : string) : Z := index_func (String.eqb s) l.

Section Net.
Context {A : Type} {N : NumOps A}.

(** network.go:24-30 Factor. [nf_table] is None for nil. *)
Record nfactor := mkNFactor {
  nf_for : string;
  nf_given : list string;
  nf_table : option (list A);
  nf_outcomes : list Z;
  nf_columns : Z
}.

(** The contents of a slice that may be nil. *)
Definition slice_of {X} (o : option (list X)) : list X := match o with Some l => l | None => [] end.

(** network.go:52-72 Factor.rowIndex. The loop runs from the last to the first index; the
    early return on a negative index makes the loop state None. *)
Definition nf_row_index (f : nfactor) (indices : list Z) : gores (Z * bool) :=
  if negb (zlen indices =? zlen (nf_outcomes f)) then Panic (PMsg "wrong number of indices")
  else
    match indices with
    | [] => Ok (0, true)
    | _ =>
      match fold_right
         (fun '((o, i) : Z * Z) (st : option (Z * Z)) =>
            match st with
            | None => None
            | Some (idx, stride) => if i <? 0 then None else Some (idx + i * stride, stride * o)
            end)
         (Some (0, 1)) (combine (nf_outcomes f) indices) with
      | None => Ok (0, false)
      | Some (idx, _) => Ok (idx, true)
      end
    end.

(** network.go:37-43 Factor.Row *)
Definition nf_row (f : nfactor) (indices : list Z) : gores (list A * bool) :=
  let! (idx, ok) := nf_row_index f indices in
  if negb ok then Ok ([], false)
  else
    let! r := sslice (slice_of (nf_table f)) idx (idx + nf_columns f) in
    Ok (r, true).

(** network.go:80-89 Network. Maps are association lists (nil is the empty list);
    [n_ve] is None for nil. *)
Record network := mkNet {
  n_name : string;
  n_info : string;
  n_vars : list nvar;
  n_factors : list nfactor;
  n_policies : list (string * factor A);
  n_ve : option (vestate A);
  n_names : list (string * nentry);
  n_tui : Z
}.

Definition with_solver (n : network) (ve : option (vestate A)) (names : list (string * nentry)) : network :=
  mkNet (n_name n) (n_info n) (n_vars n) (n_factors n) (n_policies n) ve names (n_tui n).
Definition with_policies (n : network) (p : list (string * factor A)) : network :=
  mkNet (n_name n) (n_info n) (n_vars n) (n_factors n) p (n_ve n) (n_names n) (n_tui n).

(** ** Construction *)

(** network.go:135-144: the map from names to variables; duplicates are errors. The map
    outcomes has the same keys, its values are the lengths of the outcome lists. *)
Definition collect_names (vars : list nvar) : gores (list (string * nvar)) :=
  foldM (fun m v =>
    if has_key m (nv_name v) then Err (EMsg "duplicate variable name")
    else Ok (sset_map m (nv_name v) v)) [] vars.

(** network.go:146-163, one iteration: link the first factor for the variable *)
Definition link_factor (names : list (string * nvar)) (factors : list nfactor) (v : nvar)
  : gores (list nfactor * nvar) :=
  let idx := index_func (fun f => String.eqb (nf_for f) (nv_name v)) factors in
  if idx <? 0 then Ok (factors, v)
  else
    let! f := sget factors idx in
    let! outs := mapM (fun g =>
        match sget_map names g with
        | None => Err (EMsg "parent variable not found")
        | Some p => Ok (zlen (nv_outcomes p))
        end) (nf_given f) in
    let! factors' := sset factors idx
      (mkNFactor (nf_for f) (nf_given f) (nf_table f) outs (zlen (nv_outcomes v))) in
    Ok (factors', mkNVar (nv_name v) (nv_type v) (nv_outcomes v) (nv_pos v) (nv_color v) (Some (Z.to_nat idx))).

(** network.go:169-207 prepareUtilityNodes: the total utility index *)
Definition prepare_utility_nodes (names : list (string * nvar)) (factors : list nfactor) (vars : list nvar)
  : gores Z :=
  foldM (fun tui '(i, v) =>
    if negb (nodeType_eqb (nv_type v) Utility) then Ok tui
    else
    match nv_factor v with
    | None => Panic PNil
    | Some k =>
      let! f := sget factors (Z.of_nat k) in
      let! (hasUtil, hasOther) :=
        foldM (fun '((hu, ho) : bool * bool) parent =>
          match sget_map names parent with
          | None => Err (EMsg "parent node not found")
          | Some p => if nodeType_eqb (nv_type p) Utility then Ok (true, ho) else Ok (hu, true)
          end) (false, false) (nf_given f) in
      if hasUtil && hasOther then Err (EMsg "utility parents and other parents")
      else if negb hasUtil && negb hasOther then Err (EMsg "utility node has no parents")
      else if negb hasUtil then Ok tui
      else if 0 <=? tui then Err (EMsg "multiple nodes for total utility")
      else if negb (zlen (nv_outcomes v) =? zlen (nf_given f)) then Err (EMsg "invalid total utility node")
      else Ok i
    end) (-1) (combine (zrange 0 (zlen vars)) vars).

(** network.go:92-105 New with 134-166 prepareVariables. The Factor pointers of the
    arguments are nil, as the documentation asks. The caller's slices are not shared
    (simplification: in Go the network keeps and modifies them). *)
Definition net_new (name info : string) (vars : list nvar) (factors : list nfactor) : gores network :=
  let! names := collect_names vars in
  let! (factors', vars') :=
    foldM (fun '(factors, vs) v =>
      let! (factors', v') := link_factor names factors v in Ok (factors', vs ++ [v'])) (factors, []) vars in
  let! tui := prepare_utility_nodes names factors' vars' in
  Ok (mkNet name info vars' factors' [] None [] tui).

(** ** Translation to variable elimination

    Each call of an API function gets its own schedule [sc] for the loops over maps; the
    argument [tick] is the number of the next loop. *)
Variable sc : sched.

(** network.go:418-442, one iteration. State: Variables, varNames, varIDs, totalUtilityName. *)
Definition add_net_variable (n : network)
  (st : vstate * list (string * nentry) * list nentry * string) (iv : Z * nvar)
  : gores (vstate * list (string * nentry) * list nentry * string) :=
  let '(vs, names, ids, total) := st in
  let '(i, v) := iv in
  if i =? n_tui n then Ok (vs, names, (ids ++ [zero_entry]), nv_name v)
  else
    let t := if nodeType_eqb (nv_type v) Decision && has_key (n_policies n) (nv_name v)
             then Chance else nv_type v in
    let! (vs', vv) := add_variable vs i t (u16 (zlen (nv_outcomes v))) in
    let e := mkEntry v vv in
    Ok (vs', sset_map names (nv_name v) e, (ids ++ [e]), total).

(** network.go:418-442 *)
Definition add_net_variables (n : network) : gores (vstate * list (string * nentry) * list nentry * string) :=
  foldM (add_net_variable n) (new_variables, [], [], "") (combine (zrange 0 (zlen (n_vars n))) (n_vars n)).

(** network.go:446-489, one iteration. State: Variables, dependencies, factors. *)
Definition add_net_factor (names : list (string * nentry)) (total : string)
  (st : vstate * depmap * list (factor A)) (f : nfactor) : gores (vstate * depmap * list (factor A)) :=
  let '(vs, deps, fs) := st in
  if String.eqb (nf_for f) total then Ok (vs, deps, fs)
  else
    match sget_map names (nf_for f) with
    | None => Err (EMsg "variable for factor not found")
    | Some forVar =>
      let! variables := mapM (fun g =>
          match sget_map names g with
          | None => Err (EMsg "variable in factor not found")
          | Some vv => Ok (en_ve vv)
          end) (nf_given f) in
      if nodeType_eqb (v_type (en_ve forVar)) Decision
      then Ok (vs, mset var_eqb deps (en_ve forVar) variables, fs)
      else if nodeType_eqb (nv_type (en_var forVar)) Decision then Ok (vs, deps, fs)
      else
        let variables := (variables ++ [en_ve forVar]) in
        let! (vs, fac) := create_factor vs variables (nf_table f) in
        let! (vs, fac) :=
          if nodeType_eqb (nv_type (en_var forVar)) Chance then
            let! lastv := sget variables (zlen variables - 1) in
            normalize_for vs fac lastv
          else Ok (vs, fac) in
        Ok (vs, deps, (fs ++ [fac]))
    end.

(** network.go:538-563 policyFactors. The table is not nil (see VarModel.policy). *)
Definition policy_factors (tick : nat) (n : network) (vs : vstate) (ids : list nentry) (evidence : list (string * string))
  : gores (vstate * list (factor A)) :=
  foldM (fun '(vs, fs) '((name, f) : string * factor A) =>
    if has_key evidence name then Ok (vs, fs)
    else
      let! variables := mapM (fun v =>
          if nodeType_eqb (v_type v) Decision then
            let! vv := sget ids (v_id v) in
            if has_key (n_policies n) (nv_name (en_var vv)) then Ok (withNodeType v Chance) else Ok v
          else Ok v) (f_vars f) in
      let! (vs, fac) := create_factor vs variables (Some (f_data f)) in
      Ok (vs, (fs ++ [fac]))) (vs, []) (shuffle sc tick (n_policies n)).

(** network.go:503-535 prepareUtilityWeights; None for nil *)
Definition prepare_utility_weights (n : network) : gores (option (list A)) :=
  let utilityNodes := map snd (filter (fun '((i, v) : Z * nvar) =>
      negb (i =? n_tui n) && nodeType_eqb (nv_type v) Utility)
      (combine (zrange 0 (zlen (n_vars n))) (n_vars n))) in
  if n_tui n <? 0 then Ok None
  else
    let! node := sget (n_vars n) (n_tui n) in
    match nv_factor node with
    | None => Panic PNil
    | Some k =>
      let! f := sget (n_factors n) (Z.of_nat k) in
      let! w := mapM (fun u =>
          let idx := str_index (nf_given f) (nv_name u) in
          if idx <? 0 then Err (EMsg "utility node not included in total utility")
          else sget (slice_of (nf_table f)) idx) utilityNodes in
      Ok (Some w)
    end.

(** network.go:410-500 toVE. [evidence] holds the evidence for which policies are ignored. *)
Definition to_ve (tick : nat) (n : network) (evidence : list (string * string))
  : gores (vestate A * list (string * nentry)) :=
  let! (vs, names, ids, total) := add_net_variables n in
  let! (vs, deps, fs) := foldM (add_net_factor names total) (vs, [], []) (n_factors n) in
  let! (vs, pfs) := policy_factors tick n vs ids evidence in
  let! weights := prepare_utility_weights n in
  Ok (ve_new (S tick) vs (fs ++ pfs) deps weights, names).

(** The assignment "n.ve, n.variableNames, err = n.toVE(...)" at network.go:238 and 349: on
    error both fields become nil. After a panic the fields are unchanged. *)
Definition assign_ve (tick : nat) (n : network) (evidence : list (string * string))
  : network * gores (vestate A * list (string * nentry)) :=
  match to_ve tick n evidence with
  | Ok (s, names) => (with_solver n (Some s) names, Ok (s, names))
  | Err e => (with_solver n None [], Err e)
  | Panic p => (n, Panic p)
  end.

(** ** Queries *)

(** network.go:354-365: evidence by name to evidence by variable *)
Definition net_evidence (names : list (string * nentry)) (entries : list (string * string))
  : gores (list evidence) :=
  mapM (fun '((name, value) : string * string) =>
    match sget_map names name with
    | None => Err (EMsg "evidence variable not found")
    | Some vv =>
        let idx := str_index (nv_outcomes (en_var vv)) value in
        if idx <? 0 then Err (EMsg "outcome for evidence variable not found")
        else Ok (mkEv (en_ve vv) idx)
    end) entries.

(** network.go:367-374 *)
Definition net_query_vars (names : list (string * nentry)) (query : list string) : gores (list variable) :=
  mapM (fun name => match sget_map names name with
                    | None => Err (EMsg "query variable not found")
                    | Some vv => Ok (en_ve vv)
                    end) query.

(** network.go:342-389 solve, after toVE: the lookups and the call of the solver *)
Definition solve_names (s : vestate A) (names : list (string * nentry)) (evidence : list (string * string))
  (query : list string) (utility : bool) (utilityVar : string) : gores (vestate A * factor A) :=
  let! ev := net_evidence names (shuffle sc (ve_tick s) evidence) in
  let s := with_tick s (S (ve_tick s)) in
  let! q := net_query_vars names query in
  if utility then
    let! util :=
      if String.eqb utilityVar "" then Ok None
      else match sget_map names utilityVar with
           | None => Err (EMsg "utility query variable not found")
           | Some u => Ok (Some (en_ve u))
           end in
    ve_solve_utility sc s ev q util
  else ve_solve_query sc s ev q.

(** network.go:342-389 solve. The evidence is a map (distinct keys). After an error or a
    panic below toVE the solver stays as created (simplification for the case of a panic). *)
Definition net_solve (n : network) (evidence : list (string * string)) (query : list string)
  (utility : bool) (utilityVar : string) (ignorePolicies : bool) : network * gores (factor A) :=
  let '(n, r) := assign_ve 0 n (if ignorePolicies then evidence else []) in
  match r with
  | Err e => (n, Err e)
  | Panic p => (n, Panic p)
  | Ok (s, names) =>
      match solve_names s names evidence query utility utilityVar with
      | Ok (s', f) => (with_solver n (Some s') names, Ok f)
      | Err e => (n, Err e)
      | Panic p => (n, Panic p)
      end
  end.

(** network.go:337-339 SolveUtility *)
Definition net_solve_utility n evidence query utilityVar ignorePolicies : network * gores (factor A) :=
  net_solve n evidence query true utilityVar ignorePolicies.

(** n.ve.Variables() as used by an operation on it: the instance must exist, and is
    updated in place. *)
Definition on_variables {X} (n : network) (op : vstate -> gores (vstate * X)) : gores (network * X) :=
  match n_ve n with
  | None => Panic PNil
  | Some s =>
      let! (vs, x) := op (ve_vs s) in
      Ok (with_solver n (Some (with_vs s vs)) (n_names n), x)
  end.

(** network.go:566-568 Normalize *)
Definition net_normalize (n : network) (f : factor A) : gores (network * factor A) :=
  on_variables n (fun vs => normalize vs f).

(** network.go:571-574 NormalizeUtility *)
Definition net_normalize_utility (n : network) (utility probs : factor A) : gores (network * factor A) :=
  let! (n, inv) := on_variables n (fun vs => invert vs probs) in
  on_variables n (fun vs => product vs [utility; inv]).

(** network.go:577-583 Marginal *)
Definition net_marginal (n : network) (f : factor A) (v : string) : gores (network * factor A) :=
  match sget_map (n_names n) v with
  | None => Panic (PMsg "marginal: variable not found")
  | Some vv => on_variables n (fun vs => marginal vs f (en_ve vv))
  end.

(** network.go:318-323: the normalised marginals *)
Definition query_marginals (n : network) (f : factor A) (query : list string)
  : gores (network * list (string * list A)) :=
  foldM (fun '((n, res) : network * list (string * list A)) q =>
    let! (n, m) := net_marginal n f q in
    let! (n, m) := net_normalize n m in
    Ok (n, sset_map res q (f_data m))) (n, []) query.

(** network.go:312-326 SolveQuery *)
Definition net_solve_query (n : network) (evidence : list (string * string)) (query : list string)
  (ignorePolicies : bool) : network * gores (list (string * list A) * factor A) :=
  let '(n, r) := net_solve n evidence query false "" ignorePolicies in
  match r with
  | Err e => (n, Err e)
  | Panic p => (n, Panic p)
  | Ok f =>
      match query_marginals n f query with
      | Ok (n', res) => (n', Ok (res, f))
      | Err e => (n, Err e)
      | Panic p => (n, Panic p)
      end
  end.

(** network.go:395-407 ToEvidence *)
Definition net_to_evidence (n : network) (v value : string) : gores (list A) :=
  match sget_map (n_names n) v with
  | None => Err (EMsg "evidence variable not found")
  | Some vv =>
      let idx := str_index (nv_outcomes (en_var vv)) value in
      if idx <? 0 then Err (EMsg "outcome for evidence variable not found")
      else
        let! probs := smake (zlen (nv_outcomes (en_var vv))) n0 in
        sset probs idx n1
  end.

(** network.go:622-632 variableIndex; None for "not in factor" *)
Definition variable_index (n : network) (f : factor A) (v : string) : gores (option Z) :=
  match sget_map (n_names n) v with
  | None => Panic (PMsg "variable not found in network")
  | Some vv =>
      let idx := index_func (var_is (en_ve vv)) (f_vars f) in
      if idx <? 0 then Ok None else Ok (Some idx)
  end.

(** The lookup at network.go:596-600 and 604-608: position and variable, or panic *)
Definition rearrange_lookup (n : network) (f : factor A) (v : string) : gores (Z * variable) :=
  let! r := variable_index n f v in
  match r with
  | None => Panic (PMsg "variable to rearrange not in factor")
  | Some idx => let! x := sget (f_vars f) idx in Ok (idx, x)
  end.

(** network.go:591-620 rearrangeVariables *)
Definition rearrange_variables (n : network) (f : factor A) (variables : list string) : gores (list variable) :=
  let! (vars, done) :=
    foldM (fun '((vars, done) : list variable * list bool) name =>
      let! (idx, x) := rearrange_lookup n f name in
      let! done' := sset done idx true in
      Ok ((vars ++ [x]), done')) ([], repeat false (List.length (f_vars f))) (removelast variables) in
  let! lastName := sget variables (zlen variables - 1) in
  let! (_, lastv) := rearrange_lookup n f lastName in
  let rest := map snd (filter (fun '((d, x) : bool * variable) => negb (d || var_is x lastv))
                 (combine done (f_vars f))) in
  Ok (vars ++ rest ++ [lastv]).

(** network.go:586-589 Rearrange *)
Definition net_rearrange (n : network) (f : factor A) (variables : list string) : gores (network * factor A) :=
  let! vars := rearrange_variables n f variables in
  on_variables n (fun vs => rearrange vs f vars).

(** ** Policies *)

(** network.go:292-306 countDecisionSteps *)
Definition count_decision_steps (n : network) (stepwise : bool) : nat :=
  if stepwise then
    match List.length (filter (fun v => nodeType_eqb (nv_type v) Decision) (n_vars n)) with
    | O => 1%nat
    | k => k
    end
  else 1%nat.

(** network.go:247-254: store the policies found. The loop runs over the map of names; its
    order does not matter for the resulting map, up to the order of insertion. *)
Definition store_policies (tick : nat) (n : network) (pols : list (variable * (factor A * factor A))) : network :=
  with_policies n (fold_left (fun m '((name, e) : string * nentry) =>
      if negb (nodeType_eqb (v_type (en_ve e)) Decision) then m
      else match mget var_eqb pols (en_ve e) with
           | Some (_, p) => sset_map m name p
           | None => m
           end) (shuffle sc tick (n_names n)) (n_policies n)).

(** network.go:236-255: at most [k] steps. Returns the number of the next loop over a map. *)
Fixpoint policy_steps (k : nat) (tick : nat) (n : network) (stepwise : bool) : network * gores nat :=
  match k with
  | O => (n, Ok tick)
  | S k' =>
      let '(n, r) := assign_ve tick n [] in
      match r with
      | Err e => (n, Err e)
      | Panic p => (n, Panic p)
      | Ok (s, names) =>
          match ve_solve_policies sc s stepwise with
          | Err e => (n, Err e)
          | Panic p => (n, Panic p)
          | Ok (s', None) => (with_solver n (Some s') names, Ok (ve_tick s'))
          | Ok (s', Some pols) =>
              policy_steps k' (S (ve_tick s')) (store_policies (ve_tick s') (with_solver n (Some s') names) pols) stepwise
          end
      end
  end.

(** network.go:258-287, one iteration: the table of one policy, with the decision last *)
Definition policy_result (n : network) (name : string) (f : factor A) : gores (network * nfactor) :=
  match sget_map (n_names n) name with
  | None => Panic PNil
  | Some forVar =>
      let variables := f_vars f in
      let idx := index_func (var_is (en_ve forVar)) variables in
      let! x := sget variables idx in
      (* lines 266-272: all variables but position idx, then that one *)
      let newVars := (firstn (Z.to_nat idx) variables ++ skipn (S (Z.to_nat idx)) variables ++ [x]) in
      let! (n', f') := on_variables n (fun vs => rearrange vs f newVars) in
      let! given := mapM (fun v => let! nv := sget (n_vars n) (v_id v) in Ok (nv_name nv)) (removelast newVars) in
      Ok (n', mkNFactor name given (Some (f_data f')) [] 0)
  end.

(** network.go:232-290 SolvePolicies *)
Definition net_solve_policies (n : network) (stepwise : bool) : network * gores (list (string * nfactor)) :=
  let n := with_policies n [] in
  let '(n, r) := policy_steps (count_decision_steps n stepwise) 0 n stepwise in
  match r with
  | Err e => (n, Err e)
  | Panic p => (n, Panic p)
  | Ok tick =>
      let entries := shuffle sc tick (n_policies n) in
      match foldM (fun '((n, res) : network * list (string * nfactor)) '((name, f) : string * factor A) =>
              let! (n', r) := policy_result n name f in Ok (n', sset_map res name r)) (n, []) entries with
      | Ok (n', res) => (n', Ok res)
      | Err e => (n, Err e)
      | Panic p => (n, Panic p)
      end
  end.

End Net.

Arguments nfactor A : clear implicits.
Arguments network A : clear implicits.
