(** Model of ve/ve.go: the variable elimination algorithm. *)
From Coq Require Import ZArith List Bool String Lia.
From Verif Require Import Num GoBase VarModel.
Import ListNotations.
Open Scope Z_scope.

(** ve/ve.go:10-13 Evidence *)
Record evidence := mkEv { ev_var : variable; ev_value : Z }.

(** Maps from Variable to lists of variables: ve.dependencies. *)
Definition depmap := list (variable * list variable).

Section VE.
Context {A : Type} {N : NumOps A}.
(** The order in which maps are iterated. *)
Variable sc : sched.

(** ve/ve.go:16-22 VE. [ve_vs] is the Variables instance the pointer refers to;
    [ve_factors] the map from factor id to factor; [ve_weights] None for nil.
    [ve_tick] counts the loops over maps (see GoBase.sched). *)
Record vestate := mkVE {
  ve_vs : vstate;
  ve_elim : list bool;
  ve_deps : depmap;
  ve_factors : list (Z * factor A);
  ve_weights : option (list A);
  ve_tick : nat
}.

Definition with_vs (s : vestate) vs := mkVE vs (ve_elim s) (ve_deps s) (ve_factors s) (ve_weights s) (ve_tick s).
Definition with_elim (s : vestate) e := mkVE (ve_vs s) e (ve_deps s) (ve_factors s) (ve_weights s) (ve_tick s).
Definition with_factors (s : vestate) f := mkVE (ve_vs s) (ve_elim s) (ve_deps s) f (ve_weights s) (ve_tick s).
Definition with_tick (s : vestate) t := mkVE (ve_vs s) (ve_elim s) (ve_deps s) (ve_factors s) (ve_weights s) t.

(** ve/ve.go:29-42 New. The loop variable f is per iteration (go 1.22), so the
    pointers stored are distinct. A later factor with the same id replaces an earlier one. *)
Definition ve_new (tick : nat) (vs : vstate) (factors : list (factor A)) (deps : depmap)
  (weights : option (list A)) : vestate :=
  mkVE vs (repeat false (List.length (vs_vars vs))) deps
    (fold_left (fun m f => mset Z.eqb m (f_id f) f) factors [])
    weights tick.

(** slices.Contains(vars, v): struct equality *)
Definition contains_var (vars : list variable) (v : variable) : bool := existsb (fun u => var_eqb u v) vars.
(** slices.ContainsFunc(vars, same id) *)
Definition contains_id (vars : list variable) (id : Z) : bool := existsb (fun u => v_id u =? id) vars.

(** The entries of ve.factors in the order of one loop over the map, and the state with the
    loop counted. *)
Definition range_factors (s : vestate) : list (Z * factor A) * vestate :=
  (shuffle sc (ve_tick s) (ve_factors s), with_tick s (S (ve_tick s))).

(** ve/ve.go:471-492 sortTopologicalRecursive. [visited] and [result] are threaded, [tick]
    counts the loops over deps. Fuel bounds the recursion depth; exhaustion would give
    Panic PFuel, and is proved not to occur. *)
Fixpoint sort_topological_rec (fuel : nat) (dec : list variable) (index : Z) (deps : depmap)
  (st : nat * list bool * list variable) : gores (nat * list bool * list variable) :=
  match fuel with
  | O => Panic PFuel
  | S fuel' =>
    let '(tick, visited, result) := st in
    let! vis := sget visited index in
    if vis : bool then Ok (tick, visited, result)
    else
    let! visited' := sset visited index true in
    let! v := sget dec index in
    let! (tick', visited'', result') :=
      foldM (fun st '(k, vars) =>
        if v_id k =? v_id v then
          foldM (fun st p =>
            if nodeType_eqb (v_type p) Decision
            then sort_topological_rec fuel' dec (index_func (var_eqb p) dec) deps st
            else Ok st) st vars
        else Ok st)
      (S tick, visited', result) (shuffle sc tick deps) in
    Ok (tick', visited'', result' ++ [v])
  end.

(** ve/ve.go:460-469 sortTopological *)
Definition sort_topological (dec : list variable) (deps : depmap) (tick : nat) : gores (nat * list variable) :=
  let! (tick', _, result) :=
    foldM (fun st i => sort_topological_rec (S (List.length dec)) dec i deps st)
      (tick, repeat false (List.length dec), []) (zrange 0 (zlen dec)) in
  Ok (tick', result).

(** ve/ve.go:50-58 getDecisions *)
Definition get_decisions (s : vestate) : gores (vestate * list variable) :=
  let dec := filter (fun v => nodeType_eqb (v_type v) Decision) (vs_vars (ve_vs s)) in
  let! (tick, r) := sort_topological dec (ve_deps s) (ve_tick s) in
  Ok (with_tick s tick, r).

(** ve/ve.go:367-383 restrictEvidence *)
Definition restrict_evidence (s : vestate) (ev : evidence) : gores vestate :=
  let '(entries, s) := range_factors s in
  let indices := map fst (filter (fun '(_, f) => contains_var (f_vars f) (ev_var ev)) entries) in
  foldM (fun s idx =>
    match mget Z.eqb (ve_factors s) idx with
    | None => Panic PNil
    | Some fac =>
        let s1 := with_factors s (mdel Z.eqb (ve_factors s) idx) in
        let! (vs, fac2) := restrict (ve_vs s1) fac (ev_var ev) (ev_value ev) in
        Ok (with_factors (with_vs s1 vs) (mset Z.eqb (ve_factors s1) (f_id fac2) fac2))
    end) s indices.

(** ve/ve.go:61-65 eliminateEvidence *)
Definition eliminate_evidence (s : vestate) (evs : list evidence) : gores vestate :=
  foldM restrict_evidence s evs.

(** The utility variables in order of declaration: ve/ve.go:96-102 *)
Definition utility_vars (s : vestate) : list variable :=
  filter (fun v => nodeType_eqb (v_type v) Utility) (vs_vars (ve_vs s)).

(** ve/ve.go:67-93 removeUtilities; [except] is None for nil *)
Definition remove_utilities (s : vestate) (except : option variable) : vestate :=
  let utils := filter (fun u => match except with None => true | Some e => negb (v_id u =? v_id e) end)
                 (utility_vars s) in
  match utils with
  | [] => s
  | _ =>
    let '(entries, s) := range_factors s in
    let indices := map fst (filter (fun '(_, f) => existsb (contains_var (f_vars f)) utils) entries) in
    with_factors s (fold_left (fun m idx => mdel Z.eqb m idx) indices (ve_factors s))
  end.

(** Deleting several keys: the loops at ve/ve.go:132-134 and 419-421 *)
Definition del_all (m : list (Z * factor A)) (ks : list Z) : list (Z * factor A) :=
  fold_left (fun m idx => mdel Z.eqb m idx) ks m.

(** ve/ve.go:95-137 sumUtilities *)
Definition sum_utilities (s : vestate) : gores vestate :=
  let utils := utility_vars s in
  match utils with
  | [] => Ok s
  | _ =>
    let '(entries, s) := range_factors s in
    (* lines 111-124: index of the first utility variable in the factor, weight, collect *)
    let! (vs, indices, factors) :=
      foldM (fun '(vs, indices, factors) '(k, f) =>
        let i := index_func (contains_var (f_vars f)) utils in
        if i <? 0 then Ok (vs, indices, factors)
        else
          match ve_weights s with
          | None => Ok (vs, indices ++ [k], factors ++ [f])
          | Some w =>
              let! wi := sget w i in
              let! (vs', ff) := product vs [f; mkFactor 0 [] [wi]] in
              Ok (vs', indices ++ [k], factors ++ [ff])
          end) (ve_vs s, [], []) entries in
    let! (vs, total) := sum vs factors in
    let! (vs, total, elim) :=
      foldM (fun '(vs, total, elim) u =>
        let! (vs', total') := sum_out vs total u in
        let! elim' := sset elim (Z.of_nat (v_index u)) true in
        Ok (vs', total', elim')) (vs, total, ve_elim s) utils in
    Ok (with_factors (with_elim (with_vs s vs) elim)
          (mset Z.eqb (del_all (ve_factors s) indices) (f_id total) total))
  end.

(** ve/ve.go:193-225 getDecisionParents: the loop runs from the last decision to the first
    and stops after one step if [single]. *)
Definition get_decision_parents (s : vestate) (single : bool) : gores (vestate * list bool) :=
  let isdp := repeat false (List.length (vs_vars (ve_vs s))) in
  let! (s', decisions) := get_decisions s in
  let todo := if single then firstn 1 (rev decisions) else rev decisions in
  let! isdp' :=
    foldM (fun acc dec =>
      match mget var_eqb (ve_deps s) dec with
      | None => Ok acc
      | Some vars => foldM (fun acc v => sset acc (Z.of_nat (v_index v)) true) acc vars
      end) isdp todo in
  Ok (s', isdp').

(** Sorting with slices.SortStableFunc: insertion after all elements not greater. *)
Fixpoint insert_by {X} (key : X -> Z) (x : X) (l : list X) : list X :=
  match l with
  | [] => [x]
  | y :: r => if key x <? key y then x :: y :: r else y :: insert_by key x r
  end.
Definition sort_by {X} (key : X -> Z) (l : list X) : list X := fold_left (fun acc x => insert_by key x acc) l [].

(** ve/ve.go:385-425 removeHidden *)
Definition remove_hidden (s : vestate) (v : variable) : gores vestate :=
  let '(entries, s) := range_factors s in
  let sel := filter (fun '(_, f) => contains_id (f_vars f) (v_id v)) entries in
  let! (vs, p) := product (ve_vs s) (map snd sel) in
  let! (vs, p) := sum_out vs p v in
  let! elim := sset (ve_elim s) (Z.of_nat (v_index v)) true in
  Ok (with_factors (with_elim (with_vs s vs) elim)
        (mset Z.eqb (del_all (ve_factors s) (map fst sel)) (f_id p) p)).

(** ve/ve.go:165-178: the number of distinct variables of all factors containing v. *)
Definition degree (entries : list (Z * factor A)) (v : variable) : Z :=
  zlen (fold_left (fun nv '(_, f) =>
          if contains_id (f_vars f) (v_id v)
          then fold_left (fun nv vv => if contains_id nv (v_id vv) then nv else nv ++ [vv]) (f_vars f) nv
          else nv) entries []).

(** ve/ve.go:148-160: the map of hidden variables *)
Definition hidden_vars (s : vestate) (isdp : list bool) (evs : list evidence) (query : list variable)
  : gores (list (Z * variable)) :=
  let! hidden :=
    foldM (fun m '(i, v) =>
      if negb (nodeType_eqb (v_type v) Chance) then Ok m
      else
        let! e := sget (ve_elim s) i in
        if e : bool then Ok m
        else
          let! d := sget isdp (Z.of_nat (v_index v)) in
          if d : bool then Ok m else Ok (mset Z.eqb m (v_id v) v))
      [] (combine (zrange 0 (zlen (vs_vars (ve_vs s)))) (vs_vars (ve_vs s))) in
  let hidden := fold_left (fun m ev => mdel Z.eqb m (v_id (ev_var ev))) evs hidden in
  Ok (fold_left (fun m v => mdel Z.eqb m (v_id v)) query hidden).

(** ve/ve.go:166-184: the degrees, looping over the map of hidden variables and, for each,
    over the map of factors *)
Definition hidden_degrees (s : vestate) (hidden : list (Z * variable)) : vestate * list (variable * Z) :=
  fold_left (fun '(s, l) '(_, v) =>
      let '(entries, s) := range_factors s in
      (s, l ++ [(v, degree entries v)]))
    (shuffle sc (ve_tick s) hidden) (with_tick s (S (ve_tick s)), []).

(** ve/ve.go:144-191 eliminateHidden. SortFunc is not stable, but its keys (ids) are distinct. *)
Definition eliminate_hidden (s : vestate) (evs : list evidence) (query : list variable) (single : bool)
  : gores vestate :=
  let! (s, isdp) := get_decision_parents s single in
  let! hidden := hidden_vars s isdp evs query in
  let '(s, degrees) := hidden_degrees s hidden in
  let hiddenList := sort_by snd (sort_by (fun p => v_id (fst p)) degrees) in
  foldM (fun s p => remove_hidden s (fst p)) s hiddenList.

(** ve/ve.go:427-458 multiplyAll (= summarize, 227-229) *)
Definition multiply_all (s : vestate) : gores (vestate * factor A) :=
  let '(entries, s) := range_factors s in
  let! (vs, f) := product (ve_vs s) (map snd entries) in
  Ok (with_factors (with_vs s vs) [(f_id f, f)], f).

(** ve/ve.go:244-260 solve; [utilityVar] is None for nil *)
Definition ve_solve (s : vestate) (evs : list evidence) (query : list variable)
  (utility : bool) (utilityVar : option variable) : gores (vestate * factor A) :=
  let! s := eliminate_evidence s evs in
  let! s :=
    if utility then
      match utilityVar with
      | None => sum_utilities s
      | Some u => Ok (remove_utilities s (Some u))
      end
    else Ok (remove_utilities s None) in
  let! s := eliminate_hidden s evs query false in
  multiply_all s.

(** ve/ve.go:232-234 SolveQuery *)
Definition ve_solve_query s evs query := ve_solve s evs query false None.

(** ve/ve.go:240-242 SolveUtility *)
Definition ve_solve_utility s evs query utilityVar := ve_solve s evs query true utilityVar.

(** ve/ve.go:328-365 findDecisionFactors. The variable hasParent starts as true and is never
    set to false, so the test at line 347 never skips a factor. The second loop (353-361) is
    reached when no factor contains the decision and then finds none either; it is kept. *)
Definition find_decision_factors (s : vestate) (dec : variable) : vestate * list (factor A) :=
  let deps := match mget var_eqb (ve_deps s) dec with Some d => d | None => [] end in
  let '(entries, s) := range_factors s in
  let r := map snd (filter (fun '(_, f) =>
      contains_var (f_vars f) dec &&
      ((zlen deps =? 0) && (zlen (f_vars f) =? 1)
       || (let hasParent := fold_left (fun h v => if contains_var deps v then true else h) (f_vars f) true in
           hasParent))) entries) in
  match r with
  | [] =>
      let '(entries, s) := range_factors s in
      (s, map snd (filter (fun '(_, f) => contains_var (f_vars f) dec && (zlen (f_vars f) <=? 1)) entries))
  | _ => (s, r)
  end.

(** variables[i].nodeType = ChanceNode: ve/ve.go:314 *)
Definition set_chance (vs : vstate) (i : Z) : gores vstate :=
  let! v := sget (vs_vars vs) i in
  let! l := sset (vs_vars vs) i (withNodeType v Chance) in
  Ok (mkVS (vs_counter vs) l (vs_ids vs)).

(** ve/ve.go:278-326 solvePolicies: loop from the last decision to the first, one step if
    [single]. The result maps each decision to its utility factor and its policy. *)
Definition solve_policies_loop (s : vestate) (decisions : list variable) (single : bool)
  : gores (vestate * list (variable * (factor A * factor A))) :=
  let todo := if single then firstn 1 (rev decisions) else rev decisions in
  foldM (fun '(s, policies) dec =>
    let '(s, factors) := find_decision_factors s dec in
    match factors with
    | [] => Panic (PMsg "found no factors containing variable and its parents")
    | _ =>
      let! (vs, fac) := match factors with
                        | [f] => Ok (ve_vs s, f)
                        | _ => product (ve_vs s) factors
                        end in
      let! (vs, pol) := policy vs fac dec in
      let policies' := mset var_eqb policies dec (fac, pol) in
      let s := with_factors s (mset Z.eqb (ve_factors s) (f_id pol) pol) in
      let! vs := set_chance vs (Z.of_nat (v_index dec)) in
      let! s := eliminate_hidden (with_vs s vs) [] [] single in
      Ok (s, policies')
    end) (s, []) todo.

(** ve/ve.go:265-276 SolvePolicies; None for nil *)
Definition ve_solve_policies (s : vestate) (single : bool)
  : gores (vestate * option (list (variable * (factor A * factor A)))) :=
  let! (s, decisions) := get_decisions s in
  match decisions with
  | [] => Ok (s, None)
  | _ =>
    let! s := sum_utilities s in
    let! s := eliminate_hidden s [] [] single in
    let! (s, policies) := solve_policies_loop s decisions single in
    Ok (s, Some policies)
  end.

End VE.

Arguments vestate A : clear implicits.
