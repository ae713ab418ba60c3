(** Model of network.go and training.go with the arrays of numbers in memory (see
    HeapVarModel). The functions of NetModel that do not touch numbers, among them New, are
    used as they are, on [network nat]: the table of a factor is a reference to the array
    that the caller passed. *)
From Coq Require Import ZArith List Bool String.
From Verif Require Import Num GoBase VarModel VEModel NetModel TrainModel HeapVarModel HeapVEModel.
Import ListNotations.
Open Scope string_scope.
Open Scope list_scope.
Open Scope Z_scope.

Section HeapNet.
Context {A : Type} {N : NumOps A}.
Notation act := (act A).

(** A loop that collects values *)
Fixpoint mapA {X Y} (f : X -> act Y) (l : list X) : act (list Y) :=
  match l with
  | [] => ret []
  | x :: r => do! y := f x in do! ys := mapA f r in ret (y :: ys)
  end.

(** A method of a network: the network afterwards, also when there is an error or a panic *)
Definition nact (X : Type) := heap A -> heap A * (network nat * gores X).
Definition done {X} (n : network nat) (r : gores X) : nact X := fun h => (h, (n, r)).
(** Calls [m], and continues with its result; [bad] is the network after an error or a panic. *)
Definition call {X Y} (bad : network nat) (m : act X) (k : X -> nact Y) : nact Y := fun h =>
  let '(h', r) := m h in
  match r with Ok x => k x h' | Err e => (h', (bad, Err e)) | Panic p => (h', (bad, Panic p)) end.
Definition then_ {X Y} (m : nact X) (k : network nat -> X -> nact Y) : nact Y := fun h =>
  let '(h', (n, r)) := m h in
  match r with Ok x => k n x h' | Err e => (h', (n, Err e)) | Panic p => (h', (n, Panic p)) end.

Section Sched.
Variable sc : sched.

(** network.go:446-489, one iteration. The factor shares the table of the network, unless it
    is normalised. *)
Definition h_add_net_factor (names : list (string * nentry)) (total : string)
  (st : vstate * depmap * list (factor nat)) (f : nfactor nat) : act (vstate * depmap * list (factor nat)) :=
  let '(vs, deps, fs) := st in
  if String.eqb (nf_for f) total then ret (vs, deps, fs)
  else
    match sget_map names (nf_for f) with
    | None => lift (Err (EMsg "variable for factor not found"))
    | Some forVar =>
      do! variables := lift (mapM (fun g =>
          match sget_map names g with
          | None => Err (EMsg "variable in factor not found")
          | Some vv => Ok (en_ve vv)
          end) (nf_given f)) in
      if nodeType_eqb (v_type (en_ve forVar)) Decision
      then ret (vs, mset var_eqb deps (en_ve forVar) variables, fs)
      else if nodeType_eqb (nv_type (en_var forVar)) Decision then ret (vs, deps, fs)
      else
        let variables := (variables ++ [en_ve forVar]) in
        do! (vs, fac) := h_create_factor vs variables (nf_table f) in
        do! (vs, fac) :=
          (if nodeType_eqb (nv_type (en_var forVar)) Chance then
            do! lastv := lift (sget variables (zlen variables - 1)) in
            h_normalize_for vs fac lastv
          else ret (vs, fac)) in
        ret (vs, deps, (fs ++ [fac]))
    end.

(** network.go:538-563 policyFactors. The factors share the arrays of the policies. *)
Definition h_policy_factors (tick : nat) (n : network nat) (vs : vstate) (ids : list nentry) (evidence : list (string * string))
  : act (vstate * list (factor nat)) :=
  foldA (fun '(vs, fs) '((name, f) : string * factor nat) =>
    if has_key evidence name then ret (vs, fs)
    else
      do! variables := lift (mapM (fun v =>
          if nodeType_eqb (v_type v) Decision then
            let! vv := sget ids (v_id v) in
            if has_key (n_policies n) (nv_name (en_var vv)) then Ok (withNodeType v Chance) else Ok v
          else Ok v) (f_vars f)) in
      do! (vs, fac) := h_create_factor vs variables (Some (f_data f)) in
      ret (vs, (fs ++ [fac]))) (vs, []) (shuffle sc tick (n_policies n)).

(** network.go:503-535 prepareUtilityWeights. The weights are a new array. *)
Definition h_prepare_utility_weights (n : network nat) : act (option (list nat)) :=
  let utilityNodes := map snd (filter (fun '((i, v) : Z * nvar) =>
      negb (i =? n_tui n) && nodeType_eqb (nv_type v) Utility)
      (combine (zrange 0 (zlen (n_vars n))) (n_vars n))) in
  if n_tui n <? 0 then ret None
  else
    do! node := lift (sget (n_vars n) (n_tui n)) in
    match nv_factor node with
    | None => lift (Panic PNil)
    | Some k =>
      do! f := lift (sget (n_factors n) (Z.of_nat k)) in
      do! w := mapA (fun u =>
          let idx := str_index (nf_given f) (nv_name u) in
          if idx <? 0 then lift (Err (EMsg "utility node not included in total utility"))
          else match nf_table f with
               | None => lift (Panic PIndex)
               | Some t => get_elem (addr t) idx
               end) utilityNodes in
      do! a := alloc w in
      ret (Some (ref a))
    end.

(** network.go:410-500 toVE *)
Definition h_to_ve (tick : nat) (n : network nat) (evidence : list (string * string))
  : act (vestate nat * list (string * nentry)) :=
  do! (vs, names, ids, total) := lift (add_net_variables n) in
  do! (vs, deps, fs) := foldA (h_add_net_factor names total) (vs, [], []) (n_factors n) in
  do! (vs, pfs) := h_policy_factors tick n vs ids evidence in
  do! weights := h_prepare_utility_weights n in
  ret (ve_new (S tick) vs (fs ++ pfs) deps weights, names).

(** network.go:238 and 349: see NetModel.assign_ve *)
Definition h_assign_ve (tick : nat) (n : network nat) (evidence : list (string * string))
  : nact (vestate nat * list (string * nentry)) := fun h =>
  let '(h', r) := h_to_ve tick n evidence h in
  (h', match r with
       | Ok (s, names) => (with_solver n (Some s) names, Ok (s, names))
       | Err e => (with_solver n None [], Err e)
       | Panic p => (n, Panic p)
       end).

(** network.go:342-389 solve, after toVE *)
Definition h_solve_names (s : vestate nat) (names : list (string * nentry)) (evidence : list (string * string))
  (query : list string) (utility : bool) (utilityVar : string) : act (vestate nat * factor nat) :=
  do! ev := lift (net_evidence names (shuffle sc (ve_tick s) evidence)) in
  let s := with_tick s (S (ve_tick s)) in
  do! q := lift (net_query_vars names query) in
  if utility then
    do! util :=
      lift (if String.eqb utilityVar "" then Ok None
      else match sget_map names utilityVar with
           | None => Err (EMsg "utility query variable not found")
           | Some u => Ok (Some (en_ve u))
           end) in
    h_ve_solve sc s ev q true util
  else h_ve_solve sc s ev q false None.

(** network.go:342-389 solve *)
Definition h_net_solve (n : network nat) (evidence : list (string * string)) (query : list string)
  (utility : bool) (utilityVar : string) (ignorePolicies : bool) : nact (factor nat) :=
  then_ (h_assign_ve 0 n (if ignorePolicies then evidence else [])) (fun n '(s, names) =>
  call n (h_solve_names s names evidence query utility utilityVar) (fun '(s', f) =>
  done (with_solver n (Some s') names) (Ok f))).

(** n.ve.Variables() as used by an operation on it *)
Definition h_on_variables {X} (n : network nat) (op : vstate -> act (vstate * X)) : act (network nat * X) :=
  match n_ve n with
  | None => lift (Panic PNil)
  | Some s =>
      do! (vs, x) := op (ve_vs s) in
      ret (with_solver n (Some (with_vs s vs)) (n_names n), x)
  end.

(** network.go:566-568 Normalize *)
Definition h_net_normalize (n : network nat) (f : factor nat) : act (network nat * factor nat) :=
  h_on_variables n (fun vs => h_normalize vs f).

(** network.go:571-574 NormalizeUtility *)
Definition h_net_normalize_utility (n : network nat) (utility probs : factor nat) : act (network nat * factor nat) :=
  do! (n, inv) := h_on_variables n (fun vs => h_invert vs probs) in
  h_on_variables n (fun vs => h_product vs [utility; inv]).

(** network.go:577-583 Marginal *)
Definition h_net_marginal (n : network nat) (f : factor nat) (v : string) : act (network nat * factor nat) :=
  match sget_map (n_names n) v with
  | None => lift (Panic (PMsg "marginal: variable not found"))
  | Some vv => h_on_variables n (fun vs => h_marginal vs f (en_ve vv))
  end.

(** network.go:318-323 *)
Definition h_query_marginals (n : network nat) (f : factor nat) (query : list string)
  : act (network nat * list (string * list nat)) :=
  foldA (fun '((n, res) : network nat * list (string * list nat)) q =>
    do! (n, m) := h_net_marginal n f q in
    do! (n, m) := h_net_normalize n m in
    ret (n, sset_map res q (f_data m))) (n, []) query.

(** network.go:312-326 SolveQuery *)
Definition h_net_solve_query (n : network nat) (evidence : list (string * string)) (query : list string)
  (ignorePolicies : bool) : nact (list (string * list nat) * factor nat) :=
  then_ (h_net_solve n evidence query false "" ignorePolicies) (fun n f =>
  call n (h_query_marginals n f query) (fun '(n', res) => done n' (Ok (res, f)))).

(** network.go:337-339 SolveUtility *)
Definition h_net_solve_utility n evidence query utilityVar ignorePolicies : nact (factor nat) :=
  h_net_solve n evidence query true utilityVar ignorePolicies.

(** network.go:395-407 ToEvidence *)
Definition h_net_to_evidence (n : network nat) (v value : string) : act (list nat) :=
  match sget_map (n_names n) v with
  | None => lift (Err (EMsg "evidence variable not found"))
  | Some vv =>
      let idx := str_index (nv_outcomes (en_var vv)) value in
      if idx <? 0 then lift (Err (EMsg "outcome for evidence variable not found"))
      else
        do! probs := lift (smake (zlen (nv_outcomes (en_var vv))) n0) in
        do! a := alloc probs in
        do! _ := put_elem a idx n1 in
        ret (ref a)
  end.

(** network.go:586-589 Rearrange *)
Definition h_net_rearrange (n : network nat) (f : factor nat) (variables : list string) : act (network nat * factor nat) :=
  do! vars := lift (rearrange_variables n f variables) in
  h_on_variables n (fun vs => h_rearrange vs f vars).

(** network.go:236-255 *)
Fixpoint h_policy_steps (k : nat) (tick : nat) (n : network nat) (stepwise : bool) : nact nat :=
  match k with
  | O => done n (Ok tick)
  | S k' =>
      then_ (h_assign_ve tick n []) (fun n '(s, names) =>
      call n (h_ve_solve_policies sc s stepwise) (fun '(s', r) =>
      match r with
      | None => done (with_solver n (Some s') names) (Ok (ve_tick s'))
      | Some pols => h_policy_steps k' (S (ve_tick s')) (store_policies sc (ve_tick s') (with_solver n (Some s') names) pols) stepwise
      end))
  end.

(** network.go:258-287, one iteration *)
Definition h_policy_result (n : network nat) (name : string) (f : factor nat) : act (network nat * nfactor nat) :=
  match sget_map (n_names n) name with
  | None => lift (Panic PNil)
  | Some forVar =>
      let variables := f_vars f in
      let idx := index_func (var_is (en_ve forVar)) variables in
      do! x := lift (sget variables idx) in
      let newVars := (firstn (Z.to_nat idx) variables ++ skipn (S (Z.to_nat idx)) variables ++ [x]) in
      do! (n', f') := h_on_variables n (fun vs => h_rearrange vs f newVars) in
      do! given := lift (mapM (fun v => let! nv := sget (n_vars n) (v_id v) in Ok (nv_name nv)) (removelast newVars)) in
      ret (n', mkNFactor name given (Some (f_data f')) [] 0)
  end.

(** network.go:232-290 SolvePolicies *)
Definition h_net_solve_policies (n : network nat) (stepwise : bool) : nact (list (string * nfactor nat)) :=
  let n := with_policies n [] in
  then_ (h_policy_steps (count_decision_steps n stepwise) 0 n stepwise) (fun n tick =>
  let entries := shuffle sc tick (n_policies n) in
  call n (foldA (fun '((n, res) : network nat * list (string * nfactor nat)) '((name, f) : string * factor nat) =>
              do! (n', r) := h_policy_result n name f in ret (n', sset_map res name r)) (n, []) entries)
    (fun '(n', res) => done n' (Ok res))).

End Sched.

(** ** Training. The counts and sums of the trainer never leave it, so they are values. *)

(** training.go:37-56, one iteration *)
Definition h_trainer_node (n : network nat) (names : list (string * Z)) (v : nvar)
  : act (list (list A) * list Z * list Z) :=
  do! f := lift (node_factor n v) in
  let columns := zlen (nv_outcomes v) in
  if columns =? 0 then lift (Panic PDiv)
  else
    do! len := match nf_table f with None => ret 0 | Some t => len_at (addr t) end in
    let rows := Z.quot len columns in
    do! d := lift (mapM (fun _ => smake columns n0) (zrange 0 rows)) in
    do! c := lift (smake rows 0) in
    do! idx := lift (mapM (fun g => match sget_map names g with
        | None => Panic (PMsg "parent node not found")
        | Some i => Ok i
        end) (nf_given f)) in
    ret (d, c, idx).

(** training.go:21-66 NewTrainer *)
Definition h_new_trainer (n : network nat) : act (trainer A) :=
  do! _ := lift (mapM (node_factor n) (n_vars n)) in
  do! l := mapA (h_trainer_node n (node_indices (n_vars n))) (n_vars n) in
  ret (mkTrainer (map (fun x => fst (fst x)) l) (map (fun x => snd (fst x)) l) (map snd l)).

(** A network without its tables, for functions that do not read them *)
Definition without_tables (n : network nat) : network A :=
  mkNet (n_name n) (n_info n) (n_vars n)
    (map (fun f => mkNFactor (nf_for f) (nf_given f) None (nf_outcomes f) (nf_columns f)) (n_factors n))
    [] None (n_names n) (n_tui n).

(** training.go:70-112 AddSample. It reads no table of the network; the slices of the sample
    are values (they are read and not kept). *)
Definition h_add_sample (n : network nat) (t : trainer A) (sample : list Z) (utility : option (list A)) : gores (trainer A) :=
  add_sample (without_tables n) t sample utility.

(** training.go:123-131, one table row, written in place *)
Definition h_update_row (data : list (list A)) (counter : list Z) (cols : Z) (a : nat) (j : Z) : act unit :=
  do! cnt := lift (sget counter j) in
  if cnt =? 0 then lift (Err (EMsg "no samples for node"))
  else foldA (fun _ k =>
         do! row := lift (sget data j) in
         do! x := lift (sget row k) in
         put_elem a (j * cols + k) (ndiv x (nofint cnt))) tt (zrange 0 cols).

(** training.go:118-132, one iteration *)
Definition h_update_node (t : trainer A) (n : network nat) (iv : Z * nvar) : act unit :=
  let '(i, v) := iv in
  do! f := lift (node_factor n v) in
  do! data := lift (sget (tr_data t) i) in
  do! counter := lift (sget (tr_counter t) i) in
  let cols := nf_columns f in
  if cols =? 0 then lift (Panic PDiv)
  else match nf_table f with
  | None => ret tt
  | Some table =>
    do! len := len_at (addr table) in
    foldA (fun _ j => h_update_row data counter cols (addr table) j) tt (zrange 0 (Z.quot len cols))
  end.

(** training.go:115-135 UpdateNetwork *)
Definition h_update_network (n : network nat) (t : trainer A) : act unit :=
  foldA (fun _ iv => h_update_node t n iv) tt (combine (zrange 0 (zlen (n_vars n))) (n_vars n)).

(** NewTrainer, AddSample for each sample, UpdateNetwork *)
Definition h_train (n : network nat) (samples : list (list Z * option (list A))) : act unit :=
  do! t := h_new_trainer n in
  do! t := lift (foldM (fun t '((s, u) : list Z * option (list A)) => h_add_sample n t s u) t samples) in
  h_update_network n t.

End HeapNet.
