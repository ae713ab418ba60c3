(** Model of training.go: training a network from samples. *)
From Coq Require Import ZArith List Bool String.
From Verif Require Import Num GoBase VarModel VEModel NetModel.
Import ListNotations.
Open Scope string_scope.
Open Scope list_scope.
Open Scope Z_scope.

Section Train.
Context {A : Type} {N : NumOps A}.

(** training.go:11-18 Trainer. The network pointer is passed separately; the scratch slices
    sample and utility (lines 16-17) are local to AddSample. *)
Record trainer := mkTrainer {
  tr_data : list (list (list A));
  tr_counter : list (list Z);
  tr_indices : list (list Z)
}.

(** node.Factor for a variable of the network; nil panics when a field is read *)
Definition node_factor (n : network A) (v : nvar) : gores (nfactor A) :=
  match nv_factor v with
  | None => Panic PNil
  | Some k => match nth_error (n_factors n) k with Some f => Ok f | None => Panic PNil end
  end.

(** training.go:28-31: the map from names to positions *)
Definition node_indices (vars : list nvar) : list (string * Z) :=
  fold_left (fun m '((i, v) : Z * nvar) => sset_map m (nv_name v) i) (combine (zrange 0 (zlen vars)) vars) [].

(** training.go:37-56, one iteration *)
Definition trainer_node (n : network A) (names : list (string * Z)) (v : nvar)
  : gores (list (list A) * list Z * list Z) :=
  let! f := node_factor n v in
  let columns := zlen (nv_outcomes v) in
  if columns =? 0 then Panic PDiv
  else
    let rows := Z.quot (zlen (slice_of (nf_table f))) columns in
    let! d := mapM (fun _ => smake columns n0) (zrange 0 rows) in
    let! c := smake rows 0 in
    let! idx := mapM (fun g => match sget_map names g with
        | None => Panic (PMsg "parent node not found")
        | Some i => Ok i
        end) (nf_given f) in
    Ok (d, c, idx).

(** training.go:21-66 NewTrainer. maxColumns (lines 29-35) is only a capacity; the loop reads
    all factors first. *)
Definition new_trainer (n : network A) : gores trainer :=
  let! _ := mapM (node_factor n) (n_vars n) in
  let! l := mapM (trainer_node n (node_indices (n_vars n))) (n_vars n) in
  Ok (mkTrainer (map (fun x => fst (fst x)) l) (map (fun x => snd (fst x)) l) (map snd l)).

(** t.data[i][j][k] += x *)
Definition add_data (d : list (list (list A))) (i j k : Z) (x : A) : gores (list (list (list A))) :=
  let! node := sget d i in
  let! row := sget node j in
  let! old := sget row k in
  let! row' := sset row k (nadd old x) in
  let! node' := sset node j row' in
  sset d i node'.
(** t.counter[i][j]++ (int; overflow is not modelled) *)
Definition add_count (c : list (list Z)) (i j : Z) : gores (list (list Z)) :=
  let! node := sget c i in
  let! old := sget node j in
  let! node' := sset node j (old + 1) in
  sset c i node'.

(** training.go:73-111, one iteration. [utility] is None for nil. *)
Definition add_node_sample (n : network A) (sample : list Z) (utility : option (list A)) (t : trainer) (iv : Z * nvar)
  : gores trainer :=
  let '(i, v) := iv in
  if nodeType_eqb (nv_type v) Decision then Ok t
  else
    let! indices := sget (tr_indices t) i in
    let! smp := mapM (sget sample) indices in
    let! _ := match utility with None => Ok [] | Some u => mapM (sget u) indices end in
    let! f := node_factor n v in
    let! (idx, ok) := nf_row_index f smp in
    if negb ok then Ok t
    else if nodeType_eqb (nv_type v) Utility then
      let! u := sget (slice_of utility) i in
      if nisnan u then Ok t
      else
        let! d := add_data (tr_data t) i idx 0 u in
        let! c := add_count (tr_counter t) i idx in
        let! c := add_count c i idx in
        Ok (mkTrainer d c (tr_indices t))
    else
      let! s := sget sample i in
      if s <? 0 then Ok t
      else
        let! d := add_data (tr_data t) i idx s n1 in
        let! c := add_count (tr_counter t) i idx in
        Ok (mkTrainer d c (tr_indices t)).

(** training.go:70-112 AddSample *)
Definition add_sample (n : network A) (t : trainer) (sample : list Z) (utility : option (list A)) : gores trainer :=
  foldM (add_node_sample n sample utility) t (combine (zrange 0 (zlen (n_vars n))) (n_vars n)).

(** training.go:123-131, one table row: the new table or the reason for not finishing it *)
Definition update_row (data : list (list A)) (counter : list Z) (cols : Z) (table : list A) (j : Z) : gores (list A) :=
  let! cnt := sget counter j in
  if cnt =? 0 then Err (EMsg "no samples for node")
  else foldM (fun table k =>
         let! row := sget data j in
         let! x := sget row k in
         sset table (j * cols + k) (ndiv x (nofint cnt))) table (zrange 0 cols).

(** Runs steps that change a state until one fails; keeps the state reached. (The state after a
    panic within a step is not modelled.) *)
Fixpoint run_steps {S X} (step : S -> X -> S * gores unit) (s : S) (l : list X) : S * gores unit :=
  match l with
  | [] => (s, Ok tt)
  | x :: rest => let '(s', r) := step s x in
                 match r with Ok _ => run_steps step s' rest | _ => (s', r) end
  end.

Definition no_value {X} (r : gores X) : gores unit :=
  match r with Ok _ => Ok tt | Err e => Err e | Panic p => Panic p end.

(** training.go:118-132, one iteration: the factors after it *)
Definition update_node (t : trainer) (factors : list (nfactor A)) (iv : Z * nvar) : list (nfactor A) * gores unit :=
  let '(i, v) := iv in
  match nv_factor v with
  | None => (factors, Panic PNil)
  | Some k =>
    match nth_error factors k with
    | None => (factors, Panic PNil)
    | Some f =>
      match sget (tr_data t) i, sget (tr_counter t) i with
      | Ok data, Ok counter =>
        let cols := nf_columns f in
        if cols =? 0 then (factors, Panic PDiv)
        else match nf_table f with
        | None => (factors, Ok tt)
        | Some table =>
          let rows := Z.quot (zlen table) cols in
          let '(table', r) := run_steps (fun table j =>
              match update_row data counter cols table j with
              | Ok table' => (table', Ok tt)
              | bad => (table, no_value bad)
              end) table (zrange 0 rows) in
          (upd_nth factors k (mkNFactor (nf_for f) (nf_given f) (Some table') (nf_outcomes f) (nf_columns f)), r)
        end
      | _, _ => (factors, Panic PIndex)
      end
    end
  end.

(** training.go:115-135 UpdateNetwork: the network afterwards, also when there is an error *)
Definition update_network (n : network A) (t : trainer) : network A * gores unit :=
  let '(factors, r) := run_steps (update_node t) (n_factors n) (combine (zrange 0 (zlen (n_vars n))) (n_vars n)) in
  (mkNet (n_name n) (n_info n) (n_vars n) factors (n_policies n) (n_ve n) (n_names n) (n_tui n), r).

(** NewTrainer, AddSample for each sample, UpdateNetwork *)
Definition train (n : network A) (samples : list (list Z * option (list A))) : network A * gores unit :=
  match (let! t := new_trainer n in foldM (fun t '((s, u) : list Z * option (list A)) => add_sample n t s u) t samples) with
  | Ok t => update_network n t
  | Err e => (n, Err e)
  | Panic p => (n, Panic p)
  end.
End Train.
Arguments trainer A : clear implicits.
