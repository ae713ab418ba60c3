(** Model of ve/variable.go, ve/factor.go and ve/variables.go. *)
From Coq Require Import ZArith List Bool String.
From Verif Require Import Num GoBase.
Import ListNotations.
Open Scope Z_scope.

(** ** ve/variable.go *)

(** ve/variable.go:4-10 NodeType *)
Inductive nodeType := Chance | Decision | Utility.

Definition nodeType_eqb (a b : nodeType) : bool :=
  match a, b with
  | Chance, Chance | Decision, Decision | Utility, Utility => true
  | _, _ => false
  end.

(** ve/variable.go:13-18 Variable. index and outcomes are uint16. *)
Record variable := mkVar {
  v_id : Z;
  v_index : nat;
  v_outcomes : nat;
  v_type : nodeType
}.

(** Go struct equality ==, used by slices.Index and slices.Contains on []Variable *)
Definition var_eqb (a b : variable) : bool :=
  (v_id a =? v_id b) && Nat.eqb (v_index a) (v_index b)
  && Nat.eqb (v_outcomes a) (v_outcomes b) && nodeType_eqb (v_type a) (v_type b).

(** ve/variable.go:32-35 Variable.WithNodeType *)
Definition withNodeType (v : variable) (t : nodeType) : variable :=
  mkVar (v_id v) (v_index v) (v_outcomes v) t.

(** ve/variable.go:40-42 Variable.Is *)
Definition var_is (v other : variable) : bool := v_id v =? v_id other.

(** int(v.outcomes) *)
Definition v_out (v : variable) : Z := Z.of_nat (v_outcomes v).

(** ** ve/factor.go: factorVariables *)

(** ve/factor.go:90-102 factorVariables.Index. The loop runs from the last to the
    first variable with loop state (index, multiplier): a right fold. *)
Definition vars_index (vs : list variable) (indices : list Z) : gores Z :=
  if negb (zlen indices =? zlen vs) then Panic (PMsg "wrong number of indices")
  else Ok (fst (fold_right
         (fun '(v, i) '(index, multiplier) => (index + i * multiplier, multiplier * v_out v))
         (0, 1) (combine vs indices))).

(** ve/factor.go:107-128 factorVariables.IndexWithNoData. The early return on -1
    makes the loop state None. *)
Definition vars_index_nodata (vs : list variable) (indices : list Z) : gores (Z * bool) :=
  if negb (zlen indices =? zlen vs) then Panic (PMsg "wrong number of indices")
  else match vs with
  | [] => Ok (0, true)
  | _ =>
    match fold_right
         (fun '(v, i) st =>
            match st with
            | None => None
            | Some (index, multiplier) =>
                if i =? -1 then None else Some (index + i * multiplier, multiplier * v_out v)
            end)
         (Some (0, 1)) (combine vs indices) with
    | None => Ok (0, false)
    | Some (index, _) => Ok (index, true)
    end
  end.

(** ve/factor.go:130-142 factorVariables.Outcomes. [indices] is the slice that is
    overwritten; only its length matters. Go's % and / truncate towards zero and
    panic for a zero divisor. *)
Definition vars_outcomes (vs : list variable) (index : Z) (indices : list Z) : gores (list Z) :=
  if negb (zlen indices =? zlen vs) then Panic (PMsg "wrong number of indices")
  else
    let! r := fold_right
      (fun v (st : gores (list Z * Z)) =>
         let! (rest, index) := st in
         if v_out v =? 0 then Panic PDiv
         else Ok (Z.rem index (v_out v) :: rest, Z.quot index (v_out v)))
      (Ok ([], index)) vs in
    Ok (fst r).

(** ve/factor.go:146-160 factorVariables.increment. Loop state: the digits already
    processed (to the right) and whether the loop is still running (carry). Returns
    the new slice contents and the Go return value. *)
Definition vars_increment (vs : list variable) (indices : list Z) : gores (list Z * bool) :=
  if negb (zlen indices =? zlen vs) then Panic (PMsg "wrong number of indices")
  else
    let '(r, carry) := fold_right
      (fun '((v, i) : variable * Z) '((rest, carry) : list Z * bool) =>
         if carry then
           if i + 1 <? v_out v then (i + 1 :: rest, false) else (0 :: rest, true)
         else (i :: rest, false))
      ([], true) (combine vs indices) in
    Ok (r, negb carry).

Section Factors.
Context {A : Type} {N : NumOps A}.

(** ** ve/factor.go: Factor *)

(** ve/factor.go:7-11 Factor *)
Record factor := mkFactor { f_id : Z; f_vars : list variable; f_data : list A }.

(** ve/factor.go:31-33 Factor.Index *)
Definition f_index (f : factor) (indices : list Z) : gores Z := vars_index (f_vars f) indices.

(** ve/factor.go:38-40 Factor.IndexWithNoData *)
Definition f_index_nodata (f : factor) (indices : list Z) : gores (Z * bool) :=
  vars_index_nodata (f_vars f) indices.

(** ve/factor.go:44-46 Factor.Outcomes *)
Definition f_outcomes (f : factor) (index : Z) (indices : list Z) : gores (list Z) :=
  vars_outcomes (f_vars f) index indices.

(** ve/factor.go:51-64 Factor.RowIndex: loop over all but the last variable, from
    right to left, with state (idx, stride). *)
Definition f_row_index (f : factor) (indices : list Z) : gores (Z * Z) :=
  if negb (zlen indices =? zlen (f_vars f) - 1) then Panic (PMsg "wrong number of row indices")
  else
    let! lastv := sget (f_vars f) (zlen (f_vars f) - 1) in
    let idx := fst (fold_right
         (fun '(v, i) '(idx, stride) => (idx + i * stride, stride * v_out v))
         (0, v_out lastv) (combine (removelast (f_vars f)) indices)) in
    Ok (idx, v_out lastv).

(** ve/factor.go:67-70 Factor.Get *)
Definition f_get (f : factor) (indices : list Z) : gores A :=
  let! idx := f_index f indices in sget (f_data f) idx.

(** ve/factor.go:73-76 Factor.Set *)
Definition f_set (f : factor) (indices : list Z) (x : A) : gores factor :=
  let! idx := f_index f indices in
  let! d := sset (f_data f) idx x in
  Ok (mkFactor (f_id f) (f_vars f) d).

(** ve/factor.go:81-84 Factor.Row *)
Definition f_row (f : factor) (indices : list Z) : gores (list A) :=
  let! (idx, ln) := f_row_index f indices in sslice (f_data f) idx (idx + ln).

(** ** ve/variables.go *)

(** ve/variables.go:10-14 Variables. [vs_ids] is the key set of the map ids. *)
Record vstate := mkVS { vs_counter : Z; vs_vars : list variable; vs_ids : list Z }.

(** ve/variables.go:17-21 NewVariables *)
Definition new_variables : vstate := mkVS 0 [] [].

(** ve/variables.go:24-36 AddVariable. The code checks the map ids but never
    writes to it, so [vs_ids] is passed on unchanged. *)
Definition add_variable (s : vstate) (id : Z) (t : nodeType) (outcomes : nat) : gores (vstate * variable) :=
  if existsb (Z.eqb id) (vs_ids s) then Panic (PMsg "there is already a variable with this ID")
  else
    let v := mkVar id (u16 (zlen (vs_vars s))) outcomes t in
    Ok (mkVS (vs_counter s) (vs_vars s ++ [v]) (vs_ids s), v).

(** Product of outcome counts, the loop computing [rows] at ve/variables.go:42-47 *)
Definition vars_rows (vs : list variable) : Z :=
  fold_left (fun rows v => rows * v_out v) vs 1.

(** ve/variables.go:41-63 CreateFactor. [data] is None for nil. *)
Definition create_factor (s : vstate) (vars : list variable) (data : option (list A))
  : gores (vstate * factor) :=
  let rows := vars_rows vars in
  let! d := match data with
            | None => smake rows n0
            | Some d => if negb (zlen d =? rows) then Panic (PMsg "wrong data length for factor") else Ok d
            end in
  Ok (mkVS (vs_counter s + 1) (vs_vars s) (vs_ids s), mkFactor (vs_counter s) vars d).

(** Wrapping of Go's int (64 bit) on overflow. *)
Definition wrap64 (x : Z) : Z := (x + 2 ^ 63) mod 2 ^ 64 - 2 ^ 63.

(** ve/variables.go:41-63 CreateFactor again, with [rows] computed in 64-bit arithmetic.
    Everywhere else in the model int is unbounded (simplification); this variant is the
    object of property C67. *)
Definition create_factor_int64 (s : vstate) (vars : list variable) (data : option (list A))
  : gores (vstate * factor) :=
  let rows := fold_left (fun rows v => wrap64 (rows * v_out v)) vars 1 in
  let! d := match data with
            | None => smake rows n0
            | Some d => if negb (zlen d =? rows) then Panic (PMsg "wrong data length for factor") else Ok d
            end in
  Ok (mkVS (vs_counter s + 1) (vs_vars s) (vs_ids s), mkFactor (vs_counter s) vars d).

(** The loop at ve/variables.go:74-81, 115-122, 154-160: position of the last variable
    with the given id (-1 if none) and the list of all others. State (i, idx, newVars). *)
Definition scan_vars (vs : list variable) (id : Z) : Z * list variable :=
  let '(_, idx, nv) :=
    fold_left (fun '(i, idx, nv) v =>
                 if v_id v =? id then (i + 1, i, nv) else (i + 1, idx, nv ++ [v]))
              vs (0, -1, []) in
  (idx, nv).

(** The two inner loops at ve/variables.go:94-99 and 134-139: copy the old index
    without position idx into the new index. *)
Definition copy_skip (idx : Z) (oldIndex newIndex : list Z) : gores (list Z) :=
  let! nw := foldM (fun nw j => let! x := sget oldIndex j in sset nw j x)
                   newIndex (zrange 0 idx) in
  foldM (fun nw j => let! x := sget oldIndex j in sset nw (j - 1) x)
        nw (zrange (idx + 1) (zlen oldIndex)).

(** ve/variables.go:66-107 Restrict *)
Definition restrict (s : vstate) (f : factor) (v : variable) (observation : Z)
  : gores (vstate * factor) :=
  if (observation <? 0) || (v_out v <=? observation) then Panic (PMsg "observation out of range")
  else
  let! _ := smake (zlen (f_vars f) - 1) tt in
  let '(idx, newVars) := scan_vars (f_vars f) (v_id v) in
  if idx <? 0 then Panic (PMsg "variable not in this factor")
  else
  let! (s', fNew) := create_factor s newVars None in
  let! (_, _, fRes) :=
    foldM (fun '(oldIndex, newIndex, fNew) x =>
      let! o := sget oldIndex idx in
      let! (newIndex', fNew') :=
        if o =? observation then
          let! nw := copy_skip idx oldIndex newIndex in
          let! fn := f_set fNew nw x in
          Ok (nw, fn)
        else Ok (newIndex, fNew) in
      let! (oldIndex', _) := vars_increment (f_vars f) oldIndex in
      Ok (oldIndex', newIndex', fNew'))
    (repeat 0 (List.length (f_vars f)), repeat 0 (List.length newVars), fNew) (f_data f) in
  Ok (s', fRes).

(** ve/variables.go:110-147 SumOut *)
Definition sum_out (s : vstate) (f : factor) (v : variable) : gores (vstate * factor) :=
  let! _ := smake (zlen (f_vars f) - 1) tt in
  let '(idx, newVars) := scan_vars (f_vars f) (v_id v) in
  if idx <? 0 then Panic (PMsg "variable not in this factor")
  else
  let! (s', fNew) := create_factor s newVars None in
  let! (_, _, fRes) :=
    foldM (fun '(oldIndex, newIndex, fNew) x =>
      let! nw := copy_skip idx oldIndex newIndex in
      let! i := f_index fNew nw in
      let! old := sget (f_data fNew) i in
      let! d := sset (f_data fNew) i (nadd old x) in
      let! (oldIndex', _) := vars_increment (f_vars f) oldIndex in
      Ok (oldIndex', nw, mkFactor (f_id fNew) (f_vars fNew) d))
    (repeat 0 (List.length (f_vars f)), repeat 0 (List.length newVars), fNew) (f_data f) in
  Ok (s', fRes).

(** ve/variables.go:192-201: the loop over one row finding all positions of the
    maximum. State (c, maxUtility, maxIndices). *)
Definition max_indices (row : list A) : list Z :=
  let '(_, _, mi) :=
    fold_left (fun '(c, mx, mi) u =>
                 if nlt mx u then (c + 1, u, [c])
                 else if neqb u mx then (c + 1, mx, mi ++ [c])
                 else (c + 1, mx, mi))
              row (0, nninf, []) in
  mi.

(** ve/variables.go:183-189: the old index belonging to the new index, in which the
    decision variable (position idx of the old index) is last. *)
Definition copy_insert (idx : Z) (newIndex oldIndex : list Z) : gores (list Z) :=
  let! od := foldM (fun od j => let! x := sget newIndex j in sset od j x)
                   oldIndex (zrange 0 idx) in
  let! od := foldM (fun od j => let! x := sget newIndex (j - 1) in sset od j x)
                   od (zrange (idx + 1) (zlen oldIndex)) in
  let! x := sget newIndex (zlen newIndex - 1) in
  sset od idx x.

(** ve/variables.go:150-217 Policy. The scratch slice rowData is fully overwritten
    for each row and therefore rebuilt per row. *)
Definition policy (s : vstate) (f : factor) (v : variable) : gores (vstate * factor) :=
  let '(idx, newVars0) := scan_vars (f_vars f) (v_id v) in
  if idx <? 0 then Panic (PMsg "variable not in this factor")
  else
  let! dv := sget (f_vars f) idx in
  let newVars := newVars0 ++ [dv] in
  let! (s', fNew) := create_factor s newVars None in
  let idxNew := zlen newVars - 1 in
  let cols := v_out dv in
  if cols =? 0 then Panic PDiv
  else
  let rows := Z.quot (zlen (f_data f)) cols in
  let! (_, _, fRes) :=
    foldM (fun '(oldIndex, newIndex, fNew) row =>
      let! nw := f_outcomes fNew (row * cols) newIndex in
      let! (oldIndex', nw', rowData) :=
        foldM (fun '(od, nw, rd) c =>
          let! nw' := sset nw idxNew c in
          let! od' := copy_insert idx nw' od in
          let! x := f_get f od' in
          Ok (od', nw', rd ++ [x])) (oldIndex, nw, []) (zrange 0 cols) in
      let mi := max_indices rowData in
      if zlen mi =? 0 then Panic (PMsg "no utility values to derive policy")
      else
      let probValue := ndiv n1 (nofint (zlen mi)) in
      let! (nw'', fNew') :=
        foldM (fun '(nw, fn) i =>
          let! nw' := sset nw idxNew i in
          let! fn' := f_set fn nw' probValue in
          Ok (nw', fn')) (nw', fNew) mi in
      Ok (oldIndex', nw'', fNew'))
    (repeat 0 (List.length (f_vars f)), repeat 0 (List.length newVars), fNew) (zrange 0 rows) in
  Ok (s', fRes).

(** ve/variables.go:227-236: position in the factor of each new variable, and whether
    the ids agree position by position. *)
Definition rearrange_indices (old new : list variable) : gores (list Z * bool) :=
  foldM (fun '(indices, eq) '(i, vv) =>
    let! ov := sget old i in
    let eq' := eq && (v_id vv =? v_id ov) in
    let idx := index_func (var_eqb vv) old in
    if idx <? 0 then Panic (PMsg "variable not in original factor")
    else Ok (indices ++ [idx], eq'))
  ([], true) (combine (zrange 0 (zlen new)) new).

(** ve/variables.go:220-255 Rearrange. oldIndex lives across iterations: entries that
    are never written stay zero. *)
Definition rearrange (s : vstate) (f : factor) (vars : list variable) : gores (vstate * factor) :=
  if negb (zlen (f_vars f) =? zlen vars) then Panic (PMsg "number of old and new variables doesn't match")
  else
  let! (indices, varsEqual) := rearrange_indices (f_vars f) vars in
  if varsEqual then create_factor s (f_vars f) (Some (f_data f))
  else
  let! (s', fNew) := create_factor s vars None in
  let! (_, _, data) :=
    foldM (fun '(oldIndex, newIndex, data) i =>
      let! od := foldM (fun od '(ij, x) => sset od ij x) oldIndex (combine indices newIndex) in
      let! x := f_get f od in
      let! data' := sset data i x in
      let! (newIndex', _) := vars_increment vars newIndex in
      Ok (od, newIndex', data'))
    (repeat 0 (List.length (f_vars f)), repeat 0 (List.length vars), f_data fNew)
    (zrange 0 (zlen (f_data fNew))) in
  Ok (s', mkFactor (f_id fNew) vars data).

(** ve/variables.go:263-276 and 310-323: union of the variables in order of first
    occurrence, and for each factor the positions of its variables in the union. *)
Definition union_maps (factors : list factor) : list variable * list (list Z) :=
  fold_left (fun '(newVars, maps) f =>
    let '(newVars', m) :=
      fold_left (fun '(nv, m) v =>
        let idx := index_func (var_eqb v) nv in
        if idx <? 0 then (nv ++ [v], m ++ [zlen nv]) else (nv, m ++ [idx]))
      (f_vars f) (newVars, []) in
    (newVars', maps ++ [m]))
  factors ([], []).

(** ve/variables.go:278-301 and 325-348: evaluate [op] over all factors at every joint
    index, starting from [init]. The scratch slices oldIndex are fully overwritten
    before use and therefore rebuilt. *)
Definition combine_factors (op : A -> A -> A) (init : A) (s : vstate) (factors : list factor)
  : gores (vstate * factor) :=
  let '(newVars, maps) := union_maps factors in
  let! (s', fNew) := create_factor s newVars None in
  let! (_, data) :=
    foldM (fun '(newIndex, data) i =>
      let! acc := foldM (fun acc '(m, fOld) =>
          let! oldIdx := mapM (fun idx => sget newIndex idx) m in
          let! x := f_get fOld oldIdx in
          Ok (op acc x)) init (combine maps factors) in
      let! data' := sset data i acc in
      let! (newIndex', _) := vars_increment newVars newIndex in
      Ok (newIndex', data'))
    (repeat 0 (List.length newVars), f_data fNew) (zrange 0 (zlen (f_data fNew))) in
  Ok (s', mkFactor (f_id fNew) newVars data).

(** ve/variables.go:258-302 Product *)
Definition product (s : vstate) (factors : list factor) : gores (vstate * factor) :=
  match factors with
  | [f] => create_factor s (f_vars f) (Some (f_data f))
  | _ => combine_factors nmul n1 s factors
  end.

(** ve/variables.go:305-349 Sum *)
Definition sum (s : vstate) (factors : list factor) : gores (vstate * factor) :=
  match factors with
  | [f] => create_factor s (f_vars f) (Some (f_data f))
  | _ => combine_factors nadd n0 s factors
  end.

(** ve/variables.go:352-375 Marginal *)
Definition marginal (s : vstate) (f : factor) (v : variable) : gores (vstate * factor) :=
  let idx := index_func (fun u => v_id u =? v_id v) (f_vars f) in
  if idx <? 0 then Panic (PMsg "variable not in this factor")
  else
  let! (s', fNew) := create_factor s [v] None in
  let! (_, data) :=
    foldM (fun '(oldIndex, data) x =>
      let! k := sget oldIndex idx in
      let! old := sget data k in
      let! data' := sset data k (nadd old x) in
      let! (oldIndex', _) := vars_increment (f_vars f) oldIndex in
      Ok (oldIndex', data'))
    (repeat 0 (List.length (f_vars f)), f_data fNew) (f_data f) in
  Ok (s', mkFactor (f_id fNew) [v] data).

(** ve/variables.go:378-394 Normalize. The copy of the data is divided element by
    element by the sum computed beforehand. *)
Definition normalize (s : vstate) (f : factor) : gores (vstate * factor) :=
  let! (s', fNew) := create_factor s (f_vars f) (Some (f_data f)) in
  let sum := fold_left nadd (f_data fNew) n0 in
  Ok (s', mkFactor (f_id fNew) (f_vars fNew) (map (fun x => ndiv x sum) (f_data fNew))).

(** ve/variables.go:398-438 NormalizeFor *)
Definition normalize_for (s : vstate) (f : factor) (v : variable) : gores (vstate * factor) :=
  let vs := f_vars f in
  let idx := index_func (fun u => v_id u =? v_id v) vs in
  if idx <? 0 then Panic (PMsg "variable not in this factor")
  else
  let! dv := sget vs idx in
  (* lines 411-418: all variables but position idx, then that one *)
  let newVars := firstn (Z.to_nat idx) vs ++ skipn (S (Z.to_nat idx)) vs ++ [dv] in
  let! (s', fNew) := rearrange s f newVars in
  let values := v_out v in
  if values =? 0 then Panic PDiv
  else
  let bins := Z.quot (zlen (f_data fNew)) values in
  let! data :=
    foldM (fun data i =>
      let! sum := foldM (fun sum j =>
          let! x := sget data (i * values + j) in Ok (nadd sum x)) n0 (zrange 0 values) in
      if neqb sum n0 then Ok data
      else
        foldM (fun data j =>
          let! x := sget data (i * values + j) in
          sset data (i * values + j) (ndiv x sum)) data (zrange 0 values))
    (f_data fNew) (zrange 0 bins) in
  Ok (s', mkFactor (f_id fNew) (f_vars fNew) data).

(** ve/variables.go:441-452 Invert *)
Definition invert (s : vstate) (f : factor) : gores (vstate * factor) :=
  let! (s', fNew) := create_factor s (f_vars f) (Some (f_data f)) in
  Ok (s', mkFactor (f_id fNew) (f_vars fNew) (map (fun x => ndiv n1 x) (f_data fNew))).

End Factors.

Arguments factor A : clear implicits.
