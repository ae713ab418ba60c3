(** Model of ve/variables.go with the arrays of numbers in memory.

    VarModel treats the data of a factor as a value. In Go it is a slice, which refers to an
    array that several factors, networks and callers may share. Here arrays live in a heap,
    and reading and writing an element reads and writes the heap, also in calls that end
    with an error or a panic. *)
From Coq Require Import ZArith List Bool String.
From Verif Require Import Num GoBase VarModel.
Import ListNotations.
Open Scope Z_scope.

Section Heap.
Context {A : Type} {N : NumOps A}.

(** The arrays of float64, by address. An address is a position in the list; arrays are never
    freed (garbage collection is not observable). *)
Definition heap := list (list A).

(** A computation that reads and writes the heap. What it wrote before an error or a panic
    stays written. *)
Definition act (X : Type) := heap -> heap * gores X.

Definition ret {X} (x : X) : act X := fun h => (h, Ok x).
Definition lift {X} (r : gores X) : act X := fun h => (h, r).
Definition bind {X Y} (m : act X) (k : X -> act Y) : act Y := fun h =>
  let '(h', r) := m h in
  match r with Ok x => k x h' | Err e => (h', Err e) | Panic p => (h', Panic p) end.

(** A loop with loop-carried state. *)
Fixpoint foldA {S X} (f : S -> X -> act S) (s : S) (l : list X) : act S :=
  match l with
  | [] => ret s
  | x :: r => bind (f s x) (fun s' => foldA f s' r)
  end.

(** make and slice literals: a new array *)
Definition alloc (d : list A) : act nat := fun h => (h ++ [d], Ok (List.length h)).
(** The elements of a slice that refers to a whole array (simplification: slices of parts of
    an array do not occur as tables) *)
Definition load (a : nat) : act (list A) := fun h =>
  (h, match nth_error h a with Some d => Ok d | None => Panic PNil end).
(** len(s), s[i], s[i] = x *)
Definition len_at (a : nat) : act Z := bind (load a) (fun d => ret (zlen d)).
Definition get_elem (a : nat) (i : Z) : act A := bind (load a) (fun d => lift (sget d i)).
Definition put_elem (a : nat) (i : Z) (x : A) : act unit :=
  bind (load a) (fun d => bind (lift (sset d i x)) (fun d' h => (upd_nth h a d', Ok tt))).
(** append([]float64{}, s...): a copy *)
Definition copy_of (a : nat) : act nat := bind (load a) alloc.

End Heap.

Arguments heap A : clear implicits.
Arguments act A X : clear implicits.

Notation "'do!' x ':=' e 'in' k" := (bind e (fun x => k))
  (at level 200, x pattern, e at level 200, k at level 200, right associativity).

Section HeapFactors.
Context {A : Type} {N : NumOps A}.
Notation act := (act A).

(** A slice of float64 is represented by the list that holds the address of its array. So
    [factor nat] is the struct Factor of ve/factor.go:7-11, with data a reference. *)
Definition ref (a : nat) : list nat := [a].
Definition addr (l : list nat) : nat := hd O l.

(** ve/factor.go:67-70 Factor.Get *)
Definition h_get (f : factor nat) (indices : list Z) : act A :=
  do! idx := lift (f_index f indices) in get_elem (addr (f_data f)) idx.

(** ve/factor.go:73-76 Factor.Set *)
Definition h_set (f : factor nat) (indices : list Z) (x : A) : act unit :=
  do! idx := lift (f_index f indices) in put_elem (addr (f_data f)) idx x.

(** ve/variables.go:41-63 CreateFactor: the factor refers to the array of the caller, or to a
    new one if [data] is None (nil) *)
Definition h_create_factor (s : vstate) (vars : list variable) (data : option (list nat))
  : act (vstate * factor nat) :=
  let rows := vars_rows vars in
  do! a := match data with
           | None => do! d := lift (smake rows n0) in alloc d
           | Some r =>
               do! n := len_at (addr r) in
               if negb (n =? rows) then lift (Panic (PMsg "wrong data length for factor")) else ret (addr r)
           end in
  ret (mkVS (vs_counter s + 1) (vs_vars s) (vs_ids s), mkFactor (vs_counter s) vars (ref a)).

(** ve/variables.go:66-107 Restrict *)
Definition h_restrict (s : vstate) (f : factor nat) (v : variable) (observation : Z)
  : act (vstate * factor nat) :=
  if (observation <? 0) || (v_out v <=? observation) then lift (Panic (PMsg "observation out of range"))
  else
  do! _ := lift (smake (zlen (f_vars f) - 1) tt) in
  let '(idx, newVars) := scan_vars (f_vars f) (v_id v) in
  if idx <? 0 then lift (Panic (PMsg "variable not in this factor"))
  else
  do! (s', fNew) := h_create_factor s newVars None in
  do! n := len_at (addr (f_data f)) in
  do! _ :=
    foldA (fun '(oldIndex, newIndex) i =>
      do! x := get_elem (addr (f_data f)) i in
      do! o := lift (sget oldIndex idx) in
      do! newIndex' :=
        (if o =? observation then
          do! nw := lift (copy_skip idx oldIndex newIndex) in
          do! _ := h_set fNew nw x in
          ret nw
        else ret newIndex) in
      do! (oldIndex', _) := lift (vars_increment (f_vars f) oldIndex) in
      ret (oldIndex', newIndex'))
    (repeat 0 (List.length (f_vars f)), repeat 0 (List.length newVars)) (zrange 0 n) in
  ret (s', fNew).

(** ve/variables.go:110-147 SumOut *)
Definition h_sum_out (s : vstate) (f : factor nat) (v : variable) : act (vstate * factor nat) :=
  do! _ := lift (smake (zlen (f_vars f) - 1) tt) in
  let '(idx, newVars) := scan_vars (f_vars f) (v_id v) in
  if idx <? 0 then lift (Panic (PMsg "variable not in this factor"))
  else
  do! (s', fNew) := h_create_factor s newVars None in
  do! n := len_at (addr (f_data f)) in
  do! _ :=
    foldA (fun '(oldIndex, newIndex) i =>
      do! x := get_elem (addr (f_data f)) i in
      do! nw := lift (copy_skip idx oldIndex newIndex) in
      do! k := lift (f_index fNew nw) in
      do! old := get_elem (addr (f_data fNew)) k in
      do! _ := put_elem (addr (f_data fNew)) k (nadd old x) in
      do! (oldIndex', _) := lift (vars_increment (f_vars f) oldIndex) in
      ret (oldIndex', nw))
    (repeat 0 (List.length (f_vars f)), repeat 0 (List.length newVars)) (zrange 0 n) in
  ret (s', fNew).

(** ve/variables.go:150-217 Policy. The scratch slice rowData does not leave the function and
    stays a value. *)
Definition h_policy (s : vstate) (f : factor nat) (v : variable) : act (vstate * factor nat) :=
  let '(idx, newVars0) := scan_vars (f_vars f) (v_id v) in
  if idx <? 0 then lift (Panic (PMsg "variable not in this factor"))
  else
  do! dv := lift (sget (f_vars f) idx) in
  let newVars := newVars0 ++ [dv] in
  do! (s', fNew) := h_create_factor s newVars None in
  let idxNew := zlen newVars - 1 in
  let cols := v_out dv in
  if cols =? 0 then lift (Panic PDiv)
  else
  do! n := len_at (addr (f_data f)) in
  let rows := Z.quot n cols in
  do! _ :=
    foldA (fun '(oldIndex, newIndex) row =>
      do! nw := lift (f_outcomes fNew (row * cols) newIndex) in
      do! (oldIndex', nw', rowData) :=
        foldA (fun '(od, nw, rd) c =>
          do! nw' := lift (sset nw idxNew c) in
          do! od' := lift (copy_insert idx nw' od) in
          do! x := h_get f od' in
          ret (od', nw', rd ++ [x])) (oldIndex, nw, []) (zrange 0 cols) in
      let mi := max_indices rowData in
      if zlen mi =? 0 then lift (Panic (PMsg "no utility values to derive policy"))
      else
      let probValue := ndiv n1 (nofint (zlen mi)) in
      do! nw'' :=
        foldA (fun nw i =>
          do! nw' := lift (sset nw idxNew i) in
          do! _ := h_set fNew nw' probValue in
          ret nw') nw' mi in
      ret (oldIndex', nw''))
    (repeat 0 (List.length (f_vars f)), repeat 0 (List.length newVars)) (zrange 0 rows) in
  ret (s', fNew).

(** ve/variables.go:220-255 Rearrange *)
Definition h_rearrange (s : vstate) (f : factor nat) (vars : list variable) : act (vstate * factor nat) :=
  if negb (zlen (f_vars f) =? zlen vars) then lift (Panic (PMsg "number of old and new variables doesn't match"))
  else
  do! (indices, varsEqual) := lift (rearrange_indices (f_vars f) vars) in
  if varsEqual : bool then
    do! a := copy_of (addr (f_data f)) in h_create_factor s (f_vars f) (Some (ref a))
  else
  do! (s', fNew) := h_create_factor s vars None in
  do! n := len_at (addr (f_data fNew)) in
  do! _ :=
    foldA (fun '(oldIndex, newIndex) i =>
      do! od := lift (foldM (fun od '(ij, x) => sset od ij x) oldIndex (combine indices newIndex)) in
      do! x := h_get f od in
      do! _ := put_elem (addr (f_data fNew)) i x in
      do! (newIndex', _) := lift (vars_increment vars newIndex) in
      ret (od, newIndex'))
    (repeat 0 (List.length (f_vars f)), repeat 0 (List.length vars)) (zrange 0 n) in
  ret (s', fNew).

(** ve/variables.go:278-301 and 325-348, the common part of Product and Sum *)
Definition h_combine_factors (op : A -> A -> A) (init : A) (s : vstate) (factors : list (factor nat))
  : act (vstate * factor nat) :=
  let '(newVars, maps) := union_maps factors in
  do! (s', fNew) := h_create_factor s newVars None in
  do! n := len_at (addr (f_data fNew)) in
  do! _ :=
    foldA (fun newIndex i =>
      do! acc := foldA (fun acc '(m, fOld) =>
          do! oldIdx := lift (mapM (fun idx => sget newIndex idx) m) in
          do! x := h_get fOld oldIdx in
          ret (op acc x)) init (combine maps factors) in
      do! _ := put_elem (addr (f_data fNew)) i acc in
      do! (newIndex', _) := lift (vars_increment newVars newIndex) in
      ret newIndex')
    (repeat 0 (List.length newVars)) (zrange 0 n) in
  ret (s', fNew).

(** ve/variables.go:258-302 Product *)
Definition h_product (s : vstate) (factors : list (factor nat)) : act (vstate * factor nat) :=
  match factors with
  | [f] => do! a := copy_of (addr (f_data f)) in h_create_factor s (f_vars f) (Some (ref a))
  | _ => h_combine_factors nmul n1 s factors
  end.

(** ve/variables.go:305-349 Sum *)
Definition h_sum (s : vstate) (factors : list (factor nat)) : act (vstate * factor nat) :=
  match factors with
  | [f] => do! a := copy_of (addr (f_data f)) in h_create_factor s (f_vars f) (Some (ref a))
  | _ => h_combine_factors nadd n0 s factors
  end.

(** ve/variables.go:352-375 Marginal *)
Definition h_marginal (s : vstate) (f : factor nat) (v : variable) : act (vstate * factor nat) :=
  let idx := index_func (fun u => v_id u =? v_id v) (f_vars f) in
  if idx <? 0 then lift (Panic (PMsg "variable not in this factor"))
  else
  do! (s', fNew) := h_create_factor s [v] None in
  do! n := len_at (addr (f_data f)) in
  do! _ :=
    foldA (fun oldIndex i =>
      do! x := get_elem (addr (f_data f)) i in
      do! k := lift (sget oldIndex idx) in
      do! old := get_elem (addr (f_data fNew)) k in
      do! _ := put_elem (addr (f_data fNew)) k (nadd old x) in
      do! (oldIndex', _) := lift (vars_increment (f_vars f) oldIndex) in
      ret oldIndex')
    (repeat 0 (List.length (f_vars f))) (zrange 0 n) in
  ret (s', fNew).

(** ve/variables.go:378-394 Normalize: the sum over the copy, then the copy is divided in place *)
Definition h_normalize (s : vstate) (f : factor nat) : act (vstate * factor nat) :=
  do! a := copy_of (addr (f_data f)) in
  do! (s', fNew) := h_create_factor s (f_vars f) (Some (ref a)) in
  do! n := len_at (addr (f_data fNew)) in
  do! sum := foldA (fun sum i => do! x := get_elem (addr (f_data fNew)) i in ret (nadd sum x)) n0 (zrange 0 n) in
  do! _ := foldA (fun _ i =>
      do! x := get_elem (addr (f_data fNew)) i in
      put_elem (addr (f_data fNew)) i (ndiv x sum)) tt (zrange 0 n) in
  ret (s', fNew).

(** ve/variables.go:398-438 NormalizeFor: the rearranged copy is divided in place *)
Definition h_normalize_for (s : vstate) (f : factor nat) (v : variable) : act (vstate * factor nat) :=
  let vs := f_vars f in
  let idx := index_func (fun u => v_id u =? v_id v) vs in
  if idx <? 0 then lift (Panic (PMsg "variable not in this factor"))
  else
  do! dv := lift (sget vs idx) in
  let newVars := firstn (Z.to_nat idx) vs ++ skipn (S (Z.to_nat idx)) vs ++ [dv] in
  do! (s', fNew) := h_rearrange s f newVars in
  let values := v_out v in
  if values =? 0 then lift (Panic PDiv)
  else
  do! n := len_at (addr (f_data fNew)) in
  let bins := Z.quot n values in
  do! _ :=
    foldA (fun _ i =>
      do! sum := foldA (fun sum j =>
          do! x := get_elem (addr (f_data fNew)) (i * values + j) in ret (nadd sum x)) n0 (zrange 0 values) in
      if neqb sum n0 then ret tt
      else
        foldA (fun _ j =>
          do! x := get_elem (addr (f_data fNew)) (i * values + j) in
          put_elem (addr (f_data fNew)) (i * values + j) (ndiv x sum)) tt (zrange 0 values))
    tt (zrange 0 bins) in
  ret (s', fNew).

(** ve/variables.go:441-452 Invert: the copy is inverted in place *)
Definition h_invert (s : vstate) (f : factor nat) : act (vstate * factor nat) :=
  do! a := copy_of (addr (f_data f)) in
  do! (s', fNew) := h_create_factor s (f_vars f) (Some (ref a)) in
  do! n := len_at (addr (f_data fNew)) in
  do! _ := foldA (fun _ i =>
      do! x := get_elem (addr (f_data fNew)) i in
      put_elem (addr (f_data fNew)) i (ndiv n1 x)) tt (zrange 0 n) in
  ret (s', fNew).

End HeapFactors.
