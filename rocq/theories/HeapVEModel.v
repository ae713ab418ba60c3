(** Model of ve/ve.go with the arrays of numbers in memory (see HeapVarModel). The functions
    of VEModel that do not touch numbers are used as they are, on [vestate nat]. *)
From Coq Require Import ZArith List Bool String.
From Verif Require Import Num GoBase VarModel VEModel HeapVarModel.
Import ListNotations.
Open Scope Z_scope.

Section HeapVE.
Context {A : Type} {N : NumOps A}.
Variable sc : sched.
Notation act := (act A).

(** ve/ve.go:367-383 restrictEvidence *)
Definition h_restrict_evidence (s : vestate nat) (ev : evidence) : act (vestate nat) :=
  let '(entries, s) := range_factors sc s in
  let indices := map fst (filter (fun '(_, f) => contains_var (f_vars f) (ev_var ev)) entries) in
  foldA (fun s idx =>
    match mget Z.eqb (ve_factors s) idx with
    | None => lift (Panic PNil)
    | Some fac =>
        let s1 := with_factors s (mdel Z.eqb (ve_factors s) idx) in
        do! (vs, fac2) := h_restrict (ve_vs s1) fac (ev_var ev) (ev_value ev) in
        ret (with_factors (with_vs s1 vs) (mset Z.eqb (ve_factors s1) (f_id fac2) fac2))
    end) s indices.

(** ve/ve.go:61-65 eliminateEvidence *)
Definition h_eliminate_evidence (s : vestate nat) (evs : list evidence) : act (vestate nat) :=
  foldA h_restrict_evidence s evs.

(** ve/ve.go:95-137 sumUtilities. At line 116, the literal with the weight is a new array. *)
Definition h_sum_utilities (s : vestate nat) : act (vestate nat) :=
  let utils := utility_vars s in
  match utils with
  | [] => ret s
  | _ =>
    let '(entries, s) := range_factors sc s in
    do! (vs, indices, factors) :=
      foldA (fun '(vs, indices, factors) '(k, f) =>
        let i := index_func (contains_var (f_vars f)) utils in
        if i <? 0 then ret (vs, indices, factors)
        else
          match ve_weights s with
          | None => ret (vs, indices ++ [k], factors ++ [f])
          | Some w =>
              do! wi := get_elem (addr w) i in
              do! a := alloc [wi] in
              do! (vs', ff) := h_product vs [f; mkFactor 0 [] (ref a)] in
              ret (vs', indices ++ [k], factors ++ [ff])
          end) (ve_vs s, [], []) entries in
    do! (vs, total) := h_sum vs factors in
    do! (vs, total, elim) :=
      foldA (fun '(vs, total, elim) u =>
        do! (vs', total') := h_sum_out vs total u in
        do! elim' := lift (sset elim (Z.of_nat (v_index u)) true) in
        ret (vs', total', elim')) (vs, total, ve_elim s) utils in
    ret (with_factors (with_elim (with_vs s vs) elim)
           (mset Z.eqb (del_all (ve_factors s) indices) (f_id total) total))
  end.

(** ve/ve.go:385-425 removeHidden *)
Definition h_remove_hidden (s : vestate nat) (v : variable) : act (vestate nat) :=
  let '(entries, s) := range_factors sc s in
  let sel := filter (fun '(_, f) => contains_id (f_vars f) (v_id v)) entries in
  do! (vs, p) := h_product (ve_vs s) (map snd sel) in
  do! (vs, p) := h_sum_out vs p v in
  do! elim := lift (sset (ve_elim s) (Z.of_nat (v_index v)) true) in
  ret (with_factors (with_elim (with_vs s vs) elim)
         (mset Z.eqb (del_all (ve_factors s) (map fst sel)) (f_id p) p)).

(** ve/ve.go:144-191 eliminateHidden *)
Definition h_eliminate_hidden (s : vestate nat) (evs : list evidence) (query : list variable) (single : bool)
  : act (vestate nat) :=
  do! (s, isdp) := lift (get_decision_parents sc s single) in
  do! hidden := lift (hidden_vars s isdp evs query) in
  let '(s, degrees) := hidden_degrees sc s hidden in
  let hiddenList := sort_by snd (sort_by (fun p => v_id (fst p)) degrees) in
  foldA (fun s p => h_remove_hidden s (fst p)) s hiddenList.

(** ve/ve.go:427-458 multiplyAll. The factor returned stays in the map. *)
Definition h_multiply_all (s : vestate nat) : act (vestate nat * factor nat) :=
  let '(entries, s) := range_factors sc s in
  do! (vs, f) := h_product (ve_vs s) (map snd entries) in
  ret (with_factors (with_vs s vs) [(f_id f, f)], f).

(** ve/ve.go:244-260 solve *)
Definition h_ve_solve (s : vestate nat) (evs : list evidence) (query : list variable)
  (utility : bool) (utilityVar : option variable) : act (vestate nat * factor nat) :=
  do! s := h_eliminate_evidence s evs in
  do! s :=
    (if utility then
      match utilityVar with
      | None => h_sum_utilities s
      | Some u => ret (remove_utilities sc s (Some u))
      end
    else ret (remove_utilities sc s None)) in
  do! s := h_eliminate_hidden s evs query false in
  h_multiply_all s.

(** ve/ve.go:278-326 solvePolicies. A single factor is not copied at line 299. *)
Definition h_solve_policies_loop (s : vestate nat) (decisions : list variable) (single : bool)
  : act (vestate nat * list (variable * (factor nat * factor nat))) :=
  let todo := if single then firstn 1 (rev decisions) else rev decisions in
  foldA (fun '(s, policies) dec =>
    let '(s, factors) := find_decision_factors sc s dec in
    match factors with
    | [] => lift (Panic (PMsg "found no factors containing variable and its parents"))
    | _ =>
      do! (vs, fac) := match factors with
                       | [f] => ret (ve_vs s, f)
                       | _ => h_product (ve_vs s) factors
                       end in
      do! (vs, pol) := h_policy vs fac dec in
      let policies' := mset var_eqb policies dec (fac, pol) in
      let s := with_factors s (mset Z.eqb (ve_factors s) (f_id pol) pol) in
      do! vs := lift (set_chance vs (Z.of_nat (v_index dec))) in
      do! s := h_eliminate_hidden (with_vs s vs) [] [] single in
      ret (s, policies')
    end) (s, []) todo.

(** ve/ve.go:265-276 SolvePolicies *)
Definition h_ve_solve_policies (s : vestate nat) (single : bool)
  : act (vestate nat * option (list (variable * (factor nat * factor nat)))) :=
  do! (s, decisions) := lift (get_decisions sc s) in
  match decisions with
  | [] => ret (s, None)
  | _ =>
    do! s := h_sum_utilities s in
    do! s := h_eliminate_hidden s [] [] single in
    do! (s, policies) := h_solve_policies_loop s decisions single in
    ret (s, Some policies)
  end.

End HeapVE.
