(** Model of the methods that return a part of a table, with tables in memory: ve/factor.go
    Factor.Row and network.go Factor.Row. The slice they return shares the array of the table. *)
From Coq Require Import ZArith List Bool String.
From Verif Require Import Num GoBase VarModel NetModel HeapVarModel.
Import ListNotations.
Open Scope Z_scope.

(** A slice that refers to the elements from [p_lo] to before [p_hi] of the array of another
    slice; [p_of] is empty for nil. The capacity (what append may overwrite) is not modelled. *)
Record part := mkPart { p_of : list nat; p_lo : Z; p_hi : Z }.

Section HeapRow.
Context {A : Type} {N : NumOps A}.

(** The elements of a slice that may be nil *)
Definition load_slice (r : list nat) : act A (list A) := match r with [] => ret [] | _ => load (addr r) end.

(** s[lo:hi]: no element is copied *)
Definition part_of (r : list nat) (lo hi : Z) : act A part :=
  do! d := load_slice r in
  do! _ := lift (sslice d lo hi) in
  ret (mkPart r lo hi).

(** p[k] and p[k] = x, for a slice that is a part *)
Definition part_get (p : part) (k : Z) : act A A :=
  if (k <? 0) || (p_hi p - p_lo p <=? k) then lift (Panic PIndex) else get_elem (addr (p_of p)) (p_lo p + k).
Definition part_set (p : part) (k : Z) (x : A) : act A unit :=
  if (k <? 0) || (p_hi p - p_lo p <=? k) then lift (Panic PIndex) else put_elem (addr (p_of p)) (p_lo p + k) x.

(** ve/factor.go:81-84 Factor.Row *)
Definition h_row (f : factor nat) (indices : list Z) : act A part :=
  do! (idx, ln) := lift (f_row_index f indices) in part_of (f_data f) idx (idx + ln).

(** network.go:37-43 Factor.Row *)
Definition h_nf_row (f : nfactor nat) (indices : list Z) : act A (part * bool) :=
  do! (idx, ok) := lift (nf_row_index f indices) in
  if negb ok then ret (mkPart [] 0 0, false)
  else do! p := part_of (slice_of (nf_table f)) idx (idx + nf_columns f) in ret (p, true).

End HeapRow.
