(** Specification vocabulary for rows that share the memory of their table. *)
From Coq Require Import ZArith List Bool String.
From Verif Require Import Num GoBase VarModel VEModel NetModel SpecNet TrainModel HeapVarModel HeapVEModel HeapNetModel HeapRowModel SpecHeap.
Import ListNotations.
Open Scope string_scope.
Open Scope list_scope.
Open Scope Z_scope.

Section SpecHeapRow.
Context {A : Type} {N : NumOps A}.

(** What a part of an array stands for in memory [h] *)
Definition read_part (h : heap A) (p : part) : option (list A) :=
  match p_of p with
  | [] => Some []
  | r => option_map (fun d => firstn (Z.to_nat (p_hi p - p_lo p)) (skipn (Z.to_nat (p_lo p)) d)) (read_slice h r)
  end.

(** Entry [i] of a table is replaced. *)
Definition overwrite (f : nfactor A) (i : Z) (x : A) : nfactor A :=
  mkNFactor (nf_for f) (nf_given f) (option_map (fun t => upd_nth t (Z.to_nat i) x) (nf_table f)) (nf_outcomes f) (nf_columns f).
(** Entry [i] of the table of the [j]-th factor of a network is replaced, and nothing else. *)
Definition overwritten (v : network A) (j : nat) (i : Z) (x : A) : network A :=
  mkNet (n_name v) (n_info v) (n_vars v) (match nth_error (n_factors v) j with Some g => upd_nth (n_factors v) j (overwrite g i x) | None => n_factors v end)
    (n_policies v) (n_ve v) (n_names v) (n_tui v).

(** A program that uses a network (SpecHeap.v: [program]) and also writes to rows of its factors:
    it has the slice of factors that it gave to New, which the network uses too.
    [v] is the network according to the value model. *)
Inductive editor : heap A -> network nat -> network A -> list nat -> Prop :=
| e_program h n v mine : program h n v mine -> editor h n v mine
(** row, ok := factors[j].Row(indices); row[k] = x *)
| e_row h n v mine j f indices p k x h1 h2 :
    editor h n v mine -> NoDup (tables n) ->
    nth_error (n_factors n) j = Some f ->
    h_nf_row f indices h = (h1, Ok (p, true)) -> part_set p k x h1 = (h2, Ok tt) ->
    editor h2 n (overwritten v j (row_number (nf_outcomes f) indices + k) x) mine
(** a call that does not panic *)
| e_call sc rq rq' h n v mine h' m r v' r' :
    editor h n v mine -> positional sc ->
    read_request h rq = Some rq' ->
    (is_training rq = true -> NoDup (tables n)) ->
    h_serve sc n rq h = (h', (m, r)) -> serve sc v rq' = (v', r') ->
    (forall p, r <> Panic p) ->
    editor h' m v' (match r with Ok x => reply_arrays x | _ => [] end ++ mine)
(** the program writes to one of its own arrays *)
| e_write h n v mine a d :
    editor h n v mine -> In a mine -> editor (upd_nth h a d) n v mine.

End SpecHeapRow.
