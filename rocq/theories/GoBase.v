(** Go results, slices, loops, maps and map iteration order. *)
From Coq Require Import ZArith List Bool String Permutation.
Import ListNotations.
Open Scope Z_scope.

(** Run-time panics. *)
Inductive gopanic :=
| PIndex               (* index or slice bounds out of range *)
| PNil                 (* nil pointer dereference *)
| PDiv                 (* integer division by zero *)
| PMake                (* make with negative length or capacity *)
| PShift               (* negative shift amount *)
| PMsg (s : string)    (* explicit panic(...) *)
| PFuel.               (* model only: recursion budget exhausted; proved unreachable *)

(** Error values returned by the Go code; only the kind of error is kept, not its text. *)
Inductive goerr := EMsg (s : string).

Inductive gores (A : Type) :=
| Ok (a : A)
| Err (e : goerr)
| Panic (p : gopanic).
Arguments Ok {A} a.
Arguments Err {A} e.
Arguments Panic {A} p.

Definition gbind {A B} (m : gores A) (k : A -> gores B) : gores B :=
  match m with Ok a => k a | Err e => Err e | Panic p => Panic p end.

Notation "'let!' x ':=' e 'in' k" := (gbind e (fun x => k))
  (at level 200, x pattern, e at level 200, k at level 200, right associativity).

Definition is_ok {A} (m : gores A) : bool := match m with Ok _ => true | _ => false end.
Definition is_err {A} (m : gores A) : bool := match m with Err _ => true | _ => false end.
Definition is_panic {A} (m : gores A) : bool := match m with Panic _ => true | _ => false end.

(** A loop "for _, x := range l" with loop-carried state. *)
Fixpoint foldM {S X} (f : S -> X -> gores S) (s : S) (l : list X) : gores S :=
  match l with
  | [] => Ok s
  | x :: r => let! s' := f s x in foldM f s' r
  end.

(** Applying a function that may fail to every element, left to right. *)
Fixpoint mapM {X Y} (f : X -> gores Y) (l : list X) : gores (list Y) :=
  match l with
  | [] => Ok []
  | x :: r => let! y := f x in let! ys := mapM f r in Ok (y :: ys)
  end.

(** The loop counter values of "for j := lo; j < hi; j++". *)
Definition zrange (lo hi : Z) : list Z :=
  map (fun k => lo + Z.of_nat k) (seq 0 (Z.to_nat (hi - lo))).

(** len(s) *)
Definition zlen {A} (l : list A) : Z := Z.of_nat (List.length l).

(** s[i] *)
Definition sget {A} (l : list A) (i : Z) : gores A :=
  if i <? 0 then Panic PIndex
  else match nth_error l (Z.to_nat i) with Some x => Ok x | None => Panic PIndex end.

Fixpoint upd_nth {A} (l : list A) (n : nat) (x : A) : list A :=
  match l, n with
  | [], _ => []
  | _ :: r, O => x :: r
  | y :: r, S n' => y :: upd_nth r n' x
  end.

(** s[i] = x *)
Definition sset {A} (l : list A) (i : Z) (x : A) : gores (list A) :=
  if (i <? 0) || (zlen l <=? i) then Panic PIndex
  else Ok (upd_nth l (Z.to_nat i) x).

(** s[lo:hi] (bounds checked against the length; the capacity of the slices
    concerned equals their length) *)
Definition sslice {A} (l : list A) (lo hi : Z) : gores (list A) :=
  if (lo <? 0) || (hi <? lo) || (zlen l <? hi) then Panic PIndex
  else Ok (firstn (Z.to_nat (hi - lo)) (skipn (Z.to_nat lo) l)).

(** make([]T, n) *)
Definition smake {A} (n : Z) (zero : A) : gores (list A) :=
  if n <? 0 then Panic PMake else Ok (repeat zero (Z.to_nat n)).

(** slices.IndexFunc: position of the first element satisfying p, or -1 *)
Fixpoint index_func_from {A} (p : A -> bool) (l : list A) (i : Z) : Z :=
  match l with
  | [] => -1
  | x :: r => if p x then i else index_func_from p r (i + 1)
  end.
Definition index_func {A} (p : A -> bool) (l : list A) : Z := index_func_from p l 0.

(** ** Map iteration order

    [range] over a Go map visits the entries in an unspecified order that may
    differ at every loop.  A schedule gives the order used by the n-th loop over
    a map of an execution.  All theorems quantify over schedules. *)
Record sched := {
  shuffle : nat -> forall T : Type, list T -> list T;
  shuffle_perm : forall n T (l : list T), Permutation l (shuffle n T l)
}.
Arguments shuffle s n {T} l.

(** Insertion order. *)
Definition sched_id : sched :=
  {| shuffle := fun _ _ l => l; shuffle_perm := fun _ _ l => Permutation_refl l |}.
(** Reverse insertion order. *)
Definition sched_rev : sched :=
  {| shuffle := fun _ _ l => rev l; shuffle_perm := fun _ _ l => Permutation_rev l |}.

(** ** Maps as association lists in insertion order *)

Fixpoint mget {K V} (eqb : K -> K -> bool) (m : list (K * V)) (k : K) : option V :=
  match m with
  | [] => None
  | (k', v) :: r => if eqb k k' then Some v else mget eqb r k
  end.

(** m[k] = v *)
Fixpoint mset {K V} (eqb : K -> K -> bool) (m : list (K * V)) (k : K) (v : V) : list (K * V) :=
  match m with
  | [] => [(k, v)]
  | (k', v') :: r => if eqb k k' then (k', v) :: r else (k', v') :: mset eqb r k v
  end.

(** delete(m, k) *)
Definition mdel {K V} (eqb : K -> K -> bool) (m : list (K * V)) (k : K) : list (K * V) :=
  filter (fun e => negb (eqb k (fst e))) m.

(** uint16(n) for a non-negative int *)
Definition u16 (n : Z) : nat := Z.to_nat (n mod 65536).
