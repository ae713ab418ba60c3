(** Specification vocabulary for factors: factors are functions of joint assignments. *)
From Coq Require Import ZArith List Bool.
From Verif Require Import Num GoBase VarModel.
Import ListNotations.
Open Scope Z_scope.

(** A joint assignment gives every variable id an outcome. *)
Definition asg := Z -> nat.

(** Assignment a with variable id set to outcome k. *)
Definition upd (a : asg) (id : Z) (k : nat) : asg := fun x => if x =? id then k else a x.

(** All variables of the list take one of their outcomes. *)
Definition in_range (vs : list variable) (a : asg) : Prop :=
  forall v, In v vs -> (a (v_id v) < v_outcomes v)%nat.

(** The index tuple of an assignment, as passed to Get, Set, Index. *)
Definition tuple_of (vs : list variable) (a : asg) : list Z :=
  map (fun v => Z.of_nat (a (v_id v))) vs.

Section Spec.
Context {A : Type}.

(** The value of a factor under a joint assignment, read through the API. *)
Definition get_at (f : factor A) (a : asg) : gores A := f_get f (tuple_of (f_vars f) a).

(** Distinct variables, and as many values as joint outcomes. *)
Definition wf_vars (vs : list variable) : Prop := NoDup (map v_id vs).

Definition num_cells (vs : list variable) : nat :=
  fold_right (fun v n => (v_outcomes v * n)%nat) 1%nat vs.

Definition wf_factor (f : factor A) : Prop :=
  wf_vars (f_vars f) /\ length (f_data f) = num_cells (f_vars f).

(** Variables with the same id are the same variable (in all factors given). *)
Definition consistent (fs : list (factor A)) : Prop :=
  forall f g v w, In f fs -> In g fs -> In v (f_vars f) -> In w (f_vars g) -> v_id v = v_id w -> v = w.
End Spec.

(** Left-to-right sum and product of readings. *)
Definition sum_of {A} {N : NumOps A} (l : list (gores A)) : gores A :=
  foldM (fun acc r => let! x := r in Ok (nadd acc x)) n0 l.
Definition prod_of {A} {N : NumOps A} (l : list (gores A)) : gores A :=
  foldM (fun acc r => let! x := r in Ok (nmul acc x)) n1 l.

(** All assignments obtained from [a] by giving the listed variables every
    combination of their outcomes (first variable slowest). *)
Fixpoint worlds (vs : list variable) (a : asg) : list asg :=
  match vs with
  | [] => [a]
  | v :: r => flat_map (fun k => worlds r (upd a (v_id v) k)) (seq 0 (v_outcomes v))
  end.

(** The variables other than [v]. *)
Definition others (vs : list variable) (v : variable) : list variable :=
  filter (fun u => negb (v_id u =? v_id v)) vs.

(** A tuple with one in-range outcome per variable. *)
Definition tuple_ok (vs : list variable) (t : list Z) : Prop :=
  Forall2 (fun v k => 0 <= k < Z.of_nat (v_outcomes v)) vs t.

(** First-occurrence order: the variables of the result are those of the
    concatenated scopes with later repetitions dropped. *)
Definition first_occurrences (vs : list variable) : list variable :=
  fold_left (fun acc v => if existsb (fun u => v_id u =? v_id v) acc then acc else acc ++ [v]) vs [].

(** ** Exact values *)
From Coq Require Import QArith Qcanon.

Definition qsum (l : list Qc) : Qc := fold_right Qcplus 0%Qc l.
Definition qprod (l : list Qc) : Qc := fold_right Qcmult 1%Qc l.

(** The factor stands for the function q of assignments (all values finite). *)
Definition denotes (f : factor xnum) (q : asg -> Qc) : Prop :=
  forall a, in_range (f_vars f) a -> get_at f a = Ok (Fin (q a)).

(** k is a maximiser of [u] among the outcomes 0..n-1 *)
Definition is_max (u : nat -> Qc) (n k : nat) : bool :=
  forallb (fun j => Qle_bool (u j) (u k)) (seq 0 n).
(** number of maximisers *)
Definition num_max (u : nat -> Qc) (n : nat) : nat := length (filter (is_max u n) (seq 0 n)).
