(** Specification vocabulary: tables whose variables may be listed several times. *)
From Coq Require Import ZArith List Bool QArith Qcanon.
From Verif Require Import Num GoBase VarModel SpecFactor SpecVE.
Import ListNotations.
Open Scope Z_scope.

(** The assignment that gives each listed variable the last of the outcomes listed for it, and
    outcome zero to all other variables. *)
Definition last_given (vars : list variable) (t : list nat) : asg :=
  fold_left (fun a vk => upd a (v_id (fst vk)) (snd vk)) (combine vars t) (fun _ => 0%nat).

(** The number of combinations of outcomes of the utility variables other than [u]. *)
Definition other_combinations (V : list variable) (u : variable) : Qc :=
  Q2Qc (inject_Z (Z.of_nat (num_cells (filter (fun u' => negb (v_id u' =? v_id u)) (utilities_of V))))).
