(** Specification vocabulary for samples that come from a network. *)
From Coq Require Import ZArith QArith Qcanon List Bool String.
From Verif Require Import Num GoBase VarModel SpecFactor NetModel SpecNet SpecTrain SpecLikelihood.
Import ListNotations.
Open Scope string_scope.
Open Scope list_scope.
Open Scope Z_scope.

Definition unignored : string -> bool := fun _ => false.
(** The number of samples with each joint outcome is in proportion to its probability in [n]. *)
Definition representative (n : network xnum) (samples : list (sample xnum)) : Prop :=
  exists c, c <> 0%Qc /\ forall s, In s (worlds_of n) -> qz (count_of (fun smp => fits (n_vars n) smp s) samples) = (c * joint n unignored s)%Qc.
