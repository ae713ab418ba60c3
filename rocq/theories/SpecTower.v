(** Specification: reading the answer of SolveUtility for no variables (C130). *)
From Coq Require Import List String QArith Qcanon.
From Verif Require Import Num GoBase VarModel SpecFactor NetModel SpecNet.
Import ListNotations.

(** The call succeeded and gives the number [u]. *)
Definition valued (r : network xnum * gores (factor xnum)) (u : Qc) : Prop :=
  exists n' f, r = (n', Ok f) /\ f_vars f = [] /\ f_data f = [Fin u].

(** The probability of the evidence. *)
Definition evidence_prob (n : network xnum) (ev : list (string * string)) : Qc := mass n (fun _ => false) (agrees (n_vars n) ev).
