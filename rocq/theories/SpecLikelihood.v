(** The probability that a network gives to samples. *)
From Coq Require Import ZArith QArith Qcanon List Bool String.
From Verif Require Import Num GoBase VarModel SpecFactor NetModel SpecNet SpecTrain.
Import ListNotations.
Open Scope string_scope.
Open Scope list_scope.
Open Scope Z_scope.

(** The sample has an outcome for every chance and decision variable. *)
Definition complete_sample {A} (vars : list nvar) (smp : sample A) : Prop :=
  forall v, In v vars -> nv_type v <> Utility -> 0 <= observed vars smp (nv_name v).

(** The state has the known outcomes of the sample. *)
Definition fits {A} (vars : list nvar) (smp : sample A) (s : nstate) : bool :=
  forallb (fun v => is_kind Utility v || (observed vars smp (nv_name v) <? 0) || (observed vars smp (nv_name v) =? Z.of_nat (s (nv_name v)))) vars.

(** The probability of a list of independent samples. *)
Definition likelihood {A} (n : network xnum) (samples : list (sample A)) : Qc :=
  qprod (map (fun smp => mass n (fun _ => false) (fits (n_vars n) smp)) samples).

(** The known outcomes of a sample as observations by name. *)
Definition as_evidence {A} (vars : list nvar) (smp : sample A) : list (string * string) :=
  map (fun v => (nv_name v, nth (Z.to_nat (observed vars smp (nv_name v))) (nv_outcomes v) ""))
    (filter (fun v => negb (is_kind Utility v) && (0 <=? observed vars smp (nv_name v))) vars).
