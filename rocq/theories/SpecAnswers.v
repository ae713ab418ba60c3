(** Specification vocabulary: reading the answer of a query. *)
From Coq Require Import List String QArith Qcanon.
From Verif Require Import Num GoBase VarModel NetModel.
Import ListNotations.

(** The call succeeded, and gives outcome [k] of variable [q] the probability [p]. *)
Definition answered (r : network xnum * gores (list (string * list xnum) * factor xnum)) (q : string) (k : nat) (p : Qc) : Prop :=
  exists n' res f l, r = (n', Ok (res, f)) /\ sget_map res q = Some l /\ nth_error l k = Some (Fin p).
