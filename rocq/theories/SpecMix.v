(** Specification vocabulary for a table between two tables. *)
From Coq Require Import ZArith List Bool String QArith Qcanon.
From Verif Require Import Num GoBase VarModel SpecFactor NetModel SpecNet SpecNetPolicy.
Import ListNotations.
Open Scope string_scope.
Open Scope list_scope.
Open Scope Z_scope.

(** The networks [n], [n1] and [n2] differ in the table of one chance variable only. The conditional
    probabilities in [n] are those of [n1] with weight [w] plus those of [n2] with weight [1 - w]. *)
Record between (w : Qc) (n n1 n2 : network xnum) : Prop := {
  bt_weight : (0 <= w)%Qc /\ (w <= 1)%Qc;
  bt_vars : n_vars n1 = n_vars n /\ n_vars n2 = n_vars n;
  bt_total : n_tui n1 = n_tui n /\ n_tui n2 = n_tui n;
  bt_policies : n_policies n1 = n_policies n /\ n_policies n2 = n_policies n;
  bt_utilities : forall u, net_weight n1 u = net_weight n u /\ net_weight n2 u = net_weight n u;
  bt_factors : exists pre f f1 f2 post,
    n_factors n = pre ++ f :: post /\ n_factors n1 = pre ++ f1 :: post /\ n_factors n2 = pre ++ f2 :: post /\
    nf_for f1 = nf_for f /\ nf_for f2 = nf_for f /\ nf_given f1 = nf_given f /\ nf_given f2 = nf_given f /\
    kind (n_vars n) (nf_for f) = Some Chance /\
    forall s, proper_state n s ->
      cond_prob (n_vars n) f s = (w * cond_prob (n_vars n) f1 s + (1 - w) * cond_prob (n_vars n) f2 s)%Qc
}.
