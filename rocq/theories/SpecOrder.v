(** The order of utilities that need not be finite, for the choice of the best options. *)
From Coq Require Import ZArith List Bool QArith Qcanon.
From Verif Require Import Num.

(** One value is smaller than another one: minus infinity, the finite numbers, plus infinity.
    NaN is not comparable with anything. *)
Inductive below : xnum -> xnum -> Prop :=
| below_finite p q : (p < q)%Qc -> below (Fin p) (Fin q)
| below_from_minus q : below NInf (Fin q)
| below_to_plus p : below (Fin p) PInf
| below_ends : below NInf PInf.

(** Option k is one of the best of the n options with the values u: it is a number, and no option is better. *)
Definition best_option (u : nat -> xnum) (n k : nat) : Prop :=
  u k <> NaN /\ forall j, (j < n)%nat -> ~ below (u k) (u j).
