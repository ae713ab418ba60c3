(** Property C16 for factors whose values need not be finite (ve/variables.go, Policy).
    Specification vocabulary: SpecFactor.v and SpecOrder.v. *)
From Coq Require Import ZArith List Bool Lia Arith PeanoNat ZifyBool ZifyNat Permutation QArith Qcanon.
From Coq Require String.
Import (notations) String.
From Verif Require Import Num GoBase VarModel GoFacts SpecFactor FactorFacts FactorAt XnumFacts ExactFactor SpecOrder PolicyAny Props_Factor.
Import ListNotations.
Open Scope Z_scope.

(** For any values, also infinite ones and NaN: if each context has an option whose value is a number, then in each context the best options
    share the weight equally, and all others have weight 0. *)
Theorem C16_any_values : forall s (f : factor xnum) v x,
  wf_factor f -> In v (f_vars f) -> (0 < v_outcomes v)%nat ->
  (forall a, in_range (f_vars f) a -> get_at f a = Ok (x a)) ->
  let u a k := x (upd a (v_id v) k) in
  let n := v_outcomes v in
  (forall a, in_range (f_vars f) a -> exists k, (k < n)%nat /\ u a k <> NaN) ->
  exists f', policy s f v = Ok (bump s, f') /\ wf_factor f' /\ f_vars f' = others (f_vars f) v ++ [v] /\
    forall a, in_range (f_vars f) a ->
      exists best, best <> [] /\ NoDup best /\ (forall k, In k best <-> (k < n)%nat /\ best_option (u a) n k) /\
        forall k, (k < n)%nat -> get_at f' (upd a (v_id v) k) =
          Ok (Fin (if in_dec Nat.eq_dec k best then 1 / qc (inject_Z (Z.of_nat (length best))) else 0)%Qc).
Proof. exact policy_any. Qed.

(** A context where no value is a number is a panic. *)
Theorem C16_no_values : forall s (f : factor xnum) v a,
  wf_factor f -> In v (f_vars f) -> (0 < v_outcomes v)%nat -> in_range (f_vars f) a ->
  (forall k, (k < v_outcomes v)%nat -> get_at f (upd a (v_id v) k) = Ok NaN) ->
  exists p, policy s f v = Panic p.
Proof. exact policy_nothing. Qed.

(** Infinite values and NaN in a factor. *)
Definition ex_inf : factor xnum := mkFactor 0 [ex_x; ex_y] [NInf; NaN; NInf; PInf; Fin 1%Qc; PInf].
Definition ex_nan : factor xnum := mkFactor 0 [ex_x; ex_y] [NaN; NaN; NaN; PInf; Fin 1%Qc; PInf].
Definition value_in (f : factor xnum) (a : asg) : xnum := match get_at f a with Ok x => x | _ => NaN end.

Example C16_any_example : wf_factor ex_inf /\ In ex_y (f_vars ex_inf) /\ (0 < v_outcomes ex_y)%nat /\
  (forall a, in_range (f_vars ex_inf) a -> get_at ex_inf a = Ok (value_in ex_inf a)) /\
  (forall a, in_range (f_vars ex_inf) a -> exists k, (k < v_outcomes ex_y)%nat /\ value_in ex_inf (upd a (v_id ex_y) k) <> NaN) /\
  (exists f', policy ex_s ex_inf ex_y = Ok (bump ex_s, f') /\
    map xshow (f_data f') = [SFin (1#2); SFin 0; SFin (1#2); SFin (1#2); SFin 0; SFin (1#2)]).
Proof.
  assert (Hw : wf_factor ex_inf) by (repeat split; unfold wf_vars; simpl; try reflexivity;
    repeat (constructor; [simpl; intuition discriminate|]); constructor).
  split; [exact Hw|]. split; [simpl; auto|]. split; [simpl; lia|].
  split; [|split].
  - intros a Ha. unfold value_in. rewrite get_at_fv by (auto using wf_fits). auto.
  - intros a Ha. exists 0%nat. split; [simpl; lia|].
    assert (H0 : (a 0%Z < 2)%nat) by (apply (Ha ex_x); simpl; auto).
    unfold value_in, get_at, tuple_of. cbn [map f_vars ex_inf v_id ex_x ex_y]. change (upd a 1 0%nat 0) with (a 0). change (upd a 1 0%nat 1) with 0%nat. destruct (a 0) as [|[|]]; [| |lia]; intros H; vm_compute in H; discriminate H.
  - eexists. split; [vm_compute; reflexivity|]. vm_compute. reflexivity.
Qed.

Example C16_no_example : wf_factor ex_nan /\ in_range (f_vars ex_nan) (fun _ => 0%nat) /\
  (forall k, (k < v_outcomes ex_y)%nat -> get_at ex_nan (upd (fun _ => 0%nat) (v_id ex_y) k) = Ok NaN).
Proof.
  split; [repeat split; unfold wf_vars; simpl; try reflexivity; repeat (constructor; [simpl; intuition discriminate|]); constructor|].
  split; [intros v [<-|[<-|[]]]; simpl; lia|].
  intros k Hk. simpl in Hk. destruct k as [|[|[|]]]; try lia; reflexivity.
Qed.

Print Assumptions C16_any_values.
Print Assumptions C16_no_values.
