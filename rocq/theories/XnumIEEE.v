(** The exact numbers treat infinities, NaN and division by zero as float64 numbers do.
    Theorems about exact arithmetic that mention them (C16, C17, C28) are therefore about what the program shows. *)
From Coq Require Import ZArith QArith Qcanon Bool Lia Floats.SpecFloat.
From Verif Require Import Num XnumFacts SpecRound.
Open Scope Z_scope.

(** A number that is not finite. *)
Definition special (x : f64) : Prop := match x with S754_infinity _ | S754_nan => True | _ => False end.

Lemma sign_pos m e : exists q, f64_exact (S754_finite false m e) = Fin q /\ (0 < q)%Qc.
Proof.
  eexists. split; [reflexivity|]. unfold Qclt. cbn [this Q2Qc]. rewrite !Qred_correct. destruct (Z.leb_spec 0 e).
  - unfold Qlt, inject_Z, Qnum, Qden. assert (0 < 2 ^ e) by (apply Z.pow_pos_nonneg; lia). cbn [Qnum Qden]. rewrite !Z.mul_1_r. apply Z.mul_pos_pos; lia.
  - unfold Qlt. simpl. lia.
Qed.

Lemma sign_neg m e : exists q, f64_exact (S754_finite true m e) = Fin q /\ (q < 0)%Qc.
Proof.
  eexists. split; [reflexivity|]. unfold Qclt. cbn [this Q2Qc]. rewrite !Qred_correct. destruct (Z.leb_spec 0 e).
  - unfold Qlt, inject_Z, Qnum, Qden. assert (0 < 2 ^ e) by (apply Z.pow_pos_nonneg; lia). cbn [Qnum Qden]. rewrite !Z.mul_1_r. apply Z.mul_neg_pos; lia.
  - unfold Qlt. simpl. lia.
Qed.

Lemma pos_tests q : (0 < q)%Qc -> qeq q 0%Qc = false /\ qlt 0%Qc q = true /\ qlt q 0%Qc = false.
Proof.
  intros H. split; [|split].
  - apply qeq_neq. intros ->. apply (Qclt_not_eq _ _ H). auto.
  - apply qlt_spec. auto.
  - apply not_true_is_false. intros H'. apply qlt_spec in H'. apply (Qclt_not_le _ _ H). apply Qclt_le_weak. auto.
Qed.

Lemma neg_tests q : (q < 0)%Qc -> qeq q 0%Qc = false /\ qlt 0%Qc q = false /\ qlt q 0%Qc = true.
Proof.
  intros H. split; [|split].
  - apply qeq_neq. intros ->. apply (Qclt_not_eq _ _ H). auto.
  - apply not_true_is_false. intros H'. apply qlt_spec in H'. apply (Qclt_not_le _ _ H). apply Qclt_le_weak. auto.
  - apply qlt_spec. auto.
Qed.

Lemma zero_tests : qeq 0%Qc 0%Qc = true /\ qlt 0%Qc 0%Qc = false.
Proof. split; reflexivity. Qed.

Ltac cases x := let s := fresh in destruct x as [s|s| |s ?m ?e]; [destruct s..| |destruct s].

Ltac finite_values :=
  repeat match goal with
  | |- context [f64_exact (S754_finite false ?m ?e)] =>
      let q := fresh "q" in let E := fresh in let H := fresh in destruct (sign_pos m e) as (q & E & H); rewrite E; apply pos_tests in H; destruct H as (? & ? & ?)
  | |- context [f64_exact (S754_finite true ?m ?e)] =>
      let q := fresh "q" in let E := fresh in let H := fresh in destruct (sign_neg m e) as (q & E & H); rewrite E; apply neg_tests in H; destruct H as (? & ? & ?)
  end.

Ltac tests := repeat match goal with H : qeq _ _ = _ |- _ => rewrite H end; repeat match goal with H : qlt _ _ = _ |- _ => rewrite H end.

Lemma special_add x y : special x \/ special y -> f64_exact (nadd x y) = nadd (f64_exact x) (f64_exact y).
Proof.
  intros H. cbn [nadd ieee_ops xnum_ops].
  destruct x as [[]|[]| |[] m e], y as [[]|[]| |[] m' e']; simpl in H; try tauto; cbn [SFadd Bool.eqb]; finite_values; reflexivity.
Qed.

Lemma special_mul x y : special x \/ special y -> f64_exact (nmul x y) = nmul (f64_exact x) (f64_exact y).
Proof.
  intros H. cbn [nmul ieee_ops xnum_ops].
  destruct x as [[]|[]| |[] m e], y as [[]|[]| |[] m' e']; simpl in H; try tauto; cbn [SFmul xorb]; finite_values;
    cbn [f64_exact xmul inf_times]; unfold inf_times; tests; cbn [Bool.eqb]; rewrite ?(proj1 zero_tests); reflexivity.
Qed.

Lemma special_div x y : special x \/ special y -> (forall s, y <> S754_zero s) -> f64_exact (ndiv x y) = ndiv (f64_exact x) (f64_exact y).
Proof.
  intros H Hz. cbn [ndiv ieee_ops xnum_ops].
  destruct x as [[]|[]| |[] m e], y as [[]|[]| |[] m' e']; simpl in H; try tauto; try (exfalso; eapply Hz; reflexivity); cbn [SFdiv xorb]; finite_values;
    cbn [f64_exact xdiv]; tests; reflexivity.
Qed.

(** Division by zero. The zeros that the program divides by are sums and entries of tables; a negative zero is not among the exact numbers. *)
Lemma zero_div x : f64_exact (ndiv x (S754_zero false)) = ndiv (f64_exact x) (f64_exact (S754_zero false)).
Proof.
  cbn [ndiv ieee_ops xnum_ops]. destruct x as [[]|[]| |[] m e]; cbn [SFdiv xorb]; finite_values; cbn [f64_exact xdiv]; tests; rewrite ?(proj1 zero_tests), ?(proj2 zero_tests); reflexivity.
Qed.

(** All special values at once. *)
Theorem special_values : forall x y : f64, special x \/ special y ->
  f64_exact (nadd x y) = nadd (f64_exact x) (f64_exact y) /\
  f64_exact (nmul x y) = nmul (f64_exact x) (f64_exact y) /\
  (y <> S754_zero true -> f64_exact (ndiv x y) = ndiv (f64_exact x) (f64_exact y)) /\
  nlt x y = nlt (f64_exact x) (f64_exact y) /\ neqb x y = neqb (f64_exact x) (f64_exact y).
Proof.
  intros x y H. split; [apply special_add; auto|]. split; [apply special_mul; auto|]. split; [|split].
  - intros Hz. destruct y as [[]| | |]; try congruence; [apply zero_div|..]; apply special_div; auto; discriminate.
  - destruct x as [[]|[]| |[] m e], y as [[]|[]| |[] m' e']; simpl in H; try tauto; cbn [nlt ieee_ops xnum_ops]; unfold SFltb; cbn [SFcompare]; finite_values; reflexivity.
  - destruct x as [[]|[]| |[] m e], y as [[]|[]| |[] m' e']; simpl in H; try tauto; cbn [neqb ieee_ops xnum_ops]; unfold SFeqb; cbn [SFcompare]; finite_values; reflexivity.
Qed.

Print Assumptions special_values.
