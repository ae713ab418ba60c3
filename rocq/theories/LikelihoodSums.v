(** Relative frequencies make a list of observations most probable. *)
From Coq Require Import ZArith QArith Qcanon List Bool Permutation Lia.
From Verif Require Import Num VarModel SpecFactor XnumFacts.
Import ListNotations.
Open Scope Qc_scope.

Notation qn n := (Q2Qc (inject_Z (Z.of_nat n))).

Lemma qn_S n : qn (S n) = 1 + qn n.
Proof. apply Qc_is_canon. unfold Qcplus. unfold Q2Qc. cbn [this]. rewrite !Qred_correct. rewrite Nat2Z.inj_succ. unfold Z.succ. rewrite inject_Z_plus. apply Qplus_comm. Qed.
Lemma qn_nonneg n : 0 <= qn n.
Proof. unfold Qcle, Q2Qc. cbn [this]. rewrite !Qred_correct. unfold Qle. cbn. lia. Qed.
Lemma qn_pos n : (0 < n)%nat -> 0 < qn n.
Proof. intros H. unfold Qclt, Q2Qc. cbn [this]. rewrite !Qred_correct. unfold Qlt. cbn. lia. Qed.
Lemma qn_0 : qn 0 = 0.
Proof. reflexivity. Qed.

Lemma qc_minus a b : a <= b <-> 0 <= b - a.
Proof. apply Qcle_minus_iff. Qed.
Lemma qc_mul a b : 0 <= a -> 0 <= b -> 0 <= a * b.
Proof. intros Ha Hb. rewrite <- (Qcmult_0_l b). now apply Qcmult_le_compat_r. Qed.
Lemma qc_mul_le a b c d : 0 <= a -> a <= b -> 0 <= c -> c <= d -> a * c <= b * d.
Proof.
  intros Ha Hab Hc Hcd. apply Qcle_trans with (b * c); [now apply Qcmult_le_compat_r|].
  rewrite (Qcmult_comm b c), (Qcmult_comm b d). apply Qcmult_le_compat_r; auto. now apply Qcle_trans with a.
Qed.

Lemma qprod_nonneg l : (forall x, In x l -> 0 <= x) -> 0 <= qprod l.
Proof.
  induction l as [|x l IH]; intros H; cbn; [discriminate|]. apply qc_mul; [apply H; now left|apply IH; intros y Hy; apply H; now right].
Qed.
Lemma qprod_le_one l : (forall x, In x l -> 0 <= x <= 1) -> qprod l <= 1.
Proof.
  induction l as [|x l IH]; intros H; cbn; [apply Qcle_refl|]. change (qprod (x :: l)) with (x * qprod l). rewrite <- (Qcmult_1_l 1). destruct (H x (or_introl eq_refl)).
  apply qc_mul_le; auto; [apply qprod_nonneg; intros y Hy; apply H; now right|apply IH; intros y Hy; apply H; now right].
Qed.
Lemma qsum_ge_length l : (forall x, In x l -> 1 < x) -> qn (List.length l) <= qsum l.
Proof.
  induction l as [|x l IH]; intros H; cbn [List.length]; [apply Qcle_refl|]. rewrite qn_S. change (qsum (x :: l)) with (x + qsum l).
  apply Qcplus_le_compat; [apply Qclt_le_weak, H; now left|apply IH; intros y Hy; apply H; now right].
Qed.

Lemma qc_dec (p : Qc -> bool) l : (exists x l1 l2, l = l1 ++ x :: l2 /\ p x = true) \/ (forall x, In x l -> p x = false).
Proof.
  induction l as [|x l [(y & l1 & l2 & -> & Hy)|IH]]; [right; intros x []| |].
  - left. exists y, (x :: l1), l2. auto.
  - destruct (p x) eqn:E; [left; exists x, [], l; auto|right]. intros y [<-|Hy]; auto.
Qed.
Definition above (x : Qc) : bool := match x ?= 1 with Gt => true | _ => false end.
Lemma above_true x : above x = true -> 1 < x.
Proof. unfold above. destruct (x ?= 1) eqn:E; try discriminate. intros _. now apply Qcgt_alt in E. Qed.
Lemma above_false x : above x = false -> x <= 1.
Proof. unfold above. destruct (x ?= 1) eqn:E; try discriminate; intros _; apply Qcle_alt; rewrite E; discriminate. Qed.

(** The arithmetic mean bounds the geometric mean: numbers with mean at most 1 have a product of
    at most 1. *)
Theorem mean_bounds_product : forall n l, List.length l = n -> (forall x, In x l -> 0 <= x) -> qsum l <= qn n -> qprod l <= 1.
Proof.
  induction n as [|n IH]; intros l HL HN HS; [destruct l; [apply Qcle_refl|discriminate]|].
  destruct (qc_dec above l) as [(a & l1 & l2 & El & Ha)|HA]; [|apply qprod_le_one; intros x Hx; split; auto; apply above_false; auto].
  apply above_true in Ha. set (r := l1 ++ l2). assert (EP : Permutation l (a :: r)) by (rewrite El; symmetry; apply Permutation_middle).
  assert (Lr : List.length r = n). { apply Permutation_length in EP. cbn in EP. lia. }
  rewrite (qsum_perm _ _ EP) in HS. change (qsum (a :: r)) with (a + qsum r) in HS. rewrite qn_S in HS. rewrite (qprod_perm _ _ EP).
  assert (HNr : forall x, In x r -> 0 <= x). { intros x Hx. apply HN. apply (Permutation_in x (Permutation_sym EP)). now right. }
  destruct (qc_dec (fun x => negb (above x)) r) as [(b & r1 & r2 & Er & Hb)|HB].
  - apply negb_true_iff, above_false in Hb. set (q := r1 ++ r2). assert (EQ : Permutation r (b :: q)) by (rewrite Er; symmetry; apply Permutation_middle).
    assert (HNb : 0 <= b) by (apply HNr; rewrite Er; apply in_app_iff; right; now left).
    assert (HNq : forall x, In x q -> 0 <= x). { intros x Hx. apply HNr. apply (Permutation_in x (Permutation_sym EQ)). now right. }
    rewrite (qsum_perm _ _ EQ) in HS. change (qsum (b :: q)) with (b + qsum q) in HS.
    assert (HC : 0 <= a + b - 1). { apply Qclt_le_weak in Ha. apply qc_minus in Ha. replace (a + b - 1) with ((a - 1) + b) by ring. rewrite <- (Qcplus_0_l 0). now apply Qcplus_le_compat. }
    assert (HI : qprod ((a + b - 1) :: q) <= 1).
    { apply IH; [apply Permutation_length in EQ; cbn in *; lia|intros x [<-|Hx]; auto|]. change (qsum ((a + b - 1) :: q)) with ((a + b - 1) + qsum q).
      apply qc_minus in HS. apply qc_minus. replace (qn n - (a + b - 1 + qsum q)) with (1 + qn n - (a + (b + qsum q))) by ring. exact HS. }
    apply Qcle_trans with (qprod ((a + b - 1) :: q)); [|exact HI]. change (qprod (a :: r)) with (a * qprod r). rewrite (qprod_perm _ _ EQ).
    change (qprod (b :: q)) with (b * qprod q). change (qprod ((a + b - 1) :: q)) with ((a + b - 1) * qprod q). rewrite Qcmult_assoc.
    apply Qcmult_le_compat_r; [|now apply qprod_nonneg]. apply qc_minus. replace (a + b - 1 - a * b) with ((a - 1) * (1 - b)) by ring.
    apply qc_mul; [apply (proj1 (qc_minus _ _)); now apply Qclt_le_weak|now apply (proj1 (qc_minus _ _))].
  - exfalso. assert (G : qn n <= qsum r). { rewrite <- Lr. apply qsum_ge_length. intros x Hx. apply above_true. apply negb_false_iff. auto. }
    assert (C : 1 + qn n < a + qsum r). { apply Qclt_le_trans with (a + qn n); [apply Qclt_minus_iff; apply Qclt_minus_iff in Ha; replace (a + qn n + - (1 + qn n)) with (a + - (1)) by ring; exact Ha|]. apply Qcplus_le_compat; [apply Qcle_refl|exact G]. }
    apply (Qclt_not_le _ _ C HS).
Qed.

Lemma sum_at_most {X} (F : X -> Qc) m : (forall j, In j m -> F j <= 1) -> qsum (map F m) <= qn (List.length m).
Proof.
  induction m as [|j m IH]; intros B; [apply Qcle_refl|]. cbn [map List.length]. rewrite qn_S. change (qsum (?a :: ?b)) with (a + qsum b).
  apply Qcplus_le_compat; [apply B; now left|apply IH; intros; apply B; now right].
Qed.

(** ** Frequencies *)
Section Frequencies.
Context {T : Type} (l : list T).
(** The observations in the same row of a table *)
Variable R : T -> T -> bool.
Hypothesis R_refl : forall i, R i i = true.
Hypothesis R_sym : forall i j, R i j = R j i.
(** What is observed, and the probabilities that another table gives to what is observed in a row *)
Variable x : T -> nat.
Variable P : T -> nat -> Qc.
Variable K : nat.
Hypothesis x_range : forall i, In i l -> (x i < K)%nat.
Hypothesis P_nonneg : forall i k, In i l -> (k < K)%nat -> 0 <= P i k.
Hypothesis P_row : forall i j, In i l -> In j l -> R i j = true -> forall k, (k < K)%nat -> P i k = P j k.
Hypothesis P_sum : forall i, In i l -> qsum (map (P i) (seq 0 K)) <= 1.
(** Observations in the row of [i], and those of them with outcome [k] *)
Definition in_row (i : T) : nat := List.length (filter (R i) l).
Definition in_cell (i : T) (k : nat) : nat := List.length (filter (fun j => R i j && (x j =? k)%nat) l).
Hypothesis cell_row : forall i j k, In i l -> In j l -> R i j = true -> in_cell i k = in_cell j k.

Lemma in_row_pos i : In i l -> (0 < in_row i)%nat.
Proof.
  intros Hi. unfold in_row. assert (H : In i (filter (R i) l)) by (apply filter_In; auto). destruct (filter (R i) l); [destruct H|cbn; lia].
Qed.
Lemma in_cell_pos i : In i l -> (0 < in_cell i (x i))%nat.
Proof.
  intros Hi. unfold in_cell. assert (H : In i (filter (fun j => R i j && (x j =? x i)%nat) l)) by (apply filter_In; rewrite R_refl, Nat.eqb_refl; auto).
  destruct (filter _ l); [destruct H|cbn; lia].
Qed.

Lemma count_sum {X} (p : X -> bool) (m : list X) : qn (List.length (filter p m)) = qsum (map (fun i => if p i then 1 else 0) m).
Proof.
  induction m as [|i m IH]; [reflexivity|]. cbn [filter map]. change (qsum (?a :: ?b)) with (a + qsum b). rewrite <- IH. destruct (p i); [cbn [List.length]; apply qn_S|ring].
Qed.

(** Sums over observations are sums over outcomes, counted. *)
Lemma sum_by_outcome (p : T -> bool) (F : nat -> Qc) : forall m, (forall i, In i m -> (x i < K)%nat) ->
  qsum (map (fun i => if p i then F (x i) else 0) m) = qsum (map (fun k => qn (List.length (filter (fun j => p j && (x j =? k)%nat) m)) * F k) (seq 0 K)).
Proof.
  induction m as [|i m IH]; intros Hx.
  - cbn [map filter List.length]. symmetry. apply qsum_zero. intros k _. rewrite qn_0. ring.
  - cbn [map]. change (qsum (?a :: ?b)) with (a + qsum b). rewrite IH by (intros j Hj; apply Hx; now right).
    transitivity (qsum (map (fun k => (if p i && (x i =? k)%nat then F k else 0) + qn (List.length (filter (fun j => p j && (x j =? k)%nat) m)) * F k) (seq 0 K))).
    + rewrite qsum_add. f_equal. destruct (p i); cbn [andb]; [|symmetry; apply qsum_zero; auto].
      assert (Hi : (x i < K)%nat) by (apply Hx; now left). clear - Hi.
      assert (G : forall a n, (a <= x i < a + n)%nat -> F (x i) = qsum (map (fun k => if (x i =? k)%nat then F k else 0) (seq a n))).
      { intros a n. revert a. induction n as [|n IHn]; intros a Ha; [lia|]. cbn [seq map]. change (qsum (?u :: ?b)) with (u + qsum b).
        destruct (Nat.eqb_spec (x i) a) as [->|Hne].
        - rewrite qsum_zero; [ring|]. intros k Hk. apply in_seq in Hk. destruct (Nat.eqb_spec a k); [lia|reflexivity].
        - rewrite <- IHn by lia. ring. }
      apply G. lia.
    + apply qsum_ext. intros k _. cbn [filter]. destruct (p i && (x i =? k)%nat); [cbn [List.length]; rewrite qn_S; ring|ring].
Qed.

(** The mean of the quotients of the two tables' probabilities is at most 1. *)
Lemma quotients_mean : qsum (map (fun i => P i (x i) * (qn (in_row i) / qn (in_cell i (x i)))) l) <= qn (List.length l).
Proof.
  assert (E1 : qsum (map (fun i => P i (x i) * (qn (in_row i) / qn (in_cell i (x i)))) l) =
               qsum (map (fun j => qsum (map (fun i => if R j i then P j (x i) / qn (in_cell j (x i)) else 0) l)) l)).
  { rewrite qsum_swap. apply qsum_ext. intros i Hi. unfold in_row. rewrite count_sum. unfold Qcdiv.
    rewrite (Qcmult_comm (qsum _)), Qcmult_assoc. rewrite <- qsum_scale. apply qsum_ext. intros j Hj. rewrite (R_sym j i). destruct (R i j) eqn:E; [|ring].
    rewrite (P_row i j Hi Hj E (x i)) by auto. rewrite (cell_row i j (x i) Hi Hj E). ring. }
  rewrite E1. clear E1.
  assert (B : forall j, In j l -> qsum (map (fun i => if R j i then P j (x i) / qn (in_cell j (x i)) else 0) l) <= 1).
  { intros j Hj. rewrite (sum_by_outcome (R j) (fun k => P j k / qn (in_cell j k)) l x_range).
    apply Qcle_trans with (qsum (map (P j) (seq 0 K))); [|now apply P_sum].
    assert (G : forall m, (forall k, In k m -> (k < K)%nat) -> qsum (map (fun k => qn (List.length (filter (fun i => R j i && (x i =? k)%nat) l)) * (P j k / qn (in_cell j k))) m) <= qsum (map (P j) m)).
    { induction m as [|k m IHm]; intros Hm; [apply Qcle_refl|]. cbn [map]. change (qsum (?a :: ?b)) with (a + qsum b).
      apply Qcplus_le_compat; [|apply IHm; intros; apply Hm; now right]. fold (in_cell j k). destruct (in_cell j k) as [|c] eqn:Ec.
      - rewrite qn_0. rewrite Qcmult_0_l. apply P_nonneg; auto. apply Hm. now left.
      - match goal with |- ?u <= ?w => replace u with w; [apply Qcle_refl|] end. field. intros H. pose proof (qn_pos (S c) ltac:(lia)) as HP. rewrite H in HP. discriminate HP. }
    apply G. intros k Hk. apply in_seq in Hk. lia. }
  now apply sum_at_most.
Qed.

Theorem frequencies_most_likely : qprod (map (fun i => P i (x i)) l) <= qprod (map (fun i => qn (in_cell i (x i)) / qn (in_row i)) l).
Proof.
  assert (NZ : forall i, In i l -> qn (in_cell i (x i)) <> 0 /\ qn (in_row i) <> 0).
  { intros i Hi. split; intros H; [pose proof (qn_pos _ (in_cell_pos i Hi)) as HP|pose proof (qn_pos _ (in_row_pos i Hi)) as HP]; rewrite H in HP; discriminate HP. }
  assert (E : qprod (map (fun i => P i (x i)) l) = qprod (map (fun i => P i (x i) * (qn (in_row i) / qn (in_cell i (x i)))) l) * qprod (map (fun i => qn (in_cell i (x i)) / qn (in_row i)) l)).
  { rewrite <- qprod_mul. apply qprod_ext. intros i Hi. destruct (NZ i Hi). field. auto. }
  assert (N : forall i, In i l -> 0 <= qn (in_row i) / qn (in_cell i (x i)) /\ 0 <= qn (in_cell i (x i)) / qn (in_row i)).
  { intros i Hi. destruct (NZ i Hi) as (N1 & N2). assert (I : forall a b, 0 <= a -> 0 < b -> 0 <= a / b).
    { intros a b Ha Hb. unfold Qcdiv. apply qc_mul; auto. destruct (Qclt_le_dec (/ b) 0) as [H|H]; auto. exfalso.
      assert (B0 : b <> 0) by (intros ->; discriminate Hb). pose proof (Qcmult_lt_compat_r _ _ _ Hb H) as G. rewrite Qcmult_0_l, (Qcmult_comm (/ b)), Qcmult_inv_r in G by exact B0. discriminate G. }
    split; apply I; auto using qn_nonneg; apply qn_pos; auto using in_row_pos, in_cell_pos. }
  rewrite E. rewrite <- (Qcmult_1_l (qprod (map (fun i => qn (in_cell i (x i)) / qn (in_row i)) l))) at 2. apply Qcmult_le_compat_r.
  - apply (mean_bounds_product (List.length l)); [apply map_length| |apply quotients_mean]. intros y Hy. apply in_map_iff in Hy. destruct Hy as (i & <- & Hi).
    destruct (N i Hi) as (N1 & _). exact (qc_mul _ _ (P_nonneg i _ Hi (x_range i Hi)) N1).
  - apply qprod_nonneg. intros y Hy. apply in_map_iff in Hy. destruct Hy as (i & <- & Hi). exact (proj2 (N i Hi)).
Qed.

End Frequencies.
