(** Exact arithmetic: finite sums and products over Qc, and folds of the number operations. *)
From Coq Require Import ZArith List Bool Lia Arith PeanoNat QArith Qcanon Permutation Field.
From Verif Require Import Num GoBase VarModel SpecFactor.
Import ListNotations.
Open Scope Qc_scope.

Lemma qsum_app l l' : qsum (l ++ l') = qsum l + qsum l'.
Proof. induction l; simpl; [ring|]. rewrite IHl. ring. Qed.

Lemma qprod_app l l' : qprod (l ++ l') = qprod l * qprod l'.
Proof. induction l; simpl; [ring|]. rewrite IHl. ring. Qed.

Lemma qsum_perm l l' : Permutation l l' -> qsum l = qsum l'.
Proof. induction 1; simpl; auto; try congruence. ring. Qed.

Lemma qprod_perm l l' : Permutation l l' -> qprod l = qprod l'.
Proof. induction 1; simpl; auto; try congruence. ring. Qed.

Lemma qsum_scale {X} c (g : X -> Qc) l : qsum (map (fun x => c * g x) l) = c * qsum (map g l).
Proof. induction l; simpl; [ring|]. rewrite IHl. ring. Qed.

Lemma qsum_scale_r {X} c (g : X -> Qc) l : qsum (map (fun x => g x * c) l) = qsum (map g l) * c.
Proof. induction l; simpl; [ring|]. rewrite IHl. ring. Qed.

Lemma qsum_add {X} (g h : X -> Qc) l : qsum (map (fun x => g x + h x) l) = qsum (map g l) + qsum (map h l).
Proof. induction l; simpl; [ring|]. rewrite IHl. ring. Qed.

Lemma qprod_mul {X} (g h : X -> Qc) l : qprod (map (fun x => g x * h x) l) = qprod (map g l) * qprod (map h l).
Proof. induction l; simpl; [ring|]. rewrite IHl. ring. Qed.

Lemma qsum_zero {X} (g : X -> Qc) l : (forall x, In x l -> g x = 0) -> qsum (map g l) = 0.
Proof. induction l; simpl; intros H; auto. rewrite H, IHl; auto. Qed.

Lemma qsum_flat_map {X Y} (g : Y -> Qc) (h : X -> list Y) l :
  qsum (map g (flat_map h l)) = qsum (map (fun x => qsum (map g (h x))) l).
Proof. induction l; simpl; auto. rewrite map_app, qsum_app, IHl. auto. Qed.

Lemma qsum_swap {X Y} (g : X -> Y -> Qc) l l' :
  qsum (map (fun x => qsum (map (g x) l')) l) = qsum (map (fun y => qsum (map (fun x => g x y) l)) l').
Proof.
  induction l; simpl.
  - symmetry. apply qsum_zero. auto.
  - rewrite IHl. rewrite <- qsum_add. auto.
Qed.

Lemma qsum_nonneg l : (forall x, In x l -> 0 <= x) -> 0 <= qsum l.
Proof.
  induction l; simpl; intros H; [apply Qcle_refl|].
  replace 0 with (0 + 0) by ring. apply Qcplus_le_compat; auto.
Qed.

Lemma qsum_ext {X} (g h : X -> Qc) l : (forall x, In x l -> g x = h x) -> qsum (map g l) = qsum (map h l).
Proof. intros. f_equal. apply map_ext_in. auto. Qed.

Lemma qprod_ext {X} (g h : X -> Qc) l : (forall x, In x l -> g x = h x) -> qprod (map g l) = qprod (map h l).
Proof. intros. f_equal. apply map_ext_in. auto. Qed.

Lemma qeq_spec x y : qeq x y = true <-> x = y.
Proof.
  unfold qeq. rewrite Qeq_bool_iff. split; [apply Qc_is_canon|]. intros ->. reflexivity.
Qed.

Lemma qeq_refl x : qeq x x = true.
Proof. apply qeq_spec. auto. Qed.

Lemma qeq_neq x y : x <> y -> qeq x y = false.
Proof. intros H. destruct (qeq x y) eqn:E; auto. apply qeq_spec in E. tauto. Qed.

Lemma qlt_spec x y : qlt x y = true <-> x < y.
Proof.
  unfold qlt, Qclt. rewrite negb_true_iff.
  destruct (Qle_bool y x) eqn:E.
  - apply Qle_bool_iff in E. split; [discriminate|]. intros H. exfalso. eapply Qlt_not_le; eauto.
  - split; auto. intros _. apply Qnot_le_lt. intros H. apply Qle_bool_iff in H. congruence.
Qed.

Lemma qle_bool_spec x y : Qle_bool (this x) (this y) = true <-> x <= y.
Proof. apply Qle_bool_iff. Qed.

Lemma fold_xadd l : forall z, fold_left nadd (map Fin l) (Fin z) = Fin (z + qsum l).
Proof.
  induction l; intros z; simpl.
  - f_equal. ring.
  - rewrite IHl. f_equal. ring.
Qed.

Lemma fold_xmul l : forall z, fold_left nmul (map Fin l) (Fin z) = Fin (z * qprod l).
Proof.
  induction l; intros z; simpl.
  - f_equal. ring.
  - rewrite IHl. f_equal. ring.
Qed.

Lemma fold_xadd0 l : fold_left nadd (map Fin l) n0 = Fin (qsum l).
Proof. change n0 with (Fin 0). rewrite fold_xadd. f_equal. ring. Qed.

Lemma fold_xmul1 l : fold_left nmul (map Fin l) n1 = Fin (qprod l).
Proof. change n1 with (Fin 1). rewrite fold_xmul. f_equal. ring. Qed.

Lemma Fin_inj x y : Fin x = Fin y -> x = y.
Proof. congruence. Qed.

Lemma xdiv_fin p q : q <> 0 -> ndiv (Fin p) (Fin q) = Fin (p / q).
Proof. intros. simpl. rewrite qeq_neq; auto. Qed.

Lemma Qcle_total x y : x <= y \/ y <= x.
Proof. destruct (Qclt_le_dec x y); auto. left. apply Qclt_le_weak. auto. Qed.

Lemma is_max_spec u n k : is_max u n k = true <-> forall j, (j < n)%nat -> u j <= u k.
Proof.
  unfold is_max. rewrite forallb_forall. split; intros H j Hj.
  - apply qle_bool_spec. apply H. apply in_seq. lia.
  - apply in_seq in Hj. apply qle_bool_spec. apply H. lia.
Qed.

Lemma is_max_S u n k : is_max u (S n) k = is_max u n k && Qle_bool (u n) (u k).
Proof. unfold is_max. rewrite seq_S, forallb_app. simpl. rewrite andb_true_r. auto. Qed.

Lemma filter_ext_in' {X} (p q : X -> bool) l : (forall x, In x l -> p x = q x) -> filter p l = filter q l.
Proof. intros. apply filter_ext_in. auto. Qed.

Lemma max_indices_exact u n :
  max_indices (map (fun k => Fin (u k)) (seq 0 n)) = map Z.of_nat (filter (is_max u n) (seq 0 n)).
Proof.
  assert (G : exists mx,
    fold_left (fun '(c, mx, mi) x => if nlt mx x then ((c + 1)%Z, x, [c])
                 else if neqb x mx then ((c + 1)%Z, mx, mi ++ [c]) else ((c + 1)%Z, mx, mi))
      (map (fun k => Fin (u k)) (seq 0 n)) (0%Z, nninf, []) =
    (Z.of_nat n, mx, map Z.of_nat (filter (is_max u n) (seq 0 n))) /\
    match n with O => mx = NInf | _ => exists m, mx = Fin (u m) /\ (m < n)%nat /\ is_max u n m = true end).
  { induction n.
    - exists NInf. auto.
    - destruct IHn as (mx & E & Hmx). rewrite seq_S, map_app, fold_left_app, E. clear E. cbn [map fold_left].
      rewrite filter_app, map_app. cbn [Nat.add filter].
      replace (Z.of_nat n + 1)%Z with (Z.of_nat (S n)) by lia.
      destruct n as [|n'].
      + subst mx. cbn [nlt xnum_ops xlt]. exists (Fin (u 0%nat)). rewrite is_max_S. unfold is_max at 1 2. simpl.
        replace (Qle_bool (u 0%nat) (u 0%nat)) with true by (symmetry; apply Qle_bool_iff, Qle_refl).
        split; auto. exists 0%nat. repeat split; auto. rewrite is_max_S. unfold is_max. simpl.
        apply Qle_bool_iff, Qle_refl.
      + set (n := S n') in *. destruct Hmx as (m & -> & Hm & Hmax). cbn [nlt neqb xnum_ops xlt xeqb].
        pose proof (proj1 (is_max_spec _ _ _) Hmax) as Hm'.
        destruct (qlt (u m) (u n)) eqn:El.
        * apply qlt_spec in El. exists (Fin (u n)).
          assert (Hn : is_max u (S n) n = true).
          { apply is_max_spec. intros j Hj. destruct (Nat.eq_dec j n) as [->|]; [apply Qcle_refl|].
            apply Qclt_le_weak. eapply Qcle_lt_trans; [apply Hm'; lia|auto]. }
          rewrite Hn. split; [|exists n; auto]. f_equal.
          rewrite (filter_ext_in' _ (fun _ => false)).
          -- replace (filter (fun _ : nat => false) (seq 0 n)) with (@nil nat); auto. clear. generalize 0%nat. induction n; simpl; auto.
          -- intros x Hx. apply in_seq in Hx. rewrite is_max_S. apply andb_false_iff. right.
             apply not_true_is_false. intros H. apply qle_bool_spec in H.
             apply (Qclt_not_le _ _ El). eapply Qcle_trans; eauto. apply Hm'. lia.
        * assert (Hle : u n <= u m).
          { apply Qcnot_lt_le. intros H. apply qlt_spec in H. congruence. }
          assert (Hf : filter (is_max u (S n)) (seq 0 n) = filter (is_max u n) (seq 0 n)).
          { apply filter_ext_in. intros x Hx. rewrite is_max_S.
            destruct (is_max u n x) eqn:Ex; auto. simpl. apply qle_bool_spec.
            eapply Qcle_trans; [eauto|]. apply (proj1 (is_max_spec _ _ _) Ex). auto. }
          assert (HmS : is_max u (S n) m = true).
          { rewrite is_max_S, Hmax. apply qle_bool_spec. auto. }
          rewrite Hf. destruct (qeq (u n) (u m)) eqn:Eq.
          -- apply qeq_spec in Eq. exists (Fin (u m)). split.
             ++ replace (is_max u (S n) n) with true; auto. symmetry. apply is_max_spec. intros j Hj.
                rewrite Eq. apply (proj1 (is_max_spec _ _ _) HmS). auto.
             ++ exists m. repeat split; auto.
          -- exists (Fin (u m)). split.
             ++ replace (is_max u (S n) n) with false. rewrite app_nil_r. auto.
                symmetry. apply not_true_is_false. intros H. apply not_true_iff_false in Eq. apply Eq.
                apply qeq_spec. apply Qcle_antisym; auto. apply (proj1 (is_max_spec _ _ _) H). lia.
             ++ exists m. repeat split; auto. }
  destruct G as (mx & E & _). unfold max_indices. rewrite E. auto.
Qed.

Lemma max_exists u n : (0 < n)%nat -> exists k, (k < n)%nat /\ is_max u n k = true.
Proof.
  induction n; [lia|]. intros _. destruct n as [|n'].
  - exists 0%nat. split; auto. apply is_max_spec. intros j Hj. replace j with 0%nat by lia. apply Qcle_refl.
  - destruct IHn as (k & Hk & Hm); [lia|]. pose proof (proj1 (is_max_spec _ _ _) Hm) as Hm'.
    destruct (Qcle_total (u (S n')) (u k)).
    + exists k. split; [lia|]. rewrite is_max_S, Hm. apply qle_bool_spec. auto.
    + exists (S n'). split; [lia|]. apply is_max_spec. intros j Hj.
      destruct (Nat.eq_dec j (S n')) as [->|]; [apply Qcle_refl|]. eapply Qcle_trans; [apply Hm'; lia|auto].
Qed.

Lemma num_max_pos u n : (0 < n)%nat -> (0 < num_max u n)%nat.
Proof.
  intros H. destruct (max_exists u n H) as (k & Hk & Hm). unfold num_max.
  assert (Hin : In k (filter (is_max u n) (seq 0 n))) by (apply filter_In; split; auto; apply in_seq; lia).
  destruct (filter (is_max u n) (seq 0 n)); simpl; [destruct Hin|lia].
Qed.
