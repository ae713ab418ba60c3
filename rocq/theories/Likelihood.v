(** Trained tables make the samples most probable. *)
From Coq Require Import ZArith QArith Qcanon List Bool String Lia Permutation.
From Verif Require Import Num GoBase VarModel SpecFactor NetModel SpecNet SpecTrain SpecLikelihood XnumFacts NetCheck RoundCheck NetSums StateSums TrainModel TrainFacts TrainThms NetNew NetBayes LikelihoodSums Props_Train.
Import ListNotations.
Open Scope string_scope.
Open Scope list_scope.
Open Scope Z_scope.

(** ** The probability of a complete sample is the weight of one state *)
Definition sample_state {A} (vars : list nvar) (smp : sample A) : nstate := fun x =>
  match kind vars x with None | Some Utility => 0%nat | Some _ => Z.to_nat (observed vars smp x) end.

Section Pick.
Variable t : nstate.
Definition over (L : list nvar) (s : nstate) : nstate := fold_left (fun s v => nupd s (nv_name v) (t (nv_name v))) L s.

Lemma over_other L : forall s y, ~ In y (map nv_name L) -> over L s y = s y.
Proof.
  induction L as [|v L IH]; intros s y Hy; [reflexivity|]. cbn [over fold_left map] in *. unfold over in IH. rewrite IH by (intros H; apply Hy; now right).
  unfold nupd. destruct (String.eqb_spec y (nv_name v)); auto. subst. exfalso. apply Hy. now left.
Qed.
Lemma over_in L : forall s y, In y (map nv_name L) -> over L s y = t y.
Proof.
  induction L as [|v L IH]; intros s y Hy; [destruct Hy|]. cbn [over fold_left map] in *. destruct (in_dec string_dec y (map nv_name L)) as [H|H]; [now apply IH|].
  destruct Hy as [<-|Hy]; [|contradiction]. fold (over L (nupd s (nv_name v) (t (nv_name v)))). rewrite (over_other L _ _ H). unfold nupd. now rewrite String.eqb_refl.
Qed.

Lemma pick (F : nstate -> Qc) L : NoDup (map nv_name L) -> (forall v, In v L -> (t (nv_name v) < List.length (nv_outcomes v))%nat) -> forall s0,
  qsum (map (fun s => if forallb (fun v => (s (nv_name v) =? t (nv_name v))%nat) L then F s else 0%Qc) (joint_states L s0)) = F (over L s0).
Proof.
  induction L as [|v L IH]; intros ND HR s0; [cbn; ring|]. inversion ND as [|? ? Hv ND']; subst. cbn [joint_states]. rewrite qsum_flat_map.
  assert (E : forall k, qsum (map (fun s => if forallb (fun v => (s (nv_name v) =? t (nv_name v))%nat) (v :: L) then F s else 0%Qc) (joint_states L (nupd s0 (nv_name v) k))) =
                        if (k =? t (nv_name v))%nat then F (over L (nupd s0 (nv_name v) k)) else 0%Qc).
  { intros k. rewrite <- (IH ND' ltac:(intros; apply HR; now right) (nupd s0 (nv_name v) k)).
    destruct (k =? t (nv_name v))%nat eqn:Ek.
    - apply qsum_ext. intros s Hs. cbn [forallb]. rewrite (joint_states_same L _ _ _ Hs Hv). unfold nupd at 1. rewrite String.eqb_refl, Ek. reflexivity.
    - apply qsum_zero. intros s Hs. cbn [forallb]. rewrite (joint_states_same L _ _ _ Hs Hv). unfold nupd at 1. now rewrite String.eqb_refl, Ek. }
  rewrite (qsum_ext _ _ _ (fun k _ => E k)). rewrite (qsum_pick (fun k => F (over L (nupd s0 (nv_name v) k)))); [reflexivity|]. apply HR. now left.
Qed.
End Pick.

Lemma kind_of (vars : list nvar) v : NoDup (map nv_name vars) -> In v vars -> kind vars (nv_name v) = Some (nv_type v).
Proof.
  intros ND Hv. unfold kind. replace (var_named vars (nv_name v)) with (Some v); [reflexivity|]. induction vars as [|w vars IH]; [destruct Hv|].
  cbn [var_named find map] in *. inversion ND as [|? ? Hw ND']; subst. destruct (String.eqb_spec (nv_name w) (nv_name v)) as [E|E].
  - destruct Hv as [->|Hv]; [reflexivity|]. exfalso. apply Hw. rewrite E. now apply in_map.
  - destruct Hv as [->|Hv]; [congruence|]. now apply IH.
Qed.

Section Sample.
Context {A : Type} (n : network xnum) (smp : sample A).
Notation vars := (n_vars n).
Hypothesis ND : NoDup (map nv_name vars).
Hypothesis Hout : forall v, In v vars -> nv_outcomes v <> [].
Hypothesis Hvalid : valid_sample vars smp.
Hypothesis Hcomplete : complete_sample vars smp.
Notation st := (sample_state vars smp).

Lemma sample_value v : In v vars -> nv_type v <> Utility -> Z.of_nat (st (nv_name v)) = observed vars smp (nv_name v).
Proof.
  intros Hv Ht. unfold sample_state. rewrite (kind_of _ v ND Hv). specialize (Hcomplete v Hv Ht). destruct (nv_type v); try congruence; lia.
Qed.
Lemma sample_in_range : state_of vars st.
Proof.
  intros v Hv. pose proof (vs_range _ _ Hvalid v Hv) as H. unfold zlen in H. destruct (nv_type v) eqn:Ht.
  1,2: assert (E : nv_type v <> Utility) by congruence; rewrite <- (sample_value v Hv E) in H; lia.
  unfold sample_state. rewrite (kind_of _ v ND Hv), Ht. specialize (Hout v Hv). destruct (nv_outcomes v); [congruence|cbn; lia].
Qed.

Lemma nodup_filter_names (p : nvar -> bool) l : NoDup (map nv_name l) -> NoDup (map nv_name (filter p l)).
Proof.
  induction l as [|v l IH]; intros H; [constructor|]. inversion H as [|? ? Hn H']; subst. cbn [filter]. destruct (p v); auto. cbn [map]. constructor; auto.
  intros Hi. apply Hn. apply in_map_iff in Hi. destruct Hi as (w & E & Hw). apply in_map_iff. exists w. apply filter_In in Hw. tauto.
Qed.

Theorem mass_of_sample ign : mass n ign (fits vars smp) = joint n ign st.
Proof.
  unfold mass. rewrite qsum_filter. unfold worlds_of. set (L := filter (fun v => negb (is_kind Utility v)) vars).
  transitivity (qsum (map (fun s => if forallb (fun v => (s (nv_name v) =? st (nv_name v))%nat) L then joint n ign s else 0%Qc) (joint_states L nowhere))).
  - apply qsum_ext. intros s _. replace (fits vars smp s) with (forallb (fun v => (s (nv_name v) =? st (nv_name v))%nat) L); [reflexivity|].
    unfold fits, L. enough (G : forall l, (forall v, In v l -> In v vars) ->
      forallb (fun v => (s (nv_name v) =? st (nv_name v))%nat) (filter (fun v => negb (is_kind Utility v)) l) =
      forallb (fun v => is_kind Utility v || (observed vars smp (nv_name v) <? 0) || (observed vars smp (nv_name v) =? Z.of_nat (s (nv_name v)))) l) by (apply G; auto).
    intros l. induction l as [|v l IH]; intros HV; [reflexivity|].
    cbn [filter forallb]. destruct (is_kind Utility v) eqn:Ek; cbn [negb orb andb]; [apply IH; intros; apply HV; now right|]. cbn [forallb].
    rewrite IH by (intros; apply HV; now right). f_equal. assert (Ht : nv_type v <> Utility). { intros E. unfold is_kind in Ek. rewrite E in Ek. discriminate. }
    rewrite <- (sample_value v (HV v (or_introl eq_refl)) Ht). replace (Z.of_nat (st (nv_name v)) <? 0) with false by (symmetry; apply Z.ltb_ge; lia). cbn [orb]. destruct (Nat.eqb_spec (s (nv_name v)) (st (nv_name v))) as [->|H]; symmetry; [apply Z.eqb_refl|apply Z.eqb_neq; lia].
  - rewrite (pick st (joint n ign) L).
    + apply joint_proper. intros y. destruct (in_dec string_dec y (map nv_name L)) as [H|H]; [now apply over_in|]. rewrite (over_other _ _ _ _ H). unfold nowhere, sample_state.
      destruct (kind vars y) as [[]|] eqn:Ek; auto.
      1,2: exfalso; apply H; unfold kind in Ek; destruct (var_named vars y) as [v|] eqn:Ev; [|discriminate]; cbn in Ek; injection Ek as Ek; unfold var_named in Ev; apply find_some in Ev; destruct Ev as (Hv & E);
        apply String.eqb_eq in E; subst y; apply in_map; apply filter_In; split; [exact Hv|]; unfold is_kind; rewrite Ek; reflexivity.
    + now apply nodup_filter_names.
    + intros v Hv. apply filter_In in Hv. apply sample_in_range, Hv.
Qed.
End Sample.

(** ** One table *)
Lemma qdiv_nonneg a b : (0 <= a)%Qc -> (0 <= b)%Qc -> (0 <= a / b)%Qc.
Proof.
  intros Ha Hb. destruct (Qc_eq_dec b 0) as [->|Hn]; [unfold Qcdiv; replace (/ 0)%Qc with 0%Qc by reflexivity; rewrite Qcmult_0_r; apply Qcle_refl|].
  unfold Qcdiv. apply qc_mul; auto. destruct (Qclt_le_dec (/ b) 0) as [H|H]; auto. exfalso. assert (Hb' : (0 < b)%Qc). { destruct (Qcle_lt_or_eq _ _ Hb) as [G|G]; auto. congruence. }
  pose proof (Qcmult_lt_compat_r _ _ _ Hb' H) as G. rewrite Qcmult_0_l, (Qcmult_comm (/ b)), Qcmult_inv_r in G by exact Hn. discriminate G.
Qed.
Lemma sum_zero_parts {X} (g : X -> Qc) l : (forall x, In x l -> (0 <= g x)%Qc) -> qsum (map g l) = 0%Qc -> forall x, In x l -> g x = 0%Qc.
Proof.
  induction l as [|y l IH]; intros Hn E x Hx; [destruct Hx|]. cbn [map] in E. change (qsum (?a :: ?b)) with (a + qsum b)%Qc in E.
  assert (H1 : (0 <= g y)%Qc) by (apply Hn; now left). assert (H2 : (0 <= qsum (map g l))%Qc).
  { clear - Hn. induction l as [|z l IH]; [apply Qcle_refl|]. cbn [map]. change (qsum (?a :: ?b)) with (a + qsum b)%Qc.
    rewrite <- (Qcplus_0_l 0). apply Qcplus_le_compat; [apply Hn; right; now left|apply IH; intros w [<-|Hw]; apply Hn; [now left|right; now right]]. }
  assert (Z : forall a b, (0 <= a)%Qc -> (0 <= b)%Qc -> (a + b = 0)%Qc -> a = 0%Qc).
  { intros a b Ha Hb Eab. apply Qcle_antisym; [|exact Ha]. replace a with (- b)%Qc; [|rewrite <- (Qcplus_0_r (- b)), <- Eab; ring]. apply Qcopp_le_compat in Hb. exact Hb. }
  destruct Hx as [<-|Hx]; [exact (Z _ _ H1 H2 E)|]. apply IH; [intros; apply Hn; now right| |exact Hx]. rewrite Qcplus_comm in E. exact (Z _ _ H2 H1 E).
Qed.

Section Table.
Variables (vars : list nvar) (g : nfactor xnum).
Hypothesis Hn : forall s, (0 <= entry vars g s)%Qc.
Notation x := (nf_for g).
Lemma upd_upd s k j : forall y, nupd (nupd s x k) x j y = nupd s x j y.
Proof. intros y. unfold nupd. now destruct (String.eqb y x). Qed.
Lemma row_sum_upd s k : row_sum vars g (nupd s x k) = row_sum vars g s.
Proof. unfold row_sum. apply qsum_ext. intros j _. apply entry_ext. intros y _. apply upd_upd. Qed.
Lemma row_sum_nonneg s : (0 <= row_sum vars g s)%Qc.
Proof.
  unfold row_sum. generalize (seq 0 (num_outcomes vars x)). intros l. induction l as [|k l IH]; [apply Qcle_refl|]. cbn [map]. change (qsum (?a :: ?b)) with (a + qsum b)%Qc.
  rewrite <- (Qcplus_0_l 0). apply Qcplus_le_compat; auto.
Qed.
Lemma cond_prob_nonneg s : (0 <= cond_prob vars g s)%Qc.
Proof. unfold cond_prob. destruct (qeq (row_sum vars g s) 0); [apply Hn|]. apply qdiv_nonneg; [apply Hn|apply row_sum_nonneg]. Qed.
Lemma cond_prob_sum s : (qsum (map (fun k => cond_prob vars g (nupd s x k)) (seq 0 (num_outcomes vars x))) <= 1)%Qc.
Proof.
  destruct (Qc_eq_dec (row_sum vars g s) 0) as [E|E].
  - rewrite (qsum_zero (fun k => cond_prob vars g (nupd s x k))); [discriminate|]. intros k Hk. unfold cond_prob. rewrite row_sum_upd, E.
    replace (qeq 0 0) with true by reflexivity. unfold row_sum in E. exact (sum_zero_parts _ _ (fun j _ => Hn _) E k Hk).
  - rewrite (qsum_ext _ (fun k => (/ row_sum vars g s * entry vars g (nupd s x k))%Qc)).
    + rewrite qsum_scale. fold (row_sum vars g s). rewrite Qcmult_comm, Qcmult_inv_r by exact E. apply Qcle_refl.
    + intros k _. unfold cond_prob. rewrite row_sum_upd. destruct (qeq (row_sum vars g s) 0) eqn:Eq; [exfalso; apply E; now apply qeq_spec|]. unfold Qcdiv. ring.
Qed.
End Table.

(** ** All tables *)
Lemma filter_ext_in' {X} (p q : X -> bool) l : (forall x, In x l -> p x = q x) -> filter p l = filter q l.
Proof. induction l as [|y l IH]; intros H; [reflexivity|]. cbn [filter]. rewrite (H y (or_introl eq_refl)), IH by (intros; apply H; now right). reflexivity. Qed.
Lemma forallb_ext_in {X} (p q : X -> bool) l : (forall x, In x l -> p x = q x) -> forallb p l = forallb q l.
Proof. induction l as [|y l IH]; intros H; [reflexivity|]. cbn [forallb]. rewrite (H y (or_introl eq_refl)), IH by (intros; apply H; now right). reflexivity. Qed.
Lemma qprod_swap {X Y} (F : X -> Y -> Qc) (l : list X) (m : list Y) : qprod (map (fun x => qprod (map (F x) m)) l) = qprod (map (fun y => qprod (map (fun x => F x y) l)) m).
Proof.
  induction l as [|x l IH]; cbn [map].
  - change (qprod []) with 1%Qc. induction m as [|y m IHm]; [reflexivity|]. cbn [map]. change (qprod (?a :: ?b)) with (a * qprod b)%Qc. rewrite <- IHm. ring.
  - change (qprod (?a :: map (fun x0 => qprod (map (F x0) m)) l)) with (a * qprod (map (fun x0 => qprod (map (F x0) m)) l))%Qc. rewrite IH, <- qprod_mul. apply qprod_ext. intros y _. reflexivity.
Qed.
Lemma forall2_nth {X Y} (R : X -> Y -> Prop) (l : list X) : forall (l' : list Y), List.length l = List.length l' ->
  (forall k x y, nth_error l k = Some x -> nth_error l' k = Some y -> R x y) -> Forall2 R l l'.
Proof.
  induction l as [|x l IH]; intros [|y l'] E H; try discriminate; constructor; [apply (H 0%nat); reflexivity|]. apply IH; [cbn in E; lia|]. intros k a b Ha Hb. exact (H (S k) a b Ha Hb).
Qed.
Lemma forall2_len {X Y} (R : X -> Y -> Prop) (l : list X) (l' : list Y) : Forall2 R l l' -> List.length l = List.length l'.
Proof. induction 1; cbn; congruence. Qed.
Lemma forall2_at {X Y} (R : X -> Y -> Prop) (l : list X) (l' : list Y) : Forall2 R l l' -> forall k y, nth_error l' k = Some y -> exists x, nth_error l k = Some x /\ R x y.
Proof. induction 1; intros [|k] z Hz; try discriminate; cbn in *; [injection Hz as <-; eauto|eauto]. Qed.
Lemma forall2_filter {X Y} (R : X -> Y -> Prop) (p : X -> bool) (q : Y -> bool) l l' : Forall2 (fun x y => p x = q y /\ (p x = true -> R x y)) l l' -> Forall2 R (filter p l) (filter q l').
Proof. induction 1 as [|x y l l' (E & H) _ IH]; [constructor|]. cbn [filter]. rewrite <- E. destruct (p x); auto. Qed.
Lemma qprod_forall2 {X Y} (F : X -> Qc) (G : Y -> Qc) l l' : Forall2 (fun x y => (0 <= F x)%Qc /\ (F x <= G y)%Qc) l l' -> (0 <= qprod (map F l))%Qc /\ (qprod (map F l) <= qprod (map G l'))%Qc.
Proof.
  induction 1 as [|x y l l' (H0 & H1) _ (I0 & I1)]; [split; discriminate|]. cbn [map]. change (qprod (?a :: ?b)) with (a * qprod b)%Qc. split; [now apply qc_mul|].
  apply Qcle_trans with (F x * qprod (map G l'))%Qc; [rewrite !(Qcmult_comm (F x)); now apply Qcmult_le_compat_r|apply Qcmult_le_compat_r; [exact H1|exact (Qcle_trans _ _ _ I0 I1)]].
Qed.

Section Training.
Variables (n n' m : network xnum) (samples : list (sample xnum)).
Hypothesis Hta : trainable n.
Hypothesis Hp : plain_parents n.
Hypothesis Hone : NoDup (map nf_for (n_factors n)).
Hypothesis Hval : forall smp, In smp samples -> valid_sample (n_vars n) smp.
Hypothesis Hcom : forall smp, In smp samples -> complete_sample (n_vars n) smp.
Hypothesis Htrain : train n samples = (n', Ok tt).
Hypothesis Hm : only_tables_differ n m.
Hypothesis Hnn : nonnegative m.
Hypothesis Hchance : forall f y, In f (chance_factors n) -> In y (nf_given f) -> kind (n_vars n) y <> Some Utility.
Notation vars := (n_vars n).
Notation st := (sample_state vars).

Lemma trained_differs : only_tables_differ n n'.
Proof. exact (proj1 (C41_changes_only_tables n samples n' _ Hta Hp Hval Htrain)). Qed.

Lemma factor_index k f v : nth_error (n_factors n) k = Some f -> In v vars -> nv_name v = nf_for f -> nv_factor v = Some k.
Proof.
  intros Hk Hv E. destruct (ta_factor n Hta v Hv) as (f0 & (j & Hj & Hf0) & E0 & _). rewrite Hj. f_equal.
  apply (proj1 (NoDup_nth_error (map nf_for (n_factors n))) Hone).
  - rewrite map_length. apply nth_error_Some. congruence.
  - rewrite !nth_error_map, Hk, Hf0. cbn. congruence.
Qed.

Lemma state_var y v smp : var_named vars y = Some v -> nv_type v <> Utility -> In smp samples -> Z.of_nat (st smp y) = observed vars smp y.
Proof.
  intros Ev Ht Hs. unfold var_named in Ev. apply find_some in Ev. destruct Ev as (Hv & E). apply String.eqb_eq in E. subst y.
  apply sample_value; [exact (ta_names n Hta)|exact (ta_outcomes n Hta)|exact (Hcom smp Hs)|exact Hv|exact Ht].
Qed.

Lemma in_range smp : In smp samples -> state_of vars (st smp).
Proof. intros Hs. apply sample_in_range; [exact (ta_names n Hta)|exact (ta_outcomes n Hta)|exact (Hval smp Hs)|exact (Hcom smp Hs)]. Qed.

Lemma one_table k f g f' : nth_error (n_factors n) k = Some f -> nth_error (n_factors m) k = Some g -> nth_error (n_factors n') k = Some f' ->
  kind vars (nf_for f) = Some Chance -> same_tables_shape f g ->
  (0 <= qprod (map (fun smp => cond_prob vars g (st smp)) samples))%Qc /\
  (qprod (map (fun smp => cond_prob vars g (st smp)) samples) <= qprod (map (fun smp => cond_prob vars f' (st smp)) samples))%Qc.
Proof.
  intros Hk Hg Hf' Hkind (G1 & G2 & _). unfold kind in Hkind. destruct (var_named vars (nf_for f)) as [v|] eqn:Ev; [|discriminate]. cbn in Hkind. injection Hkind as Ht.
  pose proof Ev as Ev0. unfold var_named in Ev. apply find_some in Ev. destruct Ev as (Hv & En). apply String.eqb_eq in En.
  pose proof (factor_index k f v Hk Hv En) as Hfk. assert (Ho : own_factor n v f) by (exists k; auto).
  assert (Hc : In f (chance_factors n)). { unfold chance_factors. apply filter_In. split; [eapply nth_error_In, Hk|]. unfold kind. rewrite Ev0. cbn. now rewrite Ht. }
  assert (Hpos : forall s, (0 <= entry vars g s)%Qc).
  { intros s. destruct Hm as (_ & _ & Mv & _). rewrite <- Mv. apply (proj1 Hnn). unfold chance_factors. apply filter_In. split; [eapply nth_error_In, Hg|].
    rewrite Mv, G1. unfold kind. rewrite Ev0. cbn. now rewrite Ht. }
  split. { apply qprod_nonneg. intros y Hy. apply in_map_iff in Hy. destruct Hy as (smp & <- & _). now apply cond_prob_nonneg. }
  pose (R := fun i j : sample xnum => forallb (fun y => (st i y =? st j y)%nat) (nf_given f)).
  assert (RT : forall i j, R i j = true -> forall y, In y (nf_given f) -> st i y = st j y).
  { intros i j H y Hy. unfold R in H. rewrite forallb_forall in H. now apply Nat.eqb_eq, H. }
  assert (Hx : ~ In (nf_for f) (nf_given f)). { pose proof (Hp v f Hv Ho) as Hnd. apply NoDup_remove_2 in Hnd. now rewrite app_nil_r in Hnd. }
  destruct (C41_frequencies n samples n' Hta Hp Hval Htrain v f Hv Ht Ho) as (f2 & Ho2 & (F1 & F2 & _) & Hent).
  assert (f2 = f'). { destruct Ho2 as (b & B1 & B2). congruence. } subst f2.
  apply Qcle_trans with (qprod (map (fun i => cond_prob vars g (nupd (st i) (nf_for g) (st i (nf_for g)))) samples)).
  { match goal with |- (?a <= ?b)%Qc => replace b with a; [apply Qcle_refl|] end. apply qprod_ext. intros i _. apply cond_prob_ext. intros y _. unfold nupd. destruct (String.eqb_spec y (nf_for g)) as [->|]; auto. }
  rewrite G1.
  eapply Qcle_trans; [apply (frequencies_most_likely samples R) with (x := fun i => st i (nf_for f)) (P := fun i k => cond_prob vars g (nupd (st i) (nf_for f) k)) (K := num_outcomes vars (nf_for f))|].
  - intros i. unfold R. apply forallb_forall. intros y _. apply Nat.eqb_refl.
  - intros i j. unfold R. apply forallb_ext_in. intros y _. apply Nat.eqb_sym.
  - intros i Hi. rewrite <- En. rewrite (named_outcomes n Hta v Hv). apply (in_range i Hi v Hv).
  - intros i j _ _. now apply cond_prob_nonneg.
  - intros i j Hi Hj HR q _. apply cond_prob_ext. intros y Hy. unfold nupd. destruct (String.eqb_spec y (nf_for f)); auto. rewrite G1, G2 in Hy. apply in_app_or in Hy.
    destruct Hy as [Hy|[Hy|[]]]; [exact (RT i j HR y Hy)|congruence].
  - intros i _. rewrite <- G1. now apply cond_prob_sum.
  - intros i j q _ _ HR. unfold in_cell. f_equal. apply filter_ext_in'. intros t _. f_equal. unfold R. apply forallb_ext_in. intros y Hy. now rewrite (RT i j HR y Hy).
  - match goal with |- (?a <= ?b)%Qc => replace b with a; [apply Qcle_refl|] end. apply qprod_ext. intros i Hi.
    assert (Hs : state_of vars (st i)) by exact (in_range i Hi).
    unfold cond_prob. rewrite (C41_rows_add_up n samples n' Hta Hp Hval Htrain v f' Hv Ht Ho2 (st i) Hs).
    replace (qeq 1 0) with false by reflexivity. unfold entry. rewrite F1, F2, <- En. destruct (Hent _ Hs) as (_ & ->). cbn [fin_value].
    assert (SH : forall names s smp, In smp samples -> (forall y, In y names -> exists w, var_named vars y = Some w /\ nv_type w <> Utility) -> shows vars names s smp = forallb (fun y => (s y =? st smp y)%nat) names).
    { intros names s smp Hsmp Hw. unfold shows. apply forallb_ext_in. intros y Hy. destruct (Hw y Hy) as (w & Ew & Hw'). rewrite <- (state_var y w smp Ew Hw' Hsmp).
      destruct (Nat.eqb_spec (s y) (st smp y)) as [->|]; [apply Z.eqb_refl|apply Z.eqb_neq; lia]. }
    assert (HG : forall y, In y (nf_given f) -> exists w, var_named vars y = Some w /\ nv_type w <> Utility).
    { intros y Hy. destruct (ta_factor n Hta v Hv) as (f0 & (j & Hj & Hf0) & _ & _ & _ & Hgiven & _). assert (f0 = f) by congruence. subst f0.
      destruct (Hgiven y Hy) as (w & Hw & Ew). exists w. subst y. pose proof (var_named_in' _ w (ta_names n Hta) Hw) as E. split; [exact E|]. intros Hu. apply (Hchance f _ Hc Hy). unfold kind. rewrite E. cbn. now rewrite Hu. }
    assert (E1 : usable_count vars v (nf_given f) (st i) samples = Z.of_nat (in_row samples R i)).
    { unfold usable_count, count_of, zlen, in_row. do 2 f_equal. apply filter_ext_in'. intros t Htt. unfold usable. rewrite Ht. cbn [nodeType_eqb].
      rewrite (SH _ _ t Htt HG). fold (R i t). assert (O : 0 <= observed vars t (nv_name v)) by (apply (Hcom t Htt); congruence). apply Z.leb_le in O. rewrite O. apply andb_true_r. }
    assert (E2 : count_of (shows vars (nf_given f ++ [nv_name v]) (st i)) samples = Z.of_nat (in_cell samples R (fun j => st j (nv_name v)) i (st i (nv_name v)))).
    { unfold count_of, zlen, in_cell. do 2 f_equal. apply filter_ext_in'. intros t Htt. rewrite (SH _ _ t Htt).
      - rewrite forallb_app. cbn [forallb]. rewrite andb_true_r. fold (R i t). f_equal. apply Nat.eqb_sym.
      - intros y Hy. apply in_app_or in Hy. destruct Hy as [Hy|[<-|[]]]; [now apply HG|]. exists v. split; [|congruence]. now apply var_named_in', Hv; apply ta_names. }
    rewrite E1, E2. unfold qz, Qcdiv. replace (/ 1)%Qc with 1%Qc by reflexivity. rewrite Qcmult_1_r. reflexivity.
Qed.

Lemma seen_positive smp : In smp samples -> n_policies n = [] -> (0 < mass n' (fun _ => false) (fits (n_vars n') smp))%Qc.
Proof.
  intros Hs Hno. pose proof trained_differs as (_ & _ & Dv & Dp & _ & _ & _ & Df).
  rewrite mass_of_sample; rewrite ?Dv; [|exact (ta_names n Hta)|exact (ta_outcomes n Hta)|exact (Hval smp Hs)|exact (Hcom smp Hs)].
  unfold joint. rewrite Dp, Hno. cbn [filter map]. change (qprod []) with 1%Qc. rewrite Qcmult_1_r, Dv.
  assert (PP : forall l : list Qc, (forall y, In y l -> (0 < y)%Qc) -> (0 < qprod l)%Qc).
  { induction l as [|y l IH]; intros H; [reflexivity|]. change (qprod (y :: l)) with (y * qprod l)%Qc. rewrite <- (Qcmult_0_l (qprod l)).
    apply Qcmult_lt_compat_r; [apply IH; intros; apply H; now right|apply H; now left]. }
  apply PP. intros y Hy. apply in_map_iff in Hy. destruct Hy as (f' & <- & Hf'). unfold chance_factors in Hf'. apply filter_In in Hf'. destruct Hf' as (Hf' & Hk').
  apply In_nth_error in Hf'. destruct Hf' as (k & Hk). destruct (forall2_at _ _ _ Df k f' Hk) as (f & Hf & Sf). destruct Sf as (S1 & S2 & _).
  rewrite Dv, S1 in Hk'. unfold kind in Hk'. destruct (var_named vars (nf_for f)) as [v|] eqn:Ev; [|discriminate]. cbn in Hk'. assert (Ht : nv_type v = Chance) by (destruct (nv_type v); congruence).
  assert (Hc : In f (chance_factors n)). { unfold chance_factors. apply filter_In. split; [eapply nth_error_In, Hf|]. unfold kind. rewrite Ev. cbn. now rewrite Ht. }
  pose proof Ev as Ev0. unfold var_named in Ev. apply find_some in Ev. destruct Ev as (Hv & En). apply String.eqb_eq in En.
  pose proof (factor_index k f v Hf Hv En) as Hfk. assert (Ho : own_factor n v f) by (exists k; auto).
  destruct (C41_frequencies n samples n' Hta Hp Hval Htrain v f Hv Ht Ho) as (f2 & Ho2 & _ & Hent).
  assert (f2 = f'). { destruct Ho2 as (b & B1 & B2). congruence. } subst f2.
  unfold cond_prob. rewrite (C41_rows_add_up n samples n' Hta Hp Hval Htrain v f' Hv Ht Ho2 (st smp) (in_range smp Hs)).
  replace (qeq 1 0) with false by reflexivity. unfold entry. rewrite S1, S2, <- En. destruct (Hent _ (in_range smp Hs)) as (Hu & ->). cbn [fin_value].
  assert (Hcount : 0 < count_of (shows vars (nf_given f ++ [nv_name v]) (st smp)) samples).
  { unfold count_of, zlen. assert (Hin : In smp (filter (shows vars (nf_given f ++ [nv_name v]) (st smp)) samples)).
    { apply filter_In. split; [exact Hs|]. unfold shows. apply forallb_forall. intros y Hy. apply Z.eqb_eq. symmetry. apply in_app_or in Hy. destruct Hy as [Hy|[<-|[]]].
      - destruct (ta_factor n Hta v Hv) as (f0 & (j & Hj & Hf0) & _ & _ & _ & Hgiven & _). assert (f0 = f) by congruence. subst f0. destruct (Hgiven y Hy) as (w & Hw & Ew). subst y.
        pose proof (var_named_in' _ w (ta_names n Hta) Hw) as E. apply (state_var _ w); [exact E| |exact Hs]. intros Hu'. apply (Hchance f _ Hc Hy). unfold kind. rewrite E. cbn. now rewrite Hu'.
      - apply (state_var _ v); [exact (var_named_in' _ v (ta_names n Hta) Hv)|congruence|exact Hs]. }
    destruct (filter _ samples); [destruct Hin|cbn [List.length]; lia]. }
  assert (QP : forall z, 0 < z -> (0 < qz z)%Qc). { intros z Hz. unfold qz, Qclt, Q2Qc. cbn [this]. rewrite !Qred_correct. unfold Qlt, inject_Z. cbn. lia. }
  replace (/ 1)%Qc with 1%Qc by reflexivity. unfold Qcdiv. replace (/ 1)%Qc with 1%Qc by reflexivity. rewrite Qcmult_1_r.
  destruct (Qcle_lt_or_eq _ _ (qdiv_nonneg _ _ (Qclt_le_weak _ _ (QP _ Hcount)) (Qclt_le_weak _ _ (QP _ Hu)))) as [H|H]; [exact H|]. exfalso.
  assert (N : qz (usable_count vars v (nf_given f) (st smp) samples) <> 0%Qc). { intros E. pose proof (QP _ Hu) as HH. rewrite E in HH. discriminate HH. }
  pose proof (QP _ Hcount) as HH. replace (qz (count_of (shows vars (nf_given f ++ [nv_name v]) (st smp)) samples)) with 0%Qc in HH; [discriminate HH|].
  rewrite <- (Qcmult_div_r (qz (count_of (shows vars (nf_given f ++ [nv_name v]) (st smp)) samples)) _ N), <- H. ring.
Qed.

Theorem most_likely : (likelihood m samples <= likelihood n' samples)%Qc.
Proof.
  pose proof trained_differs as Hd. destruct Hd as (_ & _ & Dv & Dp & _ & _ & _ & Df). pose proof Hm as (_ & _ & Mv & Mp & _ & _ & _ & Mf).
  assert (J : forall q : network xnum, n_vars q = vars -> n_policies q = n_policies n -> likelihood q samples =
    (qprod (map (fun f => qprod (map (fun smp => cond_prob vars f (st smp)) samples)) (chance_factors q)) *
     qprod (map (fun smp => qprod (map (fun dp => policy_prob vars (snd dp) (st smp)) (filter (fun dp => negb false) (n_policies n)))) samples))%Qc).
  { intros q Qv Qp. unfold likelihood. rewrite <- qprod_swap, <- qprod_mul. apply qprod_ext. intros smp Hs.
    rewrite mass_of_sample; rewrite ?Qv; auto using ta_names; [|exact (ta_outcomes n Hta)]. unfold joint. now rewrite Qv, Qp. }
  rewrite (J m Mv Mp), (J n' Dv Dp). apply Qcmult_le_compat_r.
  - apply qprod_forall2. unfold chance_factors. apply forall2_filter. apply forall2_nth; [now rewrite <- (forall2_len _ _ _ Mf), (forall2_len _ _ _ Df)|].
    intros k g f' Hg Hf'. destruct (forall2_at _ _ _ Mf k g Hg) as (f & Hf & Sg). destruct (forall2_at _ _ _ Df k f' Hf') as (f0 & Hf0 & Sf). assert (f0 = f) by congruence. subst f0.
    destruct Sg as (G1 & Sg'). destruct Sf as (F1 & Sf'). rewrite Mv, Dv, G1, F1. split; [reflexivity|]. intros Hk.
    apply (one_table k f g f'); auto; [|now split]. destruct (kind vars (nf_for f)) as [[]|]; congruence.
  - apply qprod_nonneg. intros y Hy. apply in_map_iff in Hy. destruct Hy as (smp & <- & _). apply qprod_nonneg. intros z Hz. apply in_map_iff in Hz. destruct Hz as ((a & b) & <- & Hz).
    apply filter_In in Hz. rewrite <- Mv. apply (proj2 Hnn a). rewrite Mp. tauto.
Qed.
End Training.

(** ** Samples as observations *)
Section Observed.
Variable n : network xnum.
Hypothesis Hwf : wf_network n.
Notation vars := (n_vars n).
Variable smp : sample xnum.
Hypothesis Hvalid : valid_sample vars smp.

Lemma seen_outcome v : In v vars -> 0 <= observed vars smp (nv_name v) ->
  nth_error (nv_outcomes v) (Z.to_nat (observed vars smp (nv_name v))) = Some (nth (Z.to_nat (observed vars smp (nv_name v))) (nv_outcomes v) "").
Proof. intros Hv Ho. apply nth_error_nth'. pose proof (vs_range _ _ Hvalid v Hv) as H. unfold zlen in H. lia. Qed.

Lemma evidence_valid : valid_observations n (as_evidence vars smp).
Proof.
  split.
  - unfold as_evidence. rewrite map_map. cbn [fst]. apply nodup_filter_names. exact (wn_names n Hwf).
  - intros x o H. unfold as_evidence in H. apply in_map_iff in H. destruct H as (v & E & Hv). injection E as <- <-. apply filter_In in Hv. destruct Hv as (Hv & Hk). apply andb_true_iff in Hk. destruct Hk as (Hk & Ho).
    exists v. split; [exact (var_named_in' _ v (wn_names n Hwf) Hv)|]. split; [|eapply nth_error_In; apply seen_outcome; [exact Hv|lia]].
    intros E. unfold is_kind in Hk. rewrite E in Hk. discriminate Hk.
Qed.

Lemma evidence_fits s : (forall v, In v vars -> nv_type v <> Utility -> (s (nv_name v) < List.length (nv_outcomes v))%nat) -> agrees vars (as_evidence vars smp) s = fits vars smp s.
Proof.
  intros Hs. unfold agrees, as_evidence, fits. enough (G : forall l, (forall v, In v l -> In v vars) ->
    forallb (fun '(x, o) => match var_named vars x with None => false | Some v => match nth_error (nv_outcomes v) (s x) with Some o' => String.eqb o' o | None => false end end)
      (map (fun v => (nv_name v, nth (Z.to_nat (observed vars smp (nv_name v))) (nv_outcomes v) "")) (filter (fun v => negb (is_kind Utility v) && (0 <=? observed vars smp (nv_name v))) l)) =
    forallb (fun v => is_kind Utility v || (observed vars smp (nv_name v) <? 0) || (observed vars smp (nv_name v) =? Z.of_nat (s (nv_name v)))) l) by (apply G; auto).
  induction l as [|v l IH]; intros Hl; [reflexivity|]. specialize (IH (fun w Hw => Hl w (or_intror Hw))). assert (Hv : In v vars) by (apply Hl; now left).
  cbn [filter forallb]. destruct (is_kind Utility v) eqn:Ek; cbn [negb orb andb]; [exact IH|]. destruct (Z.leb_spec 0 (observed vars smp (nv_name v))) as [Ho|Ho].
  - replace (observed vars smp (nv_name v) <? 0) with false by (symmetry; now apply Z.ltb_ge). cbn [map forallb orb]. rewrite IH. f_equal. rewrite (var_named_in' _ v (wn_names n Hwf) Hv).
    assert (Ht : nv_type v <> Utility). { intros E. unfold is_kind in Ek. rewrite E in Ek. discriminate. }
    pose proof (Hs v Hv Ht) as Hlt. pose proof (seen_outcome v Hv Ho) as Es. destruct (nth_error (nv_outcomes v) (s (nv_name v))) as [o|] eqn:Eo; [|apply nth_error_None in Eo; lia].
    destruct (Z.eqb_spec (observed vars smp (nv_name v)) (Z.of_nat (s (nv_name v)))) as [E|E].
    + rewrite E, Nat2Z.id in Es. rewrite Eo in Es. injection Es as Es. rewrite E, Nat2Z.id, <- Es. apply String.eqb_refl.
    + apply String.eqb_neq. intros ->. apply E. rewrite <- Es in Eo.
      assert (s (nv_name v) = Z.to_nat (observed vars smp (nv_name v))); [|lia]. apply (proj1 (NoDup_nth_error (nv_outcomes v)) (wn_distinct n Hwf v Hv)); [lia|exact Eo].
  - apply Z.ltb_lt in Ho. rewrite Ho. cbn [orb andb]. exact IH.
Qed.

Lemma evidence_mass ign : mass n ign (agrees vars (as_evidence vars smp)) = mass n ign (fits vars smp).
Proof.
  apply mass_same. intros s Hs. apply evidence_fits. intros v Hv Ht. unfold worlds_of in Hs. eapply joint_states_range; [|exact Hs|].
  - apply nodup_filter_names. exact (wn_names n Hwf).
  - apply filter_In. split; [exact Hv|]. unfold is_kind. destruct (nv_type v); try reflexivity. congruence.
Qed.
End Observed.
