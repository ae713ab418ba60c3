(** Networks whose tables differ a little. *)
From Coq Require Import ZArith List Bool String Lia Permutation QArith Qcanon.
From Verif Require Import Num GoBase VarModel GoFacts SpecFactor XnumFacts VEModel SpecVE NetModel SpecNet NetVars NetFactors NetSums NetQuery NetMass NetCor
  SpecAnswers NetJoint NetBayes SpecNetPolicy NetPolicyStep NetPolicyThms SpecGraph StateSums NetGraph NetMarkov NetChange NetReorder NetAdvice SpecNear.
Import ListNotations.
Open Scope string_scope.
Open Scope list_scope.
Open Scope Z_scope.

Lemma qmult_le a b c d : (0 <= a -> a <= b -> 0 <= c -> c <= d -> a * c <= b * d)%Qc.
Proof.
  intros Ha Hab Hc Hcd. apply Qcle_trans with (b * c)%Qc; [apply Qcmult_le_compat_r; auto|]. rewrite !(Qcmult_comm b). apply Qcmult_le_compat_r; auto. apply Qcle_trans with a; auto.
Qed.

Section Other.
Variable R : string -> nfactor xnum -> nfactor xnum -> Prop.
Variables n n' : network xnum.
Hypothesis Ho : other_tables R n n'.
Notation vars := (n_vars n).

Lemma ot_v : n_vars n' = vars.
Proof. apply (ot_vars _ _ _ Ho). Qed.
Lemma ot_worlds : worlds_of n' = worlds_of n.
Proof. unfold worlds_of. rewrite ot_v. auto. Qed.
Lemma ot_chance : Forall2 (fun f f' => nf_for f' = nf_for f /\ nf_given f' = nf_given f /\ R (nf_for f) f f') (chance_factors n) (chance_factors n').
Proof.
  unfold chance_factors. rewrite ot_v. induction (ot_factors _ _ _ Ho) as [|f f' l l' (E & G & H) _ IH]; cbn [filter]; [constructor|]. rewrite E.
  destruct (kind vars (nf_for f)) as [[]|]; auto.
Qed.
Lemma ot_complete : complete n -> complete n'.
Proof.
  intros Hc v Hv Ht. rewrite ot_v in Hv. destruct (Hc v Hv Ht) as (f & Hf & E). destruct (Forall2_in_l _ _ _ f (ot_factors _ _ _ Ho) Hf) as (f' & Hf' & E' & _). exists f'. split; auto. congruence.
Qed.
Lemma ot_observations ev : valid_observations n ev -> valid_observations n' ev.
Proof. unfold valid_observations. rewrite ot_v. auto. Qed.
Lemma ot_askable ign ev q : askable n ign ev q -> askable n' ign ev q.
Proof.
  intros (H1 & H2 & H3). unfold askable. rewrite ot_v. split; auto. split; auto. destruct H2 as [(f & Hf & Hx)|H2]; [left|right; rewrite (ot_policies _ _ _ Ho), ot_v; auto].
  destruct (Forall2_in_l _ _ _ f ot_chance Hf) as (f' & Hf' & E & G & _). exists f'. rewrite E, G. auto.
Qed.
Lemma ot_is_total x : is_total n' x = is_total n x.
Proof. unfold is_total. rewrite ot_v, (ot_total _ _ _ Ho). auto. Qed.
Lemma ot_utility s : utility_of n' s = utility_of n s.
Proof.
  unfold utility_of, utility_tables. rewrite ot_v.
  induction (ot_factors _ _ _ Ho) as [|f f' l l' (E & G & H) _ IH]; cbn [filter map]; auto. rewrite E, ot_is_total.
  destruct (kind vars (nf_for f)) as [[]|]; rewrite ?andb_false_r; auto. subst f'. rewrite !andb_true_r. destruct (is_total n (nf_for f)); cbn [negb]; auto. cbn [map]. unfold qsum in *. cbn [fold_right].
  rewrite IH, (ot_weights _ _ _ Ho). auto.
Qed.
Lemma ot_decisions : decisions n' = decisions n.
Proof. unfold decisions. rewrite ot_v. auto. Qed.
Lemma ot_observed d : observed_by n' d = observed_by n d.
Proof.
  unfold observed_by, factor_for. induction (ot_factors _ _ _ Ho) as [|f f' l l' (E & G & H) _ IH]; cbn [find]; auto. rewrite E. destruct (String.eqb (nf_for f) d); auto.
Qed.
Lemma ot_policy d p : policy_for n' d p <-> policy_for n d p.
Proof.
  split; intros [H1 H2 H3]; constructor; unfold proper_state in *; rewrite ?ot_v in *; auto; intros s s' E; apply H3; intros y Hy; apply E; rewrite ?ot_observed in *; auto.
Qed.
Lemma ot_forgetting : no_forgetting n -> no_forgetting n'.
Proof. intros H d e. rewrite ot_decisions, !ot_observed. apply H. Qed.
End Other.

Lemma cond_nonneg n f s : nonnegative n -> In f (chance_factors n) -> (0 <= cond_prob (n_vars n) f s)%Qc.
Proof. intros [H _] Hf. apply cond_prob_nonneg. auto. Qed.
Lemma policies_nonneg n ign s : nonnegative n -> (0 <= qprod (map (fun dp => policy_prob (n_vars n) (snd dp) s) (filter (fun dp => negb (ign (fst dp))) (n_policies n))))%Qc.
Proof.
  intros [_ H]. apply NetQuery.qprod_nonneg. intros x Hx. apply in_map_iff in Hx. destruct Hx as ([d p] & <- & Hf). simpl. apply filter_In in Hf. destruct Hf as [Hf _]. eapply H; eauto.
Qed.

Section Near.
Variable r : string -> Qc.
Variables n n' : network xnum.
Hypothesis Hn : near r n n'.
Notation vars := (n_vars n).

Lemma ratio_one : (1 <= total_ratio r n)%Qc.
Proof.
  unfold total_ratio. induction (chance_factors n) as [|f l IH]; [apply Qcle_refl|]. cbn [map]. change (qprod (r (nf_for f) :: map (fun f => r (nf_for f)) l)) with (r (nf_for f) * qprod (map (fun f => r (nf_for f)) l))%Qc.
  replace 1%Qc with (1 * 1)%Qc by ring. apply qmult_le; auto; try discriminate. apply (proj1 Hn).
Qed.

Lemma near_products s l l' : proper_state n s -> (forall f, In f l -> 0 <= cond_prob vars f s)%Qc -> (forall f, In f l' -> 0 <= cond_prob vars f s)%Qc ->
  Forall2 (fun f f' => (cond_prob vars f s <= r (nf_for f) * cond_prob vars f' s)%Qc) l l' ->
  (0 <= qprod (map (fun f => cond_prob vars f s) l))%Qc /\ (qprod (map (fun f => cond_prob vars f s) l) <= qprod (map (fun f => r (nf_for f)) l) * qprod (map (fun f => cond_prob vars f s) l'))%Qc.
Proof.
  intros Hs H0 H0' H. induction H as [|f f' l l' H _ IH]; [split; discriminate|]. cbn [map].
  assert (Q : forall x (m : list Qc), qprod (x :: m) = (x * qprod m)%Qc) by reflexivity. rewrite !Q.
  destruct IH as [I1 I2]; [intros; apply H0; right; auto|intros; apply H0'; right; auto|]. assert (Hf : (0 <= cond_prob vars f s)%Qc) by (apply H0; left; auto).
  split; [replace 0%Qc with (0 * qprod (map (fun f => cond_prob vars f s) l))%Qc by ring; apply Qcmult_le_compat_r; auto|].
  replace (r (nf_for f) * qprod (map (fun f1 => r (nf_for f1)) l) * (cond_prob vars f' s * qprod (map (fun f1 => cond_prob vars f1 s) l')))%Qc
    with (r (nf_for f) * cond_prob vars f' s * (qprod (map (fun f1 => r (nf_for f1)) l) * qprod (map (fun f1 => cond_prob vars f1 s) l')))%Qc by ring.
  apply qmult_le; auto.
Qed.

Lemma ratio_same : total_ratio r n' = total_ratio r n.
Proof.
  unfold total_ratio. f_equal. pose proof (ot_chance _ _ _ (proj2 Hn)) as H. induction H as [|f f' l l' (E & _) _ IH]; auto. cbn [map]. rewrite E, IH. auto.
Qed.

Lemma near_tables s : nonnegative n -> nonnegative n' -> proper_state n s ->
  let T := fun m => qprod (map (fun f => cond_prob vars f s) (chance_factors m)) in
  ((0 <= T n /\ 0 <= T n') /\ T n <= total_ratio r n * T n' /\ T n' <= total_ratio r n * T n)%Qc.
Proof.
  intros Hnn Hnn' Hs T. pose proof (ot_v _ _ _ (proj2 Hn)) as Ev. pose proof (ot_chance _ _ _ (proj2 Hn)) as HF.
  assert (P : forall f, In f (chance_factors n) -> (0 <= cond_prob vars f s)%Qc) by (intros; apply cond_nonneg; auto).
  assert (P' : forall f, In f (chance_factors n') -> (0 <= cond_prob vars f s)%Qc) by (intros; rewrite <- Ev; apply cond_nonneg; auto).
  destruct (near_products s (chance_factors n) (chance_factors n')) as [A B]; auto.
  { clear P P'. induction HF as [|f f' l l' (E & G & H) _ IH]; constructor; auto. apply H. auto. }
  destruct (near_products s (chance_factors n') (chance_factors n)) as [A' B']; auto.
  { clear - HF Hs. induction HF as [|f f' l l' (E & G & H) _ IH]; constructor; auto. rewrite E. apply H. auto. }
  repeat split; auto. rewrite <- ratio_same. exact B'.
Qed.

Lemma near_joint ign s : nonnegative n -> nonnegative n' -> proper_state n s ->
  (joint n ign s <= total_ratio r n * joint n' ign s /\ joint n' ign s <= total_ratio r n * joint n ign s)%Qc.
Proof.
  intros Hnn Hnn' Hs. destruct (near_tables s Hnn Hnn' Hs) as (_ & A & B). unfold joint. rewrite (ot_v _ _ _ (proj2 Hn)), (ot_policies _ _ _ (proj2 Hn)).
  rewrite !Qcmult_assoc. split; apply Qcmult_le_compat_r; auto; apply policies_nonneg; auto.
Qed.

Hypothesis Hwf : wf_network n.
Lemma near_mass ign event : nonnegative n -> nonnegative n' ->
  (mass n ign event <= total_ratio r n * mass n' ign event /\ mass n' ign event <= total_ratio r n * mass n ign event)%Qc.
Proof.
  intros Hnn Hnn'. unfold mass. rewrite (ot_worlds _ _ _ (proj2 Hn)), <- !XnumFacts.qsum_scale.
  split; apply NetAdvice.qsum_le; intros s Hs; apply filter_In in Hs; destruct Hs as [Hs _]; apply (world_proper n Hwf) in Hs; destruct (near_joint ign s Hnn Hnn' Hs) as [A B]; [exact A|exact B].
Qed.

Lemma near_quotient R a b a' b' : (1 <= R -> 0 < b -> 0 < b' -> 0 <= a -> 0 <= a' -> a <= R * a' -> b' <= R * b -> a / b <= R * R * (a' / b'))%Qc.
Proof.
  intros HR Hb Hb' Ha Ha' H1 H2. assert (Nb : b <> 0%Qc) by (intros ->; discriminate Hb). assert (Nb' : b' <> 0%Qc) by (intros ->; discriminate Hb').
  assert (HR0 : (0 <= R)%Qc) by (eapply Qcle_trans; [|exact HR]; discriminate).
  assert (K : (a * b' <= R * R * (a' * b))%Qc). { replace (R * R * (a' * b))%Qc with (R * a' * (R * b))%Qc by ring. apply qmult_le; auto. apply Qclt_le_weak; auto. }
  assert (I : (0 <= / (b * b'))%Qc).
  { assert (D : (0 <= 1 / (b * b'))%Qc). { apply Qc_div_nonneg; [discriminate|]. replace 0%Qc with (0 * b')%Qc by ring. apply Qcmult_le_compat_r; apply Qclt_le_weak; auto. } unfold Qcdiv in D. rewrite Qcmult_1_l in D. exact D. }
  pose proof (Qcmult_le_compat_r _ _ _ K I) as K'.
  replace (a / b)%Qc with (a * b' * / (b * b'))%Qc by (field; auto). replace (R * R * (a' / b'))%Qc with (R * R * (a' * b) * / (b * b'))%Qc by (field; auto). exact K'.
Qed.

Lemma positive_mass m ign event : nonnegative m -> mass m ign event <> 0%Qc -> (0 < mass m ign event)%Qc.
Proof. intros Hm H. pose proof (mass_nonneg m ign event Hm) as H0. apply Qcle_lt_or_eq in H0. destruct H0; auto. congruence. Qed.

Lemma near_possible ign event : nonnegative n -> nonnegative n' -> mass n ign event <> 0%Qc -> mass n' ign event <> 0%Qc.
Proof.
  intros Hnn Hnn' M Z. apply M. destruct (near_mass ign event Hnn Hnn') as [A _]. rewrite Z in A. apply Qcle_antisym; [|apply mass_nonneg; auto]. replace 0%Qc with (total_ratio r n * 0)%Qc by ring. exact A.
Qed.

Theorem near_posterior ign ev q k : nonnegative n -> nonnegative n' -> mass n ign (agrees vars ev) <> 0%Qc ->
  let R := total_ratio r n in
  (posterior n ign ev q k <= R * R * posterior n' ign ev q k /\ posterior n' ign ev q k <= R * R * posterior n ign ev q k)%Qc.
Proof.
  intros Hnn Hnn' M R. pose proof (near_possible ign _ Hnn Hnn' M) as M'. pose proof (ot_v _ _ _ (proj2 Hn)) as Ev.
  destruct (near_mass ign (agrees vars ev) Hnn Hnn') as [A A']. destruct (near_mass ign (fun s => agrees vars ev s && (s q =? k)%nat) Hnn Hnn') as [B B'].
  pose proof (positive_mass n ign _ Hnn M) as P. pose proof (positive_mass n' ign _ Hnn' M') as P'. pose proof (mass_nonneg n ign (fun s => agrees vars ev s && (s q =? k)%nat) Hnn) as Q.
  pose proof (mass_nonneg n' ign (fun s => agrees vars ev s && (s q =? k)%nat) Hnn') as Q'. unfold posterior. rewrite Ev.
  split; [exact (near_quotient R _ _ _ _ ratio_one P P' Q Q' B A')|exact (near_quotient R _ _ _ _ ratio_one P' P Q' Q B' A)].
Qed.

Theorem near_prior q k : nonnegative n -> nonnegative n' -> wf_network n' -> causal n (fun _ => false) [] -> causal n' (fun _ => false) [] ->
  let R := total_ratio r n in
  (posterior n (fun _ => false) [] q k <= R * posterior n' (fun _ => false) [] q k /\ posterior n' (fun _ => false) [] q k <= R * posterior n (fun _ => false) [] q k)%Qc.
Proof.
  intros Hnn Hnn' Hwf' Hca Hca' R. unfold posterior. rewrite (mass_one n Hwf Hca), (mass_one n' Hwf' Hca'), (ot_v _ _ _ (proj2 Hn)).
  destruct (near_mass (fun _ => false) (fun s => agrees vars [] s && (s q =? k)%nat) Hnn Hnn') as [B B'].
  assert (D : forall x, (x / 1 = x)%Qc) by (intros; field; discriminate). rewrite !D. auto.
Qed.

(** Expected utilities that are not negative. *)
Theorem near_value p : nonnegative n -> nonnegative n' -> (forall s, 0 <= utility_of n s)%Qc -> (forall d, In d (decisions n) -> policy_for n d (p d)) ->
  (expected_value n p <= total_ratio r n * expected_value n' p /\ expected_value n' p <= total_ratio r n * expected_value n p)%Qc.
Proof.
  intros Hnn Hnn' Hu Hp. unfold expected_value. rewrite (ot_worlds _ _ _ (proj2 Hn)), (ot_v _ _ _ (proj2 Hn)), (ot_decisions _ _ _ (proj2 Hn)), <- !XnumFacts.qsum_scale.
  split; apply NetAdvice.qsum_le; intros s Hs; apply (world_proper n Hwf) in Hs; rewrite (ot_utility _ _ _ (proj2 Hn)); destruct (near_tables s Hnn Hnn' Hs) as (_ & A & B);
    rewrite !Qcmult_assoc; (apply Qcmult_le_compat_r; [apply Qcmult_le_compat_r|]); auto;
    apply NetQuery.qprod_nonneg; intros y Hy; apply in_map_iff in Hy; destruct Hy as (d & <- & Hd); apply (pf_nonneg _ _ _ (Hp d Hd)); auto.
Qed.
End Near.

(** ** The same zeros *)

Section Zeros.
Variables n n' : network xnum.
Hypothesis Hz : same_zeros n n'.
Hypothesis Hwf : wf_network n.
Notation vars := (n_vars n).

Lemma zeros_joint ign s : proper_state n s -> joint n ign s = 0%Qc <-> joint n' ign s = 0%Qc.
Proof.
  intros Hs. unfold joint. rewrite (ot_v _ _ _ Hz), (ot_policies _ _ _ Hz).
  assert (M : forall a b, (a * b = 0 <-> a = 0 \/ b = 0)%Qc) by (intros a b; split; [apply Qcmult_integral|intros [->| ->]; ring]).
  rewrite !M. assert (E : qprod (map (fun f => cond_prob vars f s) (chance_factors n)) = 0%Qc <-> qprod (map (fun f => cond_prob vars f s) (chance_factors n')) = 0%Qc); [|tauto].
  induction (ot_chance _ _ _ Hz) as [|f f' l l' (_ & _ & H) _ IH]; [tauto|]. cbn [map]. assert (Q : forall x (m : list Qc), qprod (x :: m) = (x * qprod m)%Qc) by reflexivity.
  rewrite !Q, !M, (H s Hs), IH. tauto.
Qed.

Lemma sum_zero m ign event : nonnegative m -> mass m ign event = 0%Qc <-> forall s, In s (worlds_of m) -> event s = true -> joint m ign s = 0%Qc.
Proof.
  intros Hm. unfold mass. split.
  - intros Z s Hs He. apply (qsum_zero_all (map (joint m ign) (filter event (worlds_of m)))); auto; [|apply in_map; apply filter_In; auto].
    intros x Hx. apply in_map_iff in Hx. destruct Hx as (t & <- & _). apply joint_nonneg. auto.
  - intros H. rewrite (qsum_ext _ (fun _ => 0%Qc)); [|intros s Hs; apply filter_In in Hs; apply H; tauto]. induction (filter event (worlds_of m)); auto. cbn. unfold qsum in IHl. rewrite IHl. ring.
Qed.

Lemma zeros_mass ign event : nonnegative n -> nonnegative n' -> mass n ign event = 0%Qc <-> mass n' ign event = 0%Qc.
Proof.
  intros Hnn Hnn'. rewrite !sum_zero by auto. rewrite (ot_worlds _ _ _ Hz). split; intros H s Hs He; pose proof (zeros_joint ign s (world_proper n Hwf s Hs)) as Z; [exact (proj1 Z (H s Hs He))|exact (proj2 Z (H s Hs He))].
Qed.

Theorem zeros_posterior ign ev q k : nonnegative n -> nonnegative n' -> mass n ign (agrees vars ev) <> 0%Qc ->
  posterior n ign ev q k = 0%Qc <-> posterior n' ign ev q k = 0%Qc.
Proof.
  intros Hnn Hnn' M. assert (M' : mass n' ign (agrees vars ev) <> 0%Qc) by (intros Z; apply M; exact (proj2 (zeros_mass ign _ Hnn Hnn') Z)). unfold posterior. rewrite (ot_v _ _ _ Hz).
  assert (D : forall a b, b <> 0%Qc -> ((a / b)%Qc = 0%Qc <-> a = 0%Qc)).
  { intros a b Hb. split; [intros H|intros ->; field; auto]. replace a with (a / b * b)%Qc by (field; auto). rewrite H. ring. }
  rewrite !D by auto. exact (zeros_mass ign (fun s => agrees vars ev s && (s q =? k)%nat) Hnn Hnn').
Qed.
End Zeros.
