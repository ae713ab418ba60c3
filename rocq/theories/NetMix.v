(** A table between two tables. *)
From Coq Require Import ZArith List Bool String Lia Permutation QArith Qcanon.
From Verif Require Import Num GoBase VarModel GoFacts SpecFactor XnumFacts VEModel SpecVE NetModel SpecNet NetVars NetFactors NetSums NetQuery NetMass NetCor
  SpecAnswers NetJoint SpecNetPolicy NetPolicyStep NetPolicyThms SpecGraph StateSums NetGraph NetMarkov NetChange NetReorder NetInform SpecMix.
Import ListNotations.
Open Scope string_scope.
Open Scope list_scope.
Open Scope Z_scope.

(** A number between two numbers. *)
Lemma mixed_quotient (w m1 m2 a1 a2 : Qc) : (0 <= w)%Qc -> (w <= 1)%Qc -> (0 < m1)%Qc -> (0 < m2)%Qc -> (a1 / m1 <= a2 / m2)%Qc ->
  (0 < w * m1 + (1 - w) * m2)%Qc /\ (a1 / m1 <= (w * a1 + (1 - w) * a2) / (w * m1 + (1 - w) * m2))%Qc /\
  ((w * a1 + (1 - w) * a2) / (w * m1 + (1 - w) * m2) <= a2 / m2)%Qc.
Proof.
  intros H0 H1 Hm1 Hm2 H.
  assert (H1' : (0 <= 1 - w)%Qc) by (unfold Qcminus; apply (proj1 (Qcle_minus_iff _ _)); assumption).
  assert (Hm : (0 < w * m1 + (1 - w) * m2)%Qc).
  { destruct (Qcle_lt_or_eq _ _ H0) as [Hw|E].
    - apply Qclt_le_trans with (w * m1 + 0)%Qc; [|apply Qcplus_le_compat; [apply Qcle_refl|rewrite <- (Qcmult_0_l m2); apply Qcmult_le_compat_r; auto; apply Qclt_le_weak; auto]].
      rewrite Qcplus_0_r, <- (Qcmult_0_l m1). apply Qcmult_lt_compat_r; auto.
    - subst w. replace (0 * m1 + (1 - 0) * m2)%Qc with m2 by ring. auto. }
  split; auto.
  assert (N1 : m1 <> 0%Qc) by (intros E; rewrite E in Hm1; discriminate Hm1).
  assert (N2 : m2 <> 0%Qc) by (intros E; rewrite E in Hm2; discriminate Hm2).
  assert (N : (w * m1 + (1 - w) * m2)%Qc <> 0%Qc) by (intros E; rewrite E in Hm; discriminate Hm).
  assert (Hd : forall p q : Qc, (p * (w * m1 + (1 - w) * m2) <= q)%Qc -> (p <= q / (w * m1 + (1 - w) * m2))%Qc).
  { intros p q Hpq. apply Qcmult_lt_0_le_reg_r with (w * m1 + (1 - w) * m2)%Qc; auto. eapply Qcle_trans; [exact Hpq|].
    unfold Qcdiv. rewrite <- Qcmult_assoc, (Qcmult_comm (/ _)%Qc), Qcmult_inv_r, Qcmult_1_r by auto. apply Qcle_refl. }
  assert (Hu : forall p q : Qc, (q <= p * (w * m1 + (1 - w) * m2))%Qc -> (q / (w * m1 + (1 - w) * m2) <= p)%Qc).
  { intros p q Hpq. apply Qcmult_lt_0_le_reg_r with (w * m1 + (1 - w) * m2)%Qc; auto. eapply Qcle_trans; [|exact Hpq].
    unfold Qcdiv. rewrite <- Qcmult_assoc, (Qcmult_comm (/ _)%Qc), Qcmult_inv_r, Qcmult_1_r by auto. apply Qcle_refl. }
  assert (E1 : a1 = (a1 / m1 * m1)%Qc) by (field; auto). assert (E2 : a2 = (a2 / m2 * m2)%Qc) by (field; auto).
  set (p1 := (a1 / m1)%Qc) in *. set (p2 := (a2 / m2)%Qc) in *.
  split; [apply Hd|apply Hu]; rewrite E1, E2.
  - apply Qcle_trans with (w * (p1 * m1) + (1 - w) * (p1 * m2))%Qc; [match goal with |- (?a <= ?b)%Qc => replace b with a by ring; apply Qcle_refl end|].
    apply Qcplus_le_compat; [apply Qcle_refl|]. rewrite !(Qcmult_comm (1 - w)). apply Qcmult_le_compat_r; auto. apply Qcmult_le_compat_r; auto. apply Qclt_le_weak; auto.
  - apply Qcle_trans with (w * (p2 * m1) + (1 - w) * (p2 * m2))%Qc; [|match goal with |- (?a <= ?b)%Qc => replace b with a by ring; apply Qcle_refl end].
    apply Qcplus_le_compat; [|apply Qcle_refl]. rewrite !(Qcmult_comm w). apply Qcmult_le_compat_r; auto. apply Qcmult_le_compat_r; auto. apply Qclt_le_weak; auto.
Qed.

Section Mix.
Variables (w : Qc) (n n1 n2 : network xnum).
Hypothesis Hb : between w n n1 n2.
Hypothesis Hwf : wf_network n.
Notation vars := (n_vars n).

Lemma bt_v1 : n_vars n1 = vars. Proof. apply (bt_vars _ _ _ _ Hb). Qed.
Lemma bt_v2 : n_vars n2 = vars. Proof. apply (bt_vars _ _ _ _ Hb). Qed.
Lemma bt_worlds : worlds_of n1 = worlds_of n /\ worlds_of n2 = worlds_of n.
Proof. unfold worlds_of. rewrite bt_v1, bt_v2. auto. Qed.

Lemma qprod_cons x l : qprod (x :: l) = (x * qprod l)%Qc.
Proof. reflexivity. Qed.

(** The product of all tables. *)
Lemma bt_tables s : proper_state n s -> tables_weight vars (n_factors n) s =
  (w * tables_weight vars (n_factors n1) s + (1 - w) * tables_weight vars (n_factors n2) s)%Qc.
Proof.
  intros Hs. destruct (bt_factors _ _ _ _ Hb) as (pre & f & f1 & f2 & post & E & E1 & E2 & F1 & F2 & G1 & G2 & Hk & Hc).
  rewrite E, E1, E2. unfold tables_weight.
  assert (K : forall g, nf_for g = nf_for f -> qprod (map (fun h => cond_prob vars h s) (filter (is_chance vars) (pre ++ g :: post))) =
    (cond_prob vars g s * (qprod (map (fun h => cond_prob vars h s) (filter (is_chance vars) pre)) * qprod (map (fun h => cond_prob vars h s) (filter (is_chance vars) post))))%Qc).
  { intros g Eg. rewrite filter_app. cbn [filter]. unfold is_chance at 2. rewrite Eg, Hk. rewrite map_app, qprod_app. cbn [map]. rewrite qprod_cons. ring. }
  rewrite (K f eq_refl), (K f1 F1), (K f2 F2), (Hc s Hs). ring.
Qed.
Lemma bt_joint ign s : proper_state n s -> joint n ign s = (w * joint n1 ign s + (1 - w) * joint n2 ign s)%Qc.
Proof.
  intros Hs. unfold joint, chance_factors. rewrite bt_v1, bt_v2. destruct (bt_policies _ _ _ _ Hb) as [-> ->].
  pose proof (bt_tables s Hs) as E. unfold tables_weight, is_chance in E. rewrite E. ring.
Qed.
Lemma bt_mass ign event : mass n ign event = (w * mass n1 ign event + (1 - w) * mass n2 ign event)%Qc.
Proof.
  unfold mass. destruct bt_worlds as [-> ->]. rewrite <- !XnumFacts.qsum_scale, <- qsum_add. apply qsum_ext. intros s Hs.
  apply filter_In in Hs. apply bt_joint. apply (NetMarkov.world_proper n Hwf). tauto.
Qed.

Lemma bt_posterior ign ev q k : nonnegative n1 -> nonnegative n2 -> mass n1 ign (agrees vars ev) <> 0%Qc -> mass n2 ign (agrees vars ev) <> 0%Qc ->
  mass n ign (agrees vars ev) <> 0%Qc /\
  ((posterior n1 ign ev q k <= posterior n ign ev q k)%Qc /\ (posterior n ign ev q k <= posterior n2 ign ev q k)%Qc \/
   (posterior n2 ign ev q k <= posterior n ign ev q k)%Qc /\ (posterior n ign ev q k <= posterior n1 ign ev q k)%Qc).
Proof.
  intros Hn1 Hn2 M1 M2. destruct (bt_weight _ _ _ _ Hb) as [W0 W1].
  assert (P1 : (0 < mass n1 ign (agrees vars ev))%Qc) by (destruct (Qcle_lt_or_eq _ _ (mass_nonneg n1 ign (agrees vars ev) Hn1)) as [H|H]; auto; congruence).
  assert (P2 : (0 < mass n2 ign (agrees vars ev))%Qc) by (destruct (Qcle_lt_or_eq _ _ (mass_nonneg n2 ign (agrees vars ev) Hn2)) as [H|H]; auto; congruence).
  unfold posterior. rewrite bt_v1, bt_v2, !(bt_mass ign).
  set (m1 := mass n1 ign (agrees vars ev)) in *. set (m2 := mass n2 ign (agrees vars ev)) in *.
  set (a1 := mass n1 ign (fun s => agrees vars ev s && (s q =? k)%nat)). set (a2 := mass n2 ign (fun s => agrees vars ev s && (s q =? k)%nat)).
  assert (D : (a1 / m1 <= a2 / m2)%Qc \/ (a2 / m2 <= a1 / m1)%Qc).
  { destruct (Qclt_le_dec (a1 / m1) (a2 / m2)) as [H|H]; [left; apply Qclt_le_weak|right]; auto. }
  destruct D as [D|D].
  - destruct (mixed_quotient w m1 m2 a1 a2 W0 W1 P1 P2 D) as (Q & Q1 & Q2). split; [intros E; rewrite E in Q; discriminate Q|]. left. auto.
  - assert (W0' : (0 <= 1 - w)%Qc) by (unfold Qcminus; apply (proj1 (Qcle_minus_iff _ _)); assumption).
    assert (W1' : (1 - w <= 1)%Qc) by (apply (proj2 (Qcle_minus_iff _ _)); replace (1 + - (1 - w))%Qc with w by ring; assumption).
    destruct (mixed_quotient (1 - w) m2 m1 a2 a1 W0' W1' P2 P1 D) as (Q & Q1 & Q2).
    replace ((1 - w) * m2 + (1 - (1 - w)) * m1)%Qc with (w * m1 + (1 - w) * m2)%Qc in * by ring.
    replace ((1 - w) * a2 + (1 - (1 - w)) * a1)%Qc with (w * a1 + (1 - w) * a2)%Qc in * by ring.
    split; [intros E; rewrite E in Q; discriminate Q|]. right. auto.
Qed.

(** What can be asked is the same. *)
Lemma bt_is_total x : is_total n1 x = is_total n x /\ is_total n2 x = is_total n x.
Proof. unfold is_total. rewrite bt_v1, bt_v2. destruct (bt_total _ _ _ _ Hb) as [-> ->]. auto. Qed.
Lemma bt_mentions ign x : mentioned n ign x -> mentioned n1 ign x /\ mentioned n2 ign x.
Proof.
  intros Hm. destruct (bt_factors _ _ _ _ Hb) as (pre & f & f1 & f2 & post & E & E1 & E2 & F1 & F2 & G1 & G2 & Hk & Hc).
  assert (K : forall m g, n_vars m = vars -> n_policies m = n_policies n -> n_factors m = pre ++ g :: post -> nf_for g = nf_for f -> nf_given g = nf_given f -> mentioned m ign x).
  { intros m g Ev Ep Ef Eg Eg'. destruct Hm as [(h & Hh & Hx)|Hm]; [left|right; rewrite Ev, Ep; exact Hm].
    unfold chance_factors in *. apply filter_In in Hh. destruct Hh as [Hh Hkh]. rewrite E in Hh. apply in_app_or in Hh. destruct Hh as [Hh|[<-|Hh]].
    - exists h. split; auto. apply filter_In. rewrite Ev, Ef. split; auto. apply in_or_app; auto.
    - exists g. rewrite Eg, Eg'. split; auto. apply filter_In. rewrite Ev, Ef, Eg. split; auto. apply in_or_app. right. left. auto.
    - exists h. split; auto. apply filter_In. rewrite Ev, Ef. split; auto. apply in_or_app; right; right; auto. }
  destruct (bt_policies _ _ _ _ Hb) as [P1 P2]. split; [apply (K n1 f1)|apply (K n2 f2)]; auto using bt_v1, bt_v2.
Qed.
Lemma bt_askable ign ev q : askable n ign ev q -> askable n1 ign ev q /\ askable n2 ign ev q.
Proof. intros (H1 & H2 & H3). destruct (bt_mentions ign q H2). unfold askable. rewrite bt_v1, bt_v2. auto 10. Qed.
Lemma bt_complete : complete n -> complete n1 /\ complete n2.
Proof.
  intros Hc. destruct (bt_factors _ _ _ _ Hb) as (pre & f & f1 & f2 & post & E & E1 & E2 & F1 & F2 & _).
  assert (K : forall m g, n_vars m = vars -> n_factors m = pre ++ g :: post -> nf_for g = nf_for f -> complete m).
  { intros m g Ev Ef Eg v Hv Ht. rewrite Ev in Hv. destruct (Hc v Hv Ht) as (h & Hh & En). rewrite E in Hh. rewrite Ef. apply in_app_or in Hh. destruct Hh as [Hh|[<-|Hh]].
    - exists h. split; auto. apply in_or_app; auto.
    - exists g. split; [apply in_or_app; right; left; auto|congruence].
    - exists h. split; auto. apply in_or_app; right; right; auto. }
  split; [apply (K n1 f1)|apply (K n2 f2)]; auto using bt_v1, bt_v2.
Qed.
Lemma bt_observations ev : valid_observations n ev -> valid_observations n1 ev /\ valid_observations n2 ev.
Proof. unfold valid_observations. rewrite bt_v1, bt_v2. auto. Qed.

(** Expected utilities. *)
Lemma bt_utility s : utility_of n1 s = utility_of n s /\ utility_of n2 s = utility_of n s.
Proof.
  destruct (bt_factors _ _ _ _ Hb) as (pre & f & f1 & f2 & post & E & E1 & E2 & F1 & F2 & G1 & G2 & Hk & _).
  assert (K : forall m g, n_vars m = vars -> n_factors m = pre ++ g :: post -> nf_for g = nf_for f -> (forall x, is_total m x = is_total n x) -> (forall u, net_weight m u = net_weight n u) ->
    utility_of m s = qsum (map (fun h => net_weight n (nf_for h) * entry vars h s)%Qc (filter (is_utility_table n) (pre ++ post)))).
  { intros m g Ev Ef Eg Et Ew. unfold utility_of, utility_tables. rewrite Ev, Ef. fold (is_utility_table m).
    rewrite (map_ext _ (fun h => net_weight n (nf_for h) * entry vars h s)%Qc) by (intros h; rewrite Ew; auto). f_equal. f_equal.
    rewrite (filter_ext _ (is_utility_table n)) by (intros h; unfold is_utility_table; rewrite Et, ?Ev; auto).
    rewrite !filter_app. cbn [filter]. unfold is_utility_table at 2. rewrite Eg, Hk, andb_false_r. auto. }
  rewrite (K n f eq_refl E eq_refl) by auto. split; [apply (K n1 f1)|apply (K n2 f2)]; auto using bt_v1, bt_v2; intros x; try apply bt_is_total; apply (bt_utilities _ _ _ _ Hb).
Qed.
Lemma bt_decisions : decisions n1 = decisions n /\ decisions n2 = decisions n.
Proof. unfold decisions. rewrite bt_v1, bt_v2. auto. Qed.
Lemma bt_observed d : observed_by n1 d = observed_by n d /\ observed_by n2 d = observed_by n d.
Proof.
  destruct (bt_factors _ _ _ _ Hb) as (pre & f & f1 & f2 & post & E & E1 & E2 & F1 & F2 & G1 & G2 & Hk & _).
  assert (K : forall g, nf_for g = nf_for f -> nf_given g = nf_given f ->
    match find (fun h => String.eqb (nf_for h) d) (pre ++ g :: post) with Some h => nf_given h | None => [] end =
    match find (fun h => String.eqb (nf_for h) d) (pre ++ f :: post) with Some h => nf_given h | None => [] end).
  { intros g Eg Eg'. clear E E1 E2. induction pre as [|h pre IH]; cbn [find List.app]; [rewrite Eg; destruct (String.eqb (nf_for f) d); auto|]. destruct (String.eqb (nf_for h) d); auto. }
  unfold observed_by, factor_for. rewrite E, E1, E2. split; apply K; auto.
Qed.
Lemma bt_policy d p : policy_for n d p -> policy_for n1 d p /\ policy_for n2 d p.
Proof.
  intros [H1 H2 H3]. split; constructor; unfold proper_state; rewrite ?bt_v1, ?bt_v2; auto; intros s s' E; apply H3; intros x Hx; apply E; [rewrite (proj1 (bt_observed d))|rewrite (proj2 (bt_observed d))]; auto.
Qed.
Lemma bt_forgetting : no_forgetting n -> no_forgetting n1 /\ no_forgetting n2.
Proof.
  intros H. split; intros d e; [rewrite (proj1 bt_decisions), (proj1 (bt_observed d)), (proj1 (bt_observed e))|rewrite (proj2 bt_decisions), (proj2 (bt_observed d)), (proj2 (bt_observed e))]; apply H.
Qed.
Lemma bt_value p : expected_value n p = (w * expected_value n1 p + (1 - w) * expected_value n2 p)%Qc.
Proof.
  unfold expected_value. destruct bt_worlds as [-> ->]. destruct bt_decisions as [-> ->]. rewrite <- !XnumFacts.qsum_scale, <- qsum_add. apply qsum_ext. intros s Hs.
  rewrite (proj1 (bt_utility s)), (proj2 (bt_utility s)). unfold chance_factors. rewrite bt_v1, bt_v2.
  pose proof (bt_tables s (NetMarkov.world_proper n Hwf s Hs)) as E. unfold tables_weight, is_chance in E. rewrite E. ring.
Qed.
End Mix.
