(** Further options and higher utilities. *)
From Coq Require Import ZArith List Bool String Lia Permutation QArith Qcanon.
From Verif Require Import Num GoBase VarModel GoFacts SpecFactor XnumFacts VEModel SpecVE VEWorlds NetModel SpecNet NetVars NetFactors NetSums NetQuery NetMass NetCor NetNew
  SpecNetPolicy NetPolicyStep NetPolicyThms SpecGraph StateSums NetGraph NetMarkov NetChange NetReorder NetInform NetAdvice SpecOptions.
Import ListNotations.
Open Scope string_scope.
Open Scope list_scope.
Open Scope Z_scope.

Lemma nsum_none F L s : (forall t, (forall y, ~ In y (map nv_name L) -> t y = s y) -> F t = 0%Qc) -> nsum F L s = 0%Qc.
Proof.
  intros H. rewrite (nsum_ext _ (fun t => 0 * F t)%Qc); [rewrite nsum_scale; ring|]. intros t Ht. rewrite H; [ring|]. intros y Hy. apply (joint_states_same L s t y Ht Hy).
Qed.
Lemma seq_split a b : seq 0 (a + b) = seq 0 a ++ seq a b.
Proof. apply seq_app. Qed.

(** ** Further options *)
Section MO.
Variables n m : network xnum.
Hypothesis Hmo : more_options n m.
Hypothesis Hdn : decision_network n.
Hypothesis Hdm : decision_network m.
Notation vars := (n_vars n).
Notation vars' := (n_vars m).
Let Hwf := dn_wf n Hdn.
Let Hwm := dn_wf m Hdm.
Definition wider (v w : nvar) : Prop := nv_name w = nv_name v /\ nv_type w = nv_type v /\
  exists more, nv_outcomes w = nv_outcomes v ++ more /\ (nv_type v <> Decision -> more = []).
Lemma mo_named x : match var_named vars x, var_named vars' x with Some v, Some w => wider v w | None, None => True | _, _ => False end.
Proof.
  pose proof (mo_vars _ _ Hmo) as H. unfold var_named. induction H as [|v w l l' H Hl IH]; simpl; auto. rewrite (proj1 H). destruct (String.eqb (nv_name v) x); auto.
Qed.
Lemma mo_kind x : kind vars' x = kind vars x.
Proof. unfold kind. pose proof (mo_named x) as H. destruct (var_named vars x), (var_named vars' x); simpl; try tauto. f_equal. apply H. Qed.
Lemma mo_outcomes x : kind vars x <> Some Decision -> num_outcomes vars' x = num_outcomes vars x.
Proof.
  unfold kind, num_outcomes. pose proof (mo_named x) as H. destruct (var_named vars x) as [v|], (var_named vars' x) as [w|]; simpl; try tauto. intros K.
  destruct H as (_ & _ & more & E & Hm). rewrite E, Hm, app_nil_r; auto. congruence.
Qed.
Lemma mo_outcomes_le x : (num_outcomes vars x <= num_outcomes vars' x)%nat.
Proof.
  unfold num_outcomes. pose proof (mo_named x) as H. destruct (var_named vars x) as [v|], (var_named vars' x) as [w|]; try tauto; try lia.
  destruct H as (_ & _ & more & E & Hm). rewrite E, app_length. lia.
Qed.
Lemma mo_is_total x : is_total m x = is_total n x.
Proof.
  unfold is_total. rewrite (mo_total _ _ Hmo). pose proof (mo_vars _ _ Hmo) as H. revert H. generalize (Z.to_nat (n_tui n)) as i. generalize vars vars'. intros L L' i H. revert i.
  induction H as [|v w l l' H Hl IH]; intros [|i]; simpl; auto. rewrite (proj1 H). auto.
Qed.
Lemma mo_decisions : decisions m = decisions n.
Proof.
  unfold decisions. pose proof (mo_vars _ _ Hmo) as H. induction H as [|v w l l' (E & T & H) Hl IH]; auto. cbn [filter]. unfold is_kind in *. rewrite T. destruct (nodeType_eqb (nv_type v) Decision); auto. cbn [map]. rewrite IH, E. auto.
Qed.
Lemma mo_observed d : observed_by m d = observed_by n d.
Proof.
  unfold observed_by, factor_for. pose proof (mo_factors _ _ Hmo) as H. induction H as [|f g l l' (E1 & E2 & H) Hl IH]; auto. cbn [find]. rewrite E1. destruct (String.eqb (nf_for f) d); auto.
Qed.
Lemma mo_forgetting : no_forgetting n -> no_forgetting m.
Proof. intros H d e. rewrite mo_decisions, !mo_observed. apply H. Qed.
Lemma in_range_of s v : proper_state n s -> In v vars -> (s (nv_name v) < num_outcomes vars (nv_name v))%nat.
Proof. intros Hs Hv. rewrite (outcomes_of n Hdn v Hv). apply Hs. auto. Qed.
Lemma proper_nupd s x k : proper_state n s -> (k < num_outcomes vars x)%nat -> proper_state n (nupd s x k).
Proof. intros Hs Hk v Hv. unfold nupd. destruct (String.eqb_spec (nv_name v) x) as [E|]; auto. subst x. rewrite (outcomes_of n Hdn v Hv) in Hk. auto. Qed.

(** The old options only. *)
Definition clamp (s : nstate) : nstate := fun x => if (s x <? num_outcomes vars x)%nat then s x else 0%nat.
Lemma clamp_proper s : proper_state n (clamp s).
Proof.
  intros v Hv. unfold clamp. rewrite (outcomes_of n Hdn v Hv). destruct (Nat.ltb_spec (s (nv_name v)) (List.length (nv_outcomes v))); auto.
  pose proof (vars_nonempty n Hwf v Hv). destruct (nv_outcomes v); simpl; [congruence|lia].
Qed.
Definition widened (p : string -> nstate -> Qc) (d : string) (s : nstate) : Qc := if (s d <? num_outcomes vars d)%nat then p d (clamp s) else 0%Qc.
Lemma widened_policy d p : In d (decisions n) -> policy_for n d (p d) -> policy_for m d (widened p d).
Proof.
  intros Hd [P1 P2 P3]. constructor.
  - intros s Hs. unfold widened. destruct (_ <? _)%nat; [apply P1, clamp_proper|apply Qcle_refl].
  - intros s Hs. pose proof (mo_outcomes_le d) as Hle. replace (num_outcomes vars' d) with (num_outcomes vars d + (num_outcomes vars' d - num_outcomes vars d))%nat by lia.
    rewrite seq_split, map_app, qsum_app.
    rewrite (map_ext_in _ (fun k => p d (nupd (clamp s) d k)) (seq 0 _)).
    + rewrite P2 by apply clamp_proper. rewrite (map_ext_in _ (fun k => 0 * 0)%Qc (seq (num_outcomes vars d) _)).
      * rewrite qsum_scale. ring.
      * intros k Hk. apply in_seq in Hk. unfold widened, nupd. rewrite String.eqb_refl. destruct (Nat.ltb_spec k (num_outcomes vars d)); [lia|ring].
    + intros k Hk. apply in_seq in Hk. unfold widened. unfold nupd at 1. rewrite String.eqb_refl. destruct (Nat.ltb_spec k (num_outcomes vars d)); [|lia].
      apply P3. intros y _. unfold clamp, nupd. destruct (String.eqb_spec y d); auto. subst y. destruct (Nat.ltb_spec k (num_outcomes vars d)); lia.
  - intros s s' E. rewrite mo_observed in E. unfold widened. rewrite (E d) by auto. destruct (_ <? _)%nat; auto. apply P3. intros y Hy. unfold clamp. rewrite (E y Hy). auto.
Qed.

(** Sums over the wider states. *)
Lemma wider_sum F F' L L' : Forall2 wider L L' -> incl L vars -> NoDup (map nv_name L) ->
  (forall t v, In v L -> nv_type v = Decision -> (List.length (nv_outcomes v) <= t (nv_name v))%nat -> F' t = 0%Qc) ->
  forall s, (forall t, (forall y, ~ In y (map nv_name L) -> t y = s y) -> (forall v, In v L -> (t (nv_name v) < List.length (nv_outcomes v))%nat) -> F t = F' t) ->
  nsum F L s = nsum F' L' s.
Proof.
  intros H. induction H as [|v w L L' (E & T & more & O & Hm) HL IH]; intros Hin Hnd Hz s Heq.
  - rewrite !nsum_nil. apply Heq; [auto|intros v []].
  - rewrite !nsum_cons. rewrite O, app_length, seq_split, map_app, qsum_app. inversion Hnd; subst.
    assert (EL : map nv_name L' = map nv_name L). { clear -HL. induction HL as [|v w l l' H Hl IH]; auto. simpl. rewrite IH, (proj1 H). auto. }
    match goal with |- _ = (_ + qsum ?l)%Qc => assert (Ez : qsum l = 0%Qc) end.
    { rewrite (map_ext_in _ (fun k => 0 * 0)%Qc); [rewrite qsum_scale; ring|]. intros k Hk. apply in_seq in Hk. transitivity 0%Qc; [|ring]. apply nsum_none. intros t Ht.
      destruct (nodeType_eqb (nv_type v) Decision) eqn:Ed.
      - apply (Hz t v); simpl; auto; [destruct (nv_type v); auto; discriminate|]. rewrite Ht by (rewrite EL; auto). rewrite E. unfold nupd. rewrite String.eqb_refl. lia.
      - rewrite Hm in Hk; [simpl in Hk; lia|]. intros Ev. rewrite Ev in Ed. discriminate. }
    rewrite Ez, Qcplus_0_r. f_equal. apply map_ext_in. intros k Hk. apply in_seq in Hk. rewrite E. apply IH; auto.
    + intros x Hx. apply Hin. simpl. auto.
    + intros t x Hx. apply Hz. simpl. auto.
    + intros t Ht Hr. apply Heq.
      * intros y Hy. simpl in Hy. rewrite Ht by tauto. unfold nupd. destruct (String.eqb_spec y (nv_name v)) as [Ey|]; auto. subst y. tauto.
      * intros x [<-|Hx]; auto. rewrite Ht by auto. unfold nupd. rewrite String.eqb_refl. lia.
Qed.
Lemma wider_worldly L L' : Forall2 wider L L' -> Forall2 wider (worldly_of L) (worldly_of L').
Proof.
  induction 1 as [|v w l l' H Hl IH]; [constructor|]. unfold worldly_of in *. cbn [filter]. assert (K : is_kind Utility w = is_kind Utility v) by (unfold is_kind; rewrite (proj1 (proj2 H)); auto). rewrite K.
  destruct (is_kind Utility v); simpl; auto.
Qed.

(** The same value. *)
Lemma mo_tables t : proper_state n t -> tables_weight vars' (n_factors m) t = tables_weight vars (n_factors n) t.
Proof.
  intros Ht. unfold tables_weight.
  assert (K : forall L L', Forall2 (fun f g => nf_for g = nf_for f /\ nf_given g = nf_given f /\
    (is_total n (nf_for f) = false -> kind vars (nf_for f) <> Some Decision -> forall s, proper_state n s -> entry vars' g s = entry vars f s)) L L' ->
    incl L (n_factors n) -> qprod (map (fun f => cond_prob vars' f t) (filter (is_chance vars') L')) = qprod (map (fun f => cond_prob vars f t) (filter (is_chance vars) L))).
  { intros L L' H. induction H as [|f g l l' (E1 & E2 & H) Hl IH]; intros Hin; auto. cbn [filter].
    assert (IH' := IH (fun x Hx => Hin x (or_intror Hx))). unfold is_chance in *. rewrite E1, mo_kind. destruct (kind vars (nf_for f)) as [[]|] eqn:Ek; auto.
    cbn [map]. unfold qprod in *. cbn [fold_right]. rewrite IH'. f_equal.
    assert (Htot : is_total n (nf_for f) = false).
    { destruct (is_total n (nf_for f)) eqn:Et; auto. pose proof (NetVE.total_kind n Hwf (nf_for f) Et). congruence. }
    assert (He : forall s, proper_state n s -> entry vars' g s = entry vars f s) by (apply H; congruence).
    unfold cond_prob. rewrite (He t Ht).
    assert (Er : row_sum vars' g t = row_sum vars f t).
    { unfold row_sum. rewrite E1, mo_outcomes by congruence. f_equal. apply map_ext_in. intros k Hk. apply in_seq in Hk. apply He. apply proper_nupd; auto. lia. }
    rewrite Er. auto. }
  apply K; [exact (mo_factors _ _ Hmo)|intros f; auto].
Qed.
Lemma mo_utility t : proper_state n t -> utility_of m t = utility_of n t.
Proof.
  intros Ht. unfold utility_of, utility_tables. fold (is_utility_table n) (is_utility_table m). pose proof (mo_factors _ _ Hmo) as H. induction H as [|f g l l' (E1 & E2 & H) Hl IH]; auto. cbn [filter].
  assert (Ek : is_utility_table m g = is_utility_table n f) by (unfold is_utility_table; rewrite E1, mo_is_total, mo_kind; auto). rewrite Ek.
  destruct (is_utility_table n f) eqn:Eu; auto. cbn [map]. unfold qsum in *. cbn [fold_right]. rewrite IH. f_equal. rewrite E1, (mo_weights _ _ Hmo). f_equal.
  unfold is_utility_table in Eu. apply andb_true_iff in Eu. destruct Eu as [Et Eu]. apply negb_true_iff in Et. apply H; auto. intros K. rewrite K in Eu. discriminate.
Qed.
Lemma qprod_zero_in {X} (g : X -> Qc) l x : In x l -> g x = 0%Qc -> qprod (map g l) = 0%Qc.
Proof.
  intros Hin Hz. induction l as [|y l IH]; [destruct Hin|]. unfold qprod in *. cbn [map fold_right]. destruct Hin as [->|Hin]; [rewrite Hz; ring|rewrite IH by auto; ring].
Qed.
Lemma mo_value p : (forall d, In d (decisions n) -> policy_for n d (p d)) -> expected_value n p = expected_value m (widened p).
Proof.
  intros Hp. rewrite !value_nsum. rewrite mo_decisions. apply wider_sum.
  - apply wider_worldly. exact (mo_vars _ _ Hmo).
  - intros v Hv. apply filter_In in Hv. tauto.
  - apply names_filter. apply (wn_names n Hwf).
  - intros t v Hv Ht Hle. apply filter_In in Hv. destruct Hv as [Hv _]. rewrite (qprod_zero_in _ _ (nv_name v) (decision_in n v Hv Ht)); [ring|].
    unfold widened. rewrite (outcomes_of n Hdn v Hv). destruct (Nat.ltb_spec (t (nv_name v)) (List.length (nv_outcomes v))); auto. lia.
  - intros t Hfix Hr. assert (Ht : proper_state n t).
    { intros v Hv. destruct (is_kind Utility v) eqn:Ek.
      - rewrite Hfix; [unfold nowhere; pose proof (vars_nonempty n Hwf v Hv); destruct (nv_outcomes v); simpl; [congruence|lia]|]. intros Hin. apply in_map_iff in Hin. destruct Hin as (w & Ew & Hw). apply filter_In in Hw. destruct Hw as [Hw Hk].
        assert (w = v) by (apply (same_var vars (wn_names n Hwf)); auto). subst w. rewrite Ek in Hk. discriminate.
      - apply Hr. apply filter_In. rewrite Ek. auto. }
    rewrite mo_tables, mo_utility by auto. f_equal. f_equal. f_equal. apply map_ext_in. intros d Hd. unfold widened.
    pose proof Hd as Hd0. unfold decisions in Hd0. apply in_map_iff in Hd0. destruct Hd0 as (v & <- & Hv). apply filter_In in Hv. destruct Hv as [Hv _].
    pose proof (in_range_of t v Ht Hv) as Hlt. destruct (Nat.ltb_spec (t (nv_name v)) (num_outcomes vars (nv_name v))); [|lia].
    apply (pf_observed _ _ _ (Hp _ Hd)). intros y _. unfold clamp. destruct (Nat.ltb_spec (t y) (num_outcomes vars y)); auto.
    destruct (in_dec string_dec y (map nv_name (worldly_of vars))) as [Hy|Hy].
    + apply in_map_iff in Hy. destruct Hy as (w & <- & Hw). pose proof (Hr w Hw). apply filter_In in Hw. rewrite (outcomes_of n Hdn w) in * by tauto. lia.
    + rewrite Hfix; auto.
Qed.
Theorem mo_maximum : no_forgetting n -> exists b b', maximum_utility n b /\ maximum_utility m b' /\ (b <= b')%Qc.
Proof.
  intros Hnf. destruct (maximum_exists n Hdn Hnf) as (b & Hb & (p & Hp & <-) & _). destruct (maximum_exists m Hdm (mo_forgetting Hnf)) as (b' & Hb' & _ & Hmax).
  exists (expected_value n p), b'. split; auto. split; auto. rewrite (mo_value p Hp). apply Hmax. intros d Hd. rewrite mo_decisions in Hd. apply widened_policy; auto.
Qed.
End MO.

(** ** Higher utilities *)
Section RA.
Variables n m : network xnum.
Variable lo : string -> Qc.
Hypothesis Hra : raised lo n m.
Hypothesis Hdn : decision_network n.
Hypothesis Hpos : positive_weights n.
Let Hwf := dn_wf n Hdn.
Lemma ra_is_total x : is_total m x = is_total n x.
Proof. unfold is_total. rewrite (ra_vars _ _ _ Hra), (ra_total _ _ _ Hra). auto. Qed.
Lemma ra_tables s : tables_weight (n_vars m) (n_factors m) s = tables_weight (n_vars n) (n_factors n) s.
Proof.
  rewrite (ra_vars _ _ _ Hra). unfold tables_weight. pose proof (ra_factors _ _ _ Hra) as H. induction H as [|f g l l' (E1 & E2 & H) Hl IH]; auto. cbn [filter].
  unfold is_chance in *. rewrite E1. destruct (kind (n_vars n) (nf_for f)) as [[]|]; auto. cbn [map]. unfold qprod in *. cbn [fold_right]. rewrite IH. f_equal.
  symmetry. apply cond_sig; [intros x _; auto|]. rewrite andb_false_r in H. repeat split; auto.
Qed.
Lemma ra_utility s : proper_state n s -> (utility_of n s + shift n lo <= utility_of m s)%Qc.
Proof.
  intros Hs. unfold utility_of, shift, utility_tables. fold (is_utility_table n) (is_utility_table m).
  assert (K : forall L L', Forall2 (fun f g => nf_for g = nf_for f /\ nf_given g = nf_given f /\
    if is_utility_table n f then forall s, proper_state n s -> (entry (n_vars n) f s + lo (nf_for f) <= entry (n_vars m) g s)%Qc else nf_table g = nf_table f) L L' ->
    incl L (n_factors n) ->
    (qsum (map (fun f => net_weight n (nf_for f) * entry (n_vars n) f s) (filter (is_utility_table n) L)) + qsum (map (fun f => net_weight n (nf_for f) * lo (nf_for f)) (filter (is_utility_table n) L))
     <= qsum (map (fun f => net_weight m (nf_for f) * entry (n_vars m) f s) (filter (is_utility_table m) L')))%Qc).
  { intros L L' H. induction H as [|f g l l' (E1 & E2 & H) Hl IH]; intros Hin; [cbn; discriminate|]. cbn [filter].
    assert (Ek : is_utility_table m g = is_utility_table n f) by (unfold is_utility_table; rewrite E1, ra_is_total, (ra_vars _ _ _ Hra); auto). rewrite Ek.
    assert (IH' := IH (fun x Hx => Hin x (or_intror Hx))). destruct (is_utility_table n f) eqn:Eu; auto. cbn [map]. unfold qsum in *. cbn [fold_right].
    rewrite E1, (ra_weights _ _ _ Hra).
    assert (Hw : (0 <= net_weight n (nf_for f))%Qc).
    { unfold is_utility_table in Eu. apply andb_true_iff in Eu. destruct Eu as [Et Eu]. apply negb_true_iff in Et. unfold kind in Eu. destruct (var_named (n_vars n) (nf_for f)) as [v|] eqn:Ev; simpl in Eu; [|discriminate].
      apply var_named_some in Ev. destruct Ev as [Hv Ev]. rewrite <- Ev in *. apply Hpos; auto. destruct (nv_type v); auto; discriminate. }
    specialize (H s Hs). pose proof (Qcmult_le_compat_r _ _ _ H Hw) as H'.
    eapply Qcle_trans; [|apply Qcplus_le_compat; [rewrite Qcmult_comm in H'; rewrite (Qcmult_comm (net_weight n (nf_for f)) (entry (n_vars m) g s)); exact H'|exact IH']].
    match goal with |- (?a <= ?b)%Qc => replace b with a by ring; apply Qcle_refl end. }
  apply K; [exact (ra_factors _ _ _ Hra)|intros f; auto].
Qed.
Lemma ra_decisions : decisions m = decisions n.
Proof. unfold decisions. rewrite (ra_vars _ _ _ Hra). auto. Qed.
Lemma ra_observed d : observed_by m d = observed_by n d.
Proof.
  unfold observed_by, factor_for. pose proof (ra_factors _ _ _ Hra) as H. induction H as [|f g l l' (E1 & E2 & H) Hl IH]; auto. cbn [find]. rewrite E1. destruct (String.eqb (nf_for f) d); auto.
Qed.
Lemma ra_policy d p : policy_for m d p <-> policy_for n d p.
Proof.
  split; intros [H1 H2 H3]; unfold proper_state in *; rewrite ?(ra_vars _ _ _ Hra) in *; constructor; unfold proper_state; rewrite ?(ra_vars _ _ _ Hra); auto; intros s s' E; apply H3; [rewrite ra_observed|rewrite ra_observed in E]; auto.
Qed.
Lemma ra_forgetting : no_forgetting n -> no_forgetting m.
Proof. intros H d e. rewrite ra_decisions, !ra_observed. apply H. Qed.
Lemma ra_value p : (forall d, In d (decisions n) -> policy_for n d (p d)) -> (expected_value n p + shift n lo <= expected_value m p)%Qc.
Proof.
  intros Hp. rewrite !value_nsum. rewrite ra_decisions, (ra_vars _ _ _ Hra).
  set (W := fun s => (tables_weight (n_vars n) (n_factors n) s * qprod (map (fun d => p d s) (decisions n)))%Qc).
  replace (shift n lo) with (shift n lo * nsum W (worldly_of (n_vars n)) nowhere)%Qc by (unfold W; rewrite (policies_one n Hdn p Hp); ring).
  rewrite <- nsum_scale, <- nsum_add. unfold nsum. apply NetAdvice.qsum_le. intros s Hs.
  assert (Hps : proper_state n s) by (apply (world_proper n Hwf); auto).
  replace (tables_weight (n_vars n) (n_factors m) s) with (tables_weight (n_vars n) (n_factors n) s) by (rewrite <- ra_tables, (ra_vars _ _ _ Hra); auto). fold (W s).
  assert (HW : (0 <= W s)%Qc).
  { unfold W. rewrite <- (Qcmult_0_l (qprod (map (fun d => p d s) (decisions n)))). apply Qcmult_le_compat_r.
    - apply NetQuery.qprod_nonneg. intros x Hx. apply in_map_iff in Hx. destruct Hx as (f & <- & Hf). apply NetQuery.cond_prob_nonneg. intros t. apply (dn_nonneg _ Hdn); auto.
    - apply NetQuery.qprod_nonneg. intros x Hx. apply in_map_iff in Hx. destruct Hx as (d & <- & Hd). apply (pf_nonneg _ _ _ (Hp d Hd)); auto. }
  pose proof (Qcmult_le_compat_r _ _ _ (ra_utility s Hps) HW) as H. rewrite (Qcmult_comm (W s) (utility_of m s)). eapply Qcle_trans; [|exact H].
  match goal with |- (?a <= ?b)%Qc => replace b with a by ring; apply Qcle_refl end.
Qed.
End RA.
