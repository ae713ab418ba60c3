(** Policies computed by SolvePolicies maximise expected utility. *)
From Coq Require Import ZArith List Bool Lia Permutation QArith Qcanon.
From Verif Require Import Num GoBase VarModel GoFacts SpecFactor Tuples FactorFacts FactorSum FactorAt XnumFacts ExactFactor
  FactorThms VEModel SpecVE VEWorlds VEFacts VETopo VEHidden VESolve VEThms VEUtil VEShadow VEOrder SpecPolicy VEPolicy.
Import ListNotations.
Open Scope Z_scope.

Lemma total_le F G V vs a : wf_vars V -> incl vs V -> in_range V a ->
  (forall w, in_range V w -> (F w <= G w)%Qc) -> (total F vs a <= total G vs a)%Qc.
Proof. intros HV Hi Ha H. apply qsum_le. intros w Hw. apply H. eapply worlds_range; eauto. Qed.

Lemma ignores_mult F G x : ignores F x -> ignores G x -> ignores (fun w => (F w * G w)%Qc) x.
Proof. intros H1 H2 a k. rewrite H1, H2. auto. Qed.

Lemma filter_split3 {X} (p q : X -> bool) l : (forall x, In x l -> q x = true -> p x = true) ->
  Permutation (filter p l) (filter (fun x => p x && negb (q x)) l ++ filter q l).
Proof.
  induction l as [|x l IH]; simpl; intros H; auto.
  assert (IH' : Permutation (filter p l) (filter (fun x => p x && negb (q x)) l ++ filter q l)) by (apply IH; auto).
  destruct (q x) eqn:Eq.
  - rewrite (H x (or_introl eq_refl) Eq). simpl. apply Permutation_cons_app. auto.
  - destruct (p x); simpl; auto.
Qed.

(** Choosing optimally for [d] given what it observes is optimal overall. *)
Lemma step_optimal V H d Wt U (g p q : asg -> Qc) (L : list variable) :
  wf_vars V -> In d V -> incl H V -> incl L V -> wf_vars (L ++ d :: H) ->
  proper Wt -> proper U -> proper g -> proper p -> proper q ->
  (forall a, in_range V a -> (0 <= g a)%Qc) -> ignores g (v_id d) ->
  (forall v, In v H -> ignores g (v_id v) /\ ignores p (v_id v) /\ ignores q (v_id v)) ->
  (forall a, in_range V a -> (0 <= p a)%Qc) ->
  (forall a, in_range V a -> qsum (map (fun k => p (upd a (v_id d) k)) (seq 0 (v_outcomes d))) = 1%Qc) ->
  (let R := total (fun x => Wt x * U x)%Qc H in
   forall a k, in_range V a -> (k < v_outcomes d)%nat ->
     (R (upd a (v_id d) k) <= qsum (map (fun j => q (upd a (v_id d) j) * R (upd a (v_id d) j)) (seq 0 (v_outcomes d))))%Qc) ->
  forall a, in_range V a ->
    (total (fun x => Wt x * (g x * p x) * U x) (L ++ d :: H) a <= total (fun x => Wt x * (g x * q x) * U x) (L ++ d :: H) a)%Qc.
Proof.
  intros HV Hd HH HL Hwf HWp HUp Hgp Hpp Hqp Hg Hgd Hig Hp Hrows HR a Ha.
  set (R := total (fun x => Wt x * U x)%Qc H) in *. cbv zeta in HR.
  rewrite 2 total_app. apply (total_le _ _ V); auto. clear a Ha. intros a Ha.
  assert (E : forall r : asg -> Qc, (forall v, In v H -> ignores r (v_id v)) ->
    (total (fun x => Wt x * (g x * r x) * U x) (d :: H) a =
     g a * qsum (map (fun k => r (upd a (v_id d) k) * R (upd a (v_id d) k)) (seq 0 (v_outcomes d))))%Qc).
  { intros r Hr. rewrite total_cons, <- qsum_scale. apply qsum_ext. intros k _.
    rewrite (total_ext _ (fun x => ((g x * r x) * (Wt x * U x))%Qc)).
    2: { intros w _. ring. }
    rewrite (total_factor (fun x => (g x * r x)%Qc)).
    2: { intros v Hv. destruct (Hig v Hv) as (h1 & _ & _). apply ignores_mult; auto. }
    rewrite Hgd. unfold R. ring. }
  rewrite 2 E; try (intros v Hv; apply (Hig v Hv)). clear E.
  rewrite 2 (Qcmult_comm (g a)). apply Qcmult_le_compat_r; auto.
  set (M := qsum (map (fun j => (q (upd a (v_id d) j) * R (upd a (v_id d) j))%Qc) (seq 0 (v_outcomes d)))).
  replace M with (qsum (map (fun k => (p (upd a (v_id d) k) * M)%Qc) (seq 0 (v_outcomes d)))).
  2: { rewrite (qsum_ext _ (fun k => (M * p (upd a (v_id d) k))%Qc)) by (intros; ring). rewrite qsum_scale, Hrows by auto. ring. }
  apply qsum_le. intros k Hk. apply in_seq in Hk. rewrite 2 (Qcmult_comm (p _)).
  apply Qcmult_le_compat_r.
  - apply HR; auto. lia.
  - apply Hp. apply in_range_upd'; auto. lia.
Qed.

Section P.
Variable sc : sched.

(** With one decision, the computed policy is a policy for it and no other policy has a
    higher expected utility. *)
Theorem one_decision_optimal t vs fs deps w single cpt rank d :
  influence_diagram vs fs deps cpt rank ->
  let V := vs_vars vs in
  utilities_of V <> [] -> match w with None => True | Some l => length l = length (utilities_of V) end ->
  decision_vars V = [d] -> (0 < v_outcomes d)%nat ->
  (forall u, In u (utilities_of V ++ [d]) -> exists f, In f fs /\ In u (f_vars f)) ->
  exists s' fac pol, ve_solve_policies sc (ve_new t vs fs deps (finite_weights w)) single = Ok (s', Some [(d, (fac, pol))]) /\
    wf_factor pol /\ finite_factor pol /\
    (forall v, In v (f_vars pol) -> v = d \/ In v V /\ observes deps d v = true) /\
    is_policy V deps d (value pol) /\
    forall p, is_policy V deps d p -> forall a, in_range V a ->
      (expected_utility V w fs d p a <= expected_utility V w fs d (value pol) a)%Qc.
Proof.
  intros Hid V HU Hw Hdec Hout Hcov.
  pose proof (di_problem _ _ _ _ _ Hid) as Hpb. assert (HV : wf_vars V) by apply Hpb.
  destruct (policy_step sc t vs fs deps w single cpt rank) as
    (s' & d' & fac & pol & E & Hd & Hnp & Hwf & Hfin & Hi & Hdp & Hvs & Hpos & Hsum & HR); auto.
  { fold V. rewrite Hdec. auto. }
  { fold V. rewrite Hdec. discriminate. }
  { fold V. rewrite Hdec. intros x [<-|[]]. auto. }
  { fold V. rewrite Hdec. auto. }
  fold V in Hd, Hi, Hpos, Hsum, HR. rewrite Hdec in Hd. destruct Hd as [Hd|[]]. subst d'.
  assert (HdV : In d V /\ v_type d = Decision) by (apply in_decisions; change (decisions_of V) with (decision_vars V); rewrite Hdec; simpl; auto).
  assert (Hvs' : forall v, In v (f_vars pol) -> v = d \/ In v V /\ observes deps d v = true).
  { intros v Hv. destruct (Hvs v Hv) as [E1|[E1|E1]]; auto.
    - left. apply (wf_vars_inj V); auto.
    - left. assert (Hdv : In v (decision_vars V)) by (apply in_decisions; auto). rewrite Hdec in Hdv. destruct Hdv as [<-|[]]. auto. }
  assert (Hpol : is_policy V deps d (value pol)).
  { constructor; auto. intros a b Hab. apply value_agree. intros v Hv. apply Hab; auto.
    destruct (Hvs' v Hv) as [->|[_ Ho]]; auto. }
  exists s', fac, pol. split; auto. do 3 (split; auto). split; auto.
  intros p Hpp a Ha. unfold expected_utility. fold V in E. destruct HdV as [HdV Hdt].
  fold (total (fun w0 => (weight_of (prob_factors fs) w0 * p w0 * utility_in V w fs w0)%Qc) (chance_vars V ++ [d]) a).
  fold (total (fun w0 => (weight_of (prob_factors fs) w0 * value pol w0 * utility_in V w fs w0)%Qc) (chance_vars V ++ [d]) a).
  set (L := filter (fun v => nodeType_eqb (v_type v) Chance && negb (nodeType_eqb (v_type v) Chance && negb (observes deps d v))) V).
  assert (Hperm : Permutation (chance_vars V ++ [d]) (L ++ d :: unobserved V deps d)).
  { etransitivity; [|apply Permutation_middle]. etransitivity; [apply Permutation_sym, Permutation_cons_append|]. apply perm_skip.
    apply filter_split3. intros x _ Hx. apply andb_prop in Hx. tauto. }
  assert (HwL : wf_vars (chance_vars V ++ [d])).
  { unfold wf_vars. rewrite map_app. simpl. apply NoDup_app_single. apply NoDup_filter_map; auto.
    intros Hc. apply in_map_iff in Hc. destruct Hc as (x & Ex & Hx). apply filter_In in Hx. destruct Hx as [Hx Ht].
    assert (x = d) by (apply (wf_vars_inj V); auto). subst. apply nodeType_eqb_spec in Ht. congruence. }
  assert (HUp : proper (utility_in V w fs)) by (apply (total_proper (total_utility V w fs)); apply total_utility_proper).
  assert (Hprop : forall r : asg -> Qc, is_policy V deps d r -> proper r).
  { intros r Hr x y Hxy. apply (po_observed _ _ _ _ Hr). intros; apply Hxy. }
  assert (Hpr : forall r : asg -> Qc, proper r -> proper (fun w0 => (weight_of (prob_factors fs) w0 * r w0 * utility_in V w fs w0)%Qc)).
  { intros r Hr x y Hxy. rewrite (Hr x y Hxy), (HUp x y Hxy), (weight_proper _ x y Hxy). auto. }
  assert (Higno : forall (r : asg -> Qc) v, is_policy V deps d r -> In v (unobserved V deps d) -> ignores r (v_id v)).
  { intros r v Hr Hv x k. apply (po_observed _ _ _ _ Hr). intros u Hu Hor. apply upd_other. intros Euv.
    apply filter_In in Hv. destruct Hv as [HvV Hv]. apply andb_prop in Hv. destruct Hv as [Ht Ho].
    assert (u = v) by (apply (wf_vars_inj V); auto). subst u. apply negb_true_iff in Ho. destruct Hor as [Hor|Hor]; [|congruence].
    assert (v = d) by (apply (wf_vars_inj V); auto). subst. apply nodeType_eqb_spec in Ht. congruence. }
  rewrite !(total_perm _ _ _ (Hpr _ (Hprop _ Hpp)) HwL Hperm), !(total_perm _ _ _ (Hpr _ (Hprop _ Hpol)) HwL Hperm).
  rewrite (total_ext (fun w0 => _ * p w0 * _)%Qc (fun x => weight_of (prob_factors fs) x * (1 * p x) * utility_in V w fs x)%Qc) by (intros; ring).
  rewrite (total_ext (fun w0 => _ * value pol w0 * _)%Qc (fun x => weight_of (prob_factors fs) x * (1 * value pol x) * utility_in V w fs x)%Qc) by (intros; ring).
  apply (step_optimal V (unobserved V deps d) d (weight_of (prob_factors fs)) (utility_in V w fs) (fun _ => 1%Qc)); auto.
  - intros x Hx. apply filter_In in Hx. tauto.
  - intros x Hx. apply filter_In in Hx. tauto.
  - eapply wf_perm; eauto.
  - apply weight_proper.
  - intros x y _. auto.
  - intros; discriminate.
  - intros x y. auto.
  - intros v Hv. split; [intros x k; auto|]. auto.
  - apply Hpp.
  - apply Hpp.
Qed.

End P.
