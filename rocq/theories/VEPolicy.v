(** SolvePolicies: the policy computed for the last decision. *)
From Coq Require Import ZArith List Bool Lia Permutation QArith Qcanon.
From Verif Require Import Num GoBase VarModel GoFacts SpecFactor Tuples FactorFacts FactorSum FactorAt XnumFacts ExactFactor
  FactorThms VEModel SpecVE SpecPolicy VEWorlds VEFacts VETopo VEHidden VESolve VEThms VEUtil VEShadow VEOrder.
Import ListNotations.
Open Scope Z_scope.

Lemma hasParent_true (deps l : list variable) : fold_left (fun h v => if contains_var deps v then true else h) l true = true.
Proof. induction l; simpl; auto. destruct (contains_var deps a); auto. Qed.

Lemma qinv_nonneg n : (0 < n)%nat -> (0 <= / Q2Qc (inject_Z (Z.of_nat n)))%Qc.
Proof.
  intros H. destruct n as [|n]; [lia|]. unfold Qcle, Qcinv. cbn [this Q2Qc]. rewrite !Qred_correct. 
  unfold Qle, Qinv, inject_Z. simpl. lia.
Qed.

Section P.
Variable sc : sched.

(** findDecisionFactors selects all factors that contain the decision. *)
Lemma find_decision_factors_step V s d : wf_vars V -> good V s -> in_scope s d ->
  exists t fl rest, find_decision_factors sc s d = (with_tick s t, fl) /\ Permutation (live s) (fl ++ rest) /\
    fl <> [] /\ (forall f, In f fl -> In d (f_vars f)) /\ (forall f, In f rest -> ~ In d (f_vars f)).
Proof.
  intros HV Hg (f0 & Hf0 & Hd0). unfold find_decision_factors, range_factors. cbn [with_tick ve_deps ve_factors ve_tick].
  pose proof (shuffle_perm sc (ve_tick s) _ (ve_factors s)) as Hp.
  set (entries := shuffle sc (ve_tick s) (ve_factors s)) in *.
  match goal with |- context [map snd (filter ?p entries)] => set (p0 := p) end.
  set (p := fun '((_, f) : Z * fac) => contains_var (f_vars f) d).
  assert (Ep : filter p0 entries = filter p entries).
  { apply filter_ext. intros [k f]. unfold p0, p. rewrite hasParent_true, orb_true_r, andb_true_r. auto. }
  rewrite Ep.
  assert (Hne : map snd (filter p entries) <> []).
  { apply in_map_iff in Hf0. destruct Hf0 as ([k f] & Ef & Hin). simpl in Ef. subst f.
    assert (H : In (k, f0) (filter p entries)). { apply filter_In. split. eapply Permutation_in; eauto. apply contains_var_spec. auto. }
    intros E. apply (in_map snd) in H. rewrite E in H. destruct H. }
  exists (S (ve_tick s)), (map snd (filter p entries)), (map snd (filter (fun e => negb (p e)) entries)). split.
  - destruct (map snd (filter p entries)); [congruence|]. auto.
  - split; [|split; [auto|split]].
    + unfold live. rewrite <- map_app. apply Permutation_map. rewrite <- filter_split. auto.
    + intros f Hf. apply in_map_iff in Hf. destruct Hf as ([k f'] & <- & Hf). apply filter_In in Hf. apply contains_var_spec. apply Hf.
    + intros f Hf Hc. apply in_map_iff in Hf. destruct Hf as ([k f'] & <- & Hf). apply filter_In in Hf. destruct Hf as [_ Hf].
      unfold p in Hf. simpl in Hc. apply contains_var_spec in Hc. rewrite Hc in Hf. discriminate.
Qed.

Lemma qsum_weighted_max (p R : nat -> Qc) n m : 
  (forall k, (k < n)%nat -> (0 <= p k)%Qc) -> qsum (map p (seq 0 n)) = 1%Qc ->
  (forall k, (k < n)%nat -> p k <> 0%Qc -> (m <= R k)%Qc) ->
  (m <= qsum (map (fun k => (p k * R k)%Qc) (seq 0 n)))%Qc.
Proof.
  intros Hp H1 H. replace m with (qsum (map (fun k => (m * p k)%Qc) (seq 0 n))).
  - apply qsum_le. intros k Hk. apply in_seq in Hk. destruct (Qc_eq_dec (p k) 0%Qc) as [E|E].
    + rewrite E. replace (m * 0)%Qc with (0 * R k)%Qc by ring. apply Qcle_refl.
    + rewrite (Qcmult_comm m), (Qcmult_comm (p k)). rewrite (Qcmult_comm (p k)).
      apply Qcmult_le_compat_r; [apply H; auto; lia|apply Hp; lia].
  - rewrite qsum_scale, H1. ring.
Qed.

Lemma set_chance_ok vs d : nth_error (vs_vars vs) (v_index d) = Some d ->
  set_chance vs (Z.of_nat (v_index d)) =
  Ok (mkVS (vs_counter vs) (upd_nth (vs_vars vs) (v_index d) (withNodeType d Chance)) (vs_ids vs)).
Proof.
  intros H. unfold set_chance. rewrite (sget_ok _ _ _ H). cbn [gbind]. rewrite sset_ok. auto.
  apply nth_error_Some. congruence.
Qed.

Lemma observes_flag vs fs deps d v : ve_problem vs fs deps -> In v (vs_vars vs) ->
  parent_flag deps [d] (v_index v) = observes deps d v.
Proof.
  intros Hpb Hv. unfold parent_flag, observes. cbn [existsb]. rewrite orb_false_r.
  assert (Hin : forall k ps p, In (k, ps) deps -> In p ps -> (v_index p =? v_index v)%nat = (v_id p =? v_id v)).
  { intros k ps p Hk Hp. apply (vp_deps _ _ _ Hpb) in Hk. destruct Hk as [_ Hk]. apply Hk in Hp. clear Hk.
    destruct (Nat.eqb_spec (v_index p) (v_index v)); destruct (Z.eqb_spec (v_id p) (v_id v)); auto; exfalso.
    - apply n. f_equal. eapply index_inj; eauto. apply Hpb.
    - apply n. f_equal. eapply wf_vars_inj; eauto. apply Hpb. }
  destruct (mget var_eqb deps d) as [ps|] eqn:Em.
  - apply mget_In in Em; [|apply var_eqb_spec]. apply eq_true_iff_eq. rewrite !existsb_exists. split.
    + intros (p & Hp & Ep). exists (d, ps). split; auto. rewrite (Hin _ _ _ Em Hp) in Ep.
      rewrite (proj2 (var_eqb_spec d d) eq_refl). simpl. apply existsb_exists. eauto.
    + intros ([k ps'] & Hk & E). apply andb_prop in E. destruct E as [E1 E2]. apply var_eqb_spec in E1. subst k.
      assert (ps' = ps) by (eapply NoDup_fst_inj; eauto; apply Hpb). subst. apply existsb_exists in E2.
      destruct E2 as (p & Hp & Ep). exists p. split; auto. rewrite (Hin _ _ _ Em Hp). auto.
  - symmetry. apply not_true_iff_false. intros E. apply existsb_exists in E. destruct E as ([k ps'] & Hk & E).
    apply andb_prop in E. destruct E as [E1 E2]. apply var_eqb_spec in E1. subst k.
    rewrite (In_mget var_eqb) with (v := ps') in Em; auto. discriminate. apply var_eqb_spec. apply Hpb.
Qed.

Lemma dep_ids vs fs deps : ve_problem vs fs deps -> NoDup (map (fun kv => v_id (fst kv)) deps).
Proof.
  intros Hpb. assert (Hd : forall kv, In kv deps -> In (fst kv) (vs_vars vs)).
  { intros [k ps] Hk. apply (vp_deps _ _ _ Hpb) in Hk. tauto. }
  pose proof (vp_deps_keys _ _ _ Hpb) as Hn. pose proof (vp_vars _ _ _ Hpb) as HV. clear Hpb.
  induction deps as [|kv deps IH]; simpl; constructor.
  - intros Hin. apply in_map_iff in Hin. destruct Hin as (kv2 & E & Hin). simpl in Hn. inversion Hn; subst. apply H1.
    apply in_map_iff. exists kv2. split; auto. eapply wf_vars_inj; eauto. apply Hd; simpl; auto. apply Hd; simpl; auto.
  - apply IH. intros; apply Hd; simpl; auto. inversion Hn; auto.
Qed.


Lemma frame_ready vs fs deps (s : state) : ve_problem vs fs deps -> vs_vars (ve_vs s) = vs_vars vs -> ve_deps s = deps ->
  length (ve_elim s) = length (vs_vars vs) -> ready s.
Proof. apply problem_ready. Qed.

Lemma is_max_value (u : nat -> Qc) n k : is_max u n k = true -> forall j, (j < n)%nat -> (u j <= u k)%Qc.
Proof. intros H. apply is_max_spec. auto. Qed.

(** What remains of the chance variables of [V] after [d] has become one of them. *)
Lemma after_set_chance V d : wf_vars V -> In d V -> (forall i v, nth_error V i = Some v -> v_index v = i) ->
  let W := upd_nth V (v_index d) (withNodeType d Chance) in
  wf_vars W /\ (forall i v, nth_error W i = Some v -> v_index v = i) /\ length W = length V /\
  (forall x, In x W -> x = withNodeType d Chance \/ (In x V /\ x <> d)) /\
  (forall x, In x V -> x <> d -> In x W).
Proof.
  intros HV Hd Hix W. apply In_nth_error in Hd. destruct Hd as (i & Hi). pose proof (Hix _ _ Hi) as Ei. subst i.
  assert (Hlt : (v_index d < length V)%nat) by (apply nth_error_Some; congruence).
  assert (Hn : forall j, nth_error W j = if (v_index d =? j)%nat then Some (withNodeType d Chance) else nth_error V j).
  { intros j. unfold W. rewrite upd_nth_spec. destruct (Nat.eqb_spec (v_index d) j); simpl; auto. subst j.
    destruct (Nat.ltb_spec (v_index d) (length V)); auto. lia. }
  assert (HWl : length W = length V) by apply upd_nth_length.
  assert (Hids : map v_id W = map v_id V).
  { apply nth_error_ext. intros j. rewrite !nth_error_map, Hn. destruct (Nat.eqb_spec (v_index d) j); auto. subst. rewrite Hi. auto. }
  split. { unfold wf_vars. rewrite Hids. auto. }
  split. { intros j v Hj. rewrite Hn in Hj. destruct (Nat.eqb_spec (v_index d) j). subst. inversion Hj; subst. auto. auto. }
  split; auto. split.
  - intros x Hx. apply In_nth_error in Hx. destruct Hx as (j & Hj). rewrite Hn in Hj. destruct (Nat.eqb_spec (v_index d) j).
    + left. congruence.
    + right. split. eapply nth_error_In; eauto. intros ->. apply Hix in Hj. congruence.
  - intros x Hx Hne. apply In_nth_error in Hx. destruct Hx as (j & Hj). apply (nth_error_In W j). rewrite Hn.
    destruct (Nat.eqb_spec (v_index d) j); auto. exfalso. apply Hne. subst j. congruence.
Qed.

Theorem policy_step t vs fs deps w single cpt rank :
  influence_diagram vs fs deps cpt rank ->
  let V := vs_vars vs in let U := utilities_of V in
  U <> [] -> match w with None => True | Some l => length l = length U end ->
  (forall u, In u (U ++ decision_vars V) -> exists f, In f fs /\ In u (f_vars f)) ->
  decision_vars V <> [] -> (forall d, In d (decision_vars V) -> (0 < v_outcomes d)%nat) ->
  single = true \/ length (decision_vars V) = 1%nat ->
  exists s' d fac pol, ve_solve_policies sc (ve_new t vs fs deps (finite_weights w)) single = Ok (s', Some [(d, (fac, pol))]) /\
    In d (decision_vars V) /\ (forall k ps, In (k, ps) deps -> In k (decision_vars V) -> ~ In d ps) /\
    wf_factor pol /\ finite_factor pol /\ incl (f_vars pol) V /\ In d (f_vars pol) /\
    (forall v, In v (f_vars pol) -> v_id v = v_id d \/ observes deps d v = true \/ v_type v = Decision) /\
    (forall a, in_range V a -> (0 <= value pol a)%Qc) /\
    (forall a, in_range V a -> qsum (map (fun k => value pol (upd a (v_id d) k)) (seq 0 (v_outcomes d))) = 1%Qc) /\
    let R := total (fun x => weight_of (prob_factors fs) x * utility_in V w fs x)%Qc (unobserved V deps d) in
    (forall a k, in_range V a -> (k < v_outcomes d)%nat ->
       (R (upd a (v_id d) k) <= qsum (map (fun j => value pol (upd a (v_id d) j) * R (upd a (v_id d) j))%Qc (seq 0 (v_outcomes d))))%Qc).
Proof.
  intros Hid V U HU Hwl Hcov Hdne Hdo Hsingle.
  pose proof (di_problem _ _ _ _ _ Hid) as Hpb.
  destruct (problem_good vs fs deps t (finite_weights w) Hpb) as [Hg0 Hl0].
  assert (HV : wf_vars V) by apply Hpb.
  assert (Hix : forall i v, nth_error V i = Some v -> v_index v = i) by apply Hpb.
  unfold ve_solve_policies. set (s0 := ve_new t vs fs deps (finite_weights w)) in *.
  (* order of decisions *)
  assert (Hr0 : ready s0). { apply (problem_ready vs fs deps); auto. apply repeat_length. }
  destruct (get_decisions_spec sc s0 (r_wf _ Hr0) (r_closed _ Hr0)) as (t0 & r & E0 & Hpr & Hpf).
  rewrite E0. cbn [gbind]. change (vs_vars (ve_vs s0)) with V in *. change (ve_deps s0) with deps in *.
  fold (decision_vars V) in Hpr. change (decisions_of V) with (decision_vars V) in *.
  assert (Hrne : r <> []). { intros ->. apply Permutation_sym, Permutation_nil in Hpr. auto. }
  destruct (exists_last Hrne) as (r0 & d & Er).
  assert (Htodo : todo_of single r = [d]).
  { unfold todo_of. rewrite Er, rev_app_distr. destruct Hsingle as [->|Hl]; [reflexivity|].
    apply Permutation_length in Hpr. rewrite Hl, Er, app_length in Hpr. simpl in Hpr. destruct r0; [|simpl in Hpr; lia].
    destruct single; reflexivity. }
  assert (Hdd : In d (decision_vars V)) by (eapply Permutation_in; [apply Permutation_sym, Hpr|]; rewrite Er; apply in_app_iff; simpl; auto).
  assert (Hdt : In d V /\ v_type d = Decision) by (apply in_decisions; auto).
  destruct Hdt as [HdV Hdt].
  assert (Hnp : forall k ps, In (k, ps) deps -> In k (decision_vars V) -> ~ In d ps).
  { intros k ps Hk Hkd Hdp. assert (Hp : parents_first deps r).
    { apply (Hpf (fun v => rank (v_id v))). intros x p Hx (k' & ps' & Hin & Ek & Hp & Ht).
      destruct (vp_deps _ _ _ Hpb k' ps' Hin) as [Hk1 _]. apply in_decisions in Hx. destruct Hx as [Hx1 Hx2].
      assert (k' = x) by (apply (wf_vars_inj V); auto).
      subst k'. eapply (di_info _ _ _ _ _ Hid); eauto. }
    assert (Hkr : In k r) by (eapply Permutation_in; eauto). apply in_split in Hkr. destruct Hkr as (l1 & l2 & El).
    assert (Hd1 : In d l1). { eapply (Hp l1 k l2 El). exists k, ps. auto. }
    assert (Hnd : NoDup r). { eapply Permutation_NoDup; [apply Hpr|]. apply NoDup_filter, wf_NoDup; auto. }
    (* d is last *)
    rewrite El in Er. destruct l2 as [|x l2] using rev_ind.
    - apply app_inj_tail in Er. destruct Er as [-> ->]. rewrite El in Hnd. apply NoDup_remove_2 in Hnd. apply Hnd. rewrite app_nil_r. auto.
    - clear IHl2. rewrite app_comm_cons, app_assoc in Er. apply app_inj_tail in Er. destruct Er as [_ ->].
      rewrite El in Hnd. apply in_split in Hd1. destruct Hd1 as (m1 & m2 & ->).
      rewrite <- app_assoc in Hnd. simpl in Hnd. apply NoDup_remove_2 in Hnd. apply Hnd.
      apply in_app_iff. right. apply in_app_iff. right. simpl. right. apply in_app_iff. simpl; auto. }
  destruct r as [|x1 r1] eqn:Er1; [congruence|]. rewrite <- Er1 in *. clear Er1 x1 r1.
  (* utilities *)
  assert (HUV : incl U V) by (intros u Hu; apply filter_In in Hu; tauto).
  assert (HUt : forall u, In u U -> v_type u = Utility) by (intros u Hu; apply filter_In in Hu; apply nodeType_eqb_spec; tauto).
  assert (Hsc0 : forall u, in_scope (with_tick s0 t0) u <-> exists f, In f fs /\ In u (f_vars f)).
  { intros u. unfold in_scope. change (live (with_tick s0 t0)) with (live s0). rewrite Hl0. tauto. }
  destruct (sum_utilities_step sc V (with_tick s0 t0) w) as (s1 & tot & E1 & Hg1 & Hf1 & Hle1 & Hel1 & Hl1 & Htv1 & Hval1); auto.
  { apply good_tick. auto. }
  { apply repeat_length. }
  { intros u Hu. apply Hsc0. apply Hcov, in_app_iff; auto. }
  change (live (with_tick s0 t0)) with (live s0) in *. rewrite Hl0 in Hl1, Htv1, Hval1.
  rewrite E1. cbn [gbind].
  assert (Hsc1 : forall u, In u V -> v_type u <> Utility -> (exists f, In f fs /\ In u (f_vars f)) -> in_scope s1 u).
  { intros u Hu Ht (f & Hf & Huf). destruct (utility_or_prob _ _ Hf) as [Hp|Hp].
    - exists f. split; auto. rewrite Hl1. apply in_app_iff. auto.
    - exists tot. split. { rewrite Hl1. apply in_app_iff. simpl; auto. } apply Htv1; auto. split; auto. exists f. auto. }
  assert (Hchance : forall c, In c V -> v_type c = Chance -> exists f, In f fs /\ In c (f_vars f)).
  { intros c Hc Ht. assert (Hcc : In c (chance_vars V)) by (apply filter_In; split; auto; apply nodeType_eqb_spec; auto).
    exists (cpt c). split; [|apply (di_own _ _ _ _ _ Hid); auto].
    assert (In (cpt c) (prob_factors fs)) by (eapply Permutation_in; [apply (di_cpts _ _ _ _ _ Hid)|apply in_map; auto]).
    apply filter_In in H. tauto. }
  (* elimination *)
  assert (Hr1 : ready s1).
  { apply (problem_ready vs fs deps); auto. apply (fr_vars _ _ Hf1). apply (fr_deps _ _ Hf1). }
  destruct (eliminate_hidden_list sc s1 [] [] single Hr1) as (t1 & r' & t2 & hl & E2 & E3 & Hp3).
  assert (r' = r). { symmetry. eapply (get_decisions_same sc sc s0 _ s1); eauto. symmetry. apply (fr_vars _ _ Hf1). symmetry. apply (fr_deps _ _ Hf1).
    apply (dep_ids vs fs); auto. }
  subst r'. rewrite Htodo in Hp3. rewrite (fr_vars _ _ Hf1), (fr_deps _ _ Hf1) in Hp3.
  change (vs_vars (ve_vs (with_tick s0 t0))) with V in Hp3. change (ve_deps (with_tick s0 t0)) with deps in Hp3.
  set (H := unobserved V deps d).
  assert (Hel1' : forall v, In v V -> v_type v <> Utility -> nth (v_index v) (ve_elim s1) false = false).
  { intros v Hv Ht. rewrite Hel1. simpl ve_elim. rewrite nth_repeat. simpl. apply not_true_iff_false. intros Hc.
    apply existsb_exists in Hc. destruct Hc as (u & Hu & Ei). apply Nat.eqb_eq in Ei.
    assert (u = v) by (apply (index_inj V); auto; apply HUV; auto). subst u. apply Ht. apply HUt. auto. }
  assert (EH : filter (is_hidden (ve_elim s1) deps [d] [] []) V = H).
  { unfold H, unobserved. apply filter_ext_in. intros v Hv. unfold is_hidden.
    rewrite (observes_flag vs fs deps d v Hpb Hv). simpl. rewrite !andb_true_r.
    destruct (nodeType_eqb (v_type v) Chance) eqn:Et; simpl; auto. rewrite Hel1'; auto.
    apply nodeType_eqb_spec in Et. rewrite Et. discriminate. }
  rewrite EH in Hp3. rewrite E3.
  assert (HiH : incl H V) by (intros v Hv; apply filter_In in Hv; tauto).
  assert (HwH : wf_vars H) by (apply NoDup_filter_map; auto).
  assert (Hhl : forall v, In v hl <-> In v H) by (intros; split; apply Permutation_in; auto; apply Permutation_sym; auto).
  assert (HHt : forall v, In v H -> v_type v = Chance).
  { intros v Hv. apply filter_In in Hv. destruct Hv as [_ Hv]. apply andb_prop in Hv. apply nodeType_eqb_spec. tauto. }
  assert (HF2 : Forall2 (fun v v' => v_id v' = v_id v /\ (v_index v' < length (ve_elim (with_tick s1 t2)))%nat) hl hl).
  { apply Forall2_self. intros v Hv. split; auto. simpl. rewrite Hle1. apply index_lt; auto. apply HiH, Hhl, Hv. }
  assert (Hsch : forall v, In v hl -> in_scope (with_tick s1 t2) v).
  { intros v Hv. apply Hhl in Hv. destruct (Hsc1 v) as (f & Hf & Hfv); auto. rewrite (HHt v Hv). discriminate. exists f; auto. }
  assert (Hihl : incl hl V) by (intros v Hv; apply HiH, Hhl, Hv).
  assert (Hwhl : wf_vars hl) by (eapply wf_perm; eauto).
  destruct (remove_list sc V hl HV hl (with_tick s1 t2)) as (s2 & E4 & Hg2 & Hf2 & Hle2 & Hel2 & Hsc2 & Hw2); auto.
  { apply good_tick. auto. }
  destruct (shadow_list sc V HV hl hl (with_tick s1 t2) tot (prob_factors fs) (fun _ => 1%Qc) s2) as (tf & oth & sh & Hsh & Hshw); auto.
  { apply good_tick. auto. }
  { constructor.
    - change (live (with_tick s1 t2)) with (live s1). rewrite Hl1. apply Permutation_sym, Permutation_cons_append.
    - intros f Hf a Ha. eapply Permutation_in in Hf; [|apply Permutation_sym, (di_cpts _ _ _ _ _ Hid)].
      apply in_map_iff in Hf. destruct Hf as (c & <- & Hc). apply (di_nonneg _ _ _ _ _ Hid); auto.
    - intros a b _. auto.
    - intros; discriminate.
    - intros a _ E. discriminate.
    - intros x _ a k. auto. }
  rewrite E4. cbn [gbind]. unfold solve_policies_loop. fold (todo_of single r). rewrite Htodo. cbn [foldM].
  assert (Hfr2 : frame s0 s2). { destruct Hf1 as [a1 a2 a3 a4], Hf2 as [b1 b2 b3 b4]. cbn [with_tick ve_vs ve_deps ve_weights] in *. constructor; [etransitivity; eassumption|etransitivity; eassumption|etransitivity; eassumption|eapply Z.le_trans; eassumption]. }
  (* the factors with the decision *)
  assert (Hd2 : in_scope s2 d).
  { apply Hsc2; auto. split.
    - destruct (Hsc1 d) as (f & Hf & Hfv); auto. congruence. apply Hcov, in_app_iff; auto. exists f; auto.
    - intros Hc. apply in_map_iff in Hc. destruct Hc as (x & Ex & Hx). apply Hhl in Hx.
      assert (Exd : x = d) by (apply (wf_vars_inj V); auto). rewrite Exd in Hx. rewrite (HHt d Hx) in Hdt. discriminate. }
  destruct (find_decision_factors_step V s2 d HV Hg2 Hd2) as (t3 & fl & rest & E5 & Hp5 & Hne5 & Hfl & Hrest).
  rewrite E5. cbv iota beta.
  destruct fl as [|fl0 fl1] eqn:Efl; [congruence|]. rewrite <- Efl in *.
  assert (Hfac : exists vs1 fac, match fl with [f] => Ok (ve_vs (with_tick s2 t3), f) | _ => product (ve_vs (with_tick s2 t3)) fl end = Ok (vs1, fac) /\
     vs_vars vs1 = V /\ vs_counter (ve_vs s2) <= vs_counter vs1 /\ wf_factor fac /\ finite_factor fac /\ incl (f_vars fac) V /\
     (forall v, In v (f_vars fac) <-> exists f, In f fl /\ In v (f_vars f)) /\
     forall a, in_range V a -> value fac a = weight_of fl a).
  { assert (Hgf : forall f, In f fl -> good_factor V (vs_counter (ve_vs s2)) f).
    { intros f Hf. apply (g_fac _ _ Hg2). eapply Permutation_in; [apply Permutation_sym, Hp5|]. apply in_app_iff; auto. }
    assert (EV2 : vs_vars (ve_vs s2) = V) by (rewrite (fr_vars _ _ Hfr2); auto).
    assert (G : exists vs1 fac, product (ve_vs (with_tick s2 t3)) fl = Ok (vs1, fac) /\
     vs_vars vs1 = V /\ vs_counter (ve_vs s2) <= vs_counter vs1 /\ wf_factor fac /\ finite_factor fac /\ incl (f_vars fac) V /\
     (forall v, In v (f_vars fac) <-> exists f, In f fl /\ In v (f_vars f)) /\
     forall a, in_range V a -> value fac a = weight_of fl a).
    { destruct (good_product V (vs_counter (ve_vs s2)) (ve_vs s2) fl) as (f & E & Hidf & Hwf & Hff & Hif & Hvf & Hvalf); auto.
      exists (bump (ve_vs s2)), f. simpl. split; auto. split; auto. split; [lia|]. do 4 (split; auto).
      intros a Ha. apply Hvalf. eapply in_range_incl; eauto. }
    rewrite Efl in *. destruct fl1 as [|fl2 fl3]; [|exact G]. destruct (Hgf fl0) as (h1 & h2 & h3 & h4); [simpl; auto|].
    exists (ve_vs s2), fl0. split; auto. split; auto. split; [lia|]. do 3 (split; auto). split.
    - intros v. split; [intros Hv; exists fl0; simpl; auto|]. intros (f & [<-|[]] & Hv). auto.
    - intros a Ha. unfold weight_of. simpl. ring. }
  destruct Hfac as (vs1 & fac & E6 & Hv6 & Hc6 & Hw6 & Hfin6 & Hi6 & Hvs6 & Hval6).
  rewrite Efl. rewrite <- Efl.
  match goal with |- context [gbind (gbind ?m _) _] => replace m with (@Ok _ (vs1, fac)) by (rewrite <- E6, Efl; reflexivity) end.
  cbn [gbind].
  assert (Hdfac : In d (f_vars fac)). { apply Hvs6. exists fl0. rewrite Efl in *. split; simpl; auto. apply Hfl. simpl; auto. }
  destruct (denotes_policy vs1 fac d (value fac)) as (pol & E7 & Hid7 & Hw7 & Hvs7 & Hd7); auto.
  { apply finite_denotes. auto. }
  rewrite E7. cbn [gbind].
  assert (Hfin7 : finite_factor pol) by (eapply denotes_finite; eauto).
  assert (Hi7 : incl (f_vars pol) V).
  { rewrite Hvs7. intros v Hv. apply in_app_iff in Hv. destruct Hv as [Hv|[<-|[]]]; auto. apply in_others in Hv. apply Hi6. tauto. }
  assert (Hdpol : In d (f_vars pol)) by (rewrite Hvs7; apply in_app_iff; simpl; auto).
  assert (Hval7 : forall a, in_range V a -> value pol a = 
     let u k := value fac (upd a (v_id d) k) in let n := v_outcomes d in
     if is_max u n (a (v_id d)) then (1 / Q2Qc (inject_Z (Z.of_nat (num_max u n))))%Qc else 0%Qc).
  { intros a Ha. apply (denotes_value _ _ _ Hd7). eapply in_range_incl; eauto. }
  (* the state with the policy added *)
  destruct (good_add V s2 (ve_factors s2) pol (mkVS (vs_counter (bump vs1)) (upd_nth V (v_index d) (withNodeType d Chance)) (vs_ids (bump vs1)))) as [Hset Hgood]; auto.
  { apply Hg2. }
  { rewrite Hid7. simpl. lia. }
  assert (Hnd : nth_error V (v_index d) = Some d).
  { apply In_nth_error in HdV. destruct HdV as (i & Hi). rewrite (Hix _ _ Hi). auto. }
  rewrite set_chance_ok by (simpl; rewrite Hv6; auto). cbn [gbind].
  simpl vs_vars. rewrite Hv6. cbn [with_factors with_tick ve_factors]. rewrite Hset.
  match goal with |- context [eliminate_hidden sc ?s [] [] single] => set (s3 := s) end.
  assert (Hg3 : good V s3) by apply Hgood.
  destruct (after_set_chance V d HV HdV Hix) as (HW & HWix & HWl & HWin & HVin).
  set (W := upd_nth V (v_index d) (withNodeType d Chance)) in *.
  assert (Hle3 : length (ve_elim s3) = length V) by (simpl; rewrite Hle2; simpl; auto).
  assert (Hr3 : ready s3).
  { constructor; simpl vs_vars; auto.
    - rewrite HWl. auto.
    - intros x p Hx (k & ps & Hk & Ek & Hp & Ht). simpl in Hk. rewrite (fr_deps _ _ Hfr2) in Hk. change (ve_deps s0) with deps in Hk.
      apply in_decisions in Hx. destruct Hx as [Hx Hxt]. apply HWin in Hx. destruct Hx as [->|[Hx Hxd]]; [discriminate|].
      destruct (vp_deps _ _ _ Hpb k ps Hk) as [Hk1 Hk2].
      assert (Ekx : k = x) by (apply (wf_vars_inj V); auto). rewrite Ekx in *.
      apply HVin; auto. intros Epd. rewrite Epd in Hp. apply (Hnp x ps Hk); auto. apply in_decisions. auto.
    - intros x ps p Hk Hp. simpl in Hk. rewrite (fr_deps _ _ Hfr2) in Hk. destruct (vp_deps _ _ _ Hpb x ps Hk) as [Hk1 Hk2]. simpl. rewrite HWl. apply index_lt; auto. }
  destruct (eliminate_hidden_list sc s3 [] [] single Hr3) as (t4 & r4 & t5 & hl4 & E8 & E9 & Hp9).
  rewrite E9. change (vs_vars (ve_vs s3)) with W in Hp9.
  assert (Hsc3 : forall u, in_scope s2 u -> in_scope s3 u).
  { intros u (f & Hf & Hu). exists f. split; auto. unfold live. simpl. rewrite map_app. apply in_app_iff. auto. }
  assert (Hsc3d : in_scope s3 d).
  { apply Hsc3. auto. }
  assert (Hin9 : forall x, In x hl4 -> exists v, In v V /\ v_id x = v_id v /\ in_scope s3 v /\ v_index x = v_index v).
  { intros x Hx. eapply Permutation_in in Hx; [|apply Permutation_sym, Hp9]. apply filter_In in Hx. destruct Hx as [Hx Hh].
    apply HWin in Hx. destruct Hx as [->|[Hx Hxd]]; [exists d; auto|].
    exists x. do 2 (split; auto). split; auto. apply Hsc3.
    unfold is_hidden in Hh. rewrite !andb_true_iff, !negb_true_iff in Hh. destruct Hh as [[[[Ht He] _] _] _].
    apply nodeType_eqb_spec in Ht. apply Hsc2; auto. split.
    - destruct (Hsc1 x) as (f & Hf & Hfv); auto. congruence. exists f; auto.
    - intros Hc. apply in_map_iff in Hc. destruct Hc as (y & Ey & Hy).
      assert (y = x) by (apply (wf_vars_inj V); auto). subst y.
      simpl ve_elim in He. assert (Hn : nth_error (ve_elim s2) (v_index x) = Some true).
      { rewrite Hel2. assert (Hex : existsb (fun v => (v_index v =? v_index x)%nat) hl = true) by (apply existsb_exists; exists x; split; auto; apply Nat.eqb_refl).
        rewrite Hex. auto. }
      rewrite (nth_error_nth _ _ _ Hn) in He. discriminate. }
  assert (Hl9 : exists hl5, Forall2 (fun v v' => v_id v' = v_id v /\ (v_index v' < length (ve_elim (with_tick s3 t5)))%nat) hl5 hl4 /\
     incl hl5 V /\ (forall v, In v hl5 -> in_scope s3 v)).
  { clear - Hin9 Hle3 Hix. induction hl4 as [|x hl4 IH].
    - exists []. split; [constructor|]. split; [intros v []|intros v []].
    - destruct IH as (hl5 & H2 & Hi & Hs); [intros; apply Hin9; simpl; auto|].
      destruct (Hin9 x) as (v & Hv & Ev & Hsv & Exi); [simpl; auto|]. exists (v :: hl5). split; [constructor; auto|].
      + split; auto. change (length (ve_elim (with_tick s3 t5))) with (length (ve_elim s3)). rewrite Hle3, Exi. apply index_lt; auto.
      + split. intros y [<-|Hy]; auto. intros y [<-|Hy]; auto. }
  destruct Hl9 as (hl5 & HF5 & Hi5 & Hs5).
  destruct (remove_list sc V hl5 HV hl4 (with_tick s3 t5)) as (s4 & E10 & _); auto.
  { apply good_tick. auto. }
  { assert (Eids : map v_id hl5 = map v_id hl4).
    { clear - HF5. induction HF5; simpl; auto. f_equal; auto. destruct H. auto. }
    unfold wf_vars. rewrite Eids. change (wf_vars hl4). eapply wf_perm; [apply Hp9|]. apply NoDup_filter_map. auto. }
  rewrite E10. cbn [gbind].
  exists s4, d, fac, pol. split. { reflexivity. }
  split; auto. split; auto. do 4 (split; auto). split.
  { intros v Hv. rewrite Hvs7 in Hv. apply in_app_iff in Hv. destruct Hv as [Hv|[<-|[]]]; auto. apply in_others in Hv. destruct Hv as [Hv Hne].
    right. apply Hvs6 in Hv. destruct Hv as (f & Hf & Hvf).
    assert (Hfs2 : In f (live s2)) by (eapply Permutation_in; [apply Permutation_sym, Hp5|]; apply in_app_iff; auto).
    assert (HvV : In v V) by (apply (g_fac _ _ Hg2 f Hfs2); auto).
    assert (Hs2 : in_scope s2 v) by (exists f; auto). apply Hsc2 in Hs2; auto. destruct Hs2 as [(g & Hgl & Hgv) Hnh].
    destruct (v_type v) eqn:Et; auto.
    - left. destruct (observes deps d v) eqn:Eo; auto. exfalso. apply Hnh. apply in_map. apply Hhl. apply filter_In. split; auto.
      rewrite Et, Eo. auto.
    - exfalso. change (live (with_tick s1 t2)) with (live s1) in Hgl. rewrite Hl1 in Hgl. apply in_app_iff in Hgl. destruct Hgl as [Hgl|[<-|[]]].
      + apply filter_In in Hgl. destruct Hgl as [_ Hgl]. apply negb_true_iff in Hgl.
        assert (is_utility_factor g = true) by (apply is_utility_spec; eauto). congruence.
      + apply Htv1 in Hgv; auto. tauto. }
  assert (Hpos7 : forall a, in_range V a -> (0 <= value pol a)%Qc).
  { intros a Ha. rewrite Hval7 by auto. cbv zeta. destruct (is_max _ _ _) eqn:Em; [|apply Qcle_refl].
    pose proof (num_max_pos (fun k => value fac (upd a (v_id d) k)) (v_outcomes d) (Hdo d Hdd)) as Hn.
    unfold Qcdiv. rewrite Qcmult_1_l. apply qinv_nonneg. auto. }
  split; auto.
  assert (Hupd : forall a k, in_range V a -> (k < v_outcomes d)%nat -> in_range V (upd a (v_id d) k)).
  { intros a k Ha Hk. apply in_range_upd'; auto. }
  assert (Hsum7 : forall a, in_range V a -> qsum (map (fun k => value pol (upd a (v_id d) k)) (seq 0 (v_outcomes d))) = 1%Qc).
  { intros a Ha. destruct (policy_exact_spec vs1 fac d (value fac)) as (pol' & p & E7' & _ & _ & Hdp & _ & _ & Hs); auto.
    { apply finite_denotes. auto. }
    rewrite E7 in E7'. inversion E7'; subst pol'. rewrite <- (Hs a) by (eapply in_range_incl; eauto).
    apply qsum_ext. intros k Hk. apply in_seq in Hk. apply (denotes_value _ _ _ Hdp). eapply in_range_incl; [eauto|]. apply Hupd; auto. lia. }
  split; auto.
  (* optimality *)
  cbv zeta. set (R := total (fun x => weight_of (prob_factors fs) x * utility_in V w fs x)%Qc (unobserved V deps d)). intros a k Ha Hk.
  assert (HR : forall b, in_range V b -> R b = (weight_of fl b * weight_of rest b)%Qc).
  { intros b Hb. rewrite <- weight_app, <- (weight_perm _ _ _ Hp5), Hw2 by auto. unfold R. fold H.
    rewrite (total_perm _ H hl); auto.
    2: { intros x y Hxy. f_equal. apply weight_proper; auto. apply (total_proper (total_utility V w fs) U); auto. apply total_utility_proper. }
    apply (total_ext_range _ _ V); auto. intros x Hx. change (live (with_tick s1 t2)) with (live s1). rewrite Hl1, weight_app.
    f_equal. unfold weight_of. simpl. rewrite Hval1 by auto. rewrite Qcmult_1_r. reflexivity. }
  assert (Hrd : forall f, In f rest -> ~ In (v_id d) (map v_id (f_vars f))).
  { intros f Hf Hc. apply in_map_iff in Hc. destruct Hc as (x & Ex & Hx). apply (Hrest f Hf).
    replace d with x; auto. apply (wf_vars_inj V); auto.
    assert (Hfs2 : In f (live s2)) by (eapply Permutation_in; [apply Permutation_sym, Hp5|]; apply in_app_iff; auto).
    apply (g_fac _ _ Hg2 f Hfs2). auto. }
  set (F := fun j => weight_of fl (upd a (v_id d) j)). set (G := weight_of rest a).
  assert (HRj : forall j, (j < v_outcomes d)%nat -> R (upd a (v_id d) j) = (F j * G)%Qc).
  { intros j Hj. rewrite HR by (apply Hupd; auto). unfold F, G. rewrite (weight_ignores rest) by auto. auto. }
  assert (Hcmp : forall j, (j < v_outcomes d)%nat -> (forall i, (i < v_outcomes d)%nat -> (F i <= F j)%Qc) ->
      (R (upd a (v_id d) k) <= R (upd a (v_id d) j))%Qc).
  { intros j Hj Hmax. rewrite !HRj by auto. destruct Hsh as [Hlv Hpos Hprop Htpos Hzero Hign].
    assert (Hptf : Permutation (tf :: oth) (fl ++ rest)) by (rewrite <- Hlv; auto).
    assert (Htf : In tf (fl ++ rest)) by (eapply Permutation_in; [apply Hptf|simpl; auto]).
    apply in_app_iff in Htf. destruct Htf as [Htf|Htf]; apply in_split in Htf; destruct Htf as (l1 & l2 & El).
    - apply Qcmult_le_compat_r; auto. apply (weight_nonneg V); auto. intros f Hf. apply Hpos.
      rewrite El, <- app_assoc in Hptf. simpl in Hptf. apply Permutation_cons_app_inv in Hptf.
      eapply Permutation_in; [apply Permutation_sym, Hptf|]. apply in_app_iff. right. apply in_app_iff. auto.
    - assert (Ho : Permutation oth (fl ++ l1 ++ l2)).
      { rewrite El, app_assoc in Hptf. apply Permutation_cons_app_inv in Hptf. rewrite <- app_assoc in Hptf. auto. }
      set (G' := (weight_of (l1 ++ l2) a * sh a)%Qc).
      assert (EG : G = (value tf a * weight_of (l1 ++ l2) a)%Qc).
      { unfold G. rewrite El, !weight_app. unfold weight_of. simpl. ring. }
      assert (Hntf : ~ In (v_id d) (map v_id (f_vars tf))) by (apply Hrd; rewrite El; apply in_app_iff; simpl; auto).
      assert (Hn12 : forall f, In f (l1 ++ l2) -> ~ In (v_id d) (map v_id (f_vars f))).
      { intros f Hf. apply Hrd. rewrite El. apply in_app_iff. simpl. apply in_app_iff in Hf. tauto. }
      assert (HM : forall i, (i < v_outcomes d)%nat -> (F i * G' = total (weight_of (map cpt (chance_vars V))) hl a)%Qc).
      { intros i Hi. rewrite <- (observed_independent V cpt rank (chance_vars V) hl (v_id d)) with (k := i); auto.
        - rewrite (total_ext_range _ (fun w => (weight_of (prob_factors fs) w * 1)%Qc) V); auto.
          2: { intros x Hx. rewrite (weight_perm _ _ _ (di_cpts _ _ _ _ _ Hid)). ring. }
          rewrite <- Hshw by auto. rewrite (weight_perm _ _ _ Ho), weight_app, Hign by auto.
          rewrite (weight_ignores (l1 ++ l2)) by auto. unfold F, G'. ring.
        - apply NoDup_filter_map. auto.
        - intros c Hc. split; [apply filter_In in Hc; tauto|]. split.
          + intros b Hb. apply (di_rows _ _ _ _ _ Hid); auto.
          + intros u Hu Hne. apply (di_order _ _ _ _ _ Hid); auto.
        - intros c Hc. apply Hhl in Hc. apply filter_In. split. apply HiH; auto. apply nodeType_eqb_spec. apply HHt. auto.
        - intros c Hc E. apply filter_In in Hc. destruct Hc as [Hc Ht]. apply nodeType_eqb_spec in Ht.
          assert (Ecd : c = d) by (apply (wf_vars_inj V); auto). rewrite Ecd in Ht. congruence.
        - intros c Hc Hnh. apply filter_In in Hc. destruct Hc as [Hc Ht].
          destruct (observes deps d c) eqn:Eo.
          + apply existsb_exists in Eo. destruct Eo as ([x ps] & Hx & Eo). apply andb_prop in Eo. destruct Eo as [E' Ec].
            apply var_eqb_spec in E'. subst x. apply contains_id_spec in Ec. apply in_map_iff in Ec. destruct Ec as (p & Ep & Hp).
            rewrite <- Ep. apply Nat.lt_le_incl. eapply (di_info _ _ _ _ _ Hid); eauto.
          + exfalso. apply Hnh. apply Hhl. apply filter_In. split; auto. rewrite Ht, Eo. auto. }
      destruct (Qc_eq_dec G' 0%Qc) as [Ez|Ez].
      + assert (G = 0%Qc).
        { unfold G' in Ez. apply Qcmult_integral in Ez. rewrite EG. destruct Ez as [Ez|Ez]. rewrite Ez; ring. rewrite (Hzero a Ha Ez). ring. }
        rewrite H0. rewrite !Qcmult_0_r. apply Qcle_refl.
      + assert (F k = F j).
        { pose proof (HM k Hk) as H1. rewrite <- (HM j Hj) in H1.
          apply (f_equal (fun x => (x / G')%Qc)) in H1. unfold Qcdiv in H1. rewrite <- !Qcmult_assoc, Qcmult_inv_r, !Qcmult_1_r in H1; auto. }
        rewrite H0. apply Qcle_refl. }
  apply (qsum_weighted_max (fun j => value pol (upd a (v_id d) j)) (fun j => R (upd a (v_id d) j))).
  - intros j Hj. apply Hpos7. apply Hupd; auto.
  - apply Hsum7. auto.
  - intros j Hj Hnz. apply Hcmp; auto. rewrite Hval7 in Hnz by (apply Hupd; auto). cbv zeta in Hnz. rewrite upd_same in Hnz.
    destruct (is_max _ _ _) eqn:Em; [|congruence]. intros i Hi. pose proof (is_max_value _ _ _ Em i Hi) as Hle. cbv beta in Hle.
    rewrite !(value_proper fac _ _ (upd_upd _ _ _ _)) in Hle. rewrite !Hval6 in Hle by (apply Hupd; auto). exact Hle.
Qed.

End P.
