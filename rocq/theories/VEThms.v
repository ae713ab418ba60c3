(** SolveQuery and SolveUtility compute the exact sum-product. *)
From Coq Require Import ZArith List Bool Lia Permutation QArith Qcanon.
From Verif Require Import Num GoBase VarModel GoFacts SpecFactor Tuples FactorFacts FactorSum FactorAt XnumFacts ExactFactor
  FactorThms VEModel SpecVE VEWorlds VEFacts VETopo VEHidden VESolve.
Import ListNotations.
Open Scope Z_scope.

Lemma ve_new_factors {A} (fs : list (factor A)) : NoDup (map f_id fs) ->
  fold_left (fun m f => mset Z.eqb m (f_id f) f) fs [] = map (fun f => (f_id f, f)) fs.
Proof.
  intros Hn. assert (G : forall fs acc, NoDup (map fst acc ++ map f_id fs) ->
    fold_left (fun m f => mset Z.eqb m (f_id f) f) fs acc = acc ++ map (fun f : factor A => (f_id f, f)) fs).
  { clear. induction fs; intros acc Hn; simpl; [rewrite app_nil_r; auto|].
    rewrite mset_new.
    - rewrite IHfs. rewrite <- app_assoc. auto. rewrite map_app, <- app_assoc. auto.
    - intros; apply Z.eqb_eq.
    - simpl in Hn. apply NoDup_remove_2 in Hn. rewrite in_app_iff in Hn. tauto. }
  apply (G fs []). auto.
Qed.

Lemma problem_good vs fs deps t w : ve_problem vs fs deps ->
  good (vs_vars vs) (ve_new t vs fs deps w) /\ live (ve_new t vs fs deps w) = fs.
Proof.
  intros [Hw Hix Hf Hid Hdk Hd]. unfold ve_new, live. rewrite ve_new_factors by auto. split.
  - constructor; simpl.
    + intros e He. apply in_map_iff in He. destruct He as (f & <- & Hin). auto.
    + unfold live. simpl. intros f Hin. rewrite map_map in Hin. simpl in Hin. rewrite map_id in Hin.
      unfold good_factor. apply Hf. auto.
    + rewrite map_map. simpl. auto.
  - simpl. rewrite map_map. simpl. apply map_id.
Qed.

Lemma index_inj V u v : (forall i v, nth_error V i = Some v -> v_index v = i) -> In u V -> In v V ->
  v_index u = v_index v -> u = v.
Proof.
  intros H Hu Hv E. apply In_nth_error in Hu. apply In_nth_error in Hv. destruct Hu as (i & Hi), Hv as (j & Hj).
  rewrite (H _ _ Hi), (H _ _ Hj) in E. subst. congruence.
Qed.

Lemma index_lt V v : (forall i v, nth_error V i = Some v -> v_index v = i) -> In v V -> (v_index v < length V)%nat.
Proof.
  intros H Hv. apply In_nth_error in Hv. destruct Hv as (i & Hi). rewrite (H _ _ Hi). apply nth_error_Some. congruence.
Qed.

(** A state over the variables of a problem is ready for elimination. *)
Lemma problem_ready {A} vs fs deps (s : vestate A) : ve_problem vs fs deps -> vs_vars (ve_vs s) = vs_vars vs -> ve_deps s = deps ->
  length (ve_elim s) = length (vs_vars vs) -> ready s.
Proof.
  intros [Hw Hix Hf Hid Hdk Hd] E1 E2 E3. constructor; rewrite ?E1, ?E2; auto.
  - intros d p Hd' (k & ps & Hin & Ek & Hp & Ht). apply (Hd k ps Hin). auto.
  - intros d ps p Hin Hp. apply index_lt; auto. apply (Hd d ps Hin). auto.
Qed.

Lemma parent_flag_all vs fs deps r v : ve_problem vs fs deps -> Permutation (decisions_of (vs_vars vs)) r ->
  In v (vs_vars vs) ->
  parent_flag deps (todo_of false r) (v_index v) = is_decision_parent (vs_vars vs) deps v.
Proof.
  intros [Hw Hix Hf Hid Hdk Hd] Hp Hv. unfold parent_flag, is_decision_parent, todo_of.
  apply eq_true_iff_eq. rewrite !existsb_exists. split.
  - intros (d & Hdin & Hm). destruct (mget var_eqb deps d) as [ps|] eqn:Em; [|discriminate].
    apply mget_In in Em; [|apply var_eqb_spec]. exists (d, ps). split; auto.
    apply in_rev in Hdin. eapply Permutation_in in Hdin; [|apply Permutation_sym; eauto]. apply in_decisions in Hdin.
    rewrite (proj2 (contains_var_spec _ _) (proj1 Hdin)), (proj2 (nodeType_eqb_spec _ _) (proj2 Hdin)). simpl.
    apply existsb_exists in Hm. destruct Hm as (p & Hpin & Ep). apply Nat.eqb_eq in Ep.
    apply contains_id_spec. apply in_map_iff. exists p. split; auto. f_equal.
    eapply index_inj; eauto. apply (Hd d ps Em). auto.
  - intros ([d ps] & Hin & Hm). apply andb_prop in Hm. destruct Hm as [Hm Hc]. apply andb_prop in Hm. destruct Hm as [H1 H2].
    apply contains_var_spec in H1. apply nodeType_eqb_spec in H2. exists d. split.
    + apply in_rev. rewrite rev_involutive. eapply Permutation_in; eauto. apply in_decisions. auto.
    + rewrite (In_mget var_eqb) with (v := ps); auto; [|apply var_eqb_spec]. apply existsb_exists.
      apply contains_id_spec in Hc. apply in_map_iff in Hc. destruct Hc as (p & Ep & Hpin). exists p. split; auto.
      apply Nat.eqb_eq. f_equal. eapply wf_vars_inj; eauto. apply (Hd d ps Hin). auto.
Qed.

Lemma good_tick V s t : good V s -> good V (with_tick s t).
Proof. intros []. constructor; auto. Qed.

Lemma Forall2_self {X} (P : X -> X -> Prop) l : (forall x, In x l -> P x x) -> Forall2 P l l.
Proof. induction l; intros H; constructor. apply H; simpl; auto. apply IHl. intros; apply H; simpl; auto. Qed.

(** eliminateHidden in a problem without solved decisions sums out the hidden variables. *)
Lemma eliminate_hidden_query sc vs fs deps s evs query : ve_problem vs fs deps ->
  let V := vs_vars vs in
  good V s -> vs_vars (ve_vs s) = V -> ve_deps s = deps ->
  length (ve_elim s) = length V -> (forall i v, nth_error V i = Some v -> v_type v = Chance -> nth i (ve_elim s) false = false) ->
  (forall v, In v (hidden_in V deps evs query) -> in_scope s v) ->
  exists s', eliminate_hidden sc s evs query false = Ok s' /\ good V s' /\ frame s s' /\
    (forall u, In u V -> (in_scope s' u <-> in_scope s u /\ ~ In u (hidden_in V deps evs query))) /\
    (forall a, in_range V a -> weight_of (live s') a = total (weight_of (live s)) (hidden_in V deps evs query) a).
Proof.
  intros Hpb V Hg EV Ed Hle Hel Hsc.
  pose proof (problem_ready vs fs deps s Hpb EV Ed Hle) as Hr.
  destruct (eliminate_hidden_list sc s evs query false Hr) as (t0 & r & t & hl & E0 & E & Hp).
  destruct (get_decisions_spec sc s (r_wf _ Hr) (r_closed _ Hr)) as (t0' & r' & E0' & Hpr & _).
  rewrite E0 in E0'. assert (r' = r) by (inversion E0'; auto). subst r'. clear E0'.
  rewrite EV in Hp, Hpr. rewrite Ed in Hp.
  assert (EH : filter (is_hidden (ve_elim s) deps (todo_of false r) evs query) V = hidden_in V deps evs query).
  { unfold hidden_in. apply filter_ext_in. intros v Hv. unfold is_hidden.
    rewrite (parent_flag_all vs fs deps r v Hpb Hpr Hv). f_equal. f_equal. f_equal.
    destruct (nodeType_eqb (v_type v) Chance) eqn:Et; simpl; auto. apply nodeType_eqb_spec in Et.
    pose proof Hv as Hv'. apply In_nth_error in Hv'. destruct Hv' as (i & Hi).
    rewrite (vp_index _ _ _ Hpb _ _ Hi), (Hel _ _ Hi Et). auto. }
  rewrite EH in Hp. set (H := hidden_in V deps evs query) in *.
  assert (Hw : wf_vars V) by apply Hpb.
  assert (HiH : incl H V) by (intros v Hv; apply filter_In in Hv; tauto).
  assert (HwH : wf_vars H) by (apply NoDup_filter_map; auto).
  assert (Hhl : forall v, In v hl <-> In v H) by (intros; split; apply Permutation_in; auto; apply Permutation_sym; auto).
  destruct (remove_list sc V hl Hw hl (with_tick s t)) as (s' & E' & Hg' & Hfr' & _ & _ & Hsc' & Hw').
  - apply good_tick. auto.
  - apply Forall2_self. intros v Hv. split; auto. simpl. rewrite Hle. apply index_lt. apply Hpb. apply HiH, Hhl, Hv.
  - intros v Hv. apply HiH, Hhl, Hv.
  - eapply wf_perm; eauto.
  - intros v Hv. apply Hhl in Hv. apply Hsc in Hv. apply Hv.
  - exists s'. rewrite E. split; auto. split; auto. split.
    { eapply frame_trans; [|apply Hfr']. constructor; simpl; auto. lia. }
    split.
    + intros u Hu. rewrite Hsc' by auto. split; intros [H1 H2]; split; auto.
      * intros Hc. apply H2. apply in_map. apply Hhl. auto.
      * intros Hc. apply H2. apply in_map_iff in Hc. destruct Hc as (x & Ex & Hx). apply Hhl in Hx.
        replace u with x; auto. apply (wf_vars_inj V); auto.
    + intros a Ha. rewrite Hw' by auto. apply total_perm. apply weight_proper. eapply wf_perm; eauto. apply Permutation_sym; auto.
Qed.

Lemma rel_plug_weight V evs fs gs a : in_range V a -> matched (rel_plug V evs) fs gs ->
  weight_of gs a = weight_of fs (plug evs a).
Proof.
  intros Ha (gs' & Hp & H2). rewrite (weight_perm _ _ _ Hp). clear Hp. induction H2; auto.
  unfold weight_of in *. simpl. rewrite IHForall2. f_equal. apply H. auto.
Qed.

Lemma rel_plug_utility V evs f f' : wf_vars V -> valid_evidence V evs -> incl (f_vars f) V -> incl (f_vars f') V ->
  rel_plug V evs f f' -> is_utility_factor f = is_utility_factor f'.
Proof.
  intros HV He Hi Hi' [Hr _]. apply eq_true_iff_eq. unfold is_utility_factor. rewrite !existsb_exists.
  split; intros (u & Hu & Ht); exists u; split; auto.
  - apply Hr; auto. split; auto. apply not_true_iff_false. intros Hc. unfold is_evidence in Hc.
    apply existsb_exists in Hc. destruct Hc as (ev & Hev & Eid). destruct (He ev Hev) as (H1 & H2 & _).
    apply H2. replace (ev_var ev) with u. apply nodeType_eqb_spec; auto. eapply wf_vars_inj; eauto. lia.
  - apply Hr in Hu; auto. tauto.
Qed.

Lemma rel_plug_scope V evs fs gs u : In u V -> (forall g, In g gs -> incl (f_vars g) V) -> matched (rel_plug V evs) fs gs ->
  ((exists g, In g gs /\ In u (f_vars g)) <-> (exists f, In f fs /\ In u (f_vars f)) /\ is_evidence evs u = false).
Proof.
  intros Hu Hi (gs' & Hp & H2).
  assert (E : (exists g, In g gs /\ In u (f_vars g)) <-> (exists g, In g gs' /\ In u (f_vars g))).
  { split; intros (g & Hgin & Hug); exists g; split; auto.
    - eapply Permutation_in; eauto.
    - eapply Permutation_in; [apply Permutation_sym|]; eauto. }
  rewrite E. clear E Hp Hi. induction H2.
  - split; [intros (g & [] & _)|intros [(g & [] & _) _]].
  - split.
    + intros (g & [<-|Hg] & Hug).
      * apply H in Hug; auto. destruct Hug. split; auto. exists x. simpl; auto.
      * destruct (proj1 IHForall2) as [(f & Hf & Huf) He]; eauto. split; auto. exists f. simpl; auto.
    + intros [(f & [<-|Hf] & Huf) He].
      * exists y. split; simpl; auto. apply H; auto.
      * destruct (proj2 IHForall2) as (g & Hg & Hug); eauto. exists g. simpl; auto.
Qed.

Lemma total_plug F evs H : proper F -> (forall v, In v H -> is_evidence evs v = false) -> forall a,
  total (fun w => F (plug evs w)) H a = total F H (plug evs a).
Proof.
  intros HF. induction H as [|v H IH]; intros Hne a.
  - rewrite 2 total_nil. auto.
  - rewrite 2 total_cons. apply qsum_ext. intros k _. rewrite IH by (intros; apply Hne; simpl; auto).
    apply total_proper; auto. apply plug_upd. apply Hne. simpl; auto.
Qed.

Theorem solve_query_exact sc t vs fs deps w evs query :
  ve_problem vs fs deps -> valid_evidence (vs_vars vs) evs ->
  let V := vs_vars vs in
  let H := hidden_in V deps evs query in
  (forall h, In h H -> exists f, In f (prob_factors fs) /\ In h (f_vars f)) ->
  exists s' f, ve_solve_query sc (ve_new t vs fs deps w) evs query = Ok (s', f) /\
    wf_factor f /\ incl (f_vars f) V /\
    (forall v, In v V -> (In v (f_vars f) <->
       (exists g, In g (prob_factors fs) /\ In v (f_vars g)) /\ is_evidence evs v = false /\ ~ In v H)) /\
    frame (ve_new t vs fs deps w) s' /\ f_id f < vs_counter (ve_vs s') /\
    (forall a, in_range V a -> get_at f a = Ok (Fin (qsum (map (weight_of (prob_factors fs)) (worlds H (plug evs a)))))).
Proof.
  intros Hpb Hev V H Hcov. destruct (problem_good vs fs deps t w Hpb) as [Hg0 Hl0].
  assert (HV : wf_vars V) by apply Hpb.
  unfold ve_solve_query, ve_solve.
  destruct (eliminate_evidence_step sc V HV evs (ve_new t vs fs deps w)) as (s1 & E1 & Hg1 & Hf1 & Hel1 & Hm1); auto.
  rewrite E1. cbn [gbind]. rewrite Hl0 in Hm1.
  destruct (remove_utilities_step sc V s1) as (Hg2 & Hf2 & Hel2 & Hl2); auto.
  { rewrite (fr_vars _ _ Hf1). auto. }
  set (s2 := remove_utilities sc s1 None) in *.
  assert (Hm2 : matched (rel_plug V evs) (prob_factors fs) (live s2)).
  { rewrite Hl2. apply matched_filter; auto. intros x y Hx Hy HR. f_equal. eapply rel_plug_utility; eauto.
    - apply (vp_factors _ _ _ Hpb x Hx).
    - apply (g_fac _ _ Hg1 y Hy). }
  assert (Hsc2 : forall u, In u V -> (in_scope s2 u <-> (exists f, In f (prob_factors fs) /\ In u (f_vars f)) /\ is_evidence evs u = false)).
  { intros u Hu. unfold in_scope. apply (rel_plug_scope V); auto. intros g Hgin. apply (g_fac _ _ Hg2 g Hgin). }
  assert (Hfr2 : frame (ve_new t vs fs deps w) s2) by (eapply frame_trans; eauto).
  destruct (eliminate_hidden_query sc vs fs deps s2 evs query) as (s3 & E3 & Hg3 & Hf3 & Hsc3 & Hw3); auto.
  { rewrite (fr_vars _ _ Hfr2). auto. }
  { rewrite (fr_deps _ _ Hfr2). auto. }
  { rewrite Hel2, Hel1. simpl. apply repeat_length. }
  { intros i v Hi _. rewrite Hel2, Hel1. simpl. apply nth_repeat. }
  { intros v Hv. assert (HvV : In v V) by (apply filter_In in Hv; tauto). apply Hsc2; auto. split; [apply Hcov; auto|].
    unfold hidden_in in Hv. apply filter_In in Hv. destruct Hv as [_ Hv]. rewrite !andb_true_iff in Hv.
    apply negb_true_iff. tauto. }
  rewrite E3. cbn [gbind].
  destruct (multiply_all_step sc V s3) as (s4 & f & E4 & Hw4 & Hfin4 & Hid4 & Hf4 & Hc4 & Hvs4 & Hi4 & Hval4); auto.
  exists s4, f. split; auto. split; auto. split; auto. split.
  { intros v Hv. rewrite Hvs4, Hsc3, Hsc2 by auto. tauto. }
  split. { do 2 (eapply frame_trans; [|eassumption]). auto. }
  split. { lia. }
  intros a Ha. rewrite (finite_denotes f Hfin4) by (eapply in_range_incl; eauto).
  rewrite Hval4, Hw3 by auto. do 2 f_equal. fold H.
  rewrite (total_ext_range _ (fun w => weight_of (prob_factors fs) (plug evs w)) V); auto.
  2: { intros v Hv. apply filter_In in Hv. tauto. }
  2: { intros w0 Hw0. eapply rel_plug_weight; eauto. }
  fold (total (weight_of (prob_factors fs)) H (plug evs a)).
  assert (Hne : forall v, In v H -> is_evidence evs v = false).
  { intros v Hv. apply filter_In in Hv. rewrite !andb_true_iff in Hv. apply negb_true_iff. tauto. }
  apply total_plug; auto. apply weight_proper.
Qed.
