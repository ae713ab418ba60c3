(** Complete probability models have mass one. *)
From Coq Require Import ZArith List Bool String Lia Permutation QArith Qcanon.
From Verif Require Import Num GoBase VarModel GoFacts Tuples SpecFactor FactorFacts FactorAt XnumFacts ExactFactor FactorThms
  VEModel SpecVE VEWorlds VEFacts VEHidden VESolve VEThms VEUtil NetModel SpecNet NetVars NetFactors NetVE NetSums NetQuery NetEvents NetUtil.
Import ListNotations.
Open Scope string_scope.
Open Scope list_scope.
Open Scope Z_scope.

Lemma exists_max {X} (rank : X -> nat) (l : list X) : l <> [] -> exists x, In x l /\ forall y, In y l -> (rank y <= rank x)%nat.
Proof.
  induction l as [|x l IH]; [congruence|]. intros _. destruct l as [|y l].
  - exists x. split; [simpl; auto|]. intros y [->|[]]. lia.
  - destruct IH as (m & Hm & Hmax); [discriminate|]. destruct (Nat.le_gt_cases (rank m) (rank x)).
    + exists x. split; [simpl; auto|]. intros z [->|Hz]; auto. specialize (Hmax z Hz). lia.
    + exists m. split; [simpl; auto|]. intros z [->|Hz]; auto. lia.
Qed.

Theorem conditionals_one V (rank : Z -> nat) : wf_vars V -> forall k (C : list (variable * (asg -> Qc))), List.length C = k ->
  wf_vars (map fst C) -> incl (map fst C) V ->
  (forall v F, In (v, F) C -> proper F /\ forall a, in_range V a -> qsum (map (fun k => F (upd a (v_id v) k)) (seq 0 (v_outcomes v))) = 1%Qc) ->
  (forall v F w, In (v, F) C -> In w (map fst C) -> v <> w -> (rank (v_id v) <= rank (v_id w))%nat -> ignores F (v_id w)) ->
  forall a, in_range V a -> total (fun a => qprod (map (fun c => snd c a) C)) (map fst C) a = 1%Qc.
Proof.
  intros HV. induction k as [|k IH]; intros C Hk Hw Hi Hone Hig a Ha.
  - destruct C; [|discriminate]. reflexivity.
  - destruct (exists_max (fun c => rank (v_id (fst c))) C) as ([v F] & Hin & Hmax); [intros ->; discriminate|].
    destruct (in_split _ _ Hin) as (C1 & C2 & EC). set (C' := C1 ++ C2).
    assert (HP : Permutation C (C' ++ [(v, F)])).
    { rewrite EC. unfold C'. rewrite <- app_assoc. apply Permutation_app_head. apply Permutation_cons_append. }
    assert (Hprop : proper (fun a => qprod (map (fun c => snd c a) C))).
    { intros x y E. apply qprod_ext. intros [w G] Hc. apply (Hone w G Hc). auto. }
    assert (Hnd : NoDup (map fst C)) by (eapply NoDup_map_inv; apply Hw).
    assert (Hnv : ~ In v (map fst C')).
    { apply (Permutation_map fst) in HP. rewrite map_app in HP. apply (Permutation_NoDup HP) in Hnd.
      simpl in Hnd. apply NoDup_remove_2 in Hnd. rewrite app_nil_r in Hnd. auto. }
    assert (HC' : incl C' C) by (intros c Hc; apply (Permutation_in _ (Permutation_sym HP)); apply in_app_iff; auto).
    rewrite (total_perm _ _ (map fst C' ++ [v])); auto.
    2:{ apply (Permutation_map fst) in HP. rewrite map_app in HP. auto. }
    rewrite total_app.
    rewrite (total_ext_range _ (fun a => qprod (map (fun c => snd c a) C')) V); auto.
    + apply IH; auto.
      * apply Permutation_length in HP. rewrite app_length in HP. simpl in HP. lia.
      * apply (Permutation_map fst) in HP. rewrite map_app in HP. unfold wf_vars in *. apply (Permutation_map v_id) in HP. apply (Permutation_NoDup HP) in Hw.
        rewrite map_app in Hw. apply NoDup_app_l in Hw. auto.
      * intros x Hx. apply Hi. apply in_map_iff in Hx. destruct Hx as (c & <- & Hc). apply in_map. auto.
      * intros u G w Hu Hw0. apply Hig; auto. apply in_map_iff in Hw0. destruct Hw0 as (c & <- & Hc). apply in_map. auto.
    + intros x Hx. apply Hi. apply in_map_iff in Hx. destruct Hx as (c & <- & Hc). apply in_map. auto.
    + intros w Hw1. rewrite total_cons.
      rewrite (qsum_ext _ (fun j => qprod (map (fun c => snd c w) C') * F (upd w (v_id v) j))%Qc).
      * rewrite qsum_scale. destruct (Hone v F Hin) as [_ ->]; auto. ring.
      * intros j Hj. rewrite total_nil.
        rewrite (qprod_perm _ _ (Permutation_map (fun c => snd c (upd w (v_id v) j)) HP)), map_app. simpl.
        assert (Eapp : forall l m, qprod (l ++ m) = (qprod l * qprod m)%Qc).
        { induction l as [|z l IHl]; intros m; simpl; [ring|]. change (fold_right Qcmult 1%Qc) with qprod. rewrite IHl. ring. }
        rewrite Eapp. simpl. rewrite (qprod_ext _ (fun c => snd c w) C'); [ring|].
        intros [u G] Hc. simpl. apply (Hig u G v); auto.
        -- apply in_map_iff. exists (v, F). auto.
        -- intros ->. apply Hnv. apply in_map_iff. exists (v, G). auto.
        -- apply (Hmax (u, G)); auto.
Qed.

Section NM.
Variable n : network xnum.
Hypothesis Hwf : wf_network n.
Notation vars := (n_vars n).
Notation vv := (vv n).
Notation by_name := (by_name n).
Notation known := (known n).
Notation V := (net_vars n).

Lemma by_name_state a : in_range V a -> proper_state n (by_name a).
Proof.
  intros Ha v Hv. destruct (is_total n (nv_name v)) eqn:Et.
  - unfold NetFactors.by_name. destruct (lookup n (nv_name v)) as [e|] eqn:E.
    + apply (lookup_inv n Hwf) in E. destruct E as ((E & _) & _). congruence.
    + pose proof (wn_outcomes n Hwf v Hv) as H. unfold zlen in H. lia.
  - assert (Hk : known (nv_name v)) by (split; auto; exists v; apply (var_named_in n Hwf); auto).
    rewrite (by_name_vv n Hwf) by auto. pose proof (Ha (vv (nv_name v)) (vv_in n Hwf _ Hk)) as H. destruct (vv_outcomes n Hwf _ Hk) as [E _]. rewrite E in H.
    unfold num_outcomes in H. rewrite (proj2 (var_named_in n Hwf (nv_name v) v)) in H by auto. auto.
Qed.

Lemma chance_in f : In f (chance_factors n) -> In f (n_factors n) /\ kind vars (nf_for f) = Some Chance /\ is_total n (nf_for f) = false /\ wf_table n f.
Proof.
  intros H. apply filter_In in H. destruct H as [H1 H2]. assert (Hk : kind vars (nf_for f) = Some Chance) by (destruct (kind vars (nf_for f)) as [[]|]; auto; discriminate).
  assert (Ht : is_total n (nf_for f) = false). { destruct (is_total n (nf_for f)) eqn:E; auto. apply (total_kind n Hwf) in E. congruence. }
  split; auto. split; auto. split; auto. apply (wn_tables n Hwf); auto.
Qed.

Lemma cell_ignores names s x k : ~ In x names -> cell vars names (nupd s x k) = cell vars names s.
Proof.
  intros H. unfold cell. generalize 0%nat as acc. induction names as [|y l IH]; intros acc; simpl; auto.
  unfold nupd at 2. destruct (String.eqb y x) eqn:E; [apply String.eqb_eq in E; exfalso; apply H; simpl; auto|]. apply IH. intros Hc. apply H. simpl. auto.
Qed.

Lemma entry_ignores f s x k : ~ In x (nf_given f ++ [nf_for f]) -> entry vars f (nupd s x k) = entry vars f s.
Proof. intros H. unfold entry. rewrite cell_ignores; auto. Qed.

Lemma nupd_comm s x y k j : x <> y -> forall z, nupd (nupd s x k) y j z = nupd (nupd s y j) x k z.
Proof.
  intros H z. unfold nupd. destruct (String.eqb z y) eqn:E1; destruct (String.eqb z x) eqn:E2; auto.
  apply String.eqb_eq in E1, E2. congruence.
Qed.
Lemma nupd_twice s x k j z : nupd (nupd s x k) x j z = nupd s x j z.
Proof. unfold nupd. destruct (String.eqb z x); auto. Qed.

Lemma cond_prob_ignores f s x k : ~ In x (nf_given f ++ [nf_for f]) -> cond_prob vars f (nupd s x k) = cond_prob vars f s.
Proof.
  intros H. unfold cond_prob. rewrite entry_ignores by auto.
  replace (row_sum vars f (nupd s x k)) with (row_sum vars f s); auto.
  unfold row_sum. apply qsum_ext. intros j _. rewrite <- (entry_ignores f (nupd s (nf_for f) j) x k) by auto. apply (entry_proper n). intros z. apply nupd_comm.
  intros E. apply H. apply in_app_iff. simpl. auto.
Qed.

Lemma cond_prob_sum f s : row_sum vars f s <> 0%Qc ->
  qsum (map (fun k => cond_prob vars f (nupd s (nf_for f) k)) (seq 0 (num_outcomes vars (nf_for f)))) = 1%Qc.
Proof.
  intros H. rewrite (qsum_ext _ (fun k => entry vars f (nupd s (nf_for f) k) * (/ row_sum vars f s))%Qc).
  - rewrite qsum_scale_r. fold (row_sum vars f s). field. auto.
  - intros k _. unfold cond_prob. replace (row_sum vars f (nupd s (nf_for f) k)) with (row_sum vars f s).
    + rewrite qeq_neq by auto. reflexivity.
    + unfold row_sum. apply qsum_ext. intros j _. apply (entry_proper n). intros z. symmetry. apply nupd_twice.
Qed.

Lemma policy_in d p : In (d, p) (n_policies n) -> known d /\ v_type (vv d) <> Utility /\ incl (f_vars p) (f_vars p) /\ wf_policy n d p.
Proof.
  intros H. pose proof (wn_policies n Hwf d p H) as Hp. pose proof (wp_decision n d p Hp) as Hk.
  assert (Hkn : known d).
  { split; [|unfold kind in Hk; destruct (var_named vars d) as [v|]; [eauto|discriminate]].
    destruct (is_total n d) eqn:E; auto. apply (total_kind n Hwf) in E. congruence. }
  split; auto. split; [|split; [apply incl_refl|auto]]. intros E. apply (vv_utility n Hwf) in E; auto. congruence.
Qed.

Lemma positions_nupd s x k v : known x -> represents n v -> v_id v <> v_id (vv x) -> positions vars (nupd s x k) (v_id v) = positions vars s (v_id v).
Proof.
  intros Hk (i & nv & Hi & Hid & _) Hne. unfold positions. rewrite Hid, Nat2Z.id, Hi. unfold nupd. destruct (String.eqb (nv_name nv) x) eqn:E; auto.
  exfalso. apply String.eqb_eq in E. apply Hne. destruct (lookup_known n Hwf x Hk) as (j & w & Hj & Hn & _ & _ & L). unfold NetFactors.vv. rewrite L.
  cbn [ve_entry en_ve v_id fst]. rewrite Hid. f_equal. eapply (name_pos_inj n Hwf); eauto. congruence.
Qed.

Lemma policy_ignores d p s x k : In (d, p) (n_policies n) -> known x -> ~ In x (factor_names n p) -> policy_prob vars p (nupd s x k) = policy_prob vars p s.
Proof.
  intros Hp Hk Hn. destruct (policy_in d p Hp) as (_ & _ & _ & Hw). unfold policy_prob. apply value_agree. intros v Hv. apply positions_nupd; auto.
  - apply (wp_scope n d p Hw); auto.
  - intros E. apply Hn. unfold factor_names. apply in_map_iff. exists v. split; auto. rewrite E. apply (name_at n Hwf). auto.
Qed.

Lemma policy_proper p : nproper (fun s => policy_prob vars p s).
Proof. intros s s' E. unfold policy_prob. apply value_proper. intros i. unfold positions. destruct (nth_error vars (Z.to_nat i)); auto. Qed.

(** The conditionals as functions of the solver's variables. *)
Definition conds (ign : string -> bool) : list (string * (nstate -> Qc)) :=
  map (fun f => (nf_for f, cond_prob vars f)) (chance_factors n) ++
  map (fun dp => (fst dp, policy_prob vars (snd dp))) (filter (fun dp => negb (ign (fst dp))) (n_policies n)).

Lemma conds_names ign : map fst (conds ign) = conditionals n ign.
Proof. unfold conds, conditionals. rewrite map_app, !map_map. reflexivity. Qed.

Lemma conds_joint ign s : qprod (map (fun c => snd c s) (conds ign)) = joint n ign s.
Proof.
  unfold conds, joint. rewrite map_app, !map_map.
  assert (Eapp : forall l m, qprod (l ++ m) = (qprod l * qprod m)%Qc).
  { induction l as [|z l IHl]; intros m; simpl; [ring|]. change (fold_right Qcmult 1%Qc) with qprod. rewrite IHl. ring. }
  apply Eapp.
Qed.

Lemma conds_known ign x F : In (x, F) (conds ign) -> known x /\ v_type (vv x) <> Utility.
Proof.
  intros H. apply in_app_iff in H. destruct H as [H|H]; apply in_map_iff in H; destruct H as (f & E & H); injection E as <- <-.
  - destruct (chance_in f H) as (_ & Hk & Ht & Hw). assert (known (nf_for f)) by (split; auto; apply (wt_for n f Hw)). split; auto.
    intros E. apply (vv_utility n Hwf) in E; auto. congruence.
  - apply filter_In in H. destruct H as [H _]. destruct f as [d p]. destruct (policy_in d p H) as (H1 & H2 & _). auto.
Qed.

Definition wide_rank (rank : string -> nat) (i : Z) : nat :=
  match nth_error vars (Z.to_nat i) with Some v => rank (nv_name v) | None => 0%nat end.
Lemma wide_rank_vv rank x : known x -> wide_rank rank (v_id (vv x)) = rank x.
Proof.
  intros Hk. destruct (lookup_known n Hwf x Hk) as (j & w & Hj & Hn & _ & _ & L). unfold NetFactors.vv. rewrite L.
  cbn [ve_entry en_ve v_id fst]. unfold wide_rank. rewrite Nat2Z.id, Hj. congruence.
Qed.

(** The weight of all states in which the free variables have the values given by
    observations or by a state is one. *)
Theorem causal_mass ign free ev names s0 : causal n ign free -> valid_observations n ev -> proper_state n s0 -> NoDup names ->
  (forall x, In x free <-> In x (map fst ev) \/ In x names) -> (forall x, In x names -> ~ In x (map fst ev) /\ known x /\ v_type (vv x) <> Utility) ->
  mass n ign (fun s => agrees vars ev s && same_on names s0 s) = 1%Qc.
Proof.
  intros Hca Hv Hs0 Hnd Hfree Hnames.
  destruct (ca_order _ _ _ Hca) as (rank & Hr1 & Hr2).
  assert (Hkc : forall c, In c (conds ign) -> known (fst c) /\ v_type (vv (fst c)) <> Utility) by (intros [x F] Hc; apply (conds_known ign x F Hc)).
  assert (Hpin : pinned n ev names s0).
  { split; auto.
    - intros x Hx. apply Hnames; auto.
    - intros x Hx. destruct (Hnames x Hx) as (_ & Hk & _). destruct (vv_outcomes n Hwf x Hk) as [E _]. rewrite E. destruct Hk as [_ (v & E1)].
      unfold num_outcomes. rewrite E1. apply (var_named_in n Hwf) in E1. destruct E1 as [Hin <-]. apply Hs0. auto.
    - intros x Hx. destruct (Hnames x Hx) as (H1 & H2 & _). apply (is_ev_false n Hwf ev ev x); auto. }
  set (C := map (fun c => (vv (fst c), fun a => snd c (by_name a))) (conds ign)).
  assert (Hfst : map fst C = map vv (conditionals n ign)) by (unfold C; rewrite map_map, <- conds_names, map_map; reflexivity).
  assert (Hcn : forall x, In x (conditionals n ign) -> known x /\ v_type (vv x) <> Utility).
  { intros x Hx. rewrite <- conds_names in Hx. apply in_map_iff in Hx. destruct Hx as (c & <- & Hc). auto. }
  assert (HwC : wf_vars (map fst C)) by (rewrite Hfst; apply (wf_vars_vv n Hwf); [apply Hcn|apply Hca]).
  assert (HiC : incl (map fst C) V) by (rewrite Hfst; intros v Hin; apply in_map_iff in Hin; destruct Hin as (x & <- & Hx); apply (vv_in n Hwf); apply Hcn; auto).
  assert (HpC : forall c, In c (conds ign) -> nproper (snd c)).
  { intros c Hc. apply in_app_iff in Hc. destruct Hc as [Hc|Hc]; apply in_map_iff in Hc; destruct Hc as (f & <- & Hf); simpl.
    - intros s s' E. apply (cond_prob_proper n). auto.
    - apply policy_proper. }
  unfold mass. fold (sum_over n (joint n ign) (fun s => agrees vars ev s && same_on names s0 s)).
  rewrite (event_total n Hwf (joint n ign) (fun a => qprod (map (fun c => snd c a) C)) ev ev names s0 (map fst C)); auto.
  - assert (Eno : rest n ev names (map fst C) = []).
    { destruct (rest n ev names (map fst C)) as [|v l] eqn:E; auto. exfalso.
      assert (Hin : In v (rest n ev names (map fst C))) by (rewrite E; simpl; auto). unfold rest in Hin. apply filter_In in Hin. destruct Hin as [Hin Hno].
      apply in_loose in Hin. destruct Hin as (Hw & He & Hp). apply in_worldly in Hw. destruct Hw as [HvV Hu]. destruct (vv_surj n Hwf v HvV) as (x & Hk & ->).
      apply negb_true_iff, not_true_iff_false in Hno. apply Hno. apply existsb_exists. exists (vv x). split; [|apply Z.eqb_refl].
      rewrite Hfst. apply in_map. pose proof Hk as [_ (w & Hw)]. pose proof Hw as Hw'. apply (var_named_in n Hwf) in Hw'. destruct Hw' as [Hwin <-].
      apply (ca_all _ _ _ Hca w); auto.
      - intros Ht. apply Hu. apply (vv_utility n Hwf); auto. unfold kind. rewrite Hw. simpl. congruence.
      - rewrite Hfree. intros [H|H].
        + apply not_true_iff_false in He. apply He. apply (evidence_key n Hwf ev _ Hv Hk). auto.
        + apply Hp. exists (nv_name w). auto. }
    rewrite Eno. unfold volume. simpl. rewrite Qcmult_1_l.
    apply (conditionals_one V (wide_rank rank) (net_vars_wf n) (List.length C)); auto.
    + intros v F Hin. unfold C in Hin. apply in_map_iff in Hin. destruct Hin as (c & E & Hc). injection E as <- <-. split.
      * intros a b E. apply (HpC c Hc). apply by_name_proper. auto.
      * intros a Ha. destruct (Hkc c Hc) as [Hk _]. destruct (vv_outcomes n Hwf _ Hk) as [-> _].
        rewrite (qsum_ext _ (fun k => snd c (nupd (by_name a) (fst c) k))) by (intros k _; apply (HpC c Hc); apply by_name_upd; auto).
        pose proof (by_name_state a Ha) as Hst.
        apply in_app_iff in Hc. destruct Hc as [Hc|Hc]; apply in_map_iff in Hc; destruct Hc as (f & <- & Hf); cbn [fst snd].
        -- apply cond_prob_sum. apply (ca_rows _ _ _ Hca); auto.
        -- apply filter_In in Hf. destruct Hf as [Hf Hi]. apply negb_true_iff in Hi. destruct f as [d p]. apply (ca_policies _ _ _ Hca d p); auto.
    + intros v F w Hin Hw Hne Hle a k. unfold C in Hin. apply in_map_iff in Hin. destruct Hin as (c & E & Hc). injection E as <- <-.
      rewrite Hfst in Hw. apply in_map_iff in Hw. destruct Hw as (y & <- & Hy). destruct (Hcn y Hy) as [Hky _]. destruct (Hkc c Hc) as [Hkx _].
      rewrite !wide_rank_vv in Hle by auto. rewrite (HpC c Hc _ _ (by_name_upd n Hwf a y k Hky)).
      assert (Hxy : fst c <> y) by congruence.
      apply in_app_iff in Hc. destruct Hc as [Hc|Hc]; apply in_map_iff in Hc; destruct Hc as (f & <- & Hf); cbn [fst snd] in *.
      * apply cond_prob_ignores. intros H. apply in_app_iff in H. destruct H as [H|[H|[]]]; auto. specialize (Hr1 f y Hf H). lia.
      * apply filter_In in Hf. destruct Hf as [Hf Hi]. apply negb_true_iff in Hi. destruct f as [d p]. cbn [fst snd] in *.
        apply (policy_ignores d p); auto. intros H. specialize (Hr2 d p y Hf Hi H). assert (y <> d) by congruence. lia.
    + apply (start_range n Hwf); auto.
  - apply joint_proper.
  - intros a b E. apply qprod_ext. intros c Hc. unfold C in Hc. apply in_map_iff in Hc. destruct Hc as (c' & <- & Hc). simpl. apply (HpC c' Hc). apply by_name_proper. auto.
  - intros a Ha _. rewrite <- conds_joint. unfold C. rewrite map_map. reflexivity.
  - eapply NoDup_map_inv. exact HwC.
  - intros v Hin. rewrite Hfst in Hin. apply in_map_iff in Hin. destruct Hin as (x & <- & Hx). destruct (Hcn x Hx) as [Hk Hu].
    pose proof Hk as [_ (w & Hw)]. apply (var_named_in n Hwf) in Hw. destruct Hw as [Hwin Hwn].
    assert (Hnf : ~ In x free).
    { rewrite <- Hwn. apply (ca_all _ _ _ Hca w); [auto| |rewrite Hwn; auto]. intros Ht. apply Hu. apply (vv_utility n Hwf); auto. unfold kind.
      rewrite (proj2 (var_named_in n Hwf x w)) by auto. simpl. congruence. }
    apply in_loose. split; [apply (worldly_known n Hwf); auto|]. split.
    + apply not_true_iff_false. intros E. apply (evidence_key n Hwf ev x Hv Hk) in E. apply Hnf. apply Hfree. auto.
    + intros (y & Hy & E). apply (vv_inj n Hwf) in E; auto; [|apply Hnames; auto]. subst y. apply Hnf. apply Hfree. auto.
  - intros v Hin Hno a k. exfalso. apply in_loose in Hin. destruct Hin as (Hw & He & Hp). apply in_worldly in Hw. destruct Hw as [HvV Hu].
    destruct (vv_surj n Hwf v HvV) as (x & Hk & ->). apply Hno. rewrite Hfst. apply in_map.
    pose proof Hk as [_ (w & Hw)]. pose proof Hw as Hw'. apply (var_named_in n Hwf) in Hw'. destruct Hw' as [Hwin <-].
    apply (ca_all _ _ _ Hca w); auto.
    + intros Ht. apply Hu. apply (vv_utility n Hwf); auto. unfold kind. rewrite Hw. simpl. congruence.
    + rewrite Hfree. intros [H|H].
      * apply not_true_iff_false in He. apply He. apply (evidence_key n Hwf ev _ Hv Hk). auto.
      * apply Hp. exists (nv_name w). auto.
Qed.

End NM.
