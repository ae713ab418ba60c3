(** Training with samples that a network of the same structure describes. *)
From Coq Require Import ZArith QArith Qcanon List Bool String Lia Permutation.
From Verif Require Import Num GoBase VarModel SpecFactor NetModel SpecNet SpecTrain SpecLikelihood XnumFacts NetCheck RoundCheck NetSums StateSums TrainModel TrainFacts TrainUpdate TrainThms NetNew LikelihoodSums Likelihood
  SpecGraph SpecSame SpecRecover Props_Train.
From Verif Require NetGraph NetMarkov NetVars.
Import ListNotations.
Open Scope string_scope.
Open Scope list_scope.
Open Scope Z_scope.

Lemma qsum_plus {X} (F G : X -> Qc) l : qsum (map (fun x => F x + G x)%Qc l) = (qsum (map F l) + qsum (map G l))%Qc.
Proof. induction l as [|x l IH]; cbn [map qsum fold_right]; [ring|]. unfold qsum in *. cbn [map fold_right]. rewrite IH. ring. Qed.
Lemma qsum_times {X} c (F : X -> Qc) l : qsum (map (fun x => c * F x)%Qc l) = (c * qsum (map F l))%Qc.
Proof. induction l as [|x l IH]; unfold qsum in *; cbn [map fold_right]; [ring|]. rewrite IH. ring. Qed.
Lemma filter_true {X} (p : X -> bool) l : (forall x, In x l -> p x = true) -> filter p l = l.
Proof. induction l as [|x l IH]; intros H; auto. cbn [filter]. rewrite (H x (or_introl eq_refl)), IH; auto. intros; apply H; now right. Qed.
Lemma name_inj vars v w : NoDup (map nv_name vars) -> In v vars -> In w vars -> nv_name v = nv_name w -> v = w.
Proof. intros ND Hv Hw E. pose proof (var_named_in' vars v ND Hv) as E1. pose proof (var_named_in' vars w ND Hw) as E2. congruence. Qed.

Section Count.
Variable n : network xnum.
Notation vars := (n_vars n).
Notation st := (sample_state vars).
Hypothesis ND : NoDup (map nv_name vars).
Hypothesis Hout : forall v, In v vars -> nv_outcomes v <> [].
(** A complete sample fits exactly one state. *)
Lemma one_fit (smp : sample xnum) (E : nstate -> bool) : valid_sample vars smp -> complete_sample vars smp -> (forall s s', (forall y, s y = s' y) -> E s = E s') ->
  qsum (map (fun s => if E s then if fits vars smp s then 1%Qc else 0%Qc else 0%Qc) (worlds_of n)) = if E (st smp) then 1%Qc else 0%Qc.
Proof.
  intros Hvalid Hcomplete HE. unfold worlds_of. set (L := filter (fun v => negb (is_kind Utility v)) vars).
  transitivity (qsum (map (fun s => if forallb (fun v => (s (nv_name v) =? st smp (nv_name v))%nat) L then if E s then 1%Qc else 0%Qc else 0%Qc) (joint_states L nowhere))).
  - apply qsum_ext. intros s _. replace (fits vars smp s) with (forallb (fun v => (s (nv_name v) =? st smp (nv_name v))%nat) L); [destruct (E s), (forallb _ L); reflexivity|].
    unfold fits, L. enough (G : forall l, (forall v, In v l -> In v vars) ->
      forallb (fun v => (s (nv_name v) =? st smp (nv_name v))%nat) (filter (fun v => negb (is_kind Utility v)) l) =
      forallb (fun v => is_kind Utility v || (observed vars smp (nv_name v) <? 0) || (observed vars smp (nv_name v) =? Z.of_nat (s (nv_name v)))) l) by (apply G; auto).
    intros l. induction l as [|v l IH]; intros HV; [reflexivity|].
    cbn [filter forallb]. destruct (is_kind Utility v) eqn:Ek; cbn [negb orb andb]; [apply IH; intros; apply HV; now right|]. cbn [forallb].
    rewrite IH by (intros; apply HV; now right). f_equal. assert (Ht : nv_type v <> Utility). { intros E0. unfold is_kind in Ek. rewrite E0 in Ek. discriminate. }
    rewrite <- (sample_value n smp ND Hout Hcomplete v (HV v (or_introl eq_refl)) Ht). replace (Z.of_nat (st smp (nv_name v)) <? 0) with false by (symmetry; apply Z.ltb_ge; lia). cbn [orb]. destruct (Nat.eqb_spec (s (nv_name v)) (st smp (nv_name v))) as [->|H]; symmetry; [apply Z.eqb_refl|apply Z.eqb_neq; lia].
  - rewrite (pick (st smp) (fun s => if E s then 1%Qc else 0%Qc) L).
    + rewrite (HE (over (st smp) L nowhere) (st smp)); auto. intros y. destruct (in_dec string_dec y (map nv_name L)) as [H|H]; [now apply over_in|]. rewrite (over_other _ _ _ _ H). unfold nowhere, sample_state.
      destruct (kind vars y) as [[]|] eqn:Ek; auto.
      1,2: exfalso; apply H; unfold kind in Ek; destruct (var_named vars y) as [v|] eqn:Ev; [|discriminate]; cbn in Ek; injection Ek as Ek; unfold var_named in Ev; apply find_some in Ev; destruct Ev as (Hv & E0);
        apply String.eqb_eq in E0; subst y; apply in_map; apply filter_In; split; [exact Hv|]; unfold is_kind; rewrite Ek; reflexivity.
    + now apply nodup_filter_names.
    + intros v Hv. apply filter_In in Hv. apply sample_in_range; auto; apply Hv.
Qed.
Variable samples : list (sample xnum).
Hypothesis Hval : forall smp, In smp samples -> valid_sample vars smp.
Hypothesis Hcom : forall smp, In smp samples -> complete_sample vars smp.
Lemma count_worlds (E : nstate -> bool) : (forall s s', (forall y, s y = s' y) -> E s = E s') ->
  qz (count_of (fun smp => E (st smp)) samples) = qsum (map (fun s => if E s then qz (count_of (fun smp => fits vars smp s) samples) else 0%Qc) (worlds_of n)).
Proof.
  intros HE. induction samples as [|smp l IH].
  - symmetry. apply qsum_zero. intros s _. destruct (E s); reflexivity.
  - rewrite count_cons, qz_add, IH by (intros; (apply Hval || apply Hcom); now right).
    transitivity (qsum (map (fun s => (if E s then if fits vars smp s then 1%Qc else 0%Qc else 0%Qc) + (if E s then qz (count_of (fun smp => fits vars smp s) l) else 0%Qc))%Qc (worlds_of n))).
    + rewrite qsum_plus, one_fit; auto; [|apply Hval; now left|apply Hcom; now left]. f_equal. destruct (E (st smp)); reflexivity.
    + apply qsum_ext. intros s _. rewrite count_cons, qz_add. destruct (E s); [|ring]. destruct (fits vars smp s); reflexivity.
Qed.
Lemma count_mass c (E : nstate -> bool) : (forall s, In s (worlds_of n) -> qz (count_of (fun smp => fits vars smp s) samples) = (c * joint n unignored s)%Qc) ->
  (forall s s', (forall y, s y = s' y) -> E s = E s') -> qz (count_of (fun smp => E (st smp)) samples) = (c * mass n unignored E)%Qc.
Proof.
  intros Hr HE. rewrite (count_worlds E HE). unfold mass. rewrite qsum_filter, <- qsum_times. apply qsum_ext. intros s Hs. destruct (E s); [|ring]. apply Hr, Hs.
Qed.
End Count.

(** Observations of the named variables as in a state. *)
Definition seen_in (vars : list nvar) (s : nstate) (names : list string) : list (string * string) :=
  map (fun y => (y, match var_named vars y with Some v => nth (s y) (nv_outcomes v) "" | None => "" end)) names.
Lemma seen_in_names vars s names : map fst (seen_in vars s names) = names.
Proof. unfold seen_in. rewrite map_map. apply map_id. Qed.
Lemma seen_in_agrees n s0 s names : wf_network n -> proper_state n s0 -> proper_state n s -> (forall y, In y names -> exists w, var_named (n_vars n) y = Some w) ->
  agrees (n_vars n) (seen_in (n_vars n) s0 names) s = same_on names s0 s.
Proof.
  intros Hwf H0 H1 Hn. unfold agrees, seen_in, same_on. induction names as [|y names IH]; [reflexivity|]. cbn [map forallb]. rewrite IH by (intros; apply Hn; now right). f_equal.
  destruct (Hn y (or_introl eq_refl)) as (w & Ew). rewrite Ew. pose proof Ew as Ew'. unfold var_named in Ew'. apply find_some in Ew'. destruct Ew' as (Hw & E). apply String.eqb_eq in E. subst y.
  pose proof (H0 w Hw) as L0. pose proof (H1 w Hw) as L1. destruct (nth_error (nv_outcomes w) (s (nv_name w))) as [o|] eqn:Eo; [|apply nth_error_None in Eo; lia].
  pose proof (wn_distinct n Hwf w Hw) as Hd. destruct (Nat.eqb_spec (s (nv_name w)) (s0 (nv_name w))) as [Es|Es].
  - rewrite <- Es. rewrite (nth_error_nth _ _ _ Eo). apply String.eqb_refl.
  - apply String.eqb_neq. intros E. apply Es. rewrite NoDup_nth_error in Hd. apply Hd; auto. rewrite Eo, E. symmetry. apply nth_error_nth'. auto.
Qed.

Section Recover.
Variables (n m n' : network xnum) (samples : list (sample xnum)).
Hypothesis Hwf : wf_network n.
Hypothesis Hca : causal n unignored [].
Hypothesis Hchance : forall v, In v (n_vars n) -> nv_type v = Chance.
Hypothesis Hdiff : only_tables_differ n m.
Hypothesis Hta : trainable m.
Hypothesis Hp : plain_parents m.
Hypothesis Hval : forall smp, In smp samples -> valid_sample (n_vars n) smp.
Hypothesis Hcom : forall smp, In smp samples -> complete_sample (n_vars n) smp.
Hypothesis Hrep : representative n samples.
Hypothesis Htrain : train m samples = (n', Ok tt).
Notation vars := (n_vars n).
Notation st := (sample_state vars).

Lemma vars_m : n_vars m = vars. Proof. apply Hdiff. Qed.
Lemma val_m : forall smp, In smp samples -> valid_sample (n_vars m) smp. Proof. rewrite vars_m. apply Hval. Qed.
Lemma source_factor v : In v vars -> exists k f g, nv_factor v = Some k /\ nth_error (n_factors n) k = Some f /\ nth_error (n_factors m) k = Some g /\
  own_factor m v g /\ nf_for f = nv_name v /\ nf_for g = nv_name v /\ nf_given g = nf_given f /\ In f (chance_factors n).
Proof.
  intros Hv. pose proof Hv as Hv'. rewrite <- vars_m in Hv'. destruct (ta_factor m Hta v Hv') as (g & (k & Hk & Hg) & Eg & _).
  destruct Hdiff as (_ & _ & _ & _ & _ & _ & _ & HF). destruct (forall2_at _ _ _ HF k g Hg) as (f & Hf & (S1 & S2 & _)).
  assert (Ef : nf_for f = nv_name v) by congruence.
  exists k, f, g. repeat split; auto; [exists k; auto|]. unfold chance_factors. apply filter_In. split; [eapply nth_error_In, Hf|]. rewrite Ef, (kind_of vars v (wn_names n Hwf) Hv), (Hchance v Hv). reflexivity.
Qed.
Lemma given_known f : In f (chance_factors n) -> forall y, In y (nf_given f) -> exists w, var_named vars y = Some w.
Proof.
  intros Hf y Hy. unfold chance_factors in Hf. apply filter_In in Hf. destruct Hf as (Hf & Hk).
  destruct (is_total n (nf_for f)) eqn:Et; [|destruct (wt_given n f (wn_tables n Hwf f Hf Et) y Hy) as (_ & H); exact H].
  exfalso. unfold is_total in Et. destruct (nth_error vars (Z.to_nat (n_tui n))) as [v|] eqn:Ev; [|discriminate]. apply andb_true_iff in Et. destruct Et as (Et & _).
  destruct (wn_total n Hwf) as [E|(i & u & k & g & l & E & Hu & Hut & _)]; [lia|]. rewrite (Hchance u) in Hut; [discriminate|]. eapply nth_error_In, Hu.
Qed.
Lemma shows_state names s smp : In smp samples -> (forall y, In y names -> exists w, var_named vars y = Some w) -> shows vars names s smp = same_on names s (st smp).
Proof.
  intros Hs Hn. unfold shows, same_on. apply forallb_ext_in. intros y Hy. destruct (Hn y Hy) as (w & Ew). unfold var_named in Ew. apply find_some in Ew. destruct Ew as (Hw & E). apply String.eqb_eq in E. subst y.
  rewrite <- (sample_value n smp (wn_names n Hwf)); auto.
  - destruct (Nat.eqb_spec (st smp (nv_name w)) (s (nv_name w))) as [->|]; [apply Z.eqb_refl|apply Z.eqb_neq; lia].
  - intros v Hv E. pose proof (wn_outcomes n Hwf v Hv). rewrite E in H. unfold zlen in H. cbn in H. lia.
  - rewrite (Hchance w Hw). discriminate.
Qed.
Lemma nonempty : forall v, In v vars -> nv_outcomes v <> [].
Proof. intros v Hv E. pose proof (wn_outcomes n Hwf v Hv). rewrite E in H. unfold zlen in H. cbn in H. lia. Qed.

(** The parents of a variable as evidence. *)
Lemma parents_are f : In f (chance_factors n) -> forall y, In y (parents_of n unignored (nf_for f)) -> In y (nf_given f).
Proof.
  intros Hf y Hy. unfold parents_of in Hy. apply in_app_or in Hy. destruct Hy as [Hy|Hy].
  - apply in_flat_map in Hy. destruct Hy as (g & Hg & Hy). apply filter_In in Hg. destruct Hg as (Hg & E). apply String.eqb_eq in E.
    pose proof (ca_unique _ _ _ Hca) as ND. unfold conditionals in ND. apply NetVars.NoDup_app_l in ND.
    assert (g = f); [|subst; auto]. clear - ND Hg Hf E. induction (chance_factors n) as [|a l IH]; [destruct Hg|]. cbn [map] in ND. inversion ND as [|? ? Hni ND']; subst.
    destruct Hg as [->|Hg], Hf as [->|Hf]; auto.
    + exfalso. apply Hni. rewrite E. now apply in_map.
    + exfalso. apply Hni. rewrite <- E. now apply in_map.
  - apply in_flat_map in Hy. destruct Hy as ((d & p) & Hd & _). apply filter_In in Hd. destruct Hd as (Hd & _). exfalso. pose proof (wp_decision _ _ _ (wn_policies n Hwf d p Hd)) as K.
    unfold kind in K. destruct (var_named vars d) as [w|] eqn:Ew; [|discriminate]. cbn in K. injection K as K. unfold var_named in Ew. apply find_some in Ew. rewrite (Hchance w (proj1 Ew)) in K. discriminate.
Qed.
Lemma markov_row v f s : In v vars -> In f (chance_factors n) -> nf_for f = nv_name v -> state_of vars s -> 
  mass n unignored (same_on (nf_given f ++ [nv_name v]) s) = (cond_prob vars f s * mass n unignored (same_on (nf_given f) s))%Qc.
Proof.
  intros Hv Hf Ef Hs. pose (ev := seen_in vars s (nf_given f)). assert (Hev : map fst ev = nf_given f) by apply seen_in_names.
  assert (Hin : incl (nf_given f) (parents_of n unignored (nf_for f))).
  { intros y Hy. unfold parents_of. apply in_or_app. left. apply in_flat_map. exists f. split; auto. apply filter_In. split; auto. apply String.eqb_refl. }
  assert (HM := NetMarkov.markov n Hwf unignored [] Hca v ev s (s (nv_name v))).
  assert (E1 : mass n unignored (fun s' => agrees vars ev s' && (s' (nv_name v) =? s (nv_name v))%nat) = mass n unignored (same_on (nf_given f ++ [nv_name v]) s)).
  { unfold mass. f_equal. f_equal. apply filter_ext_in'. intros s' Hs'. unfold ev. rewrite (seen_in_agrees n s s' _ Hwf Hs (NetMarkov.world_proper n Hwf s' Hs') (given_known f Hf)).
    unfold same_on. rewrite forallb_app. cbn [forallb]. rewrite andb_true_r. reflexivity. }
  assert (E2 : mass n unignored (agrees vars ev) = mass n unignored (same_on (nf_given f) s)).
  { unfold mass. f_equal. f_equal. apply filter_ext_in'. intros s' Hs'. apply (seen_in_agrees n s s' _ Hwf Hs (NetMarkov.world_proper n Hwf s' Hs') (given_known f Hf)). }
  rewrite <- E1, <- E2. rewrite HM; clear HM.
  - f_equal. rewrite <- Ef, (NetGraph.conditional_table n unignored [] Hca f _ Hf). apply cond_prob_ext. intros y _. unfold nupd. destruct (String.eqb_spec y (nf_for f)) as [->|]; auto.
  - apply NetGraph.in_fixed_vars. split; [auto|]. split; [rewrite (Hchance v Hv); discriminate|auto].
  - intros y [].
  - rewrite Hev, <- Ef. intros H. apply (NetMarkov.not_below_self n unignored [] Hca (nf_for f)). constructor. now apply Hin.
  - rewrite Hev, <- Ef. exact (parents_are f Hf).
  - rewrite Hev, <- Ef. intros y Hy Hb. apply (NetMarkov.not_below_self n unignored [] Hca (nf_for f)). eapply below_step; [exact Hb|]. now apply Hin.
  - unfold ev. rewrite (seen_in_agrees n s s _ Hwf Hs Hs (given_known f Hf)). unfold same_on. apply forallb_forall. intros y _. apply Nat.eqb_refl.
  - apply Hs. auto.
Qed.

Lemma one_chance f g : In f (chance_factors n) -> In g (chance_factors n) -> nf_for f = nf_for g -> f = g.
Proof.
  intros Hf Hg E. pose proof (ca_unique _ _ _ Hca) as ND. unfold conditionals in ND. apply NetVars.NoDup_app_l in ND. clear - ND Hf Hg E.
  induction (chance_factors n) as [|a l IH]; [destruct Hf|]. cbn [map] in ND. inversion ND as [|? ? Hni ND']; subst.
  destruct Hf as [->|Hf], Hg as [->|Hg]; auto; exfalso; apply Hni; [rewrite E|rewrite <- E]; now apply in_map.
Qed.

(** Trained entries are the probabilities of the source. *)
Theorem recovered v f f' s : In v vars -> In f (chance_factors n) -> nf_for f = nv_name v -> own_factor n' v f' -> state_of vars s ->
  nf_for f' = nv_name v /\ nf_given f' = nf_given f /\ entry vars f' s = cond_prob vars f s /\ cond_prob vars f' s = cond_prob vars f s /\
  nth_error (slice_of (nf_table f')) (cell vars (nf_given f ++ [nv_name v]) s) = Some (Fin (cond_prob vars f s)).
Proof.
  intros Hv Hf Ef Hf' Hs. destruct (source_factor v Hv) as (k & f0 & g & Hk & Hf0 & Hg & Ho & Ef0 & Eg & Egiven & Hc0).
  assert (f0 = f).
  { pose proof (ca_unique _ _ _ Hca) as ND. unfold conditionals in ND. apply NetVars.NoDup_app_l in ND. clear - ND Hf Hc0 Ef Ef0. rewrite <- Ef0 in Ef.
    induction (chance_factors n) as [|a l IH]; [destruct Hf|]. cbn [map] in ND. inversion ND as [|? ? Hni ND']; subst.
    destruct Hf as [->|Hg], Hc0 as [->|Hf]; auto; exfalso; apply Hni; [rewrite Ef|rewrite <- Ef]; now apply in_map. }
  subst f0. pose proof Hv as Hv'. rewrite <- vars_m in Hv'.
  destruct (C41_frequencies m samples n' Hta Hp val_m Htrain v g Hv' (Hchance v Hv) Ho) as (f2 & Ho2 & (S1 & S2 & _) & Hent).
  assert (f2 = f') by (destruct Ho2 as (a & A1 & A2), Hf' as (b & B1 & B2); congruence). subst f2.
  rewrite vars_m in Hent. destruct (Hent s Hs) as (Hpos & He). rewrite Egiven in Hpos, He.
  destruct Hrep as (c & Hc & Hr).
  assert (HG : forall names, (forall y, In y names -> exists w, var_named vars y = Some w) -> qz (count_of (shows vars names s) samples) = (c * mass n unignored (same_on names s))%Qc).
  { intros names Hn. rewrite <- (count_mass n (wn_names n Hwf) nonempty samples Hval Hcom c (same_on names s) Hr).
    - f_equal. unfold count_of. f_equal. apply filter_ext_in'. intros smp Hsmp. apply shows_state; auto.
    - intros s1 s2 E. unfold same_on. apply forallb_ext_in. intros y _. now rewrite E. }
  assert (Hknown : forall y, In y (nf_given f ++ [nv_name v]) -> exists w, var_named vars y = Some w).
  { intros y Hy. apply in_app_or in Hy. destruct Hy as [Hy|[<-|[]]]; [now apply (given_known f Hf)|]. exists v. apply var_named_in'; auto. apply (wn_names n Hwf). }
  assert (Hu : usable_count vars v (nf_given f) s samples = count_of (shows vars (nf_given f) s) samples).
  { unfold usable_count, count_of. f_equal. apply filter_ext_in'. intros smp Hsmp. unfold usable. rewrite (Hchance v Hv). cbn [nodeType_eqb].
    assert (O : 0 <= observed vars smp (nv_name v)) by (apply (Hcom smp Hsmp); auto; rewrite (Hchance v Hv); discriminate). apply Z.leb_le in O. rewrite O. apply andb_true_r. }
  rewrite Hu in Hpos, He. rewrite (HG _ Hknown), (HG _ (given_known f Hf)), (markov_row v f s Hv Hf Ef Hs) in He.
  assert (Hne : (c * mass n unignored (same_on (nf_given f) s))%Qc <> 0%Qc).
  { rewrite <- (HG _ (given_known f Hf)). intros E. change 0%Qc with (qz 0) in E. apply qz_inj in E. lia. }
  replace (c * (cond_prob vars f s * mass n unignored (same_on (nf_given f) s)) / (c * mass n unignored (same_on (nf_given f) s)))%Qc with (cond_prob vars f s) in He.
  2: { field. split; intros E; apply Hne; rewrite E; ring. }
  assert (E1 : nf_for f' = nv_name v) by congruence. assert (E2 : nf_given f' = nf_given f) by congruence.
  assert (E3 : entry vars f' s = cond_prob vars f s). { unfold entry. rewrite E1, E2, He. reflexivity. }
  repeat split; auto. unfold cond_prob at 1. pose proof (C41_rows_add_up m samples n' Hta Hp val_m Htrain v f' Hv' (Hchance v Hv) Ho2 s) as HR. rewrite vars_m in HR. rewrite (HR Hs).
  replace (qeq 1 0) with false by reflexivity. rewrite E3. field. discriminate.
Qed.
(** ** When training succeeds *)
Lemma row_count v f s : In v vars -> In f (chance_factors n) -> state_of vars s ->
  exists c, c <> 0%Qc /\ qz (usable_count vars v (nf_given f) s samples) = (c * mass n unignored (same_on (nf_given f) s))%Qc.
Proof.
  intros Hv Hf Hs. destruct Hrep as (c & Hc & Hr). exists c. split; auto.
  assert (Hu : usable_count vars v (nf_given f) s samples = count_of (shows vars (nf_given f) s) samples).
  { unfold usable_count, count_of. f_equal. apply filter_ext_in'. intros smp Hsmp. unfold usable. rewrite (Hchance v Hv). cbn [nodeType_eqb].
    assert (O : 0 <= observed vars smp (nv_name v)) by (apply (Hcom smp Hsmp); auto; rewrite (Hchance v Hv); discriminate). apply Z.leb_le in O. rewrite O. apply andb_true_r. }
  rewrite Hu, <- (count_mass n (wn_names n Hwf) nonempty samples Hval Hcom c (same_on (nf_given f) s) Hr).
  - f_equal. unfold count_of. f_equal. apply filter_ext_in'. intros smp Hsmp. apply shows_state; auto. apply (given_known f Hf).
  - intros s1 s2 E. unfold same_on. apply forallb_ext_in. intros y _. now rewrite E.
Qed.
Theorem succeeds_iff : (exists r, train m samples = (r, Ok tt)) <->
  forall f s, In f (chance_factors n) -> state_of vars s -> mass n unignored (same_on (nf_given f) s) <> 0%Qc.
Proof.
  destruct (C43_error_iff_no_samples_partial m samples Hta Hp val_m) as (H1 & H2).
  assert (HE : (exists r, train m samples = (r, Ok tt)) <-> ~ (exists r e, train m samples = (r, Err e))).
  { split; [intros (r & E) (r2 & e & E2); congruence|]. intros H. destruct H1 as [H1|H1]; auto. contradiction. }
  rewrite HE, H2. clear HE H1 H2. rewrite vars_m. split.
  - intros H f s Hf Hs E. apply H. unfold chance_factors in Hf. pose proof Hf as Hf0. apply filter_In in Hf0. destruct Hf0 as (_ & Hk).
    unfold kind in Hk. destruct (var_named vars (nf_for f)) as [v|] eqn:Ev; [|discriminate]. unfold var_named in Ev. apply find_some in Ev. destruct Ev as (Hv & En). apply String.eqb_eq in En.
    destruct (source_factor v Hv) as (k & f0 & g & Hkv & Hf0 & Hg & Ho & Ef0 & Eg & Egiven & Hc0). assert (f0 = f) by (apply (one_chance f0 f); auto; congruence). subst f0.
    exists v, g, s. split; auto. split; [rewrite (Hchance v Hv); discriminate|]. split; auto. split; auto. rewrite Egiven.
    destruct (row_count v f s Hv Hc0 Hs) as (c & _ & Eq). rewrite E in Eq. apply qz_inj. rewrite Eq. change (qz 0) with 0%Qc. ring.
  - intros H (v & g & s & Hv & _ & Ho & Hs & E). destruct (source_factor v Hv) as (k & f0 & g0 & Hkv & Hf0 & Hg & Ho0 & Ef0 & Eg & Egiven & Hc0).
    assert (g0 = g) by (destruct Ho as (a & A1 & A2), Ho0 as (b & B1 & B2); congruence). subst g0. rewrite Egiven in E. destruct (row_count v f0 s Hv Hc0 Hs) as (c & Hc & Eq). rewrite E in Eq. change (qz 0) with 0%Qc in Eq.
    symmetry in Eq. apply Qcmult_integral in Eq. destruct Eq as [Eq|Eq]; [auto|]. exact (H f0 s Hc0 Hs Eq).
Qed.

(** ** The trained network *)
Lemma ones_fold {X} (l : list X) : forall a : xnum, fold_left nadd (map (fun _ => n1) l) a = fold_left (fun x _ => nadd x n1) l a.
Proof. induction l; intros a0; cbn [map fold_left]; auto. Qed.
Lemma no_policies : n_policies n = [].
Proof.
  destruct (n_policies n) as [|(d, p) l] eqn:E; auto. exfalso. assert (Hd : In (d, p) (n_policies n)) by (rewrite E; now left). pose proof (wp_decision _ _ _ (wn_policies n Hwf d p Hd)) as K.
  unfold kind in K. destruct (var_named vars d) as [w|] eqn:Ew; [|discriminate]. cbn in K. injection K as K. unfold var_named in Ew. apply find_some in Ew. rewrite (Hchance w (proj1 Ew)) in K. discriminate.
Qed.
Lemma no_total : n_tui n = -1.
Proof. destruct (wn_total n Hwf) as [E|(i & u & k & g & l & E & Hu & Hut & _)]; auto. rewrite (Hchance u) in Hut; [discriminate|]. eapply nth_error_In, Hu. Qed.
Lemma result_differs : only_tables_differ m n'.
Proof. exact (proj1 (C41_changes_only_tables m samples n' _ Hta Hp val_m Htrain)). Qed.
Lemma vars_n' : n_vars n' = vars.
Proof. destruct result_differs as (_ & _ & E & _). rewrite E. apply vars_m. Qed.
Lemma result_shapes : Forall2 same_tables_shape (n_factors n) (n_factors n').
Proof.
  destruct result_differs as (_ & _ & _ & _ & _ & _ & _ & H2). destruct Hdiff as (_ & _ & _ & _ & _ & _ & _ & H1).
  revert H1 H2. generalize (n_factors n), (n_factors m), (n_factors n'). induction l as [|a l IH]; intros l1 l2 H1 H2; inversion H1; subst; inversion H2; subst; constructor; eauto.
  unfold same_tables_shape in *. intuition congruence.
Qed.
Lemma all_tables f : In f (n_factors n) -> wf_table n f /\ exists v, In v vars /\ nf_for f = nv_name v /\ In f (chance_factors n).
Proof.
  intros Hf. assert (W : wf_table n f).
  { apply (wn_tables n Hwf f Hf). unfold is_total. rewrite no_total. destruct (nth_error _ _); reflexivity. }
  split; auto. destruct (wt_for n f W) as (v & Ev). pose proof Ev as Ev'. unfold var_named in Ev'. apply find_some in Ev'. destruct Ev' as (Hv & E). apply String.eqb_eq in E.
  exists v. split; auto. split; auto. unfold chance_factors. apply filter_In. split; auto. unfold kind. rewrite Ev. cbn. rewrite (Hchance v Hv). reflexivity.
Qed.
Lemma result_factor f' : In f' (n_factors n') -> exists k f v, nth_error (n_factors n') k = Some f' /\ nth_error (n_factors n) k = Some f /\ same_tables_shape f f' /\ In v vars /\ nf_for f = nv_name v /\
  nv_factor v = Some k /\ f' = trained m samples v /\ (forall j, (j < rows m v)%nat -> hit_count m v j samples <> 0).
Proof.
  intros Hf'. apply In_nth_error in Hf'. destruct Hf' as (k & Hk). destruct (forall2_at _ _ _ result_shapes k f' Hk) as (f & Hf & Hsh).
  destruct (all_tables f (nth_error_In _ _ Hf)) as (W & v & Hv & Ef & Hc). destruct (source_factor v Hv) as (j & f0 & g & Hj & Hf0 & Hg & Ho & Ef0 & _ & _ & Hc0).
  assert (j = k).
  { assert (ND : NoDup (map nf_for (n_factors n))).
    { pose proof (ca_unique _ _ _ Hca) as ND. unfold conditionals in ND. apply NetVars.NoDup_app_l in ND. unfold chance_factors in ND.
      rewrite filter_true in ND; auto. intros a Ha. destruct (all_tables a Ha) as (_ & w & _ & _ & H). unfold chance_factors in H. apply filter_In in H. apply H. }
    apply (proj1 (NoDup_nth_error _) ND).
    - rewrite map_length. apply nth_error_Some. congruence.
    - rewrite !nth_error_map, Hf0, Hf. cbn. congruence. }
  subst j. assert (HX : f' = trained m samples v /\ (forall j, (j < rows m v)%nat -> hit_count m v j samples <> 0)).
  { destruct (train_ok m Hta samples val_m) as (t & HC & Et). pose proof Htrain as HT. rewrite Et in HT. pose proof Hv as Hv'. rewrite <- vars_m in Hv'.
    destruct (update_ok m Hta samples t HC) as [(fs & EU & Hh & _ & Hown & _)|(fs & e & EU & _)]; rewrite EU in HT; [|discriminate]. injection HT as HT. split; [|intros; apply Hh; auto].
    destruct (Hown v Hv') as (j & Hj' & Hf2). rewrite <- HT in Hk. congruence. }
  exists k, f, v. tauto.
Qed.
Lemma trained_cells v x : In v vars -> (forall j, (j < rows m v)%nat -> hit_count m v j samples <> 0) -> In x (slice_of (nf_table (trained m samples v))) -> exists q, x = Fin q /\ (0 <= q)%Qc.
Proof.
  intros Hv Hh Hx. cbn [trained nf_table] in Hx. destruct (nf_table (fac m v)) as [T|]; [|destruct Hx]. cbn [option_map slice_of] in Hx. unfold new_entries in Hx. apply in_map_iff in Hx.
  destruct Hx as (p & <- & Hp'). apply in_seq in Hp'. assert (Hj : (p / cols v < rows m v)%nat).
  { assert (cols v <> 0)%nat by (intros E; rewrite E in Hp'; lia). apply Nat.div_lt_upper_bound; auto. lia. }
  assert (HU : is_utility v = false) by (unfold is_utility; rewrite (Hchance v Hv); reflexivity).
  unfold hit_sum. rewrite HU, <- ones_fold. set (l := filter _ samples).
  assert (E1 : fold_left nadd (map (fun _ : sample xnum => n1) l) n0 = Fin (qz (zlen l))) by apply (add_up_ones l). rewrite E1. rewrite div_count by (apply Hh; auto). eexists. split; [reflexivity|].
  apply qdiv_nonneg; [apply qn_nonneg|]. unfold hit_count. rewrite HU, Z.mul_1_l. apply qn_nonneg.
Qed.
Lemma all_finite (l : list xnum) : (forall x, In x l -> exists q, x = Fin q /\ (0 <= q)%Qc) -> exists qs, l = map Fin qs /\ forall q, In q qs -> (0 <= q)%Qc.
Proof.
  induction l as [|x l IH]; intros H; [exists []; split; auto; intros q []|]. destruct (H x (or_introl eq_refl)) as (q & -> & Hq). destruct IH as (qs & -> & Hqs); [intros; apply H; now right|].
  exists (q :: qs). split; auto. intros q' [<-|Hq']; auto.
Qed.
Lemma result_tables f' : In f' (n_factors n') -> exists f qs, In f (n_factors n) /\ same_tables_shape f f' /\ nf_table f' = Some (map Fin qs) /\ (forall q, In q qs -> (0 <= q)%Qc) /\
  List.length qs = table_size vars (nf_given f ++ [nf_for f]).
Proof.
  intros Hf'. destruct (result_factor f' Hf') as (k & f & v & Hk & Hf & Hsh & Hv & Ef & Hkv & -> & Hh). exists f.
  destruct (all_tables f (nth_error_In _ _ Hf)) as (W & _). destruct (wt_table n f W) as (l & El & Ll). { rewrite Ef, (kind_of vars v (wn_names n Hwf) Hv), (Hchance v Hv). discriminate. }
  destruct Hsh as (S1 & S2 & S3 & S4 & S5). rewrite El in S5. cbn [option_map] in S5. destruct (nf_table (trained m samples v)) as [T|] eqn:ET; [|discriminate]. cbn [option_map] in S5. injection S5 as S5. rewrite map_length in S5.
  destruct (all_finite T) as (qs & -> & Hqs). { intros x Hx. apply (trained_cells v x Hv Hh). rewrite ET. exact Hx. }
  exists qs. split; [eapply nth_error_In, Hf|]. split; [repeat split; auto; rewrite El, ET; cbn; f_equal; rewrite !map_length in *; auto|]. split; auto. split; auto. rewrite map_length in S5. congruence.
Qed.
Theorem result_wf : wf_network n'.
Proof.
  pose proof result_differs as (_ & _ & _ & P1 & _ & _ & T1 & _). pose proof Hdiff as (_ & _ & _ & P2 & _ & _ & T2 & _).
  assert (HP : n_policies n' = []) by (rewrite P1, P2; apply no_policies). assert (HT : n_tui n' = -1) by (rewrite T1, T2; apply no_total).
  constructor; try (rewrite vars_n'; apply Hwf).
  - intros f' Hf' _. destruct (result_tables f' Hf') as (f & qs & Hf & (S1 & S2 & _) & ET & _ & Hl). destruct (all_tables f Hf) as (W & _).
    constructor; rewrite ?vars_n', ?S1, ?S2; try apply W.
    + intros g Hg. split; [unfold is_total; rewrite HT; destruct (nth_error _ _); reflexivity|]. apply (wt_given n f W g Hg).
    + intros _. exists qs. auto.
  - left. exact HT.
  - rewrite HP. constructor.
  - rewrite HP. intros x p [].
Qed.
Theorem result_nonnegative : nonnegative n'.
Proof.
  pose proof result_differs as (_ & _ & _ & P1 & _). pose proof Hdiff as (_ & _ & _ & P2 & _).
  split; [|intros x p s H; rewrite P1, P2, no_policies in H; destruct H].
  intros f' s Hf'. unfold chance_factors in Hf'. apply filter_In in Hf'. destruct (result_tables f' (proj1 Hf')) as (f & qs & _ & _ & ET & Hq & _). unfold entry. rewrite ET. cbn [slice_of].
  rewrite nth_error_map. destruct (nth_error qs _) as [q|] eqn:E; [|apply Qcle_refl]. apply Hq. eapply nth_error_In, E.
Qed.
Theorem result_complete : complete n'.
Proof.
  intros v Hv _. rewrite vars_n' in Hv. destruct (source_factor v Hv) as (k & f & g & _ & Hf & _ & _ & Ef & _). destruct (nth_error (n_factors n') k) as [f'|] eqn:E.
  - destruct (forall2_at _ _ _ result_shapes k f' E) as (f0 & Hf0 & (S1 & _)). exists f'. split; [eapply nth_error_In, E|congruence].
  - apply nth_error_None in E. rewrite <- (forall2_len _ _ _ result_shapes) in E. assert (nth_error (n_factors n) k <> None) by congruence. apply nth_error_Some in H. lia.
Qed.
Theorem result_joint ign s : proper_state n s -> joint n' ign s = joint n ign s.
Proof.
  intros Hs. pose proof result_differs as (_ & _ & _ & P1 & _). pose proof Hdiff as (_ & _ & _ & P2 & _).
  unfold joint. rewrite P1, P2, no_policies. cbn [filter map]. f_equal. rewrite vars_n'.
  assert (HF : Forall2 (fun f f' => cond_prob vars f' s = cond_prob vars f s) (chance_factors n) (chance_factors n')).
  { apply forall2_filter. apply forall2_nth; [apply (forall2_len _ _ _ result_shapes)|]. intros k f f' Hf Hf'.
    destruct (forall2_at _ _ _ result_shapes k f' Hf') as (f0 & Hf0 & (S1 & _)). assert (f0 = f) by congruence. subst f0. rewrite vars_n', S1. split; auto. intros _.
    destruct (all_tables f (nth_error_In _ _ Hf)) as (_ & v & Hv & Ef & Hc). apply (recovered v f f' s Hv Hc Ef); auto.
    destruct (result_factor f' (nth_error_In _ _ Hf')) as (j & f0 & w & Hj & Hf0' & Hsh & Hw & Ew & Hkw & -> & _).
    assert (w = v). { apply (name_inj vars); auto; [apply (wn_names n Hwf)|]. destruct Hsh as (S1' & _). congruence. } subst w. exists j. auto. }
  induction HF as [|f f' l l' E _ IH]; auto. cbn [map]. change (qprod (?a :: ?b)) with (a * qprod b)%Qc. rewrite E, IH. reflexivity.
Qed.
Theorem result_proportional : proportional n n'.
Proof. split; [apply vars_n'|]. exists 1%Qc. split; [discriminate|]. intros ign s Hs. rewrite (result_joint ign s Hs). ring. Qed.
Lemma result_askable ign ev q : askable n ign ev q -> askable n' ign ev q.
Proof.
  intros (H1 & H2 & H3). split; [rewrite vars_n'; auto|]. split; auto. left. destruct H2 as [(f & Hf & Hq)|(d & p & i & v & w & Hd & _)]; [|rewrite no_policies in Hd; destruct Hd].
  unfold chance_factors in Hf. apply filter_In in Hf. destruct Hf as (Hf & Hk). apply In_nth_error in Hf. destruct Hf as (k & Hf). destruct (nth_error (n_factors n') k) as [f'|] eqn:E.
  - destruct (forall2_at _ _ _ result_shapes k f' E) as (f0 & Hf0 & (S1 & S2 & _)). assert (f0 = f) by congruence. subst f0. exists f'. rewrite S1, S2. split; auto. unfold chance_factors. apply filter_In.
    split; [eapply nth_error_In, E|]. rewrite vars_n', S1. exact Hk.
  - apply nth_error_None in E. rewrite <- (forall2_len _ _ _ result_shapes) in E. assert (nth_error (n_factors n) k <> None) by congruence. apply nth_error_Some in H. lia.
Qed.
End Recover.
