(** Scaling a row of a table does not change any answer. *)
From Coq Require Import ZArith List Bool String Lia Permutation QArith Qcanon.
From Verif Require Import Num GoBase VarModel GoFacts Tuples SpecFactor FactorFacts FactorAt XnumFacts ExactFactor FactorThms
  VEModel SpecVE VEWorlds VEFacts VESolve VEThms NetModel SpecNet NetVars NetFactors NetVE NetSums NetHistory NetCor.
Import ListNotations.
Open Scope string_scope.
Open Scope list_scope.
Open Scope Z_scope.

Section NS.
Variable n : network xnum.
Hypothesis Hwf : wf_network n.
Notation vars := (n_vars n).
Notation vv := (vv n).
Notation tvars := (tvars n).
Notation by_name := (by_name n).

Lemma in_table_by_name f a : is_total n (nf_for f) = false -> wf_table n f -> in_range (tvars f) a -> in_table vars f (by_name a).
Proof.
  intros Ht Hw Ha x Hx. pose proof (table_names n f Ht Hw x Hx) as Hk. rewrite (by_name_vv n Hwf) by auto.
  destruct (vv_outcomes n Hwf x Hk) as [E _]. rewrite <- E. apply Ha. unfold NetFactors.tvars. apply in_map. auto.
Qed.

Lemma in_table_upd f s k : in_table vars f s -> (k < num_outcomes vars (nf_for f))%nat -> in_table vars f (nupd s (nf_for f) k).
Proof.
  intros H Hk x Hx. unfold nupd. destruct (String.eqb x (nf_for f)) eqn:E; auto. apply String.eqb_eq in E. subst. auto.
Qed.

Lemma scaled_sum f g : row_scaled vars f g -> exists c : nstate -> Qc, (forall s, (0 < c s)%Qc) /\
  (forall s, in_table vars f s -> entry vars g s = (c s * entry vars f s)%Qc) /\
  (forall s, in_table vars f s -> row_sum vars g s = (c s * row_sum vars f s)%Qc).
Proof.
  intros (Hf & Hg & c & Hpos & Hrow & _ & He). exists c. split; auto. split; auto.
  intros s Hs. unfold row_sum. rewrite Hf, <- qsum_scale. apply qsum_ext. intros k Hk. apply in_seq in Hk.
  rewrite He, Hrow; auto. apply in_table_upd; auto. lia.
Qed.

Lemma scaled_cond f g s : row_scaled vars f g -> (row_sum vars f s = 0%Qc -> entry vars f s = 0%Qc) -> in_table vars f s ->
  cond_prob vars g s = cond_prob vars f s.
Proof.
  intros Hs Hz Hi. destruct (scaled_sum f g Hs) as (c & Hpos & He & Hr). unfold cond_prob. rewrite He, Hr by auto.
  assert (Hc : c s <> 0%Qc). { intros E. specialize (Hpos s). rewrite E in Hpos. apply Qclt_not_eq in Hpos. auto. }
  destruct (qeq (row_sum vars f s) 0) eqn:E.
  - apply qeq_spec in E. rewrite E, Hz, !Qcmult_0_r by auto. rewrite qeq_refl. auto.
  - assert (Hn : row_sum vars f s <> 0%Qc). { intros H. rewrite H, qeq_refl in E. discriminate. }
    rewrite qeq_neq. { field. auto. }
    intros H. apply Qcmult_integral in H. tauto.
Qed.

(** One step of the loop over the factors, for a table of a chance variable *)
Lemma chance_step f c deps (fs : list (factor xnum)) : is_total n (nf_for f) = false -> wf_table n f -> kind vars (nf_for f) = Some Chance ->
  exists g, add_net_factor (name_map (entries n)) (total_name n) (vs_at n c, deps, fs) f = Ok (vs_at n (c + 1 + 1), deps, fs ++ [g]) /\
    f_id g = c + 1 /\ wf_factor g /\ f_vars g = tvars f /\ denotes g (fun a => cond_prob vars f (by_name a)).
Proof.
  intros Et Hf Hkt. unfold add_net_factor. rewrite (total_name_eq n Hwf f (fun _ => Hf)), Et.
  assert (Hkn : known n (nf_for f)) by (split; auto; apply Hf).
  destruct (lookup_known n Hwf _ Hkn) as (k & v & Hk & Hn & Hv & _ & E). unfold lookup in E. rewrite E.
  rewrite (mapM_given n Hwf f Et Hf). cbn [gbind].
  assert (Ev : en_ve (ve_entry n (Z.of_nat k, v)) = vv (nf_for f)) by (unfold NetFactors.vv, lookup; rewrite E; auto).
  rewrite Ev. destruct (kind_known n Hwf _ Hkn) as (t & Hkt' & Htype). rewrite Hkt in Hkt'. injection Hkt' as <-. rewrite Htype.
  assert (Hvt : nv_type (en_var (ve_entry n (Z.of_nat k, v))) = Chance).
  { simpl. unfold kind in Hkt. rewrite Hv in Hkt. simpl in Hkt. congruence. }
  rewrite Hvt. cbn [nodeType_eqb andb].
  destruct (wt_table n f Hf) as (l & Hl & Hlen). { rewrite Hkt. discriminate. }
  rewrite Hl. destruct (table_denotes n Hwf f c l Et Hf Hl Hlen) as [Hwfc Hden].
  pose proof (wf_fits _ Hwfc) as Hfit. unfold fits in Hfit. simpl in Hfit.
  assert (Etv : map vv (nf_given f) ++ [vv (nf_for f)] = tvars f) by (unfold NetFactors.tvars; rewrite map_app; auto).
  rewrite last_tvars, Etv.
  rewrite (create_factor_some (vs_at n c) (tvars f) (map Fin l) Hfit). cbn [gbind vs_counter vs_at].
  assert (Hinv : In (vv (nf_for f)) (tvars f)) by (rewrite <- Etv; apply in_or_app; simpl; auto).
  destruct (denotes_normalize_for (bump (vs_at n c)) (mkFactor c (tvars f) (map Fin l)) (vv (nf_for f)) _ Hwfc Hinv
    (proj2 (vv_outcomes n Hwf _ Hkn)) Hden) as (g & Eg & Hgid & Hgw & Hgv & Hgd).
  unfold bump in Eg. cbn [vs_at vs_counter vs_vars vs_ids] in Eg |- *. rewrite Eg. cbn [gbind].
  exists g. split; auto. simpl in Hgid, Hgv. rewrite (others_last n Hwf f Et Hf) in Hgv.
  split; [lia|]. split; auto. split; auto.
  intros a Ha. rewrite Hgd by auto. do 2 f_equal. unfold cond_prob.
  assert (Hrs : qsum (map (fun k => entry vars f (by_name (upd a (v_id (vv (nf_for f))) k))) (seq 0 (v_outcomes (vv (nf_for f)))))
    = row_sum vars f (by_name a)).
  { unfold row_sum. rewrite (proj1 (vv_outcomes n Hwf _ Hkn)). apply qsum_ext. intros j _. apply entry_proper.
    apply by_name_upd; auto. }
  cbv zeta. rewrite Hrs. auto.
Qed.

Lemma scaled_step f g c deps (fs : list (factor xnum)) : is_total n (nf_for f) = false -> wf_table n f -> wf_table n g -> kind vars (nf_for f) = Some Chance ->
  row_scaled vars f g -> (forall s, in_table vars f s -> row_sum vars f s = 0%Qc -> entry vars f s = 0%Qc) ->
  add_net_factor (name_map (entries n)) (total_name n) (vs_at n c, deps, fs) g
  = add_net_factor (name_map (entries n)) (total_name n) (vs_at n c, deps, fs) f.
Proof.
  intros Et Hf Hg Hk Hs Hz. pose proof Hs as (En & Egv & _).
  destruct (chance_step f c deps fs Et Hf Hk) as (h & -> & Hid & Hw & Hv & Hd).
  destruct (chance_step g c deps fs) as (h' & -> & Hid' & Hw' & Hv' & Hd'); try rewrite En; auto.
  do 4 f_equal. assert (Etv : tvars g = tvars f) by (unfold NetFactors.tvars; rewrite En, Egv; auto). rewrite Etv in Hv'.
  apply factor_eq; try congruence.
  assert (Hd2 : denotes h' (fun a => cond_prob vars f (by_name a))).
  { intros a Ha. rewrite Hd' by auto. rewrite Hv' in Ha. pose proof (in_table_by_name f a Et Hf Ha). do 2 f_equal. apply scaled_cond; auto. }
  rewrite (denotes_data h _ (fun _ => 0%nat) Hw Hd), (denotes_data h' _ (fun _ => 0%nat) Hw' Hd2). congruence.
Qed.

Lemma scaled_steps L L' :
  Forall2 (fun f g => g = f \/ (kind vars (nf_for f) = Some Chance /\ is_total n (nf_for f) = false /\ wf_table n f /\ wf_table n g /\ row_scaled vars f g /\
    forall s, in_table vars f s -> row_sum vars f s = 0%Qc -> entry vars f s = 0%Qc)) L L' ->
  (forall f, In f L -> is_total n (nf_for f) = false -> wf_table n f) -> forall c deps (fs : list (factor xnum)),
  foldM (add_net_factor (name_map (entries n)) (total_name n)) (vs_at n c, deps, fs) L'
  = foldM (add_net_factor (name_map (entries n)) (total_name n)) (vs_at n c, deps, fs) L.
Proof.
  induction 1 as [|f g L L' Hfg HL IH]; intros Hw c deps fs; auto.
  cbn [foldM]. assert (E : add_net_factor (name_map (entries n)) (total_name n) (vs_at n c, deps, fs) g
    = add_net_factor (name_map (entries n)) (total_name n) (vs_at n c, deps, fs) f).
  { destruct Hfg as [->|(Hk & Ht & Hf & Hg & Hs & Hz)]; auto. apply scaled_step; auto. }
  rewrite E.
  destruct (add_net_factors_ok n Hwf [f]) with (c := c) (deps0 := deps) (fs0 := fs) as (c' & fs' & E' & _).
  { intros h [<-|[]] Ht. apply Hw; simpl; auto. }
  cbn [foldM] in E'. destruct (add_net_factor _ _ _ f) as [x|e|p]; cbn [gbind] in *; try discriminate.
  injection E' as ->. apply IH. intros h Hh. apply Hw. simpl. auto.
Qed.
End NS.

Lemma Forall2_in_both {X Y} (P : X -> Y -> Prop) L L' : Forall2 P L L' -> Forall2 (fun x y => In x L /\ In y L' /\ P x y) L L'.
Proof.
  induction 1 as [|x y L L' H HL IH]; constructor; simpl; auto.
  revert IH. generalize L at 2 4. generalize L' at 2 4. clear HL.
  intros M' M. induction 1; constructor; simpl; tauto.
Qed.
Lemma Forall2_weaken {X Y} (P Q : X -> Y -> Prop) L L' : (forall x y, P x y -> Q x y) -> Forall2 P L L' -> Forall2 Q L L'.
Proof. induction 2; constructor; auto. Qed.

Lemma chance_not_total (n : network xnum) x : wf_network n -> kind (n_vars n) x = Some Chance -> is_total n x = false.
Proof.
  intros Hwf Hk. destruct (is_total n x) eqn:E; auto. unfold is_total in E.
  destruct (nth_error (n_vars n) (Z.to_nat (n_tui n))) as [t|] eqn:Et; [|discriminate].
  apply andb_true_iff in E. destruct E as [E0 E]. apply String.eqb_eq in E. subst x.
  destruct (wn_total n Hwf) as [H|(i & v & k & f & l & Hi & Hv & Hu & _)]; [lia|].
  rewrite Hi, Nat2Z.id in Et. rewrite Hv in Et. injection Et as <-.
  unfold kind in Hk. rewrite (proj2 (var_named_in n Hwf (nv_name v) v)) in Hk by (split; auto; eapply nth_error_In; eauto).
  simpl in Hk. rewrite Hu in Hk. discriminate.
Qed.

Theorem rescaled_to_ve (n n' : network xnum) : wf_network n -> wf_network n' -> rescaled n n' -> forall sc t ev,
  to_ve sc t n' ev = to_ve sc t n ev.
Proof.
  intros Hwf Hwf' Hr sc t ev. destruct Hr as [Hv Hp Ht Htf Hfs Hz].
  pose proof (add_net_variables_ok n (wn_names n Hwf) (wn_count n Hwf)) as Ha.
  assert (Ha' : add_net_variables n' = add_net_variables n).
  { unfold add_net_variables. rewrite Hv. destruct n, n'; simpl in *; subst. reflexivity. }
  assert (Hit : forall x, is_total n' x = is_total n x) by (intros x; unfold is_total; rewrite Hv, Ht; auto).
  unfold to_ve. rewrite Ha', Ha. cbn [gbind].
  assert (E : foldM (add_net_factor (name_map (entries n)) (total_name n)) (vs_at n 0, [], []) (n_factors n')
    = foldM (add_net_factor (name_map (entries n)) (total_name n)) (vs_at n 0, [], @nil (factor xnum)) (n_factors n)).
  { apply scaled_steps; auto; [|apply (wn_tables n Hwf)].
    pose proof (Forall2_in_both _ _ _ Hfs) as Hfs'. eapply Forall2_weaken; [|exact Hfs'].
    intros f g (Hf & Hg & [->|[Hc Hs]]); auto. right. pose proof Hc as Hc'. apply filter_In in Hc'. destruct Hc' as [_ Hk].
    assert (Hkc : kind (n_vars n) (nf_for f) = Some Chance) by (destruct (kind (n_vars n) (nf_for f)) as [[]|]; auto; discriminate).
    assert (Hnt : is_total n (nf_for f) = false) by (apply chance_not_total; auto).
    split; auto. split; auto. split; [apply (wn_tables n Hwf); auto|]. split; [|split; auto].
    destruct Hs as (En & Eg & _). assert (Hw : wf_table n' g) by (apply (wn_tables n' Hwf'); auto; rewrite Hit; congruence).
    destruct Hw as [W1 W2 W3 W4 W5]. rewrite Hv in *. split; auto. intros x Hx. rewrite <- Hit. auto. }
  change (mkVS 0 (net_vars n) []) with (vs_at n 0). rewrite E. clear E.
  destruct (foldM _ _ (n_factors n)) as [[[vs deps] fs]|e|p]; cbn [gbind]; auto.
  assert (Ep : policy_factors sc t n' vs (all_entries n) ev = policy_factors sc t n vs (all_entries n) ev).
  { unfold policy_factors. rewrite Hp. auto. }
  rewrite Ep.
  rewrite (weights_ok n Hwf), (weights_ok n' Hwf').
  assert (Ew : weights n' = weights n).
  { unfold weights, utility_nodes. rewrite Ht. destruct (n_tui n <? 0); auto. unfold numbered. rewrite ?Hv, ?Ht. f_equal. apply map_ext. intros u.
    unfold net_weight. rewrite Htf. auto. }
  rewrite Ew. reflexivity.
Qed.

Theorem rescaled_query (n n' : network xnum) : wf_network n -> wf_network n' -> rescaled n n' -> forall sc ev query ig,
  snd (net_solve_query sc n' ev query ig) = snd (net_solve_query sc n ev query ig).
Proof. intros. apply query_congr. apply rescaled_to_ve; auto. Qed.
Theorem rescaled_utility (n n' : network xnum) : wf_network n -> wf_network n' -> rescaled n n' -> forall sc ev query u ig,
  snd (net_solve_utility sc n' ev query u ig) = snd (net_solve_utility sc n ev query u ig).
Proof. intros. apply utility_congr. apply rescaled_to_ve; auto. Qed.
