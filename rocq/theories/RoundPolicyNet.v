(** SolvePolicies of networks with float64 numbers: one step. *)
From Coq Require Import ZArith List Bool String Lia Permutation QArith Qcanon Qcabs Reals Lra Qreals.
From Coq Require Import Floats.SpecFloat.
From Flocq Require Import Core.Core IEEE754.BinarySingleNaN.
From Verif Require Import Num GoBase VarModel GoFacts SpecFactor Tuples FactorFacts FactorSum FactorProd FactorPolicy FactorAt XnumFacts ExactFactor
  FactorThms VEModel SpecVE SpecPolicy VEWorlds VEFacts VETopo VEHidden VESolve VEThms VEUtil VEShadow VEOrder VEOptimal VEPolicy NetModel SpecNet NetVars NetFactors NetVE NetSums NetQuery NetEvents NetUtil
  NetMass NetMarkov SpecNetPolicy NetPolicy NetPolicyStep NetPolicyNear
  VEAny VEAnyUtil RoundFacts RoundSum RoundVE RoundSigned RoundSVE SpecTrain RoundTrain RoundUtility SpecRound RoundNet RoundQuery SpecFloatUtility RoundExpect RoundCalls
  SpecFloatPolicy RoundPolicy RoundIdeal.
Import ListNotations.
Open Scope string_scope.
Open Scope list_scope.
Open Scope R_scope.
Local Opaque bpow.

(** Factors with the same variables are compared entry by entry. *)
Lemma data_forall2 (R : f64 -> xnum -> Prop) (f : factor f64) (g : factor xnum) : wf_factor f -> wf_factor g -> f_vars g = f_vars f ->
  (forall a, in_range (f_vars f) a -> R (fv f a) (fv g a)) -> Forall2 R (f_data f) (f_data g).
Proof.
  intros Hf Hg Hv H. rewrite (data_worlds f zero_asg Hf), (data_worlds g zero_asg Hg), Hv.
  assert (G : forall l, (forall a, In a l -> in_range (f_vars f) a) -> Forall2 R (map (fv f) l) (map (fv g) l)).
  { induction l as [|a l IH]; intros Hl; constructor; [apply H, Hl; simpl; auto|apply IH; intros; apply Hl; simpl; auto]. }
  apply G. intros a Ha. eapply worlds_in_range; eauto. apply Hf.
Qed.

(** The exact policy for the one with float64 weights. *)
Lemma ideal_policy V (d : variable) name vars (pol : factor f64) (x : asg -> Qc) : wf_vars V -> (forall v, In v V -> (0 < v_outcomes v)%nat) ->
  wf_factor pol -> incl (f_vars pol) V -> In d (f_vars pol) -> local (f_vars pol) x -> num_outcomes vars name = v_outcomes d ->
  (forall a, in_range V a -> let u k := x (upd a (v_id d) k) in
        fv pol a = if is_max u (v_outcomes d) (a (v_id d)) then ndiv n1 (nofint (Z.of_nat (num_max u (v_outcomes d)))) else n0) ->
  exists q, uniform_policy vars (name, pol) (name, q) /\ f_vars q = f_vars pol /\ wf_factor q /\
    denotes q (fun a => let u k := x (upd a (v_id d) k) in
      if is_max u (v_outcomes d) (a (v_id d)) then (1 / qz (Z.of_nat (num_max u (v_outcomes d))))%Qc else 0%Qc).
Proof.
  intros HV Hpos Hw Hi Hd Hx Hno Hval. set (val := fun a => let u k := x (upd a (v_id d) k) in
      if is_max u (v_outcomes d) (a (v_id d)) then (1 / qz (Z.of_nat (num_max u (v_outcomes d))))%Qc else 0%Qc).
  assert (Hu : forall a a', (forall v, In v (f_vars pol) -> a (v_id v) = a' (v_id v)) -> forall k, x (upd a (v_id d) k) = x (upd a' (v_id d) k)).
  { intros a a' H k. apply Hx. intros v Hv. unfold upd. destruct (v_id v =? v_id d)%Z; auto. }
  assert (Hm : forall (f g : nat -> Qc) m, (forall k, f k = g k) -> (forall k, is_max f m k = is_max g m k) /\ num_max f m = num_max g m).
  { intros f g m H. assert (H1 : forall k, is_max f m k = is_max g m k). { intros k. unfold is_max. induction (seq 0 m) as [|j l IH]; simpl; auto. rewrite IH, !H. auto. }
    split; auto. unfold num_max. f_equal. apply filter_ext. auto. }
  assert (Hl : local (f_vars pol) val).
  { intros a a' H. unfold val. destruct (Hm _ _ (v_outcomes d) (Hu a a' H)) as [-> ->]. rewrite (H d Hd). auto. }
  destruct (tabulate (f_vars pol) val) as (h & Hh1 & Hh2 & Hh3); auto. { apply Hw. }
  exists (mkFactor (f_id pol) (f_vars h) (f_data h)). split; [|split; [|split]]; auto.
  - split; [reflexivity|]. split; [reflexivity|]. split; [exact Hh1|]. cbn [fst snd f_data]. apply data_forall2; auto.
    intros a Ha. set (c := fun i => if existsb (fun v => (v_id v =? i)%Z) (f_vars pol) then a i else 0%nat).
    assert (Hc : forall v, In v (f_vars pol) -> a (v_id v) = c (v_id v)).
    { intros v Hv. unfold c. replace (existsb _ _) with true; auto. symmetry. apply existsb_exists. exists v. split; auto. apply Z.eqb_refl. }
    assert (HcV : in_range V c).
    { intros v Hv. unfold c. destruct (existsb _ _) eqn:E; [|apply Hpos; auto]. apply existsb_exists in E. destruct E as (u & Hu' & Ei). apply Z.eqb_eq in Ei.
      assert (u = v) by (apply (wf_vars_inj V); auto). subst u. apply Ha. auto. }
    assert (Ef : fv pol a = fv pol c). { unfold fv. f_equal. apply map_ext_in. auto. }
    assert (Eh : fv h a = Fin (val c)).
    { rewrite <- (Hl a c Hc). pose proof (Hh3 a Ha) as G. rewrite get_at_fv in G by (auto using wf_fits; rewrite Hh1; auto). injection G as G. exact G. }
    rewrite Ef, Eh, (Hval c HcV). cbv zeta. unfold val. destruct (is_max _ _ _) eqn:Em; [|left; auto]. right.
    exists (num_max (fun k => x (upd c (v_id d) k)) (v_outcomes d)). split; auto. rewrite Hno. split.
    + apply num_max_pos. apply Hpos, Hi, Hd.
    + unfold num_max. etransitivity; [apply filter_length_le|]. rewrite seq_length. auto.
  - intros a Ha. apply Hh3. rewrite <- Hh1. exact Ha.
Qed.

(** The errors of the two options add up. *)
Lemma rho_error k K : (k <= K)%nat -> (Z.of_nat K <= 2 ^ 52)%Z -> rho ^ k - 1 <= qr (error_of K).
Proof.
  intros H HK. pose proof (few_le K HK) as Hf. pose proof (rho_upper K Hf) as Hu. pose proof (rho_mono k K H) as Hm.
  assert (He : qr (error_of K) = 2 * (INR K * ulp1)).
  { unfold error_of. rewrite qr_mult, qr_Q2Qc, Q2R_inject, qr_pow_half, INR_IZR_INZ, ulp1_val.
    replace (bpow radix2 (- Z.of_nat 52)) with (/ IZR (2 ^ 52)).
    - replace (IZR (2 ^ 53)) with (2 * IZR (2 ^ 52)) by (rewrite <- mult_IZR; f_equal).
      assert (0 < IZR (2 ^ 52)) by (apply IZR_lt; reflexivity). field. lra.
    - rewrite bpow_opp. f_equal. }
  lra.
Qed.

Lemma total_nonneg V F vs a : wf_vars V -> incl vs V -> in_range V a -> (forall w, in_range V w -> (0 <= F w)%Qc) -> (0 <= total F vs a)%Qc.
Proof.
  intros HV Hi Ha HF. rewrite <- (Qcmult_0_l (total (fun _ => 1%Qc) vs a)), <- total_scale. apply (total_le _ _ V); auto.
Qed.

Lemma sum_perm {X} (g : X -> nat) l l' : Permutation l l' -> list_sum (map g l) = list_sum (map g l').
Proof. induction 1; simpl; lia. Qed.
Lemma list_sum_incl {X} (g : X -> nat) l : forall m, NoDup l -> incl l m -> (list_sum (map g l) <= list_sum (map g m))%nat /\ (List.length l <= List.length m)%nat.
Proof.
  induction l as [|x l IH]; intros m Hd Hi; [simpl; lia|]. inversion Hd; subst. assert (Hx : In x m) by (apply Hi; simpl; auto).
  apply in_split in Hx. destruct Hx as (m1 & m2 & ->). assert (Hp : Permutation (m1 ++ x :: m2) (x :: m1 ++ m2)) by (apply Permutation_sym, Permutation_middle).
  rewrite (sum_perm g _ _ Hp), (Permutation_length Hp). destruct (IH (m1 ++ m2)) as [I1 I2]; auto.
  - intros y Hy. assert (In y (m1 ++ x :: m2)) by (apply Hi; simpl; auto). apply (Permutation_in _ Hp) in H. destruct H as [<-|]; auto. contradiction.
  - simpl. lia.
Qed.

Section Step.
Variables (n : network f64) (Pq : list (string * factor xnum)) (b : string -> nat) (s e : nat).
Notation N := (exact_net n).
Notation M := (with_policies (exact_net n) Pq).
Notation vars := (n_vars n).
Notation V := (net_vars M).
Notation vv := (vv M).
Notation by_name := (by_name M).
Notation known := (known M).
Hypothesis Hps : partly_solved M.
Hypothesis HU : Forall2 (uniform_policy vars) (n_policies n) Pq.
Hypothesis Hfl : forall f x, In f (n_factors n) -> In x (slice_of (nf_table f)) -> is_float64 x = true.
Hypothesis Hpr : policies_in_range N b s e.
Hypothesis Hfew : (Z.of_nat (policy_rounding_steps N) <= 2 ^ 50)%Z.
Let K := policy_rounding_steps N.
Let Hdn := ps_net M Hps.
Let HwM : wf_network M := dn_wf _ Hdn.

Lemma Hnn : forall f s, In f (chance_factors N) -> (0 <= entry vars f s)%Qc.
Proof. intros f w Hf. apply (dn_nonneg _ Hdn). auto. Qed.
Lemma policy_keys : NoDup (map fst (n_policies n)) /\ incl (map fst (n_policies n)) (decisions N).
Proof.
  rewrite <- (ideal_fst n Pq HU). split; [apply (wn_keys _ HwM)|]. intros d Hd. apply in_map_iff in Hd. destruct Hd as ([d' p] & <- & Hd).
  apply (policy_decision M Hps d' p Hd).
Qed.
Lemma policy_exps : (list_sum (map (fun dp => b (fst dp)) (n_policies n)) <= list_sum (map b (decisions N)))%nat /\ (List.length (n_policies n) <= List.length (decisions N))%nat.
Proof.
  destruct policy_keys as [H1 H2]. destruct (list_sum_incl b _ _ H1 H2) as [H3 H4]. rewrite map_map in H3. rewrite map_length in H4. auto.
Qed.
Lemma decision_exp d : In d (decisions N) -> (b d <= list_sum (map b (decisions N)))%nat.
Proof. intros Hd. destruct (list_sum_incl b [d] (decisions N)) as [H _]; [repeat constructor; auto|intros x [<-|[]]; auto|]. simpl in H. lia. Qed.
Lemma Hout : forall d, kind vars d = Some Decision -> (Z.of_nat (num_outcomes vars d) <= 2 ^ Z.of_nat (b d))%Z /\ (b d <= 1000)%nat.
Proof.
  intros d Hd. assert (Hdd : In d (decisions N)).
  { unfold kind in Hd. destruct (var_named vars d) as [v|] eqn:Ev; [|discriminate]. injection Hd as Hd. apply (var_named_in M HwM) in Ev. destruct Ev as [Hi <-].
    unfold decisions. apply in_map. apply filter_In. split; auto. apply nodeType_eqb_spec. auto. }
  split; [apply (pr_options _ _ _ _ Hpr d Hdd)|]. pose proof (decision_exp d Hdd). pose proof (pr_sum _ _ _ _ Hpr). lia.
Qed.
Lemma Hsum : (list_sum (map (fun f => b (nf_for f)) (chance_factors N)) + list_sum (map (fun dp => b (fst dp)) (n_policies n)) + s + 3 * e <= 1000)%nat.
Proof. pose proof (pr_sum _ _ _ _ Hpr). destruct policy_exps. lia. Qed.
Lemma steps_split : (utility_steps N + List.length (decisions N) <= K)%nat /\ (utility_steps (with_policies N []) + 2 * List.length (n_policies n) <= K)%nat.
Proof.
  destruct policy_exps as [_ H]. unfold K, policy_rounding_steps, utility_steps, rounding_steps. simpl n_policies. simpl n_vars. rewrite map_length.
  change (chance_factors (with_policies N [])) with (chance_factors N). change (utility_tables (with_policies N [])) with (utility_tables N). simpl List.length. lia.
Qed.
Lemma Hfew1 : (Z.of_nat (utility_steps N) <= 2 ^ 50)%Z.
Proof. destruct steps_split as [H _]. unfold K in *. lia. Qed.
Lemma Hfew2 : (Z.of_nat (rounding_steps N) <= 2 ^ 50)%Z.
Proof. pose proof Hfew1. unfold utility_steps in *. lia. Qed.
Lemma Hsum' : (list_sum (map (fun f => b (nf_for f)) (chance_factors N)) + list_sum (map (fun dp => b (fst dp)) (n_policies n)) + s <= 1000)%nat.
Proof. pose proof Hsum. lia. Qed.

Lemma HNr : in_float_range N b s.
Proof. eapply ideal_range; eauto using Hout, Hsum', Hnn, Hfew2. apply (pr_tables _ _ _ _ Hpr). Qed.
Lemma HNw : wf_network N.
Proof. eapply ideal_exact_wf; eauto using Hout, Hsum', Hnn, Hfew2. Qed.

Lemma Hutil : utilities_in_range N b s e.
Proof. 
  destruct (pr_utilities _ _ _ _ Hpr) as [u1 u2 u3 u4]. constructor; auto. simpl n_policies. rewrite map_map. simpl. apply Hsum.
Qed.

Lemma utility_single u : In u (utilities_of V) -> v_outcomes u = 1%nat.
Proof.
  intros Hu. apply utilities_V in Hu. destruct Hu as [Hu Ht]. destruct (vv_surj M HwM u Hu) as (x & Hk & ->).
  apply (plain_vv M HwM x (proj1 (dn_utilities _ Hdn)) Hk Ht).
Qed.

Lemma covered vs fs hs l : icreated n Pq b vs fs hs l -> forall v, In v V -> exists g, In g fs /\ In v (f_vars g).
Proof.
  intros Hic v Hv. apply (same_occurs fs hs v (ic_same _ _ _ _ _ _ _ Hic)). pose proof (ic_created _ _ _ _ _ _ _ Hic) as Hcr.
  destruct (vv_surj M HwM v Hv) as (x & Hk & ->). destruct (v_type (vv x)) eqn:Et.
  - destruct (diagram M Hps vs hs Hcr) as (cpt & rank & Hid). assert (HV : vs_vars vs = V) by apply Hcr.
    assert (Hc : In (vv x) (chance_vars (vs_vars vs))) by (rewrite HV; apply filter_In; rewrite Et; auto).
    exists (cpt (vv x)). split; [|apply (di_own _ _ _ _ _ Hid); auto].
    assert (Hg : In (cpt (vv x)) (prob_factors hs)) by (eapply Permutation_in; [apply (di_cpts _ _ _ _ _ Hid)|apply in_map; auto]).
    apply filter_In in Hg. tauto.
  - assert (Ho : In x (open_ones M)) by (apply (open_type M Hps); auto).
    assert (Hd : In x (decisions M)) by (unfold open_ones in Ho; apply filter_In in Ho; tauto).
    destruct (dn_used _ Hdn x Hd) as (f & Hf & Htot & Hkf & Hg). destruct (cr_split _ _ _ _ Hcr) as (tfs & pfs & pols & Efs & Ht & _ & _).
    assert (Hin : In f (filter (is_table M) (n_factors M))).
    { apply filter_In. split; auto. unfold is_table. rewrite Htot. simpl. destruct (wt_for _ _ (wn_tables _ HwM f Hf Htot)) as (v & Ev).
      change (n_vars M) with vars in *. unfold kind in *. rewrite Ev in *. cbn [option_map] in *. destruct (nv_type v) eqn:Env; auto; congruence. }
    destruct (NetVE.Forall2_in_l _ _ _ _ Ht Hin) as (g & Hg' & (_ & Hvs & _)). exists g. split; [rewrite Efs; apply in_app_iff; auto|].
    rewrite Hvs. apply in_map. apply in_app_iff. auto.
  - destruct (plain_vv M HwM x (proj1 (dn_utilities _ Hdn)) Hk Et) as [_ (f & Hf & <-)].
    destruct (NetVE.Forall2_in_l _ _ _ _ (created_util M HwM false [] vs hs Hcr) Hf) as (g & Hg & _ & Hvs & _).
    exists g. split; [apply filter_In in Hg; tauto|]. rewrite Hvs. unfold tvars. apply in_map. apply in_app_iff. simpl; auto.
Qed.

Lemma bprod_pb1 (P : list (string * factor f64)) : bprod (map (fun dp => pb1 b (fst dp)) P) =
  mkB (2 * List.length P) (bpow radix2 (- Z.of_nat (list_sum (map (fun dp => b (fst dp)) P)))) 1.
Proof.
  induction P as [|f F IH]; [reflexivity|]. unfold bprod, list_sum in *. cbn [map fold_right List.length]. injection IH as I1 I2 I3.
  f_equal.
  - rewrite I1. unfold pb1. cbn [b_k]. lia.
  - rewrite I2. unfold pb1. cbn [b_lo]. rewrite <- bpow_plus. f_equal. lia.
  - rewrite I3. unfold pb1. cbn [b_hi]. ring.
Qed.

Lemma ideal_budget vs fs hs l : icreated n Pq b vs fs hs l ->
  (b_k (budget l) = list_sum (map (fun f => (num_outcomes vars (nf_for f) + 2)%nat) (chance_factors N)) + 2 * List.length (n_policies n))%nat /\
  bpow radix2 (- Z.of_nat (list_sum (map (fun f => b (nf_for f)) (chance_factors N)) + list_sum (map (fun dp => b (fst dp)) (n_policies n)))) <= b_lo (budget l) /\
  b_hi (budget l) = 1.
Proof.
  intros H. destruct (ic_budget _ _ _ _ _ _ _ H) as (P & HP & E). unfold budget. rewrite E, bprod_app, bprod_tables, bprod_pb1. cbn [b_k b_lo b_hi].
  rewrite (Permutation_length HP), (sum_perm (fun dp => b (fst dp)) _ _ HP).
  split; [lia|]. split; [|ring]. rewrite <- bpow_plus. apply bpow_le. lia.
Qed.

Lemma unobserved_bounds d : let H := unobserved V (net_deps M) d in
  outcomes_product H <= bpow radix2 (Z.of_nat s) /\
  (sum_steps H <= list_sum (map (fun v => S (List.length (nv_outcomes v))) (filter (fun v => negb (is_kind Utility v)) vars)))%nat /\ 0 <= outcomes_product H.
Proof.
  intros H.
  assert (HH : NoDup H /\ incl H (worldly N)).
  { split.
    - apply NoDup_filter. eapply NoDup_map_inv. apply net_vars_wf.
    - intros v Hh. unfold H, unobserved in Hh. apply filter_In in Hh. destruct Hh as [Hh Hc]. apply andb_true_iff in Hc. destruct Hc as [Hc _]. apply nodeType_eqb_spec in Hc.
      unfold worldly. apply filter_In. rewrite (ideal_vars n Pq HU) in Hh. split; auto. rewrite Hc. auto. }
  assert (Hwpos : forall v, In v (worldly N) -> (0 < v_outcomes v)%nat).
  { intros v Hh. apply (V_pos N HNw). apply filter_In in Hh. tauto. }
  destruct (outcomes_sub H (worldly N) (proj1 HH) (proj2 HH) Hwpos) as [Hsub1 Hsub2].
  destruct (worldly_states n HNw b s HNr) as [Hst1 Hst2]. split; [lra|]. split; [lia|].
  apply Rle_trans with 1; [lra|]. apply outcomes_product_ge1. intros v Hh. apply Hwpos, HH. auto.
Qed.

Lemma step_budget vs fs hs l (lu : list sitem) d : icreated n Pq b vs fs hs l -> List.length lu = List.length (utility_tables N) ->
  let B := policy_budget V (net_deps M) (map unsigned l) lu (ub e) (ub e) d in (b_k B <= K)%nat /\ safe B.
Proof.
  intros Hic Hlen B. destruct (ideal_budget _ _ _ _ Hic) as (Bk & Blo & Bhi). destruct (unobserved_bounds d) as (Hh1 & Hh2 & Hh3).
  pose proof Hsum as Hexp. pose proof (count_bound n b s e Hutil) as Hcnt.
  assert (HUc : (List.length (utilities_of V) <= List.length (filter (is_kind Utility) vars))%nat).
  { rewrite (ideal_vars n Pq HU). apply (utilities_count n HNw). }
  assert (HBk : (b_k B <= K)%nat).
  { unfold B, policy_budget, grow. cbn [b_k]. rewrite bprod_app. cbn [b_k]. rewrite bprod_one. cbn [b_k]. rewrite (bound_utility_of _ _ _ utility_single). cbn [b_k].
    rewrite unsigned_bound. fold (budget l). rewrite Hlen, Bk. destruct steps_split as [_ HK]. eapply Nat.le_trans; [|apply HK].
    unfold utility_steps, rounding_steps. simpl n_vars. simpl n_policies. simpl (List.length []).
    change (chance_factors (with_policies N [])) with (chance_factors N). change (utility_tables (with_policies N [])) with (utility_tables N). lia. }
  split; auto. split; [|split; [|apply few_le; unfold K in HBk; lia]].
  - unfold B, policy_budget, grow. cbn [b_lo]. rewrite bprod_app. cbn [b_lo]. rewrite bprod_one. cbn [b_lo]. rewrite (bound_utility_of _ _ _ utility_single). cbn [b_lo].
    rewrite unsigned_bound. fold (budget l).
    eapply Rle_trans; [|apply Rmult_le_compat_r; [apply bpow_ge_0|apply Blo]]. rewrite (pow_mult_neg n). apply bpow_le. lia.
  - unfold B, policy_budget, grow. cbn [b_hi]. rewrite bprod_app. cbn [b_hi]. rewrite bprod_one. cbn [b_hi]. rewrite (bound_utility_of _ _ _ utility_single). cbn [b_hi].
    rewrite unsigned_bound. fold (budget l). rewrite Bhi, Hlen, Rmult_1_l.
    apply Rle_trans with (bpow radix2 (Z.of_nat e) * bpow radix2 (Z.of_nat (e + e)) * bpow radix2 (Z.of_nat s)).
    + apply Rmult_le_compat; auto.
      * apply Rmult_le_pos; [apply pos_INR|apply bpow_ge_0].
      * apply Rmult_le_compat_r; auto. apply bpow_ge_0.
    + rewrite !(pow_mult n). apply bpow_le. lia.
Qed.

Lemma util_weights hs a vs : created M [] vs hs -> in_range V a ->
  qsum (map (fun h => utility_weight V (weights M) h * value h a)%Qc (utility_factors hs)) = utility_of M (by_name a) /\
  qsum (map (fun h => utility_weight V (abs_weights (weights M)) h * Qcabs (value h a))%Qc (utility_factors hs)) = utility_magnitude M (by_name a).
Proof.
  intros Hcr Ha. split.
  - apply (total_utility_of M HwM false [] vs hs a Hcr Ha).
  - unfold utility_magnitude. symmetry. pose proof (created_util M HwM false [] vs hs Hcr) as HF2.
    assert (G : forall L Q, incl L (utility_tables M) -> Forall2 (became M) L Q ->
      qsum (map (fun f => Qcabs (net_weight M (nf_for f)) * Qcabs (entry vars f (by_name a)))%Qc L) =
      qsum (map (fun h => utility_weight V (abs_weights (weights M)) h * Qcabs (value h a))%Qc Q)).
    { intros L Q HL HLM. induction HLM as [|f g L Q Hfg HLM IH]; auto. cbn [map qsum fold_right]. change (fold_right Qcplus 0%Qc) with qsum.
      rewrite IH by (intros z Hz; apply HL; simpl; auto). assert (Hf : In f (utility_tables M)) by (apply HL; simpl; auto).
      rewrite abs_utility_weight, (became_weight M HwM f g Hf Hfg).
      replace (value g a) with (entry vars f (by_name a)); auto. destruct Hfg as (Hw & Hvs & Hd).
      destruct (utility_table_in M HwM f Hf) as (Hin & Ht & Hk & Hwt). rewrite (denotes_value g _ a Hd).
      - unfold table_value. simpl n_vars in *. rewrite Hk. auto.
      - eapply in_range_incl; [|apply Ha]. rewrite Hvs. intros v Hv. unfold tvars in Hv. apply in_map_iff in Hv. destruct Hv as (x & <- & Hx).
        apply (vv_in M HwM). apply (table_names M f); auto. }
    apply G; auto. apply incl_refl.
Qed.

(** The options with positive weight have equal weights. *)
Definition evenly (vars : list nvar) (d : string) (p : nstate -> Qc) (x : nstate) : Prop :=
  p x = if qeq (p x) 0%Qc then 0%Qc else (1 / qz (Z.of_nat (List.length (filter (fun k => negb (qeq (p (nupd x d k)) 0%Qc)) (seq 0 (num_outcomes vars d))))))%Qc.

(** The error allowed: [error_of K] times the magnitude of the utilities. *)
Definition lowered (x : nstate) : Qc := (utility_of N x - error_of K * utility_magnitude N x)%Qc.
Definition raised (x : nstate) : Qc := (utility_of N x + error_of K * utility_magnitude N x)%Qc.

Theorem float_solver_step sc t single : open_ones M <> [] -> single = true \/ List.length (open_ones M) = 1%nat ->
  exists ve s' d fac pol q, to_ve sc t n [] = Ok (ve, name_map (entries M)) /\
    ve_solve_policies sc ve single = Ok (s', Some [(vv d, (fac, pol))]) /\
    uniform_policy vars (d, pol) (d, q) /\ step_policy M d q /\ (forall x, proper_state M x -> evenly vars d (policy_prob vars q) x) /\
    forall sigma, valid_strategy M sigma -> (mixed_sum M sigma lowered <= mixed_sum (plus M d q) sigma raised)%Qc.
Proof.
  intros Hne Hs. destruct (ideal_to_ve n Pq b s HwM HU Hfl (pr_tables _ _ _ _ Hpr) Hnn Hout Hsum' Hfew2 sc t) as (vs & fs & w & hs & l & Eto & Hic & Hww).
  pose proof (ic_created _ _ _ _ _ _ _ Hic) as Hcr. pose proof (ic_same _ _ _ _ _ _ _ Hic) as Hsame.
  destruct (diagram M Hps vs hs Hcr) as (cpt & rank & Hid).
  destruct (problem_V M false [] vs hs Hcr) as [Hpb HV].
  assert (Hone : single = true \/ List.length (decision_vars V) = 1%nat).
  { destruct Hs as [Hs|Hs]; auto. right. rewrite <- Hs. rewrite <- (map_length vv (open_ones M)). apply Permutation_length. apply NoDup_Permutation.
    - apply NoDup_filter, wf_NoDup, net_vars_wf.
    - apply wf_NoDup. apply (wf_vars_vv M HwM). intros x Hx. apply (open_type M Hps) in Hx. tauto. apply NoDup_filter. apply (decisions_nodup M Hps).
    - intros v. rewrite (open_dvars M Hps), in_map_iff. split; intros (d & A & B); eauto. }
  destruct (utility_items n HNw b s e Hutil (utility_tables N) (utility_factors fs) (utility_factors hs) (ic_utils _ _ _ _ _ _ _ Hic)) as (lu & Eu & Huok & Hub & Hlen & Huq & Hum & _ & _).
  { pose proof (created_util M HwM false [] vs hs Hcr) as G. change (utility_tables M) with (utility_tables N) in G. clear -G HU.
    induction G; constructor; auto. apply (ideal_became n Pq HU). auto. }
  { apply same_util. auto. }
  { apply incl_refl. }
  rewrite <- (ideal_vars n Pq HU) in Huok, Huq, Hum.
  assert (Hok : Forall (sitem_ok V) (map unsigned l)).
  { apply Forall_map. eapply Forall_impl; [|apply (ic_ok _ _ _ _ _ _ _ Hic)]. intros i. apply unsigned_ok. }
  assert (Hmass : forall a, prod_at s_q (map unsigned l) a = weight_of (prob_factors hs) a /\ prod_at s_m (map unsigned l) a = weight_of (prob_factors hs) a).
  { intros a. destruct (unsigned_prod l a) as [-> ->]. rewrite (ic_mass _ _ _ _ _ _ _ Hic). auto. }
  assert (Hpos : forall i, In i (map unsigned l) -> forall a, in_range V a -> (0 <= s_q i a)%Qc).
  { intros i Hi a Ha. apply in_map_iff in Hi. destruct Hi as (j & <- & Hj). pose proof (ic_ok _ _ _ _ _ _ _ Hic) as G. rewrite Forall_forall in G.
    destruct (G j Hj) as (G1 & _ & G3). destruct (G3 a Ha) as [_ G4]. apply qr_le. rewrite qr_0. apply (within_nonneg _ _ G1 G4). }
  destruct (float_policy_step sc (S t) vs fs (net_deps M) w (weights M) single (map unsigned l) lu (ub e) (ub e) cpt rank)
    as (s' & dv & fac & pol & E & Hd & Hlast & Hpw & Hpi & Hown & Hpv & x & Hx & Hval & HR); rewrite ?HV in *; auto.
  - destruct Hpb. split; rewrite ?HV in *; auto. { intros f []. } constructor.
  - apply (V_pos M HwM).
  - intros g Hg. destruct (NetVE.Forall2_in_l _ _ _ _ Hsame Hg) as (h & Hh & Hvs & Hid' & Hw).
    destruct (vp_factors _ _ _ Hpb h Hh) as (_ & _ & Hi & Hidc). rewrite HV in Hi. split; auto. rewrite <- Hvs, <- Hid'. auto.
  - rewrite <- (same_ids _ _ Hsame). apply (vp_ids _ _ _ Hpb).
  - rewrite unsigned_factors. apply (ic_items _ _ _ _ _ _ _ Hic).
  - apply ub_sane.
  - apply ub_sane.
  - rewrite (ideal_vars n Pq HU). apply (near_weights_of n HNw b s e Hutil). exact Hww.
  - destruct (dn_utilities _ Hdn) as [_ (u & Hu & Hut & Htot)]. intros Ec. assert (Hin : In (vv (nv_name u)) (utilities_of V)).
    { assert (Hk : known (nv_name u)). { split; auto. exists u. apply (var_named_in M HwM). auto. }
      apply (utilities_V M). split; [apply (vv_in M HwM); auto|]. apply (vv_utility M HwM); auto. unfold kind. rewrite (proj2 (var_named_in M HwM _ _) (conj Hu eq_refl)). simpl. congruence. }
    rewrite Ec in Hin. destruct Hin.
  - apply (covered vs fs hs l Hic).
  - destruct (open_ones M) as [|d L] eqn:Eo; [congruence|]. intros Ec. assert (In (vv d) (decision_vars V)) by (apply (open_dvars M Hps); exists d; rewrite Eo; simpl; auto).
    rewrite Ec in H. destruct H.
  - intros c Hc. split; [apply filter_In in Hc; tauto|]. rewrite <- HV in Hc. split.
    + intros a Ha. apply (di_rows _ _ _ _ _ Hid); auto. rewrite HV. auto.
    + intros u Hu Hne'. apply (di_order _ _ _ _ _ Hid); auto.
  - intros d ps p H1 H2 H3. apply (di_info _ _ _ _ _ Hid d ps); auto.
  - intros a _. rewrite (proj1 (Hmass a)). pose proof (di_cpts _ _ _ _ _ Hid) as G. rewrite HV in G. apply qprod_perm. apply Permutation_map. apply Permutation_sym. auto.
  - intros d _. apply (step_budget vs fs hs l lu d Hic Hlen).
  - apply (open_dvars M Hps) in Hd. destruct Hd as (d & Hd & ->).
    assert (Hdk : known d /\ v_type (vv d) = Decision) by (apply (open_type M Hps); auto). destruct Hdk as [Hdk Hdt].
    assert (Hdd : In d (decisions M)) by (unfold open_ones in Hd; apply filter_In in Hd; tauto).
    assert (Hvo : num_outcomes vars d = v_outcomes (vv d)) by (symmetry; apply (vv_outcomes M HwM d Hdk)).
    assert (HVd : In (vv d) V) by (apply (vv_in M HwM); auto).
    destruct (ideal_policy V (vv d) d vars pol x (net_vars_wf M) (V_pos M HwM) Hpw Hpi Hown Hx Hvo Hval) as (q & Hqu & Hqv & Hqw & Hqd).
    exists (ve_new (S t) vs fs (net_deps M) w), s', d, fac, pol, q. split; [auto|]. split; [exact E|]. split; [auto|].
    assert (Hvq : forall a, in_range V a -> value q a = let u k := x (upd a (v_id (vv d)) k) in
      if is_max u (v_outcomes (vv d)) (a (v_id (vv d))) then (1 / qz (Z.of_nat (num_max u (v_outcomes (vv d)))))%Qc else 0%Qc).
    { intros a Ha. apply (denotes_value q _ a Hqd). eapply in_range_incl; [|apply Ha]. rewrite Hqv. auto. }
    assert (Hno : (0 < v_outcomes (vv d))%nat) by (apply (V_pos M HwM); auto).
    assert (Hvk : forall a k, in_range V a -> (k < v_outcomes (vv d))%nat -> let u k := x (upd a (v_id (vv d)) k) in
      value q (upd a (v_id (vv d)) k) = if is_max u (v_outcomes (vv d)) k then (1 / qz (Z.of_nat (num_max u (v_outcomes (vv d)))))%Qc else 0%Qc).
    { intros a k Ha Hk u. rewrite Hvq by (apply in_range_upd'; auto; apply net_vars_wf). cbv zeta. rewrite upd_same.
      assert (Ex : forall j, x (upd (upd a (v_id (vv d)) k) (v_id (vv d)) j) = u j).
      { intros j. apply Hx. intros v _. unfold upd. destruct (v_id v =? v_id (vv d))%Z; auto. }
      assert (Em : forall i, is_max (fun k0 => x (upd (upd a (v_id (vv d)) k) (v_id (vv d)) k0)) (v_outcomes (vv d)) i = is_max u (v_outcomes (vv d)) i).
      { intros i. unfold is_max. generalize (seq 0 (v_outcomes (vv d))) as L. induction L as [|j L IH]; simpl; auto. rewrite IH, !Ex. auto. }
      rewrite Em. unfold num_max. rewrite (filter_ext _ _ Em). auto. }
    assert (Hvp : forall a, in_range V a -> (0 <= value q a)%Qc).
    { intros a Ha. rewrite Hvq by auto. cbv zeta. destruct (is_max _ _ _); [|apply Qcle_refl]. apply qr_le. rewrite qr_0, qr_div, qr_1, qr_qz.
      - apply Rlt_le. apply Rdiv_lt_0_compat; [lra|]. apply IZR_lt. match goal with |- (0 < Z.of_nat (num_max ?u ?m))%Z => pose proof (num_max_pos u m Hno) end. lia.
      - intros H. apply (f_equal qr) in H. rewrite qr_qz, qr_0 in H. apply eq_IZR in H. match goal with H : Z.of_nat (num_max ?u ?m) = 0%Z |- _ => pose proof (num_max_pos u m Hno) end. lia. }
    assert (Hvr : forall a, in_range V a -> qsum (map (fun k => value q (upd a (v_id (vv d)) k)) (seq 0 (v_outcomes (vv d)))) = 1%Qc).
    { intros a Ha. set (u := fun k => x (upd a (v_id (vv d)) k)).
      rewrite (qsum_ext _ (fun k => if is_max u (v_outcomes (vv d)) k then (1 / qz (Z.of_nat (num_max u (v_outcomes (vv d)))))%Qc else 0%Qc)).
      - rewrite qsum_indicator. fold (num_max u (v_outcomes (vv d))). pose proof (num_max_pos u _ Hno). unfold qz. field. apply qc_nat_nonzero. auto.
      - intros k Hk. apply in_seq in Hk. apply Hvk; auto. lia. }
    assert (Hl : forall c, In c (open_ones M) -> ~ In d (observed_by M c)).
    { intros c He Hc. destruct (observed_in M d c Hc) as (f & Hf & <- & Hg). assert (Hed : In (nf_for f) (decisions M)) by (unfold open_ones in He; apply filter_In in He; tauto).
      apply (Hlast (vv (nf_for f)) (map vv (nf_given f))).
      - apply (deps_in M Hps); auto. unfold open_ones in He. apply filter_In in He. destruct He as [_ He]. apply (decision_known M Hps) in Hed. destruct Hed as [[Ht _] Hkd].
        unfold is_open. rewrite Ht, Hkd, He. auto.
      - apply (open_dvars M Hps). eauto.
      - apply in_map. auto. }
    assert (Hsp : step_policy M d q).
    { constructor; auto.
      - intros a Ha. exists (value q a). unfold value. rewrite (Hqd a Ha). auto.
      - rewrite Hqv. auto.
      - intros v Hv. rewrite Hqv in Hv. destruct (vv_surj M HwM v (Hpi v Hv)) as (y & Hk & ->). exists y. split; auto. split; auto.
        assert (Hor : y = d \/ In y (observed_by M d)).
        { destruct (Hpv _ Hv) as [Ei|[Ho|Ht]].
          - left. apply (vv_inj M HwM); auto.
          - right. apply (observes_spec M Hps d y Hd Hk). auto.
          - destruct (String.eqb_spec y d) as [->|Hxd]; auto. right. assert (Hxo : In y (open_ones M)) by (apply (open_type M Hps); auto).
            assert (Hxd' : In y (decisions M)) by (unfold open_ones in Hxo; apply filter_In in Hxo; tauto).
            destruct (ps_forget M Hps d y Hdd Hxd') as [[Hc _]|[Hc _]]; auto. exfalso. apply (Hl y Hxo). auto. }
        split; auto. destruct Hor as [->|Hor]; [rewrite Hdt; discriminate|]. destruct (observed_known M Hps d y Hdd Hor) as [_ Hu].
        intros Et. apply Hu. apply (vv_utility M HwM); auto.
      - intros a Ha. change (n_vars M) with vars. rewrite Hvo. apply Hvr. auto. }
    split; [auto|]. split.
    { intros y Hy. unfold evenly. set (a := positions vars y). assert (Ha : in_range V a) by (apply (positions_range M Hps); auto).
      assert (Ek : forall k, policy_prob vars q (nupd y d k) = value q (upd a (v_id (vv d)) k)).
      { intros k. apply value_agree. intros v Hv. rewrite Hqv in Hv. destruct (vv_surj M HwM v (Hpi v Hv)) as (z & Hk & ->).
        rewrite (positions_vv M HwM) by auto. destruct (String.eqb_spec z d) as [->|Hzd]. { rewrite nupd_same, upd_same. auto. }
        rewrite nupd_other, upd_other by (auto using (vv_id_ne M Hps)). symmetry. apply (positions_vv M HwM). auto. }
      assert (Hq0 : forall u, (1 / qz (Z.of_nat (num_max u (v_outcomes (vv d)))) <> 0)%Qc).
      { intros u Hc. pose proof (num_max_pos u _ Hno) as Hpos'. assert (Hnz : qz (Z.of_nat (num_max u (v_outcomes (vv d)))) <> 0%Qc) by (apply qc_nat_nonzero; auto).
        apply (f_equal qr) in Hc. rewrite qr_div, qr_1, qr_qz, qr_0 in Hc by auto. assert (0 < IZR (Z.of_nat (num_max u (v_outcomes (vv d))))) by (apply IZR_lt; lia).
        assert (0 < 1 / IZR (Z.of_nat (num_max u (v_outcomes (vv d))))) by (apply Rdiv_lt_0_compat; lra). lra. }
      set (u := fun k => x (upd a (v_id (vv d)) k)).
      rewrite (filter_ext_in _ (is_max u (v_outcomes (vv d)))).
      2:{ intros k Hk. apply in_seq in Hk. rewrite Hvo in Hk. rewrite Ek, (Hvk a k Ha) by lia. cbv zeta. fold u. destruct (is_max u _ k); [rewrite qeq_neq by auto|rewrite qeq_refl]; auto. }
      rewrite Hvo. fold (num_max u (v_outcomes (vv d))). change (policy_prob vars q y) with (value q a). rewrite (Hvq a Ha). cbv zeta. fold u.
      destruct (is_max u _ _); [rewrite qeq_neq by auto|rewrite qeq_refl]; auto. }
    intros sigma Hsig.
    set (H := unobserved V (net_deps M) (vv d)) in *. set (U := utilities_of V) in *. set (W := weight_of (prob_factors hs)) in *.
    set (Ut := total (utility_at V (weights M) s_q lu) U) in *. set (Mg := total (utility_at V (abs_weights (weights M)) s_m lu) U) in *.
    assert (HUz : forall a, in_range V a -> forall u, In u U -> v_outcomes u = 1%nat /\ a (v_id u) = 0%nat).
    { intros a Ha u Hu. pose proof (utility_single u Hu) as H1. split; auto. apply utilities_V in Hu. specialize (Ha u (proj1 Hu)). lia. }
    destruct (ok_localized V _ Huok) as [L3 L4].
    assert (EUt : forall a, in_range V a -> Ut a = utility_of N (by_name a)).
    { intros a Ha. unfold Ut. rewrite (NetUtil.total_single (utility_at V (weights M) s_q lu)); [|apply utility_proper; auto|apply HUz; auto].
      rewrite Huq. apply (util_weights hs a vs Hcr Ha). }
    assert (EMg : forall a, in_range V a -> Mg a = utility_magnitude N (by_name a)).
    { intros a Ha. unfold Mg. rewrite (NetUtil.total_single (utility_at V (abs_weights (weights M)) s_m lu)); [|apply utility_proper; auto|apply HUz; auto].
      rewrite Hum. apply (util_weights hs a vs Hcr Ha). }
    assert (HpU : proper Ut) by (apply total_proper, utility_proper; auto).
    assert (HpM : proper Mg) by (apply total_proper, utility_proper; auto).
    assert (HnU : nproper (utility_of N)) by apply utility_of_proper.
    assert (HnM : nproper (utility_magnitude N)) by apply magnitude_proper.
    apply (step_nearly M Hps vs hs Hcr d q sigma lowered raised (fun a => Ut a - error_of K * Mg a)%Qc (fun a => Ut a + error_of K * Mg a)%Qc); auto.
    + intros y z Hyz. unfold lowered. rewrite (HnU y z Hyz), (HnM y z Hyz). auto.
    + intros y z Hyz. unfold raised. rewrite (HnU y z Hyz), (HnM y z Hyz). auto.
    + intros y z Hyz. rewrite (HpU y z Hyz), (HpM y z Hyz). auto.
    + intros y z Hyz. rewrite (HpU y z Hyz), (HpM y z Hyz). auto.
    + intros a Ha. rewrite EUt, EMg by auto. auto.
    + intros a Ha. rewrite EUt, EMg by auto. auto.
    + intros R a k Ha Hk. change (unobserved V (net_deps M) (vv d)) with H in R. fold W in R.
      set (R0 := total (fun z => W z * Ut z)%Qc H). set (M0 := total (fun z => W z * Mg z)%Qc H).
      assert (ER1 : forall z, R (fun a => Ut a - error_of K * Mg a)%Qc z = (R0 z - error_of K * M0 z)%Qc).
      { intros z. unfold R, R0, M0. replace (total (fun z => W z * Ut z)%Qc H z - error_of K * total (fun z => W z * Mg z)%Qc H z)%Qc
          with (total (fun z => W z * Ut z)%Qc H z + (- error_of K) * total (fun z => W z * Mg z)%Qc H z)%Qc by ring.
        rewrite <- total_scale, <- total_add. apply total_ext. intros y _. ring. }
      assert (ER2 : forall z, R (fun a => Ut a + error_of K * Mg a)%Qc z = (R0 z + error_of K * M0 z)%Qc).
      { intros z. unfold R, R0, M0. rewrite <- total_scale, <- total_add. apply total_ext. intros y _. ring. }
      assert (HM0 : forall z, in_range V z -> (0 <= M0 z)%Qc).
      { intros z Hz. apply (total_nonneg V); auto.
        - apply net_vars_wf.
        - intros v Hv. unfold H, unobserved in Hv. apply filter_In in Hv. tauto.
        - intros y Hy. apply qmult_nonneg.
          + rewrite <- (proj1 (Hmass y)). apply (prod_at_nonneg V); auto.
          + rewrite EMg by auto. unfold utility_magnitude. apply XnumFacts.qsum_nonneg. intros c Hc. apply in_map_iff in Hc. destruct Hc as (f & <- & _).
            apply qmult_nonneg; apply Qcabs_nonneg. }
      assert (Hup : forall j, (j < v_outcomes (vv d))%nat -> in_range V (upd a (v_id (vv d)) j)) by (intros j Hj; apply in_range_upd'; auto; apply net_vars_wf).
      assert (Hmax : forall j, (j < v_outcomes (vv d))%nat -> is_max (fun k => x (upd a (v_id (vv d)) k)) (v_outcomes (vv d)) j = true ->
        (R (fun a => Ut a - error_of K * Mg a)%Qc (upd a (v_id (vv d)) k) <= R (fun a => Ut a + error_of K * Mg a)%Qc (upd a (v_id (vv d)) j))%Qc).
      { intros j Hj Hmj. rewrite ER1, ER2. apply qr_le. rewrite qr_minus, qr_plus, !qr_mult.
        pose proof (HR a j k Ha Hj Hk Hmj) as G. cbv zeta in G.
        assert (G1 : forall z, total (fun x0 => prod_at s_q (map unsigned l) x0 * Ut x0)%Qc H z = R0 z).
        { intros z. apply total_ext. intros y _. rewrite (proj1 (Hmass y)). auto. }
        assert (G2 : forall z, total (fun x0 => prod_at s_m (map unsigned l) x0 * Mg x0)%Qc H z = M0 z).
        { intros z. apply total_ext. intros y _. rewrite (proj2 (Hmass y)). auto. }
        rewrite !G1, !G2 in G. destruct (step_budget vs fs hs l lu (vv d) Hic Hlen) as [HBk _].
        assert (HK : rho ^ b_k (policy_budget V (net_deps M) (map unsigned l) lu (ub e) (ub e) (vv d)) - 1 <= qr (error_of K)).
        { apply rho_error; auto. unfold K. lia. }
        pose proof (HM0 _ (Hup j Hj)) as P1. pose proof (HM0 _ (Hup k Hk)) as P2. apply qr_le in P1, P2. rewrite qr_0 in P1, P2.
        assert (G3 := Rmult_le_compat_r (qr (M0 (upd a (v_id (vv d)) k)) + qr (M0 (upd a (v_id (vv d)) j))) _ _ ltac:(lra) HK). lra. }
      apply Qcle_trans with (qsum (map (fun j => value q (upd a (v_id (vv d)) j) * R (fun a => Ut a - error_of K * Mg a)%Qc (upd a (v_id (vv d)) k))%Qc (seq 0 (v_outcomes (vv d))))).
      * rewrite qsum_scale_r, Hvr by auto. rewrite Qcmult_1_l. apply Qcle_refl.
      * apply VEShadow.qsum_le. intros j Hj. apply in_seq in Hj. rewrite 2 (Qcmult_comm (value q _)). 
        pose proof (Hvk a j Ha ltac:(lia)) as Ej. cbv zeta in Ej. destruct (is_max (fun k => x (upd a (v_id (vv d)) k)) (v_outcomes (vv d)) j) eqn:Em.
        -- apply Qcmult_le_compat_r; [apply Hmax; auto; lia|]. apply Hvp. apply Hup. lia.
        -- rewrite Ej, !Qcmult_0_r. apply Qcle_refl.
Qed.
End Step.
