(** The calls of SolveUtility on networks with float64 numbers. *)
From Coq Require Import ZArith List Bool String Lia Permutation QArith Qcanon Qcabs Reals Lra Qreals.
From Coq Require Import Floats.SpecFloat.
From Flocq Require Import Core.Core IEEE754.BinarySingleNaN.
From Verif Require Import Num GoBase VarModel GoFacts SpecFactor Tuples FactorFacts FactorSum FactorProd FactorPolicy FactorAt XnumFacts ExactFactor
  FactorThms VEModel SpecVE VEWorlds VEFacts VETopo VEHidden VESolve VEThms VEUtil NetModel SpecNet NetVars NetFactors NetVE NetSums NetQuery NetEvents NetUtil
  VEAny VEAnyUtil RoundFacts RoundSum RoundVE RoundSigned RoundSVE RoundTrain RoundUtility SpecRound RoundNet RoundQuery SpecFloatUtility RoundExpect.
Import ListNotations.
Open Scope string_scope.
Open Scope list_scope.
Open Scope R_scope.
Local Opaque bpow.

(** Numbers that are stored exactly, with absolute values between 2^-e and 2^e. *)
Definition ub (e : nat) : bound := mkB 0 (bpow radix2 (- Z.of_nat e)) (bpow radix2 (Z.of_nat e)).
Lemma ub_sane e : sane (ub e).
Proof.
  split; cbn [ub b_lo b_hi]; [split; [apply bpow_gt_0|apply bpow_neg_le_one]|].
  change 1 with (bpow radix2 0). apply bpow_le. lia.
Qed.
Lemma exact_sapprox e x q : RoundFacts.stored x -> f64_exact x = Fin q -> (q = 0 \/ two_to_minus e <= Qcabs q <= two_to e)%Qc ->
  sapprox (ub e) x q (Qcabs q).
Proof.
  intros Hs He Hq. destruct (SF2R_exact x q He) as [Hr Hf]. split.
  - split; [auto|split; [auto|split]].
    + rewrite qr_abs. apply Rle_refl.
    + rewrite Hr. unfold Rminus. rewrite Rplus_opp_r, Rabs_R0. cbn [ub b_k pow]. lra.
  - destruct Hq as [->|[H1 H2]]; [left; apply Qcabs_pos; discriminate|right].
    apply qr_le in H1, H2. rewrite qr_pow_half in H1. rewrite qr_pow_two in H2. cbn [ub b_lo b_hi]. auto.
Qed.

Lemma prod_local g l vs : localized g l -> (forall i v, In i l -> In v (f_vars (s_f i)) -> In v vs) -> local vs (prod_at g l).
Proof.
  intros Hl Hv a b Hab. unfold prod_at. f_equal. apply map_ext_in. intros i Hi. unfold localized in Hl. rewrite Forall_forall in Hl.
  apply (Hl i Hi). intros v Hvi. apply Hab. eapply Hv; eauto.
Qed.
Lemma mult_local vs F G : local vs F -> local vs G -> local vs (fun a => F a * G a)%Qc.
Proof. intros HF HG a b Hab. rewrite (HF a b Hab), (HG a b Hab). auto. Qed.

Lemma unsigned_prod l a : prod_at s_q (map unsigned l) a = mass_of l a /\ prod_at s_m (map unsigned l) a = mass_of l a.
Proof. unfold prod_at, mass_of. rewrite !map_map. auto. Qed.
Lemma unsigned_bound l : map s_b (map unsigned l) = map i_b l.
Proof. rewrite map_map. auto. Qed.
Lemma unsigned_factors l : map s_f (map unsigned l) = map i_f l.
Proof. rewrite map_map. auto. Qed.

Lemma abs_utility_weight V w h : utility_weight V (abs_weights w) h = Qcabs (utility_weight V w h).
Proof.
  destruct w as [l|]; simpl; [|symmetry; apply Qcabs_pos; discriminate].
  assert (E : Qcabs 0 = 0%Qc) by (apply Qcabs_pos; discriminate). rewrite <- E at 1. apply map_nth.
Qed.

Lemma single_outcomes U : (forall u, In u U -> v_outcomes u = 1%nat) -> outcomes_product U = 1 /\ sum_steps U = (2 * List.length U)%nat.
Proof.
  induction U as [|u U IH]; intros H; [split; auto|]. cbn [outcomes_product sum_steps List.length].
  rewrite (H u) by (simpl; auto). destruct IH as [-> ->]; [intros; apply H; simpl; auto|]. simpl INR. split; [ring|lia].
Qed.

Lemma bound_utility_of e k U : (forall u, In u U -> v_outcomes u = 1%nat) ->
  bound_utility (ub e) (ub e) k U = mkB (2 + k + 2 * List.length U) (bpow radix2 (- Z.of_nat (e + e))) (INR k * bpow radix2 (Z.of_nat (e + e))).
Proof.
  intros H. destruct (single_outcomes U H) as [H1 H2]. unfold bound_utility, grow, bsum, bprod, ub. cbn [b_k b_lo b_hi map fold_right list_sum].
  rewrite H1, H2. f_equal.
  - rewrite Rmult_1_r, <- bpow_plus. f_equal. lia.
  - rewrite !Rmult_1_r, <- bpow_plus. do 2 f_equal. lia.
Qed.

Section C.
Variable n : network f64.
Notation N := (exact_net n).
Notation vars := (n_vars n).
Notation vv := (vv N).
Notation by_name := (by_name N).
Notation known := (known N).
Notation V := (net_vars N).
Hypothesis Hfl : float_network n.
Hypothesis Hwf : wf_network N.
Variables (b : string -> nat) (s e : nat).
Hypothesis Hrange : in_float_range N b s.
Hypothesis Hutil : utilities_in_range N b s e.
Hypothesis Hnn : nonnegative N.
Hypothesis Hfew : (Z.of_nat (utility_steps N) <= 2 ^ 50)%Z.

Lemma Hfew' : (Z.of_nat (rounding_steps N) <= 2 ^ 50)%Z.
Proof. unfold utility_steps in Hfew. lia. Qed.

Lemma became_entry F (h : factor xnum) a : In F (utility_tables N) -> became N F h -> in_range V a -> value h a = entry vars F (by_name a).
Proof.
  intros HF (Hw & Hvs & Hd) Ha. destruct (utility_table_in N Hwf F HF) as (Hin & Ht & Hk & Hwt).
  rewrite (denotes_value h _ a Hd).
  - unfold table_value. simpl n_vars in *. rewrite Hk. auto.
  - eapply in_range_incl; [|apply Ha]. rewrite Hvs. intros v Hv. unfold tvars in Hv. apply in_map_iff in Hv. destruct Hv as (x & <- & Hx).
    apply vv_in; auto. apply (table_names N F); auto.
Qed.

Definition util_item (gh : factor f64 * factor xnum) : sitem := mkSI (ub e) (fst gh) (value (snd gh)) (fun a => Qcabs (value (snd gh) a)).

Lemma util_item_ok F g h : In F (utility_tables N) -> util_became n F g -> became N F h -> same_shape g h -> sitem_ok V (util_item (g, h)).
Proof.
  intros HF (Hw & Hvs & Hx) Hb (Hvh & Hid & _). pose proof (local_value h) as Hl. rewrite Hvh in Hl.
  split; [apply ub_sane|]. split; [exact Hl|]. split; [intros a c Hac; cbn; rewrite (Hl a c Hac); auto|].
  intros a Ha. destruct (Hx a Ha) as [H1 H2]. cbn [util_item s_b s_f s_q s_m fst snd].
  rewrite (became_entry F h a HF Hb Ha). apply exact_sapprox; auto.
  apply (ur_entries N b s e Hutil F _ HF). destruct (utility_table_in N Hwf F HF) as (_ & Ht & _ & Hwt).
  apply (range_in_table n Hwf); auto.
Qed.

Lemma utility_items L gs hs : Forall2 (util_became n) L gs -> Forall2 (became N) L hs -> Forall2 same_shape gs hs -> incl L (utility_tables N) ->
  exists lu, gs = map s_f lu /\ Forall (sitem_ok V) lu /\ Forall (fun i => s_b i = ub e) lu /\ List.length lu = List.length L /\
    (forall w a, utility_at V w s_q lu a = qsum (map (fun h => utility_weight V w h * value h a)%Qc hs)) /\
    (forall w a, utility_at V w s_m lu a = qsum (map (fun h => utility_weight V w h * Qcabs (value h a))%Qc hs)) /\
    (forall a, prod_at s_q lu a = weight_of hs a) /\ (forall a, prod_at s_m lu a = qprod (map (fun h => Qcabs (value h a)) hs)).
Proof.
  intros Hg. revert hs. induction Hg as [|F g L gs HFg Hg IH]; intros hs Hh Hs Hi.
  - inversion Hh; subst. exists []. repeat split; auto.
  - inversion Hh as [|F' h L' hs' HFh Hh' E1 E2]; subst. inversion Hs as [|g' h' gs' hs'' Hgh Hs' E1 E2]; subst.
    destruct (IH hs' Hh' Hs') as (lu & Egs & Hok & Hb & Hlen & Hq & Hm & Hpq & Hpm). { intros x Hx; apply Hi; simpl; auto. }
    assert (Ew : forall w, weight_at V w (util_item (g, h)) = utility_weight V w h).
    { intros w. unfold weight_at, utility_weight. destruct w; auto. cbn [util_item s_f fst]. rewrite (proj1 Hgh). auto. }
    exists (util_item (g, h) :: lu). split; [simpl; f_equal; auto|]. split; [constructor; auto; eapply util_item_ok; eauto; apply Hi; simpl; auto|].
    split; [constructor; auto|]. split; [simpl; auto|].
    split; [|split; [|split]].
    + intros w a. unfold utility_at in *. cbn [map qsum fold_right]. change (fold_right Qcplus 0%Qc) with qsum. rewrite Hq, Ew. auto.
    + intros w a. unfold utility_at in *. cbn [map qsum fold_right]. change (fold_right Qcplus 0%Qc) with qsum. rewrite Hm, Ew. auto.
    + intros a. unfold prod_at, weight_of in *. cbn [map qprod fold_right]. change (fold_right Qcmult 1%Qc) with qprod. rewrite Hpq. auto.
    + intros a. unfold prod_at in *. cbn [map qprod fold_right]. change (fold_right Qcmult 1%Qc) with qprod. rewrite Hpm. auto.
Qed.

Lemma near_weights_of w : exact_weights w (weights N) -> near_weights V (ub e) w (weights N).
Proof.
  intros Hx. unfold near_weights, exact_weights in *. unfold weights in *. destruct (n_tui N <? 0)%Z; destruct w as [l|]; auto.
  split.
  - rewrite (utilities_net N Hwf), map_length. rewrite <- (map_length (fun u => net_weight N (nv_name u)) (utility_nodes N)). clear -Hx. induction Hx; simpl; auto.
  - assert (G : forall ws l, incl ws (utility_nodes N) -> Forall2 (fun x q => RoundFacts.stored x /\ f64_exact x = Fin q) l (map (fun u => net_weight N (nv_name u)) ws) ->
      Forall2 (fun x q => sapprox (ub e) x q (Qcabs q)) l (map (fun u => net_weight N (nv_name u)) ws)).
    { induction ws as [|u ws IH]; intros l' Hi Hl; inversion Hl as [|x q xs qs [H1 H2] Hl' E1 E2]; subst; constructor.
      - apply exact_sapprox; auto. assert (Hu : In u (utility_nodes N)) by (apply Hi; simpl; auto).
        unfold utility_nodes in Hu. apply in_map_iff in Hu. destruct Hu as ([i v] & <- & Hu). apply filter_In in Hu. destruct Hu as [Hu Hc].
        apply andb_true_iff in Hc. destruct Hc as [Hc1 Hc2]. cbn [fst snd] in *. apply in_numbered in Hu. destruct Hu as (k & -> & Hi').
        apply (ur_weights N b s e Hutil v); [eapply nth_error_In; eauto|apply nodeType_eqb_spec; auto|].
        rewrite (is_total_spec N Hwf k v Hi'). apply negb_true_iff. auto.
      - apply IH; auto. intros x' Hx'; apply Hi; simpl; auto. }
    apply G; auto. apply incl_refl.
Qed.

Lemma utilities_count : (List.length (utilities_of V) <= List.length (filter (is_kind Utility) vars))%nat.
Proof.
  rewrite (utilities_net N Hwf), map_length. unfold utility_nodes, numbered. rewrite map_length.
  simpl n_vars. generalize (zrange 0 (zlen vars)). generalize (n_tui N). clear. intros t. induction vars as [|v l IH]; intros zs.
  - destruct zs; simpl; lia.
  - destruct zs as [|z zs]; [simpl; lia|]. cbn [combine filter fst snd]. specialize (IH zs).
    unfold is_kind at 1. destruct (nodeType_eqb (nv_type v) Utility); destruct (z =? t)%Z; simpl in *; lia.
Qed.

(** ** SolveUtility for the total utility *)
Lemma magnitude_of ig ev vs hs a : created N (ev_ign ig ev) vs hs -> in_range V a ->
  qsum (map (fun h => utility_weight V (abs_weights (weights N)) h * Qcabs (value h a))%Qc (utility_factors hs)) = utility_magnitude N (by_name a).
Proof.
  intros Hcr Ha. unfold utility_magnitude. symmetry. pose proof (created_util N Hwf ig ev vs hs Hcr) as HF2.
  assert (G : forall L M, incl L (utility_tables N) -> Forall2 (became N) L M ->
    qsum (map (fun f => Qcabs (net_weight N (nf_for f)) * Qcabs (entry vars f (by_name a)))%Qc L) =
    qsum (map (fun h => utility_weight V (abs_weights (weights N)) h * Qcabs (value h a))%Qc M)).
  { intros L M HL HLM. induction HLM as [|f g L M Hfg HLM IH]; auto. cbn [map qsum fold_right]. change (fold_right Qcplus 0%Qc) with qsum.
    rewrite IH by (intros z Hz; apply HL; simpl; auto). assert (Hf : In f (utility_tables N)) by (apply HL; simpl; auto).
    rewrite (became_entry f g a Hf Hfg Ha), abs_utility_weight, (became_weight N Hwf f g Hf Hfg). auto. }
  apply G; auto. apply incl_refl.
Qed.

Lemma magnitude_proper : nproper (utility_magnitude N).
Proof. intros x y E. unfold utility_magnitude. apply qsum_ext. intros f _. rewrite (entry_proper _ f x y E). auto. Qed.

Lemma magnitude_matches ig ev vs hs : created N (ev_ign ig ev) vs hs -> plain_utilities N ->
  matches N (fun a => weight_of (prob_factors hs) a *
      total (fun x => qsum (map (fun h => utility_weight V (abs_weights (weights N)) h * Qcabs (value h x))%Qc (utility_factors hs))) (utilities_of V) a)%Qc
    (fun x => joint N (ignored_by ig ev) x * utility_magnitude N x)%Qc.
Proof.
  intros Hcr Hpl a Ha Hz. rewrite (weight_joint N Hwf ig ev vs hs Hcr) by auto. f_equal.
  rewrite NetUtil.total_single.
  - eapply magnitude_of; eauto.
  - intros x y E. apply qsum_ext. intros f _. f_equal. f_equal. apply value_proper. auto.
  - intros u Hu. apply utilities_V in Hu. destruct Hu as [Hu Ht]. split; auto.
    destruct (vv_surj N Hwf u Hu) as (x & Hk & ->). apply (plain_vv N Hwf); auto.
Qed.

Lemma same_util fs hs : Forall2 same_shape fs hs -> Forall2 same_shape (utility_factors fs) (utility_factors hs).
Proof. intros H. apply Forall2_filter; auto. intros x y _ Hxy. apply (same_utility x y Hxy). Qed.

Lemma same_occurs (fs : list (factor f64)) (hs : list (factor xnum)) v : Forall2 same_shape fs hs ->
  (exists g, In g fs /\ In v (f_vars g)) <-> (exists h, In h hs /\ In v (f_vars h)).
Proof.
  intros H. split; intros (g & Hg & Hv).
  - destruct (NetVE.Forall2_in_l _ _ _ _ H Hg) as (h & Hh & Hvs & _). exists h. rewrite Hvs. auto.
  - destruct (NetVE.Forall2_in_r _ _ _ _ H Hg) as (h & Hh & Hvs & _). exists h. rewrite <- Hvs. auto.
Qed.

Lemma float_problem ig ev vs fs hs l : fcreated n b (ev_ign ig ev) vs fs hs l ->
  ve_problem vs [] (net_deps N) /\ vs_vars vs = V /\ (forall f, In f fs -> sound_factor V (vs_counter vs) f) /\ NoDup (map f_id fs) /\
  (forall f, In f fs -> incl (f_vars f) V).
Proof.
  intros Hfc. pose proof (fc_created _ _ _ _ _ _ _ Hfc) as Hcr. destruct (problem_V N ig ev vs hs Hcr) as [Hpb HV].
  split; [|split; [auto|]].
  - destruct Hpb. split; auto. { intros f []. } constructor.
  - assert (Hs : forall f, In f fs -> sound_factor V (vs_counter vs) f).
    { intros g Hg. destruct (NetVE.Forall2_in_l _ _ _ _ (fc_same _ _ _ _ _ _ _ Hfc) Hg) as (h & Hh & Hvs & Hid & Hw).
      destruct (vp_factors _ _ _ Hpb h Hh) as (_ & _ & Hi & Hidc). rewrite HV in Hi. split; auto. rewrite <- Hvs, <- Hid. auto. }
    split; [auto|]. split.
    + rewrite <- (same_ids _ _ (fc_same _ _ _ _ _ _ _ Hfc)). apply (vp_ids _ _ _ Hpb).
    + intros f Hf. apply (Hs f Hf).
Qed.

Lemma hidden_bounds evs query : let H := hidden_in V (net_deps N) evs query in
  outcomes_product H <= bpow radix2 (Z.of_nat s) /\
  (sum_steps H <= list_sum (map (fun v => S (List.length (nv_outcomes v))) (filter (fun v => negb (is_kind Utility v)) vars)))%nat /\ 1 <= outcomes_product H.
Proof.
  intros H.
  assert (HH : NoDup H /\ incl H (worldly N)).
  { split.
    - unfold H, hidden_in. apply NoDup_filter. eapply NoDup_map_inv. apply net_vars_wf.
    - intros v Hh. unfold H, hidden_in in Hh. apply filter_In in Hh. destruct Hh as [Hh Hc]. do 3 (apply andb_true_iff in Hc; destruct Hc as [Hc ?]).
      unfold worldly. apply filter_In. split; auto. destruct (v_type v); auto; discriminate Hc. }
  assert (Hwpos : forall v, In v (worldly N) -> (0 < v_outcomes v)%nat).
  { intros v Hh. apply (V_pos N Hwf). apply filter_In in Hh. tauto. }
  destruct (outcomes_sub H (worldly N) (proj1 HH) (proj2 HH) Hwpos) as [Hsub1 Hsub2].
  destruct (worldly_states n Hwf b s Hrange) as [Hst1 Hst2]. split; [lra|]. split; [lia|].
  apply outcomes_product_ge1. intros v Hh. apply Hwpos, HH. auto.
Qed.

Lemma exps_utility : (exps n b + s + 3 * e <= 1000)%nat.
Proof.
  pose proof (ur_sum N b s e Hutil) as H. simpl in H. rewrite map_map in H. simpl in H. unfold exps. simpl. lia.
Qed.

Lemma pow_mult i j : bpow radix2 (Z.of_nat i) * bpow radix2 (Z.of_nat j) = bpow radix2 (Z.of_nat (i + j)).
Proof. rewrite <- bpow_plus. f_equal. lia. Qed.
Lemma pow_mult_neg i j : bpow radix2 (- Z.of_nat i) * bpow radix2 (- Z.of_nat j) = bpow radix2 (- Z.of_nat (i + j)).
Proof. rewrite <- bpow_plus. f_equal. lia. Qed.

Lemma count_bound : INR (List.length (utility_tables N)) <= bpow radix2 (Z.of_nat e).
Proof.
  pose proof (ur_count N b s e Hutil) as H. apply qr_le in H. rewrite qr_Q2Qc, Q2R_inject, qr_pow_two in H. rewrite INR_IZR_INZ. exact H.
Qed.

Theorem float_total sc t ig ev ev' vs fs hs l w query : fcreated n b (ev_ign ig ev) vs fs hs l -> exact_weights w (weights N) ->
  complete N -> plain_utilities N -> some_utility N -> Permutation ev ev' -> valid_observations N ev ->
  exists s' f Fa Ga B, ve_solve_utility sc (ve_new t vs fs (net_deps N) w) (map (obs N) ev') (map vv query) None = Ok (s', f) /\
    float_solver_result n ev' query [] (fun v => exists g, In g hs /\ In v (f_vars g)) Fa Ga B f /\ (b_k B <= utility_steps N)%nat /\
    (forall a, Fa a = util_integrand N hs a) /\
    (forall a, Ga a = weight_of (prob_factors hs) a *
      total (fun x => qsum (map (fun h => utility_weight V (abs_weights (weights N)) h * Qcabs (value h x)) (utility_factors hs))) (utilities_of V) a)%Qc.
Proof.
  intros Hfc Hww Hco Hpl Hsome Hp Hv. pose proof (fc_created _ _ _ _ _ _ _ Hfc) as Hcr. pose proof (perm_observations N _ _ Hp Hv) as Hv'.
  destruct (float_problem _ _ _ _ _ _ Hfc) as (Hpb & HV & Hsound & Hids & Hfi).
  pose proof (fc_same _ _ _ _ _ _ _ Hfc) as Hsame.
  destruct (utility_items (utility_tables N) (utility_factors fs) (utility_factors hs) (fc_utils _ _ _ _ _ _ _ Hfc)
     (created_util N Hwf ig ev vs hs Hcr) (same_util _ _ Hsame) (incl_refl _)) as (lu & Eu & Huok & Hub & Hlen & Huq & Hum & _ & _).
  set (H := hidden_in V (net_deps N) (map (obs N) ev') (map vv query)) in *. set (U := utilities_of V) in *.
  assert (Hcov : forall h, In h (U ++ H) -> exists f, In f fs /\ In h (f_vars f)).
  { intros h Hh. apply (same_occurs fs hs h Hsame). apply in_app_iff in Hh. destruct Hh as [Hh|Hh].
    - apply utilities_V in Hh. destruct Hh as [Hh Ht]. destruct (vv_surj N Hwf h Hh) as (x & Hk & ->).
      destruct (plain_vv N Hwf x Hpl Hk Ht) as (_ & f & Hf & <-). destruct (NetVE.Forall2_in_l _ _ _ _ (created_util N Hwf ig ev vs hs Hcr) Hf) as (g & Hg & _ & Hvs & _).
      exists g. split; [apply filter_In in Hg; tauto|]. rewrite Hvs. unfold tvars. apply in_map. apply in_app_iff. simpl; auto.
    - destruct (evidence_hidden N Hwf ig ev ev' (map vv query) vs hs Hcr Hco Hv Hp h Hh) as (f & Hf & Hin). exists f. split; auto. apply filter_In in Hf. tauto. }
  assert (HUne : U <> []).
  { destruct Hsome as (v & Hin & Hu & Ht). intros E. assert (Hk : known (nv_name v)) by (split; auto; exists v; apply (var_named_in N Hwf); auto).
    assert (Hx : In (vv (nv_name v)) U); [|rewrite E in Hx; destruct Hx]. apply utilities_V. split; [apply vv_in; auto|].
    apply (vv_utility N Hwf); auto. unfold kind. rewrite (proj2 (var_named_in N Hwf (nv_name v) v)) by auto. simpl. congruence. }
  assert (HU1 : forall u, In u U -> v_outcomes u = 1%nat).
  { intros u Hu. apply utilities_V in Hu. destruct Hu as [Hu Ht]. destruct (vv_surj N Hwf u Hu) as (x & Hk & ->). apply (plain_vv N Hwf); auto. }
  pose proof utilities_count as HUc. fold U in HUc.
  destruct (budget_bound n b _ _ _ _ _ Hfc) as (Bk & Blo & Bhi).
  destruct (hidden_bounds (map (obs N) ev') (map vv query)) as (Hh1 & Hh2 & Hh3). fold H in Hh1, Hh2, Hh3.
  pose proof exps_utility as Hexp. pose proof count_bound as Hcnt.
  set (B := grow (bprod (map s_b (map unsigned l) ++ [bound_utility (ub e) (ub e) (List.length lu) U])) H).
  assert (HBk : (b_k B <= utility_steps N)%nat).
  { unfold B, grow. cbn [b_k]. rewrite bprod_app. cbn [b_k]. rewrite bprod_one. cbn [b_k]. rewrite (bound_utility_of _ _ _ HU1). cbn [b_k].
    rewrite unsigned_bound. fold (budget l). rewrite Hlen. unfold utility_steps, rounding_steps. simpl n_vars. simpl n_policies. rewrite map_length.
    lia. }
  assert (HBs : safe B).
  { split; [|split; [|apply few_le; lia]].
    - unfold B, grow. cbn [b_lo]. rewrite bprod_app. cbn [b_lo]. rewrite bprod_one. cbn [b_lo]. rewrite (bound_utility_of _ _ _ HU1). cbn [b_lo].
      rewrite unsigned_bound. fold (budget l).
      apply Rle_trans with (bpow radix2 (- Z.of_nat (exps n b)) * bpow radix2 (- Z.of_nat (e + e))).
      + rewrite pow_mult_neg. apply bpow_le. lia.
      + apply Rmult_le_compat_r; auto. apply bpow_ge_0.
    - unfold B, grow. cbn [b_hi]. rewrite bprod_app. cbn [b_hi]. rewrite bprod_one. cbn [b_hi]. rewrite (bound_utility_of _ _ _ HU1). cbn [b_hi].
      rewrite unsigned_bound. fold (budget l). rewrite Bhi, Hlen, Rmult_1_l.
      apply Rle_trans with (bpow radix2 (Z.of_nat e) * bpow radix2 (Z.of_nat (e + e)) * bpow radix2 (Z.of_nat s)).
      + apply Rmult_le_compat; auto; [|lra|].
        * apply Rmult_le_pos; [apply pos_INR|apply bpow_ge_0].
        * apply Rmult_le_compat_r; auto. apply bpow_ge_0.
      + rewrite !pow_mult. apply bpow_le. lia. }
  assert (Hok : Forall (sitem_ok V) (map unsigned l)).
  { apply Forall_map. eapply Forall_impl; [|apply (fc_ok _ _ _ _ _ _ _ Hfc)]. intros i. apply unsigned_ok. }
  destruct (tracked_utility sc t vs fs (net_deps N) w (weights N) (map (obs N) ev') (map vv query) (map unsigned l) lu (ub e) (ub e))
    as (s' & f & E & Hw & Hi & Hsc & _ & _ & Hval); try rewrite HV; auto.
  - apply (V_pos N Hwf).
  - apply (obs_valid N Hwf). auto.
  - rewrite unsigned_factors. apply (fc_items _ _ _ _ _ _ _ Hfc).
  - apply ub_sane.
  - apply ub_sane.
  - apply near_weights_of. auto.
  - rewrite HV in *. fold U H B in Hsc, Hval.
    exists s', f, (fun x => prod_at s_q (map unsigned l) x * total (utility_at V (weights N) s_q lu) U x)%Qc,
      (fun x => prod_at s_m (map unsigned l) x * total (utility_at V (abs_weights (weights N)) s_m lu) U x)%Qc, B.
    split; [auto|]. split; [|split; [auto|split]].
    + split; auto.
      * intros v Hin Ht. rewrite Hsc by auto. rewrite (same_occurs fs hs v Hsame). tauto.
      * intros v Hin Ht. exfalso. apply Hsc in Hin; [|apply Hi; auto]. tauto.
      * intros h Hh. apply (same_occurs fs hs h Hsame). apply Hcov. apply in_app_iff. auto.
      * set (W := filter (fun v => negb (nodeType_eqb (v_type v) Utility)) (flat_map f_vars fs)).
        assert (HW : forall g v, In g fs -> In v (f_vars g) -> v_type v <> Utility -> In v W).
        { intros g v Hg Hgv Ht. unfold W. apply filter_In. split; [apply in_flat_map; eauto|]. apply negb_true_iff. apply not_true_iff_false. rewrite nodeType_eqb_spec. auto. }
        assert (HP : forall i v, In i (map unsigned l) -> In v (f_vars (s_f i)) -> In v W).
        { intros i v Hin Hiv. apply (in_map s_f) in Hin. rewrite unsigned_factors, <- (fc_items _ _ _ _ _ _ _ Hfc) in Hin. apply filter_In in Hin. destruct Hin as [Hin Hn].
          apply (HW _ v Hin Hiv). intros Ht. apply negb_true_iff, not_true_iff_false in Hn. apply Hn. apply existsb_exists. exists v. split; auto. rewrite Ht. reflexivity. }
        assert (HT : forall w' g, localized g lu -> local W (total (utility_at V w' g lu) U)).
        { intros w' g Hg. apply (local_total _ (flat_map (fun i => f_vars (s_f i)) lu)).
          - apply utility_local; auto. intros i v Hil Hiv. apply in_flat_map. eauto.
          - intros v Hvl. apply in_flat_map in Hvl. destruct Hvl as (i & Hil & Hiv). apply (in_map s_f) in Hil. rewrite <- Eu in Hil. apply filter_In in Hil.
            destruct Hil as [Hil _]. destruct (nodeType_eqb (v_type v) Utility) eqn:Et.
            + left. apply in_map. apply utilities_V. split; [apply (Hfi _ Hil); auto|apply nodeType_eqb_spec; auto].
            + right. apply in_map. apply (HW _ v Hil Hiv). intros Ht. apply nodeType_eqb_spec in Ht. congruence. }
        exists W. destruct (ok_localized V _ Hok) as [L1 L2]. destruct (ok_localized V _ Huok) as [L3 L4].
        split; [apply mult_local; [apply prod_local|apply HT]; auto|]. split; [apply mult_local; [apply prod_local|apply HT]; auto|].
        intros v Hvw. unfold W in Hvw. apply filter_In in Hvw. destruct Hvw as [Hvw Ht]. apply in_flat_map in Hvw. destruct Hvw as (g & Hg & Hgv).
        split; [apply (Hfi g Hg); auto|]. split; [apply (same_occurs fs hs v Hsame); eauto|]. intros Ht'. rewrite Ht' in Ht. discriminate Ht.
    + intros a. unfold util_integrand. rewrite (proj1 (unsigned_prod l a)), (fc_mass _ _ _ _ _ _ _ Hfc). f_equal.
      apply total_ext. intros x _. apply Huq.
    + intros a. rewrite (proj2 (unsigned_prod l a)), (fc_mass _ _ _ _ _ _ _ Hfc). f_equal.
      apply total_ext. intros x _. apply Hum.
Qed.

(** ** SolveUtility for one utility variable *)
Lemma own_became u L gs hs : known u -> v_type (vv u) = Utility -> incl L (utility_tables N) ->
  Forall2 (util_became n) L gs -> Forall2 (became N) L hs -> Forall2 same_shape gs hs ->
  let keep := filter (fun f : nfactor xnum => String.eqb (nf_for f) u) L in
  Forall2 (util_became n) keep (factors_without_other_utilities (vv u) gs) /\
  Forall2 (became N) keep (factors_without_other_utilities (vv u) hs) /\
  Forall2 same_shape (factors_without_other_utilities (vv u) gs) (factors_without_other_utilities (vv u) hs).
Proof.
  intros Hk Hu Hi Hg. revert hs Hi. induction Hg as [|F g L gs HFg Hg IH]; intros hs Hi Hh Hs; cbv zeta in *.
  - inversion Hh; subst. repeat split; constructor.
  - inversion Hh as [|F' h L' hs' HFh Hh' E1 E2]; subst. inversion Hs as [|g' h' gs' hs'' Hgh Hs' E1 E2]; subst.
    destruct (IH hs') as (I1 & I2 & I3); auto. { intros x Hx; apply Hi; simpl; auto. }
    pose proof (became_own N Hwf F h u (Hi F (or_introl eq_refl)) HFh Hk Hu) as E. pose proof E as E'. rewrite (proj1 Hgh) in E'.
    unfold factors_without_other_utilities in *. cbn [filter]. rewrite <- E, <- E'. destruct (String.eqb (nf_for F) u); auto.
Qed.

Lemma abs_prod (l : list Qc) : Qcabs (qprod l) = qprod (map Qcabs l).
Proof. induction l as [|x l IH]; [apply Qcabs_pos; discriminate|]. cbn [qprod fold_right map]. rewrite Qcabs_Qcmult. f_equal. exact IH. Qed.

Lemma without_prob {A} (u : variable) (fs : list (factor A)) : prob_factors (factors_without_other_utilities u fs) = prob_factors fs.
Proof.
  unfold prob_factors, factors_without_other_utilities. induction fs as [|f fs IH]; auto. cbn [filter].
  destruct (is_utility_factor f) eqn:E.
  - destruct (forallb _ (f_vars f)); cbn [filter negb]; rewrite ?E; cbn [negb]; auto.
  - replace (forallb (fun v => negb (nodeType_eqb (v_type v) Utility) || (v_id v =? v_id u)%Z) (f_vars f)) with true.
    + cbn [filter]. rewrite E. cbn [negb]. f_equal. auto.
    + symmetry. apply forallb_forall. intros v Hv. destruct (nodeType_eqb (v_type v) Utility) eqn:Et; auto.
      exfalso. apply not_true_iff_false in E. apply E. apply existsb_exists. eauto.
Qed.
Lemma without_util {A} (u : variable) (fs : list (factor A)) : utility_factors (factors_without_other_utilities u fs) = factors_without_other_utilities u (utility_factors fs).
Proof.
  unfold utility_factors, factors_without_other_utilities. induction fs as [|f fs IH]; auto. cbn [filter].
  destruct (is_utility_factor f) eqn:E; destruct (forallb _ (f_vars f)) eqn:Ef; cbn [filter]; rewrite ?E, ?Ef; auto. f_equal. auto.
Qed.
Lemma prob_utility_perm {A} (fs : list (factor A)) : Permutation fs (prob_factors fs ++ utility_factors fs).
Proof.
  unfold prob_factors, utility_factors. induction fs as [|f fs IH]; auto. cbn [filter]. destruct (is_utility_factor f); cbn [negb].
  - apply Permutation_cons_app. auto.
  - cbn [app]. constructor. auto.
Qed.

Lemma few_items_bound lu : Forall (fun i => s_b i = ub e) lu -> (List.length lu <= 1)%nat ->
  (b_k (bprod (map s_b lu)) <= 1)%nat /\ bpow radix2 (- Z.of_nat e) <= b_lo (bprod (map s_b lu)) /\
  0 < b_hi (bprod (map s_b lu)) <= bpow radix2 (Z.of_nat e).
Proof.
  intros H Hl. destruct H as [|i lu Hi H].
  - cbn. destruct (ub_sane e) as [[_ S1] S2]. cbn in S1, S2. split; [lia|]. lra.
  - destruct lu; [|simpl in Hl; lia]. cbn [map]. rewrite bprod_one, Hi. cbn [b_k b_lo b_hi ub]. split; [lia|]. split; [lra|]. split; [apply bpow_gt_0|lra].
Qed.

Definition one_table (u : string) : Prop := (List.length (filter (fun f : nfactor xnum => String.eqb (nf_for f) u) (utility_tables N)) <= 1)%nat.

Theorem float_one sc t ig ev ev' vs fs hs l w query u : fcreated n b (ev_ign ig ev) vs fs hs l ->
  complete N -> known u -> v_type (vv u) = Utility -> v_outcomes (vv u) = 1%nat -> one_table u -> Permutation ev ev' -> valid_observations N ev ->
  exists s' f Fa Ga B, ve_solve_utility sc (ve_new t vs fs (net_deps N) w) (map (obs N) ev') (map vv query) (Some (vv u)) = Ok (s', f) /\
    float_solver_result n ev' query [u] (fun v => exists g, In g (factors_without_other_utilities (vv u) hs) /\ In v (f_vars g)) Fa Ga B f /\ (b_k B <= utility_steps N)%nat /\
    (forall a, Fa a = weight_of (factors_without_other_utilities (vv u) hs) a) /\
    (forall a, Ga a = weight_of (prob_factors hs) a * Qcabs (weight_of (factors_without_other_utilities (vv u) (utility_factors hs)) a))%Qc.
Proof.
  intros Hfc Hco Hk Hu Ho Hone Hp Hv. pose proof (fc_created _ _ _ _ _ _ _ Hfc) as Hcr. pose proof (perm_observations N _ _ Hp Hv) as Hv'.
  destruct (float_problem _ _ _ _ _ _ Hfc) as (Hpb & HV & Hsound & Hids & Hfi).
  pose proof (fc_same _ _ _ _ _ _ _ Hfc) as Hsame.
  destruct (own_became u (utility_tables N) (utility_factors fs) (utility_factors hs) Hk Hu (incl_refl _) (fc_utils _ _ _ _ _ _ _ Hfc)
     (created_util N Hwf ig ev vs hs Hcr) (same_util _ _ Hsame)) as (O1 & O2 & O3).
  destruct (utility_items _ _ _ O1 O2 O3) as (lu & Eu & Huok & Hub & Hlen & _ & _ & Hpq & Hpm). { intros x Hx; apply filter_In in Hx; tauto. }
  assert (Hone' : (List.length lu <= 1)%nat) by (rewrite Hlen; exact Hone).
  assert (Hfih : forall g, In g hs -> incl (f_vars g) V).
  { intros h Hh. destruct (NetVE.Forall2_in_r _ _ _ _ Hsame Hh) as (g & Hg & Hvs & _). rewrite Hvs. auto. }
  assert (Hsk : Forall2 same_shape (factors_without_other_utilities (vv u) fs) (factors_without_other_utilities (vv u) hs)).
  { unfold factors_without_other_utilities. apply Forall2_filter; auto. intros x y _ Hxy. rewrite (proj1 Hxy). auto. }
  pose proof (prob_utility_perm (factors_without_other_utilities (vv u) fs)) as HK. rewrite without_prob, without_util, Eu, (fc_items _ _ _ _ _ _ _ Hfc), <- unsigned_factors, <- map_app in HK.
  apply Permutation_map_inv in HK. destruct HK as (li & EK & HK).
  set (H := hidden_in V (net_deps N) (map (obs N) ev') (map vv query)) in *.
  assert (Hok : Forall (sitem_ok V) li).
  { eapply Permutation_Forall; [exact HK|]. apply Forall_app. split; auto.
    apply Forall_map. eapply Forall_impl; [|apply (fc_ok _ _ _ _ _ _ _ Hfc)]. intros i. apply unsigned_ok. }
  assert (Hcov : forall h, In h H -> exists f, In f (factors_without_other_utilities (vv u) fs) /\ In h (f_vars f)).
  { intros h Hh. apply (same_occurs (factors_without_other_utilities (vv u) fs) (factors_without_other_utilities (vv u) hs) h Hsk).
    destruct (evidence_hidden N Hwf ig ev ev' (map vv query) vs hs Hcr Hco Hv Hp h Hh) as (f & Hf & Hin). exists f. split; auto.
    apply filter_In in Hf. destruct Hf as [Hf Hn]. apply negb_true_iff in Hn. apply in_prob_without; auto. }
  destruct (budget_bound n b _ _ _ _ _ Hfc) as (Bk & Blo & Bhi).
  destruct (hidden_bounds (map (obs N) ev') (map vv query)) as (Hh1 & Hh2 & Hh3). fold H in Hh1, Hh2, Hh3.
  pose proof exps_utility as Hexp. destruct (few_items_bound lu Hub Hone') as (Fk & Flo & Fhi).
  assert (EB : sbudget li = bprod (map i_b l ++ map s_b lu)).
  { unfold sbudget. rewrite <- unsigned_bound, <- map_app. apply bprod_perm. apply Permutation_map. apply Permutation_sym. auto. }
  set (B := grow (sbudget li) H).
  assert (HBk : (b_k B <= utility_steps N)%nat).
  { unfold B, grow. cbn [b_k]. rewrite EB, bprod_app. cbn [b_k]. fold (budget l). unfold utility_steps, rounding_steps. simpl n_vars. simpl n_policies. rewrite map_length. lia. }
  assert (HBs : safe B).
  { split; [|split; [|apply few_le; lia]].
    - unfold B, grow. cbn [b_lo]. rewrite EB, bprod_app. cbn [b_lo]. fold (budget l).
      apply Rle_trans with (bpow radix2 (- Z.of_nat (exps n b)) * bpow radix2 (- Z.of_nat e)).
      + rewrite pow_mult_neg. apply bpow_le. lia.
      + apply Rmult_le_compat; auto; apply bpow_ge_0.
    - unfold B, grow. cbn [b_hi]. rewrite EB, bprod_app. cbn [b_hi]. fold (budget l). rewrite Bhi, Rmult_1_l.
      apply Rle_trans with (bpow radix2 (Z.of_nat e) * bpow radix2 (Z.of_nat s)).
      + apply Rmult_le_compat; lra.
      + rewrite pow_mult. apply bpow_le. lia. }
  destruct (tracked_one_utility sc t vs fs (net_deps N) w (map (obs N) ev') (map vv query) (vv u) li)
    as (s' & f & E & Hw & Hi & Hsc & _ & _ & Hval); try rewrite HV; auto.
  - apply (V_pos N Hwf).
  - apply (obs_valid N Hwf). auto.
  - rewrite HV in *. fold H B in Hsc, Hval.
    assert (Hown : forall g v, In g (factors_without_other_utilities (vv u) fs) -> In v (f_vars g) -> v_type v = Utility -> v = vv u).
    { intros g v Hg Hgv Ht. pose proof Hg as Hg'. apply filter_In in Hg'. destruct Hg' as [Hg1 Hg2].
      rewrite forallb_forall in Hg2. specialize (Hg2 v Hgv). rewrite Ht in Hg2. simpl in Hg2. apply Z.eqb_eq in Hg2.
      apply (wf_vars_inj V); auto; [apply net_vars_wf|apply (Hfi g Hg1); auto|apply vv_in; auto]. }
    exists s', f, (prod_at s_q li), (prod_at s_m li), B.
    split; [auto|]. split; [|split; [auto|split]].
    + split; auto.
      * intros v Hin Ht. rewrite Hsc by auto. rewrite (same_occurs (factors_without_other_utilities (vv u) fs) (factors_without_other_utilities (vv u) hs) v Hsk). tauto.
      * intros v Hin Ht. pose proof (Hi v Hin) as HvV. apply Hsc in Hin; auto. destruct Hin as ((g & Hg & Hgv) & _).
        pose proof (Hown g v Hg Hgv Ht) as Ev0. subst v. split; [auto|]. split; [apply (same_occurs (factors_without_other_utilities (vv u) fs) (factors_without_other_utilities (vv u) hs) _ Hsk); eauto|]. exists u. simpl. auto.
      * intros h Hh. apply (same_occurs (factors_without_other_utilities (vv u) fs) (factors_without_other_utilities (vv u) hs) h Hsk). auto.
      * exists (flat_map f_vars (factors_without_other_utilities (vv u) fs)). destruct (ok_localized V _ Hok) as [L1 L2].
        assert (HW : forall i v, In i li -> In v (f_vars (s_f i)) -> In v (flat_map f_vars (factors_without_other_utilities (vv u) fs))).
        { intros i v Hin Hiv. apply (in_map s_f) in Hin. rewrite <- EK in Hin. apply in_flat_map. eauto. }
        split; [apply prod_local; auto|]. split; [apply prod_local; auto|].
        intros v Hvw. apply in_flat_map in Hvw. destruct Hvw as (g & Hg & Hgv). pose proof Hg as Hg'. apply filter_In in Hg'. destruct Hg' as [Hg' _].
        split; [apply (Hfi g Hg'); auto|]. split; [apply (same_occurs (factors_without_other_utilities (vv u) fs) (factors_without_other_utilities (vv u) hs) v Hsk); eauto|].
        intros Ht. apply Hsc; [apply (Hfi g Hg'); auto|]. split; [eauto|]. split.
        -- apply not_true_iff_false. intros Hev. apply existsb_exists in Hev. destruct Hev as (x & Hx & Ex). apply Z.eqb_eq in Ex.
           destruct (proj1 (obs_valid N Hwf ev' Hv') x Hx) as (X1 & X2 & _). apply X2. replace (ev_var x) with v; auto.
           apply (wf_vars_inj V); auto; [apply net_vars_wf|apply (Hfi g Hg'); auto].
        -- intros Hin. apply filter_In in Hin. destruct Hin as [_ Hc]. rewrite Ht in Hc. discriminate Hc.
    + intros a. rewrite <- (RoundSVE.prod_perm s_q _ _ a HK), prod_app, (proj1 (unsigned_prod l a)), (fc_mass _ _ _ _ _ _ _ Hfc), Hpq.
      symmetry. apply (without_split N); auto. apply vv_in; auto.
    + intros a. rewrite <- (RoundSVE.prod_perm s_m _ _ a HK), prod_app, (proj2 (unsigned_prod l a)), (fc_mass _ _ _ _ _ _ _ Hfc), Hpm.
      f_equal. unfold weight_of. rewrite abs_prod, map_map. auto.
Qed.

(** ** The calls *)
Theorem float_utility sc ig ev query : complete N -> plain_utilities N -> some_utility N -> valid_observations N ev -> valid_query N query ->
  exists n' f, net_solve_utility sc n ev query "" ig = (n', Ok f) /\
    float_result N ev query [] (relevant N (ignored_by ig ev)) (fun x => joint N (ignored_by ig ev) x * utility_of N x)%Qc
      (fun x => joint N (ignored_by ig ev) x * utility_magnitude N x)%Qc (utility_steps N) f.
Proof.
  intros Hco Hpl Hsome Hv Hq. unfold net_solve_utility, net_solve, assign_ve. fold (ev_ign ig ev).
  destruct (float_to_ve n Hfl Hwf b s Hrange Hnn Hfew' sc 0 (ev_ign ig ev)) as (vs & fs & w & hs & l & E & Hfc & Hww). rewrite E.
  unfold solve_names. cbn [ve_tick ve_new].
  set (ev' := shuffle sc 1 ev). assert (Hp : Permutation ev ev') by apply shuffle_perm.
  rewrite (evidence_ok N Hwf) by (eapply perm_observations; eauto). cbn [gbind].
  rewrite (query_ok N Hwf) by (intros q Hin; apply (query_known N Hwf query Hq q Hin)). cbn [gbind].
  change (with_tick (ve_new 1 vs fs (net_deps N) w) 2) with (ve_new 2 vs fs (net_deps N) w).
  change (String.eqb "" "") with true. cbn [gbind].
  destruct (float_total sc 2 ig ev ev' vs fs hs l w query Hfc Hww Hco Hpl Hsome Hp Hv) as (s' & f & Fa & Ga & B & Es & Hr & Hk & HF & HG). rewrite Es.
  exists (with_solver (with_solver n (Some (ve_new 1 vs fs (net_deps N) w)) (name_map (entries N))) (Some s') (name_map (entries N))), f. split; [reflexivity|].
  pose proof (fc_created _ _ _ _ _ _ _ Hfc) as Hcr.
  eapply float_result_ok; eauto.
  - lia.
  - apply product_proper; [apply joint_proper|apply utility_of_proper].
  - apply product_proper; [apply joint_proper|apply magnitude_proper].
  - intros a Ha Hz. rewrite HF. apply (util_matches N Hwf ig ev vs hs Hcr Hpl); auto.
  - intros a Ha Hz. rewrite HG. apply (magnitude_matches ig ev vs hs Hcr Hpl); auto.
  - intros x Hx. apply (occurs_mentioned N Hwf ig ev vs hs x Hcr Hx).
Qed.

Theorem float_one_utility sc ig ev query u : complete N -> plain_utility N u -> one_table u -> valid_observations N ev -> valid_query N query ->
  exists n' f, net_solve_utility sc n ev query u ig = (n', Ok f) /\
    float_result N ev query [u] (relevant_to N (ignored_by ig ev) u) (fun x => joint N (ignored_by ig ev) x * one_utility N u x)%Qc
      (fun x => joint N (ignored_by ig ev) x * Qcabs (one_utility N u x))%Qc (utility_steps N) f.
Proof.
  intros Hco Hpl Hone Hv Hq. destruct (plain_utility_vv N Hwf u Hpl) as (Hk & Hu & H1 & Hne). unfold net_solve_utility, net_solve, assign_ve. fold (ev_ign ig ev).
  destruct (float_to_ve n Hfl Hwf b s Hrange Hnn Hfew' sc 0 (ev_ign ig ev)) as (vs & fs & w & hs & l & E & Hfc & Hww). rewrite E.
  unfold solve_names. cbn [ve_tick ve_new].
  set (ev' := shuffle sc 1 ev). assert (Hp : Permutation ev ev') by apply shuffle_perm.
  rewrite (evidence_ok N Hwf) by (eapply perm_observations; eauto). cbn [gbind].
  rewrite (query_ok N Hwf) by (intros q Hin; apply (query_known N Hwf query Hq q Hin)). cbn [gbind].
  change (with_tick (ve_new 1 vs fs (net_deps N) w) 2) with (ve_new 2 vs fs (net_deps N) w).
  replace (String.eqb u "") with false by (symmetry; apply String.eqb_neq; auto).
  destruct (lookup_known N Hwf u Hk) as (i & v & _ & _ & _ & _ & L).
  replace (sget_map (name_map (entries N)) u) with (Some (ve_entry N (Z.of_nat i, v))) by (symmetry; exact L).
  replace (en_ve (ve_entry N (Z.of_nat i, v))) with (vv u) by (unfold NetFactors.vv; rewrite L; auto). cbn [gbind].
  destruct (float_one sc 2 ig ev ev' vs fs hs l w query u Hfc Hco Hk Hu H1 Hone Hp Hv) as (s' & f & Fa & Ga & B & Es & Hr & Hkb & HF & HG). rewrite Es.
  exists (with_solver (with_solver n (Some (ve_new 1 vs fs (net_deps N) w)) (name_map (entries N))) (Some s') (name_map (entries N))), f. split; [reflexivity|].
  pose proof (fc_created _ _ _ _ _ _ _ Hfc) as Hcr. pose proof (one_matches N Hwf ig ev vs hs u Hcr Hk Hu) as Hm.
  eapply float_result_ok; eauto.
  - lia.
  - apply product_proper; [apply joint_proper|]. intros x y Exy. unfold one_utility. f_equal. apply map_ext. intros f0. apply entry_proper. auto.
  - apply product_proper; [apply joint_proper|]. intros x y Exy. unfold one_utility. do 2 f_equal. apply map_ext. intros f0. apply entry_proper. auto.
  - intros a Ha Hz. rewrite HF. apply Hm; auto.
  - intros a Ha Hz. rewrite HG. rewrite (weight_joint N Hwf ig ev vs hs Hcr) by auto. f_equal. f_equal.
    pose proof (own_filter N Hwf u _ _ Hk Hu (incl_refl _) (created_util N Hwf ig ev vs hs Hcr)) as HF2. unfold weight_of, one_utility. symmetry.
    assert (G : forall L0 M, incl L0 (utility_tables N) -> Forall2 (became N) L0 M ->
      qprod (map (fun f => entry vars f (by_name a)) L0) = qprod (map (fun f => value f a) M)).
    { intros L0 M HL HLM. induction HLM as [|f0 g L0 M Hfg HLM IH]; auto. cbn [map qprod fold_right]. change (fold_right Qcmult 1%Qc) with qprod.
      rewrite IH by (intros z Hz0; apply HL; simpl; auto). f_equal. symmetry. apply became_entry; auto. apply HL; simpl; auto. }
    apply G; auto. intros f0 Hf0. apply filter_In in Hf0. tauto.
  - intros x Hx. apply (one_occurs N Hwf ig ev vs hs u x Hcr Hk Hu Hx).
Qed.
End C.
