(** The results of SolveQuery on float64 numbers. *)
From Coq Require Import ZArith List Bool String Lia Permutation QArith Qcanon Reals Lra Qreals.
From Coq Require Import Floats.SpecFloat.
From Flocq Require Import Core.Core IEEE754.BinarySingleNaN.
From Verif Require Import Num GoBase VarModel GoFacts SpecFactor Tuples FactorFacts FactorSum FactorProd FactorPolicy FactorAt XnumFacts ExactFactor
  FactorThms VEModel SpecVE VEWorlds VEFacts VETopo VEHidden VESolve VEThms VEUtil NetModel SpecNet NetVars NetFactors NetVE NetSums NetQuery
  VEAny RoundFacts RoundSum RoundVE SpecRound RoundNet.
Import ListNotations.
Open Scope string_scope.
Open Scope list_scope.
Open Scope R_scope.
Local Opaque bpow.

(** ** Products over sublists of variables *)
Lemma outcomes_perm vs ws : Permutation vs ws -> outcomes_product vs = outcomes_product ws /\ sum_steps vs = sum_steps ws.
Proof.
  induction 1; simpl; auto.
  - destruct IHPermutation as [-> ->]. auto.
  - split; [ring|lia].
  - destruct IHPermutation1 as [-> ->]. auto.
Qed.
Lemma outcomes_app vs ws : outcomes_product (vs ++ ws) = outcomes_product vs * outcomes_product ws /\ sum_steps (vs ++ ws) = (sum_steps vs + sum_steps ws)%nat.
Proof. induction vs; simpl; [split; [ring|auto]|]. destruct IHvs as [-> ->]. split; [ring|lia]. Qed.

Lemma outcomes_sub vs : forall ws, NoDup vs -> incl vs ws -> (forall v, In v ws -> (0 < v_outcomes v)%nat) ->
  outcomes_product vs <= outcomes_product ws /\ (sum_steps vs <= sum_steps ws)%nat.
Proof.
  induction vs as [|v vs IH]; intros ws Hd Hi Hp.
  - simpl. split; [apply outcomes_product_ge1; auto|lia].
  - inversion Hd; subst. assert (Hv : In v ws) by (apply Hi; simpl; auto). apply in_split in Hv. destruct Hv as (w1 & w2 & ->).
    assert (Hp' : Permutation (w1 ++ v :: w2) (v :: w1 ++ w2)) by (apply Permutation_sym, Permutation_middle).
    destruct (outcomes_perm _ _ Hp') as [-> ->]. simpl.
    destruct (IH (w1 ++ w2)) as [I1 I2]; auto.
    + intros u Hu. assert (Hu' : In u (w1 ++ v :: w2)) by (apply Hi; simpl; auto). apply (Permutation_in _ Hp') in Hu'.
      destruct Hu' as [<-|]; auto. contradiction.
    + intros u Hu. apply Hp. apply (Permutation_in _ (Permutation_sym Hp')). simpl; auto.
    + split; [|lia]. apply Rmult_le_compat_l; auto. apply pos_INR.
Qed.

Lemma outcomes_INR vs : outcomes_product vs = INR (prod (outs vs)).
Proof. induction vs; simpl; auto. rewrite IHvs, mult_INR. auto. Qed.

Lemma worlds_length vs : forall a, List.length (worlds vs a) = prod (outs vs).
Proof.
  induction vs as [|v vs IH]; intros a; auto. simpl.
  assert (G : forall l : list nat, List.length (flat_map (fun k => worlds vs (upd a (v_id v) k)) l) = (List.length l * prod (outs vs))%nat).
  { induction l; simpl; auto. rewrite app_length, IH, IHl. auto. }
  rewrite G, seq_length. auto.
Qed.

Lemma Forall2_map_near {X} (R : f64 -> Qc -> Prop) (g : X -> f64) (h : X -> Qc) l : (forall x, In x l -> R (g x) (h x)) -> Forall2 R (map g l) (map h l).
Proof. induction l; intros H; simpl; constructor; [apply H; simpl; auto|apply IHl; intros; apply H; simpl; auto]. Qed.

Lemma near_zero_is k x : near k x 0%Qc -> exists sg, x = S754_zero sg.
Proof.
  intros H. pose proof (near_eqb k x 0%Qc H) as E. rewrite qeq_refl in E. destruct H as (_ & Hf & _ & Hr). rewrite qr_0 in Hr.
  assert (Hz : SF2R radix2 x = 0) by lra.
  destruct x as [sg|[]| |sg m e]; try discriminate Hf; eauto.
  exfalso. simpl in Hz. apply eq_0_F2R in Hz. destruct sg; discriminate Hz.
Qed.

Section Q.
Variable n : network f64.
Notation N := (exact_net n).
Notation vars := (n_vars n).
Notation vv := (vv N).
Notation by_name := (by_name N).
Notation known := (known N).
Notation V := (net_vars N).
Hypothesis Hfl : float_network n.
Hypothesis Hwf : wf_network N.
Variables (b : string -> nat) (s : nat).
Hypothesis Hrange : in_float_range N b s.
Hypothesis Hnn : nonnegative N.
Hypothesis Hfew : (Z.of_nat (rounding_steps N) <= 2 ^ 50)%Z.

Notation tables := (chance_factors N).
Definition exps : nat := (list_sum (map (fun f => b (nf_for f)) tables) + list_sum (map (fun dp => b (fst dp)) (n_policies n)))%nat.

Lemma exps_le : (exps + s <= 1000)%nat.
Proof.
  pose proof (fr_sum N b s Hrange) as H. simpl in H. rewrite map_map in H. simpl in H. unfold exps. simpl. lia.
Qed.

Lemma bprod_tables (F : list (nfactor xnum)) : bprod (map (fun f => tb n b (nf_for f)) F) =
  mkB (list_sum (map (fun f => (num_outcomes vars (nf_for f) + 2)%nat) F)) (bpow radix2 (- Z.of_nat (list_sum (map (fun f => b (nf_for f)) F)))) 1.
Proof.
  induction F as [|f F IH]; [reflexivity|]. unfold bprod, list_sum in *. cbn [map fold_right]. injection IH as I1 I2 I3.
  f_equal.
  - rewrite I1. unfold tb. cbn [b_k]. lia.
  - rewrite I2. unfold tb. cbn [b_lo]. rewrite <- bpow_plus. f_equal. lia.
  - rewrite I3. unfold tb. cbn [b_hi]. ring.
Qed.
Lemma bprod_policies (P : list (string * factor f64)) : bprod (map (fun dp => pb b (fst dp)) P) =
  mkB (List.length P) (bpow radix2 (- Z.of_nat (list_sum (map (fun dp => b (fst dp)) P)))) 1.
Proof.
  induction P as [|f F IH]; [reflexivity|]. unfold bprod, list_sum in *. cbn [map fold_right List.length]. injection IH as I1 I2 I3.
  f_equal.
  - rewrite I1. unfold pb. cbn [b_k]. lia.
  - rewrite I2. unfold pb. cbn [b_lo]. rewrite <- bpow_plus. f_equal. lia.
  - rewrite I3. unfold pb. cbn [b_hi]. ring.
Qed.

Lemma list_sum_perm {X} (g : X -> nat) l l' : Permutation l l' -> list_sum (map g l) = list_sum (map g l').
Proof. induction 1; simpl; lia. Qed.
Lemma list_sum_filter {X} (g : X -> nat) p l : (list_sum (map g (filter p l)) <= list_sum (map g l))%nat /\ (List.length (filter p l) <= List.length l)%nat.
Proof. induction l; simpl; [lia|]. destruct (p a); simpl; lia. Qed.

Lemma budget_bound ev vs fs hs l : fcreated n b ev vs fs hs l ->
  (b_k (budget l) <= list_sum (map (fun f => (num_outcomes vars (nf_for f) + 2)%nat) tables) + List.length (n_policies n))%nat /\
  bpow radix2 (- Z.of_nat exps) <= b_lo (budget l) /\ b_hi (budget l) = 1.
Proof.
  intros H. destruct (fc_budget _ _ _ _ _ _ _ H) as (P & HP & E). unfold budget. rewrite E, bprod_app, bprod_tables, bprod_policies. cbn [b_k b_lo b_hi].
  pose proof (Permutation_length HP) as HL. pose proof (list_sum_perm (fun dp => b (fst dp)) _ _ HP) as HS.
  destruct (list_sum_filter (fun dp => b (fst dp)) (fun dp : string * factor f64 => negb (has_key ev (fst dp))) (n_policies n)) as [F1 F2].
  split; [lia|]. split; [|ring]. rewrite <- bpow_plus. apply bpow_le. unfold exps. lia.
Qed.

Lemma worldly_states : outcomes_product (worldly N) <= bpow radix2 (Z.of_nat s) /\
  sum_steps (worldly N) = list_sum (map (fun v => S (List.length (nv_outcomes v))) (filter (fun v => negb (is_kind Utility v)) vars)).
Proof.
  rewrite (worldly_net N Hwf).
  assert (G : forall L, (forall v, In v L -> In v (non_utility N)) ->
     outcomes_product (map (fun v => vv (nv_name v)) L) = IZR (fold_right (fun v z => (zlen (nv_outcomes v) * z)%Z) 1%Z L) /\
     sum_steps (map (fun v => vv (nv_name v)) L) = list_sum (map (fun v => S (List.length (nv_outcomes v))) L)).
  { induction L as [|v L IH]; intros HL; [split; reflexivity|].
    destruct IH as [I1 I2]. { intros; apply HL; simpl; auto. }
    destruct (non_utility_not_total N Hwf v (HL v (or_introl eq_refl))) as [Hv Ht].
    assert (Hk : known (nv_name v)) by (split; auto; exists v; apply (var_named_in N Hwf); auto).
    assert (Ho : v_outcomes (vv (nv_name v)) = List.length (nv_outcomes v)).
    { rewrite (proj1 (vv_outcomes N Hwf _ Hk)). unfold num_outcomes. rewrite (proj2 (var_named_in N Hwf (nv_name v) v)) by auto. auto. }
    cbn [map outcomes_product sum_steps fold_right]. rewrite I1, I2, Ho. split.
    - rewrite mult_IZR, INR_IZR_INZ. auto.
    - simpl. auto. }
  destruct (G (non_utility N) (fun v Hv => Hv)) as [G1 G2]. split; [|exact G2]. rewrite G1.
  apply Rle_trans with (IZR (2 ^ Z.of_nat s)); [apply IZR_le; apply (fr_states N b s Hrange)|].
  rewrite <- IZR_Zpower by lia. apply Rle_refl.
Qed.

(** ** The factor computed by the solver *)
Record fanswer (ig : bool) (ev ev' : list (string * string)) (query : list string) (f : factor f64) (F : factor xnum) (B : bound) : Prop := {
  fa_wf : wf_factor f;
  fa_answer : answer N ig ev ev' query F;
  fa_vars : Permutation (f_vars f) (f_vars F);
  fa_near : forall a, in_range V a -> approx B (fv f a) (value F a);
  fa_sane : sane B;
  fa_k : (b_k B <= rounding_steps N)%nat;
  fa_lo : bpow radix2 (- Z.of_nat exps) <= b_lo B;
  fa_hi : outcomes_product (f_vars f) * b_hi B <= bpow radix2 (Z.of_nat s)
}.

Lemma same_prob fs hs : Forall2 same_shape fs hs -> Forall2 same_shape (prob_factors fs) (prob_factors hs).
Proof.
  intros H. apply Forall2_filter; auto. intros x y _ Hxy. rewrite (same_utility x y Hxy). auto.
Qed.

Theorem float_answer sc t ig ev ev' vs fs hs l w query : fcreated n b (ev_ign ig ev) vs fs hs l -> complete N ->
  Permutation ev ev' -> valid_observations N ev -> known_names N query ->
  exists s' f F B, ve_solve_query sc (ve_new t vs fs (net_deps N) w) (map (obs N) ev') (map vv query) = Ok (s', f) /\
    fanswer ig ev ev' query f F B.
Proof.
  intros Hfc Hco Hp Hv Hq. pose proof (fc_created _ _ _ _ _ _ _ Hfc) as Hcr. pose proof (perm_observations N _ _ Hp Hv) as Hv'.
  destruct (problem_V N ig ev vs hs Hcr) as [Hpb HV].
  assert (Hcovh : forall h, In h (hidden_in (vs_vars vs) (net_deps N) (map (obs N) ev') (map vv query)) -> exists f, In f (prob_factors hs) /\ In h (f_vars f)).
  { rewrite HV. apply (hidden_covered N Hwf ig ev vs hs Hcr); auto. intros x. eapply (ignored_evidence N Hwf); eauto. }
  assert (Hevid : valid_evidence (vs_vars vs) (map (obs N) ev')) by (rewrite HV; apply (obs_valid N Hwf); auto).
  destruct (solve_query_exact sc t vs hs (net_deps N) (finite_weights (weights N)) (map (obs N) ev') (map vv query) Hpb Hevid Hcovh) as (s1 & F & E1 & HwF & HiF & HscF & _ & _ & HvalF).
  destruct (solve_answer N Hwf sc t ig ev ev' vs hs query Hcr Hco Hp Hv Hq) as (s2 & F' & E2 & Han).
  assert (F' = F) by congruence. subst F'. clear E1 E2 s1 s2.
  pose proof (same_prob _ _ (fc_same _ _ _ _ _ _ _ Hfc)) as Hsp.
  assert (Hscope : forall v, (exists g, In g (prob_factors fs) /\ In v (f_vars g)) <-> (exists g, In g (prob_factors hs) /\ In v (f_vars g))).
  { intros v. split; intros (g & Hg & Hgv).
    - destruct (Forall2_in_l _ _ _ _ Hsp Hg) as (h & Hh & Hvs & _). exists h. rewrite Hvs. auto.
    - destruct (Forall2_in_r _ _ _ _ Hsp Hg) as (h & Hh & Hvs & _). exists h. rewrite <- Hvs. auto. }
  set (H := hidden_in (vs_vars vs) (net_deps N) (map (obs N) ev') (map vv query)) in *.
  destruct (budget_bound _ _ _ _ _ Hfc) as (Bk & Blo & Bhi).
  assert (HHw : NoDup H /\ incl H (worldly N)).
  { split.
    - unfold H, hidden_in. apply NoDup_filter. eapply NoDup_map_inv. apply Hpb.
    - intros v Hh. unfold H, hidden_in in Hh. apply filter_In in Hh. destruct Hh as [Hh Hc]. do 3 (apply andb_true_iff in Hc; destruct Hc as [Hc ?]).
      unfold worldly. apply filter_In. rewrite HV in Hh. split; auto. destruct (v_type v); auto; discriminate Hc. }
  assert (Hwpos : forall v, In v (worldly N) -> (0 < v_outcomes v)%nat).
  { intros v Hh. apply (V_pos N Hwf). apply filter_In in Hh. tauto. }
  destruct (outcomes_sub H (worldly N) (proj1 HHw) (proj2 HHw) Hwpos) as [Hsub1 Hsub2].
  destruct worldly_states as [Hst1 Hst2].
  pose proof exps_le as Hexp.
  assert (Hk : (b_k (grow (budget l) H) <= rounding_steps N)%nat).
  { unfold grow, rounding_steps. cbn [b_k]. simpl n_vars. simpl n_policies. rewrite map_length. rewrite Hst2 in Hsub2. lia. }
  assert (Hsafe : safe (grow (budget l) H)).
  { split; [|split].
    - unfold grow. cbn [b_lo]. eapply Rle_trans; [|apply Blo]. apply bpow_le. lia.
    - unfold grow. cbn [b_hi]. rewrite Bhi, Rmult_1_l. eapply Rle_trans; [apply Hsub1|]. eapply Rle_trans; [apply Hst1|]. apply bpow_le. lia.
    - apply few_le. lia. }
  destruct (tracked_query sc t vs fs (net_deps N) w (map (obs N) ev') (map vv query) l) as (s' & f & E & Hwf' & Hif & Hsc & _ & _ & Hap); auto.
  - destruct Hpb. split; auto. { intros f []. } constructor.
  - rewrite HV. apply (V_pos N Hwf).
  - intros g Hg. destruct (Forall2_in_l _ _ _ _ (fc_same _ _ _ _ _ _ _ Hfc) Hg) as (h & Hh & Hvs & Hid & Hw).
    destruct (vp_factors _ _ _ Hpb h Hh) as (_ & _ & Hi & Hidc). split; auto. rewrite <- Hvs, <- Hid. auto.
  - rewrite <- (same_ids _ _ (fc_same _ _ _ _ _ _ _ Hfc)). apply (vp_ids _ _ _ Hpb).
  - apply (fc_items _ _ _ _ _ _ _ Hfc).
  - rewrite HV. apply (fc_ok _ _ _ _ _ _ _ Hfc).
  - intros h Hh. apply Hscope. apply Hcovh. auto.
  - fold H in Hsc, Hap. exists s', f, F, (grow (budget l) H). split; auto.
    assert (HsaneB : sane (budget l)).
    { apply bprod_sane. apply Forall_map. eapply Forall_impl; [|apply (fc_ok _ _ _ _ _ _ _ Hfc)]. intros i Hi. apply Hi. }
    assert (Hndf : NoDup (f_vars f)) by (eapply NoDup_map_inv; apply Hwf').
    split; auto.
    + apply NoDup_Permutation; auto. { eapply NoDup_map_inv; apply HwF. }
      intros v. split; intros Hin.
      * apply HscF; [apply Hif; auto|]. apply Hsc in Hin; [|apply Hif; auto]. rewrite <- Hscope. auto.
      * apply Hsc; [apply HiF; auto|]. apply HscF in Hin; [|apply HiF; auto]. rewrite Hscope. auto.
    + rewrite HV in *. intros a Ha. specialize (Hap a Ha). unfold value. rewrite (HvalF a Ha).
      rewrite (qsum_ext _ (weight_of (prob_factors hs))) in Hap; auto. intros x _. apply (fc_mass _ _ _ _ _ _ _ Hfc).
    + destruct HsaneB as [[S1 S2] S3]. split; [split; [exact S1|exact S2]|]. unfold grow. cbn [b_hi]. rewrite Bhi, Rmult_1_l.
      apply outcomes_product_ge1. intros v Hh. apply Hwpos. apply HHw. auto.
    + unfold grow. cbn [b_hi]. rewrite Bhi, Rmult_1_l. rewrite <- (proj1 (outcomes_app (f_vars f) H)).
      eapply Rle_trans; [|apply Hst1]. apply outcomes_sub; auto.
      * apply NoDup_app_intro; auto; [apply HHw|]. intros v H1 H2. apply Hsc in H1; [|apply Hif; auto]. tauto.
      * intros v Hin. apply in_app_iff in Hin. destruct Hin as [Hin|Hin]; [|apply HHw; auto].
        pose proof (Hif v Hin) as HvV. apply Hsc in Hin; auto. destruct Hin as ((g & Hg & Hgv) & _).
        unfold worldly. apply filter_In. rewrite HV in HvV. split; auto. apply filter_In in Hg. destruct Hg as [_ Hu]. apply negb_true_iff in Hu.
        apply negb_true_iff. apply not_true_iff_false. intros Ht. apply not_true_iff_false in Hu. apply Hu. apply existsb_exists. exists v. auto.
Qed.

(** ** The normalised marginals *)
Definition steps_for (f : factor f64) : nat := (2 * rounding_steps N + 3 * List.length (f_data f) + 1)%nat.

Definition float_distribution (k : nat) (ig : bool) (ev : list (string * string)) (q : string) (ps : list f64) : Prop :=
  List.length ps = num_outcomes vars q /\
  (mass N (ignored_by ig ev) (agrees vars ev) <> 0%Qc ->
     forall i p, nth_error ps i = Some p -> close_to k p (posterior N (ignored_by ig ev) ev q i)) /\
  (mass N (ignored_by ig ev) (agrees vars ev) = 0%Qc -> ps = repeat S754_nan (num_outcomes vars q)).

Lemma prod_perm vs ws : Permutation vs ws -> prod (outs vs) = prod (outs ws).
Proof. induction 1; simpl; auto; lia. Qed.

Lemma float_marginal ig ev ev' query f F B q st : valid_observations N ev -> fanswer ig ev ev' query f F B -> In q query ->
  askable N (ignored_by ig ev) ev q ->
  exists m s1 s2 m', marginal st f (vv q) = Ok (s1, m) /\ normalize s1 m = Ok (s2, m') /\
    (zlen (f_data f) <= 2 ^ 49 -> float_distribution (steps_for f) ig ev q (f_data m'))%Z.
Proof.
  intros Hv Hfa Hin Hask. destruct Hfa as [Hwff Han Hperm Hnear Hsane Hbk Hlo Hhi].
  destruct (askable_known N Hwf _ _ _ Hask) as [Hk Hty].
  destruct (an_marginal _ _ _ _ _ _ Han q Hin Hask) as (c & Hc & Hm).
  assert (Hc0 : c <> 0%Qc) by (intros E; rewrite E in Hc; discriminate Hc).
  assert (HqF : In (vv q) (f_vars F)) by (apply (an_query _ _ _ _ _ _ Han); auto).
  assert (Hqf : In (vv q) (f_vars f)) by (apply (Permutation_in _ (Permutation_sym Hperm)); auto).
  assert (HfV : incl (f_vars f) V). { intros v H. apply (an_vars _ _ _ _ _ _ Han). apply (Permutation_in _ Hperm). auto. }
  destruct (marginal_at st f (vv q) Hwff Hqf) as (m & E & _ & Hwm & Hvm & Hdm).
  destruct (normalize_at (bump st) m Hwm) as (m' & E' & _ & Hwm' & Hvm' & Hdata & _).
  exists m, (bump st), (bump (bump st)), m'. split; auto. split; auto. intros Hlen.
  destruct (vv_outcomes N Hwf q Hk) as [Ho Hpos]. simpl n_vars in Ho.
  set (nq := v_outcomes (vv q)) in *. set (oth := others (f_vars f) (vv q)) in *.
  set (len := prod (outs oth)).
  assert (Hcells : List.length (f_data f) = (nq * len)%nat).
  { pose proof (wf_fits _ Hwff) as Hfit. unfold fits in Hfit. rewrite Hfit.
    rewrite (prod_perm _ _ (perm_others _ _ (proj1 Hwff) Hqf)). auto. }
  assert (Hoth : incl oth V) by (intros v H; apply HfV; apply in_others in H; tauto).
  assert (Hlpos : (0 < len)%nat).
  { unfold len. assert (G : forall l, incl l V -> (0 < prod (outs l))%nat).
    { induction l as [|v l IH]; intros Hl; simpl; [lia|]. assert (0 < v_outcomes v)%nat by (apply (V_pos N Hwf); apply Hl; simpl; auto).
      assert (0 < prod (outs l))%nat by (apply IH; intros u Hu; apply Hl; simpl; auto). unfold outs in *. nia. }
    apply G; auto. }
  set (k0 := b_k B) in *.
  assert (Hfk : few (steps_for f)).
  { apply few_le. unfold steps_for. unfold zlen in Hlen. lia. }
  assert (Hkk : (S ((k0 + len) + (k0 + len + nq)) <= steps_for f)%nat).
  { unfold steps_for. rewrite Hcells. nia. }
  pose proof exps_le as Hexp.
  assert (Hlotiny : tiny <= b_lo B). { eapply Rle_trans; [|apply Hlo]. apply bpow_le. lia. }
  assert (Hprodf : outcomes_product (f_vars f) = INR nq * INR len).
  { rewrite outcomes_INR, (prod_perm _ _ (perm_others _ _ (proj1 Hwff) Hqf)). simpl. rewrite mult_INR. auto. }
  rewrite Hprodf in Hhi.
  assert (Hnq1 : 1 <= INR nq) by (change 1 with (INR 1); apply le_INR; lia).
  assert (Hln1 : 1 <= INR len) by (change 1 with (INR 1); apply le_INR; lia).
  destruct Hsane as [[Hsa1 Hsa2] Hsa3].
  assert (Hs1000 : bpow radix2 (Z.of_nat s) <= huge) by (apply bpow_le; lia).
  assert (Hsafe1 : safe (bsum B len)).
  { unfold safe, bsum. cbn [b_k b_lo b_hi]. split; auto. split.
    - apply Rle_trans with (INR nq * INR len * b_hi B); [|lra]. rewrite Rmult_assoc. rewrite <- (Rmult_1_l (INR len * b_hi B)) at 1.
      apply Rmult_le_compat_r; auto. apply Rmult_le_pos; lra.
    - eapply few_mono; [|exact Hfk]. fold k0. lia. }
  (* each marginal value *)
  set (T := fun j => total (value F) oth (upd zero_asg (v_id (vv q)) j)).
  assert (Hx : forall j, (j < nq)%nat -> approx (bsum B len) (fv m (upd zero_asg (v_id (vv q)) j)) (T j)).
  { intros j Hj. assert (Ha1 : in_range [vv q] (upd zero_asg (v_id (vv q)) j)).
    { intros v [<-|[]]. rewrite upd_same. auto. }
    assert (HaV : in_range V (upd zero_asg (v_id (vv q)) j)).
    { apply in_range_upd'; auto; first [apply net_vars_wf | apply zero_range; apply (V_pos N Hwf) | apply vv_in; auto]. }
    assert (Hworld : forall x, In x (worlds oth (upd zero_asg (v_id (vv q)) j)) -> in_range V x).
    { intros x Hx. eapply worlds_range; eauto. apply net_vars_wf. }
    assert (Hfv : fv m (upd zero_asg (v_id (vv q)) j) = fold_left nadd (map (fv f) (worlds oth (upd zero_asg (v_id (vv q)) j))) n0).
    { apply fv_get_at; [apply wf_fits; auto|rewrite Hvm; auto|]. rewrite Hdm by auto.
      apply sum_of_ok. intros x Hx. apply get_at_fv; [apply wf_fits; auto|]. eapply in_range_incl; [apply HfV|]. auto. }
    rewrite Hfv. unfold T, total.
    assert (Hl : List.length (map (fv f) (worlds oth (upd zero_asg (v_id (vv q)) j))) = len) by (rewrite map_length; apply worlds_length).
    rewrite <- Hl at 1. apply approx_sum.
    - split; auto.
    - rewrite Hl. auto.
    - rewrite Hl. auto.
    - apply Forall2_map_near. intros x Hx. apply Hnear. auto. }
  assert (HTm : forall j, (j < nq)%nat -> (c * T j)%Qc = mass N (ignored_by ig ev) (fun s0 => agrees vars ev s0 && (s0 q =? j)%nat)).
  { intros j Hj. simpl n_vars in Hm. etransitivity; [|apply (Hm j Hj)]. unfold T. f_equal. apply total_perm.
    - apply value_proper.
    - unfold oth. apply wf_others. apply Hwff.
    - unfold oth, others. apply Permutation_filter. auto. }
  assert (Hmass : (c * qsum (map T (seq 0 nq)))%Qc = mass N (ignored_by ig ev) (agrees vars ev)).
  { assert (Hne : ~ In q (map fst ev)) by (destruct Hask as (_ & _ & Hne); auto).
    change vars with (n_vars N). rewrite (mass_split N Hwf (ignored_by ig ev) ev q Hv Hk Hty Hne). rewrite <- qsum_scale. apply qsum_ext.
    intros j Hj. apply in_seq in Hj. apply HTm. lia. }
  assert (Hdm' : f_data m = map (fun j => fv m (upd zero_asg (v_id (vv q)) j)) (seq 0 nq)).
  { rewrite (data_worlds m zero_asg Hwm), Hvm, worlds_single, map_map. auto. }
  assert (Hlm : List.length (f_data m) = nq) by (rewrite Hdm', map_length, seq_length; auto).
  assert (Hlast : forall j, (j < nq)%nat -> (T j <= qsum (map T (seq 0 nq)))%Qc /\ (0 <= T j)%Qc).
  { assert (Hge : forall j, (j < nq)%nat -> (0 <= T j)%Qc).
    { intros j Hj. apply qr_nonneg. apply within_nonneg with (bsum B len); [|apply (Hx j Hj)].
      unfold sane, bsum. cbn [b_lo b_hi]. split; auto. apply Rle_trans with (INR len * 1); [lra|]. apply Rmult_le_compat_l; lra. }
    intros j Hj. split; auto. apply qsum_ge_member.
    - intros y Hy. apply in_map_iff in Hy. destruct Hy as (i & <- & Hi). apply in_seq in Hi. apply Hge. lia.
    - apply in_map. apply in_seq. lia. }
  assert (Hsane1 : sane (bsum B len)).
  { unfold sane, bsum. cbn [b_lo b_hi]. split; auto. apply Rle_trans with (INR len * 1); [lra|]. apply Rmult_le_compat_l; lra. }
  assert (HFor : Forall2 (approx (bsum B len)) (f_data m) (map T (seq 0 nq))).
  { rewrite Hdm'. apply Forall2_map_near. intros j Hj. apply in_seq in Hj. apply Hx. lia. }
  assert (Hsafe2 : safe (bsum (bsum B len) (List.length (f_data m)))).
  { rewrite Hlm. unfold safe, bsum. cbn [b_k b_lo b_hi]. split; auto. split.
    - rewrite <- Rmult_assoc. lra.
    - eapply few_mono; [|exact Hfk]. fold k0. lia. }
  destruct (approx_sum (bsum B len) (f_data m) (map T (seq 0 nq)) Hsane1) as [_ [Hsum _]]; auto; [lia|].
  rewrite Hlm in Hsum. unfold bsum in Hsum. cbn [b_k] in Hsum. fold k0 in Hsum.
  set (S0 := qsum (map T (seq 0 nq))) in *.
  unfold float_distribution. rewrite Hdata, map_length, Hlm. split; [exact Ho|]. split.
  - intros Hne i p Hp. assert (HS : S0 <> 0%Qc) by (intros E0; apply Hne; rewrite <- Hmass, E0; ring).
    rewrite nth_error_map in Hp. destruct (nth_error (f_data m) i) as [x|] eqn:Ex; [|discriminate Hp]. injection Hp as <-.
    assert (Hi : (i < nq)%nat) by (rewrite <- Hlm; apply nth_error_Some; congruence).
    rewrite Hdm' in Ex. rewrite nth_error_map, nth_error_seq' in Ex by auto. simpl in Ex. injection Ex as <-.
    assert (Epost : posterior N (ignored_by ig ev) ev q i = (T i / S0)%Qc).
    { unfold posterior. simpl n_vars. rewrite <- Hmass, <- HTm by auto. field. split; auto. }
    rewrite Epost. apply near_close; auto. eapply near_mono; [exact Hkk|].
    destruct (Hx i Hi) as [Hn Hw]. unfold bsum in Hn. cbn [b_k] in Hn. fold k0 in Hn.
    apply near_quotient; auto; [apply Hlast; auto| |eapply few_mono; [exact Hkk|auto]].
    destruct Hw as [Hz|Hw]; [left; auto|right]. unfold bsum in Hw. cbn [b_lo b_hi] in Hw.
    rewrite qr_div by auto.
    assert (HSb : qr S0 <= bpow radix2 (Z.of_nat s)).
    { eapply Rle_trans; [apply (qsum_le_const (bsum B len)); auto|].
      - apply Forall_forall. intros y Hy. apply in_map_iff in Hy. destruct Hy as (j & <- & Hj). apply in_seq in Hj. apply (Hx j). lia.
      - rewrite map_length, seq_length. unfold bsum. cbn [b_hi]. rewrite <- Rmult_assoc. auto. }
    assert (HSpos : 0 < qr S0). { destruct (Hlast i Hi) as [L1 L2]. apply qr_le in L1. lra. }
    apply Rle_trans with (bpow radix2 (- Z.of_nat exps) * / bpow radix2 (Z.of_nat s)).
    + rewrite <- bpow_opp, <- bpow_plus. apply bpow_le. lia.
    + unfold Rdiv. apply Rmult_le_compat.
      * apply bpow_ge_0.
      * left. apply Rinv_0_lt_compat. apply bpow_gt_0.
      * lra.
      * apply Rinv_le; auto.
  - intros Hz. assert (HS : S0 = 0%Qc).
    { rewrite Hz in *. destruct (Qc_eq_dec S0 0%Qc) as [|Hn]; auto. exfalso.
      apply Qcmult_integral in Hmass. destruct Hmass; auto. }
    rewrite HS in *. destruct (near_zero_is _ _ Hsum) as (sg & Esum). rewrite Esum. rewrite Hdm', map_map.
    rewrite <- Ho.
    assert (G : forall l, (forall j, In j l -> (j < nq)%nat) -> map (fun j => ndiv (fv m (upd zero_asg (v_id (vv q)) j)) (S754_zero sg)) l = repeat (S754_nan : f64) (List.length l)).
    { induction l as [|j l IH]; intros Hl; auto. cbn [map]. rewrite IH by (intros; apply Hl; simpl; auto). cbn [repeat List.length]. f_equal.
      destruct (Hlast j (Hl j (or_introl eq_refl))) as [L1 L2]. assert (ET : T j = 0%Qc) by (apply Qcle_antisym; auto).
      destruct (Hx j (Hl j (or_introl eq_refl))) as [Hn _]. rewrite ET in Hn. destruct (near_zero_is _ _ Hn) as (sj & ->). reflexivity. }
    etransitivity; [apply G; intros j Hj; apply in_seq in Hj; lia|]. rewrite seq_length. auto.
Qed.

Lemma float_marginals ig ev ev' query f F B : valid_observations N ev -> fanswer ig ev ev' query f F B ->
  (forall q, In q query -> askable N (ignored_by ig ev) ev q) ->
  forall L, incl L query -> forall st res0,
  exists s1 res1, foldM (fun '((n, res) : network f64 * list (string * list f64)) q =>
    let! (n, m) := net_marginal n f q in
    let! (n, m) := net_normalize n m in
    Ok (n, sset_map res q (f_data m))) (with_solver n (Some st) (name_map (entries N)), res0) L =
    Ok (with_solver n (Some s1) (name_map (entries N)), res1) /\
    ((zlen (f_data f) <= 2 ^ 49)%Z -> forall q, (In q L -> exists l, sget_map res1 q = Some l /\ float_distribution (steps_for f) ig ev q l)) /\
    (forall q, ~ In q L -> sget_map res1 q = sget_map res0 q).
Proof.
  intros Hv Han Hask. induction L as [|q L IH]; intros Hi st res0.
  - exists st, res0. split; auto. split; auto. intros _ q [].
  - assert (Hin : In q query) by (apply Hi; simpl; auto).
    destruct (float_marginal ig ev ev' query f F B q (ve_vs st) Hv Han Hin (Hask q Hin)) as (m & v1 & v2 & m' & E1 & E2 & Hd).
    destruct (askable_known N Hwf _ _ _ (Hask q Hin)) as [Hk _].
    destruct (lookup_known N Hwf q Hk) as (i & v & _ & _ & _ & _ & L0).
    assert (Evv : en_ve (ve_entry N (Z.of_nat i, v)) = vv q) by (unfold NetFactors.vv; rewrite L0; auto).
    cbn [foldM]. unfold net_marginal at 1. cbn [n_names with_solver]. unfold lookup in L0. rewrite L0, Evv. unfold on_variables at 1. cbn [n_ve with_solver].
    rewrite E1. cbn [gbind]. unfold net_normalize at 1, on_variables at 1. cbn [n_ve n_names with_solver with_vs ve_vs]. rewrite E2. cbn [gbind].
    set (sx := with_vs (with_vs st v1) v2).
    destruct (IH (fun z Hz => Hi z (or_intror Hz)) sx (sset_map res0 q (f_data m'))) as (s1 & res1 & E3 & Hres & Hfr).
    exists s1, res1. split; [|split].
    + rewrite <- E3. reflexivity.
    + intros Hlen x. intros [<-|Hx]; auto. destruct (in_dec string_dec q L) as [Hq|Hq]; auto.
      rewrite Hfr by auto. rewrite sset_map_get, String.eqb_refl. eauto.
    + intros x Hx. rewrite Hfr by (intros H; apply Hx; simpl; auto). rewrite sset_map_get.
      destruct (String.eqb_spec x q); auto. subst. exfalso. apply Hx. simpl. auto.
Qed.

Theorem float_query sc ig ev query : complete N -> valid_observations N ev ->
  (forall q, In q query -> askable N (ignored_by ig ev) ev q) ->
  exists n' res f, net_solve_query sc n ev query ig = (n', Ok (res, f)) /\
    ((zlen (f_data f) <= 2 ^ 49)%Z -> forall q, In q query -> exists l, sget_map res q = Some l /\ float_distribution (steps_for f) ig ev q l) /\
    (forall q, ~ In q query -> sget_map res q = None).
Proof.
  intros Hco Hv Hask. unfold net_solve_query, net_solve, assign_ve. fold (ev_ign ig ev).
  destruct (float_to_ve n Hfl Hwf b s Hrange Hnn Hfew sc 0 (ev_ign ig ev)) as (vs & fs & w & hs & l & E & Hfc & _). rewrite E.
  unfold solve_names. cbn [ve_tick ve_new].
  set (ev' := shuffle sc 1 ev). assert (Hp : Permutation ev ev') by apply shuffle_perm.
  rewrite (evidence_ok N Hwf) by (eapply perm_observations; eauto). cbn [gbind].
  assert (Hkn : known_names N query) by (intros q Hq; apply (askable_known N Hwf _ _ _ (Hask q Hq))).
  rewrite (query_ok N Hwf) by auto. cbn [gbind].
  destruct (float_answer sc 2 ig ev ev' vs fs hs l w query Hfc Hco Hp Hv Hkn) as (s' & f & F & B & Es & Han).
  change (with_tick (ve_new 1 vs fs (net_deps N) w) 2) with (ve_new 2 vs fs (net_deps N) w).
  rewrite Es. unfold query_marginals.
  destruct (float_marginals ig ev ev' query f F B Hv Han Hask query (incl_refl _) s' []) as (s1 & res & Em & Hres & Hfr).
  change (with_solver (with_solver n _ _) (Some s') (name_map (entries N))) with (with_solver n (Some s') (name_map (entries N))).
  rewrite Em. exists (with_solver n (Some s1) (name_map (entries N))), res, f. split; auto.
Qed.
End Q.
