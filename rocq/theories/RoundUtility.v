(** SolveUtility on float64: the sum of the weighted utility factors and what is computed from it. *)
From Coq Require Import ZArith List Bool Lia Permutation QArith Qcanon Qcabs Reals Lra.
From Coq Require Import Floats.SpecFloat.
From Flocq Require Import Core.Core IEEE754.BinarySingleNaN.
From Verif Require Import Num GoBase VarModel GoFacts SpecFactor Tuples FactorFacts FactorSum FactorProd FactorAt XnumFacts ExactFactor
  FactorThms VEModel SpecVE VEWorlds VEFacts VETopo VEHidden VESolve VEThms VEAny VEAnyUtil RoundFacts RoundSum RoundVE RoundSigned RoundSVE RoundTrain NetVE.
Import ListNotations.
Open Scope R_scope.
Local Opaque bpow.

(** ** Sums over several variables *)
Lemma grow_safe_rest b v vs : safe (grow b (v :: vs)) -> safe (grow (bsum b (v_outcomes v)) vs).
Proof.
  intros (H1 & H2 & H3). unfold grow, bsum in *. cbn [b_k b_lo b_hi sum_steps outcomes_product] in *. split; auto. split; cbn [b_k b_hi].
  - apply Rle_trans with (2 := H2). right. ring.
  - eapply few_mono; [|exact H3]. lia.
Qed.
Lemma grow_safe_none b vs : 1 <= b_hi b -> (forall u, In u vs -> (0 < v_outcomes u)%nat) -> safe (grow b vs) -> safe b.
Proof.
  intros Hb Hpos (H1 & H2 & H3). unfold grow in *. cbn [b_k b_lo b_hi] in *. split; auto. split; cbn [b_k b_hi].
  - apply Rle_trans with (2 := H2). pose proof (outcomes_product_ge1 vs Hpos).
    rewrite <- (Rmult_1_r (b_hi b)) at 1. apply Rmult_le_compat_l; lra.
  - eapply few_mono; [|exact H3]. lia.
Qed.
Lemma bsum_sane b n : sane b -> (0 < n)%nat -> sane (bsum b n).
Proof.
  intros [H1 H2] Hn. assert (1 <= INR n). { change 1 with (INR 1). apply le_INR. auto. }
  unfold bsum. split; cbn [b_lo b_hi]; [lra|nra].
Qed.
Lemma grow_sane b vs : sane b -> (forall u, In u vs -> (0 < v_outcomes u)%nat) -> sane (grow b vs).
Proof.
  intros [H1 H2] Hp. pose proof (outcomes_product_ge1 vs Hp). unfold grow. split; cbn [b_lo b_hi]; [lra|nra].
Qed.
Lemma sum_proper F (v : variable) : proper F -> proper (fun b => qsum (map (fun k => F (upd b (v_id v) k)) (seq 0 (v_outcomes v)))).
Proof. intros HF a b E. apply qsum_ext. intros k _. apply HF. apply asg_eq_upd. auto. Qed.
Lemma total_last G u r a : proper G -> wf_vars (u :: r) ->
  total (fun b => qsum (map (fun k => G (upd b (v_id u) k)) (seq 0 (v_outcomes u)))) r a = total G (u :: r) a.
Proof.
  intros HG Hw. rewrite (total_perm G (u :: r) (r ++ [u])); auto; [|apply Permutation_cons_append].
  rewrite total_app. apply total_ext. intros w _. rewrite total_cons. apply qsum_ext. intros k _. rewrite total_nil. auto.
Qed.
Lemma sapprox_sums V U : wf_vars V -> incl U V -> wf_vars U -> (forall v, In v V -> (0 < v_outcomes v)%nat) ->
  forall (F : asg -> f64) G M b, proper G -> proper M -> sane b -> safe (grow b U) ->
  (forall a, in_range V a -> sapprox b (F a) (G a) (M a)) ->
  forall a, in_range V a -> sapprox (grow b U) (sums_at F U a) (total G U a) (total M U a).
Proof.
  intros HV. induction U as [|u U IH]; intros Hi Hw Hpos F G M b HG HM Hs Hsafe HF a Ha.
  - simpl sums_at. rewrite !total_nil. eapply sapprox_mono; [| | |apply HF; auto]; unfold grow; cbn [b_k b_lo b_hi sum_steps outcomes_product]; [lia|lra|lra].
  - assert (Hu : In u V) by (apply Hi; simpl; auto). assert (Hpu := Hpos u Hu). simpl sums_at.
    rewrite <- !total_last by auto.
    assert (Hw' : wf_vars U) by (inversion Hw; auto).
    assert (Hn1 : 1 <= INR (v_outcomes u)). { change 1 with (INR 1). apply le_INR. auto. }
    assert (Hsb : safe (bsum b (v_outcomes u))).
    { apply grow_safe_none with U; [apply bsum_sane; auto| |apply grow_safe_rest; auto]. intros x Hx. apply Hpos, Hi. simpl; auto. }
    eapply sapprox_mono; [| | |apply (IH (fun x Hx => Hi x (or_intror Hx)) Hw' Hpos _ _ _ (bsum b (v_outcomes u)))]; auto.
    + unfold grow, bsum. cbn [b_k sum_steps]. lia.
    + unfold grow, bsum. cbn [b_lo]. lra.
    + unfold grow, bsum. cbn [b_hi outcomes_product]. right. ring.
    + apply sum_proper. auto.
    + apply sum_proper. auto.
    + apply bsum_sane; auto.
    + apply grow_safe_rest. auto.
    + intros c Hc. set (n := v_outcomes u) in *.
      set (ts := map (fun k => (F (upd c (v_id u) k), G (upd c (v_id u) k), M (upd c (v_id u) k))) (seq 0 n)).
      assert (El : length ts = n) by (unfold ts; rewrite map_length, seq_length; auto).
      pose proof (sapprox_sum b ts) as P. rewrite El in P. unfold ts in P. rewrite !map_map in P. apply P; auto. clear P.
      rewrite Forall_forall. intros t Ht. apply in_map_iff in Ht. destruct Ht as (k & <- & Hk). cbn [e_x e_q e_m fst snd].
      apply in_seq in Hk. apply HF. apply in_range_upd'; auto. fold n. lia.
Qed.

(** Summing variables out leaves a function of the others. *)
Lemma local_total F vs us : forall ws, local vs F -> (forall v, In v vs -> In (v_id v) (map v_id us) \/ In (v_id v) (map v_id ws)) -> local ws (total F us).
Proof.
  induction us as [|u us IH]; intros ws HF H a b Hab.
  - rewrite !total_nil. apply HF. intros v Hv. destruct (H v Hv) as [[]|Hin]. apply in_map_iff in Hin. destruct Hin as (w & <- & Hw). auto.
  - rewrite !total_cons. apply qsum_ext. intros k _. apply (IH (u :: ws)); auto.
    + intros v Hv. destruct (H v Hv) as [[E|Hin]|Hin]; simpl; auto.
    + intros v [<-|Hv]; [rewrite !upd_same; auto|]. unfold upd. destruct (v_id v =? v_id u)%Z; auto.
Qed.

(** ** The sum of the utilities *)
Definition weight_at (V : list variable) (w : option (list Qc)) (i : sitem) : Qc :=
  match w with
  | None => 1%Qc
  | Some l => nth (Z.to_nat (index_func (contains_var (f_vars (s_f i))) (utilities_of V))) l 0%Qc
  end.
Definition abs_weights (w : option (list Qc)) : option (list Qc) := option_map (map Qcabs) w.
Definition utility_at (V : list variable) (w : option (list Qc)) (g : sitem -> asg -> Qc) (l : list sitem) (a : asg) : Qc :=
  qsum (map (fun i => weight_at V w i * g i a)%Qc l).
(** Float64 weights and the exact ones. *)
Definition near_weights (V : list variable) (b : bound) (w : option (list f64)) (wq : option (list Qc)) : Prop :=
  match w, wq with
  | None, None => True
  | Some l, Some lq => length l = length (utilities_of V) /\ Forall2 (fun x q => sapprox b x q (Qcabs q)) l lq
  | _, _ => False
  end.
Lemma abs_weight V w i : weight_at V (abs_weights w) i = Qcabs (weight_at V w i).
Proof.
  destruct w as [l|]; simpl; [|symmetry; apply Qcabs_pos; discriminate]. 
  assert (E : Qcabs 0 = 0%Qc) by (apply Qcabs_pos; discriminate). rewrite <- E at 1. apply map_nth.
Qed.
Lemma Forall2_nth {X Y} (R : X -> Y -> Prop) l m dx dy i : Forall2 R l m -> (i < length l)%nat -> R (nth i l dx) (nth i m dy).
Proof. intros H. revert i. induction H; simpl; intros i Hi; [lia|]. destruct i; auto. apply IHForall2. lia. Qed.

Lemma scaled_near V bw w wq i a : sane bw -> near_weights V bw w wq -> sitem_ok V i -> incl (f_vars (s_f i)) V -> is_utility_factor (s_f i) = true ->
  safe (bprod [s_b i; bw]) -> in_range V a ->
  sapprox (bprod [s_b i; bw]) (scaled_at V w (s_f i) a) (weight_at V wq i * s_q i a)%Qc (Qcabs (weight_at V wq i) * s_m i a)%Qc.
Proof.
  intros Hsw Hw (Hsi & _ & _ & Hi) Hin Hu Hsafe Ha. specialize (Hi a Ha). destruct w as [l|], wq as [lq|]; try contradiction.
  - destruct Hw as [Hl H2]. unfold scaled_at, weight_at.
    pose proof (any_first_utility V (s_f i) Hin) as [_ Hix]. specialize (Hix Hu).
    set (j := Z.to_nat _). assert (Hj : (j < length l)%nat) by (rewrite Hl; unfold j, zlen in *; lia).
    pose proof (Forall2_nth _ l lq n0 0%Qc j H2 Hj) as Hwj.
    pose proof (sapprox_prod [(s_b i, (fv (s_f i) a, s_q i a, s_m i a)); (bw, (nth j l n0, nth j lq 0%Qc, Qcabs (nth j lq 0%Qc)))]) as P.
    cbn [map fst snd e_x e_q e_m fold_left qprod] in P.
    replace (nth j lq 0 * s_q i a)%Qc with (s_q i a * (nth j lq 0 * 1))%Qc by ring.
    replace (Qcabs (nth j lq 0) * s_m i a)%Qc with (s_m i a * (Qcabs (nth j lq 0) * 1))%Qc by ring.
    apply P; auto.
  - unfold scaled_at, weight_at. replace (1 * s_q i a)%Qc with (s_q i a) by ring. rewrite Qcabs_pos by discriminate.
    replace (1 * s_m i a)%Qc with (s_m i a) by ring. destruct Hsi as [H1 H2], Hsw as [H3 H4].
    eapply sapprox_mono; [| | |exact Hi]; unfold bprod; cbn [b_k b_lo b_hi map fold_right list_sum]; simpl; try lia; nra.
Qed.
Lemma add_near b xs (ts : list entry3) : sane b -> (0 < length ts)%nat -> safe (bsum b (length ts)) -> xs = map e_x ts ->
  Forall (fun t => sapprox b (e_x t) (e_q t) (e_m t)) ts ->
  sapprox (bsum b (length ts)) (add_at xs) (qsum (map e_q ts)) (qsum (map e_m ts)).
Proof.
  intros Hs Hn Hsafe -> Hf. destruct (sapprox_sum b ts Hs Hn Hsafe Hf) as [_ P]. unfold add_at. destruct ts as [|t [|u ts]]; auto.
  clear P. cbn [map]. inversion Hf; subst. replace (qsum [e_q t]) with (e_q t) by (simpl; ring). replace (qsum [e_m t]) with (e_m t) by (simpl; ring). destruct Hs.
  eapply sapprox_mono; [| | |eassumption]; unfold bsum; cbn [b_k b_lo b_hi List.length]; [lia|lra|simpl; lra].
Qed.

(** The new factor that holds the sum of the utilities. *)
Definition bound_utility (bu bw : bound) (n : nat) (U : list variable) : bound := grow (bsum (bprod [bu; bw]) n) U.
Definition total_item (V : list variable) (bu bw : bound) (wq : option (list Qc)) (l : list sitem) (f : factor f64) : sitem :=
  mkSI (bound_utility bu bw (length l) (utilities_of V)) f
    (total (utility_at V wq s_q l) (utilities_of V)) (total (utility_at V (abs_weights wq) s_m l) (utilities_of V)).
Lemma utility_local V w g l vs : localized g l -> (forall i v, In i l -> In v (f_vars (s_f i)) -> In v vs) -> local vs (utility_at V w g l).
Proof.
  intros Hl Hv a b Hab. unfold utility_at. apply qsum_ext. intros i Hi. f_equal. unfold localized in Hl. rewrite Forall_forall in Hl.
  apply (Hl i Hi). intros v Hvi. apply Hab. eapply Hv; eauto.
Qed.
Lemma utility_proper V w g l : localized g l -> proper (utility_at V w g l).
Proof. intros Hl a b E. apply (utility_local V w g l (flat_map (fun i => f_vars (s_f i)) l)); auto. intros i v Hi Hv. apply in_flat_map. eauto. Qed.
Lemma total_item_ok V bu bw w wq l f us :
  wf_vars V -> (forall v, In v V -> (0 < v_outcomes v)%nat) -> sane bu -> sane bw -> near_weights V bw w wq ->
  (0 < length l)%nat -> Forall (sitem_ok V) l -> Forall (fun i => s_b i = bu /\ incl (f_vars (s_f i)) V /\ is_utility_factor (s_f i) = true) l ->
  Permutation us (map s_f l) ->
  (forall u, In u V -> (In u (f_vars f) <-> (exists g, In g (map s_f l) /\ In u (f_vars g)) /\ v_type u <> Utility)) ->
  (forall a, in_range V a -> fv f a = sums_at (fun b => add_at (map (fun f => scaled_at V w f b) us)) (utilities_of V) a) ->
  safe (bound_utility bu bw (length l) (utilities_of V)) ->
  sitem_ok V (total_item V bu bw wq l f).
Proof.
  intros HV Hpos Hsu Hsw Hw Hn Hok Hl Hp Hsc Hval Hsafe. unfold bound_utility in *.
  assert (HiU : incl (utilities_of V) V) by (intros v Hv; apply filter_In in Hv; tauto).
  assert (HwU : wf_vars (utilities_of V)) by (apply NoDup_filter_map; auto).
  assert (HpU : forall u, In u (utilities_of V) -> (0 < v_outcomes u)%nat) by (intros; apply Hpos, HiU; auto).
  assert (Hsb : sane (bprod [bu; bw])) by (apply bprod_sane; constructor; [auto|]; constructor; [auto|]; constructor).
  destruct (ok_localized V l Hok) as [Lq Lm].
  assert (L : forall w g, localized g l -> local (f_vars f) (total (utility_at V w g l) (utilities_of V))).
  { intros w' g Lg. apply (local_total _ (flat_map (fun i => f_vars (s_f i)) l)).
    - apply utility_local; auto. intros i v Hi Hv. apply in_flat_map. eauto.
    - intros v Hv. apply in_flat_map in Hv. destruct Hv as (i & Hi & Hv). rewrite Forall_forall in Hl.
      assert (HvV : In v V) by (apply (Hl i Hi); auto).
      destruct (nodeType_eqb (v_type v) Utility) eqn:Et.
      + left. apply in_map. apply filter_In. auto.
      + right. apply in_map. apply Hsc; auto. split; [exists (s_f i); split; auto; apply in_map; auto|].
        intros E. rewrite E in Et. discriminate. }
  split; [apply grow_sane; [apply bsum_sane|]; auto|]. split; [apply L; auto|]. split; [apply L; auto|].
  intros a Ha. cbn [s_b s_f s_q s_m total_item]. rewrite Hval by auto. unfold bound_utility.
  assert (Hsb2 : safe (bsum (bprod [bu; bw]) (length l))) by (apply grow_safe_none with (utilities_of V); auto; apply bsum_sane; auto).
  assert (Hsb1 : safe (bprod [bu; bw])).
  { destruct Hsb2 as (H1 & H2 & H3). split; auto. assert (Hn1 : 1 <= INR (length l)). { change 1 with (INR 1). apply le_INR. auto. }
    destruct Hsb as [_ Hh]. split; [|eapply few_mono; [|exact H3]; unfold bsum; cbn [b_k]; lia].
    apply Rle_trans with (2 := H2). unfold bsum. cbn [b_hi]. nra. }
  apply (sapprox_sums V); auto; [apply utility_proper; auto|apply utility_proper; auto|apply bsum_sane; auto|].
  intros b Hb. apply Permutation_map_inv in Hp. destruct Hp as (l' & -> & Hp).
  rewrite (Permutation_length Hp).
  set (ts := map (fun i => (scaled_at V w (s_f i) b, (weight_at V wq i * s_q i b)%Qc, (Qcabs (weight_at V wq i) * s_m i b)%Qc)) l').
  assert (El : length ts = length l') by (unfold ts; apply map_length).
  assert (Eq : utility_at V wq s_q l b = qsum (map e_q ts)).
  { unfold utility_at, ts. rewrite map_map. apply qsum_perm. apply Permutation_map. auto. }
  assert (Em : utility_at V (abs_weights wq) s_m l b = qsum (map e_m ts)).
  { unfold utility_at, ts. rewrite map_map. rewrite (qsum_ext _ (fun i => Qcabs (weight_at V wq i) * s_m i b)%Qc) by (intros; rewrite abs_weight; auto).
    apply qsum_perm. apply Permutation_map. auto. }
  rewrite Eq, Em, <- El. apply add_near; auto.
  - rewrite El, <- (Permutation_length Hp). auto.
  - rewrite El, <- (Permutation_length Hp). auto.
  - unfold ts. rewrite !map_map. auto.
  - rewrite Forall_forall in *. intros t Ht. apply in_map_iff in Ht. destruct Ht as (i & <- & Hi). cbn [e_x e_q e_m fst snd].
    assert (Hil : In i l) by (eapply Permutation_in; [apply Permutation_sym|]; eauto). destruct (Hl i Hil) as (E & H2 & H3). rewrite <- E.
    apply scaled_near; auto. rewrite E. auto.
Qed.

(** ** SolveUtility for all utility variables *)
Lemma utility_plug V evs w l l' l'' : wf_vars V -> valid_evidence V evs -> Forall (fun i => incl (f_vars (s_f i)) V) l ->
  Forall (fun i => incl (f_vars (s_f i)) V) l'' -> Forall2 (plugged V evs) l l'' -> Permutation l'' l' ->
  forall a, utility_at V w s_q l' a = utility_at V w s_q l (plug evs a) /\ utility_at V w s_m l' a = utility_at V w s_m l (plug evs a).
Proof.
  intros HV He Hi Hi2 H2 Hp a. unfold utility_at.
  rewrite <- (qsum_perm _ _ (Permutation_map (fun i => weight_at V w i * s_q i a)%Qc Hp)), <- (qsum_perm _ _ (Permutation_map (fun i => weight_at V w i * s_m i a)%Qc Hp)).
  clear Hp. induction H2 as [|i i' l1 l2 (_ & Eq & Em & Hr) _ IH]; [split; reflexivity|]. inversion Hi; inversion Hi2; subst.
  assert (Ew : weight_at V w i' = weight_at V w i).
  { unfold weight_at. destruct w; auto. f_equal. f_equal. symmetry. eapply any_plug_index; eauto. }
  destruct IH as [I1 I2]; auto. cbn [map qsum]. rewrite Ew, Eq, Em. cbn [map] in *. simpl. rewrite I1, I2. auto.
Qed.
Theorem tracked_utility sc t vs (fs : list (factor f64)) deps w wq evs query l lu bu bw :
  ve_problem vs [] deps -> (forall v, In v (vs_vars vs) -> (0 < v_outcomes v)%nat) ->
  (forall f, In f fs -> sound_factor (vs_vars vs) (vs_counter vs) f) -> NoDup (map f_id fs) ->
  valid_evidence (vs_vars vs) evs ->
  let V := vs_vars vs in
  let H := hidden_in V deps evs query in
  let U := utilities_of V in
  prob_factors fs = map s_f l -> Forall (sitem_ok V) l ->
  utility_factors fs = map s_f lu -> Forall (sitem_ok V) lu -> Forall (fun i => s_b i = bu) lu -> sane bu -> sane bw ->
  near_weights V bw w wq -> U <> [] ->
  (forall h, In h (U ++ H) -> exists f, In f fs /\ In h (f_vars f)) ->
  let B := grow (bprod (map s_b l ++ [bound_utility bu bw (length lu) U])) H in
  safe B ->
  exists s' f, ve_solve_utility sc (ve_new t vs fs deps w) evs query None = Ok (s', f) /\
    wf_factor f /\ incl (f_vars f) V /\
    (forall v, In v V -> (In v (f_vars f) <-> (exists g, In g fs /\ In v (f_vars g)) /\ is_evidence evs v = false /\ v_type v <> Utility /\ ~ In v H)) /\
    frame (ve_new t vs fs deps w) s' /\ (f_id f < vs_counter (ve_vs s'))%Z /\
    (forall a, in_range V a -> sapprox B (fv f a)
       (total (fun x => prod_at s_q l x * total (utility_at V wq s_q lu) U x)%Qc H (plug evs a))
       (total (fun x => prod_at s_m l x * total (utility_at V (abs_weights wq) s_m lu) U x)%Qc H (plug evs a))).
Proof.
  intros Hpb Hpos Hfs Hids Hev V H U HL Hok HU Huok Hubound Hsu Hsw Hw HneU Hcov B Hsafe.
  assert (HV : wf_vars V) by apply Hpb.
  set (s0 := ve_new t vs fs deps w).
  assert (Hl0 : live s0 = fs).
  { unfold s0, ve_new, live. simpl. rewrite ve_new_factors by auto. rewrite map_map. simpl. apply map_id. }
  assert (Hg0 : sound V s0).
  { constructor; unfold s0, ve_new; simpl.
    - rewrite ve_new_factors by auto. intros e He. apply in_map_iff in He. destruct He as (f & <- & Hin). auto.
    - unfold live. simpl. rewrite ve_new_factors by auto. intros f Hin. rewrite map_map in Hin. simpl in Hin. rewrite map_id in Hin. apply Hfs. auto.
    - rewrite ve_new_factors by auto. rewrite map_map. auto. }
  unfold ve_solve_utility, ve_solve.
  destruct (any_eliminate_evidence sc V HV evs s0) as (s1 & E1 & Hg1 & Hf1 & Hel1 & Hm1); auto.
  rewrite E1. cbn [gbind]. rewrite Hl0 in Hm1.
  assert (EU : utility_vars s1 = U). { unfold utility_vars, U, utilities_of. rewrite (fr_vars _ _ Hf1). auto. }
  assert (Hle : length (ve_elim s1) = length V) by (rewrite Hel1; simpl; apply repeat_length).
  assert (HiU : incl U V) by (intros v Hv; apply filter_In in Hv; tauto).
  assert (HevU : forall u, In u U -> is_evidence evs u = false).
  { intros u Hu. apply filter_In in Hu. destruct Hu as [Hu Ht]. apply nodeType_eqb_spec in Ht. apply not_true_iff_false. intros He. apply existsb_exists in He. destruct He as (ev & Hin & Eid).
    destruct (Hev ev Hin) as (H1 & H2 & _). apply H2. replace (ev_var ev) with u; auto. eapply wf_vars_inj; eauto. lia. }
  destruct (any_sum_utilities sc V s1 w) as (s2 & tot & us & E2 & Hg2 & Hf2 & Hle2 & Hel2 & Hl2 & Hst & Hp2 & Hv2); auto.
  { apply Hpb. }
  { rewrite (fr_weights _ _ Hf1). auto. }
  { destruct w as [ws|]; auto. destruct wq; [|contradiction]. apply Hw. }
  { intros u Hu. apply (any_plug_scope V evs fs (live s1)); auto. split; auto. apply Hcov. apply in_or_app; auto. }
  assert (Hpu : matched (any_rel_plug V evs) (prob_factors fs) (prob_factors (live s1)) /\
                matched (any_rel_plug V evs) (utility_factors fs) (utility_factors (live s1))).
  { assert (G : forall x y, In x fs -> In y (live s1) -> any_rel_plug V evs x y -> is_utility_factor x = is_utility_factor y).
    { intros x y Hx Hy HR. eapply any_plug_utility; eauto. apply (Hfs x Hx). apply (s_fac _ _ Hg1 y Hy). }
    split; apply matched_filter; auto. intros x y Hx Hy HR. f_equal. auto. }
  destruct Hpu as [Hmp Hmu]. rewrite HL in Hmp. rewrite HU in Hmu.
  assert (Hinc : forall f, In f fs -> incl (f_vars f) V) by (intros f Hf; apply (Hfs f Hf)).
  assert (Hlin : Forall (fun i => incl (f_vars (s_f i)) V) l).
  { rewrite Forall_forall. intros i Hi. apply Hinc. assert (Hin : In (s_f i) (prob_factors fs)) by (rewrite HL; apply in_map; auto). apply filter_In in Hin. tauto. }
  assert (Huin : Forall (fun i => incl (f_vars (s_f i)) V) lu).
  { rewrite Forall_forall. intros i Hi. apply Hinc. assert (Hin : In (s_f i) (utility_factors fs)) by (rewrite HU; apply in_map; auto). apply filter_In in Hin. tauto. }
  destruct (sitems_plug V evs l (prob_factors (live s1))) as (lp & lp2 & Elp & Hokp & Hpp & H2p); auto.
  destruct (sitems_plug V evs lu (utility_factors (live s1))) as (lv & lv2 & Elv & Hokv & Hpv & H2v); auto.
  assert (Hlen : length lv = length lu).
  { rewrite <- (Permutation_length Hpv). clear -H2v. induction H2v; simpl; auto. }
  assert (Hvin : Forall (fun i => s_b i = bu /\ incl (f_vars (s_f i)) V /\ is_utility_factor (s_f i) = true) lv).
  { rewrite Forall_forall. intros i Hi. assert (Hin : In (s_f i) (utility_factors (live s1))) by (rewrite Elv; apply in_map; auto).
    apply filter_In in Hin. destruct Hin as [Hin Hut]. split; [|split; auto; apply (s_fac _ _ Hg1 _ Hin)].
    apply (Permutation_in _ (Permutation_sym Hpv)) in Hi. destruct (NetVE.Forall2_in_r _ _ _ _ H2v Hi) as (j & Hj & Hb & _). rewrite Hb.
    rewrite Forall_forall in Hubound. auto. }
  assert (Hv2in : Forall (fun i => incl (f_vars (s_f i)) V) lv2).
  { eapply Permutation_Forall; [apply Permutation_sym; exact Hpv|]. eapply Forall_impl; [|exact Hvin]. simpl. tauto. }
  assert (Hpos_lu : (0 < length lv)%nat).
  { destruct U as [|u U'] eqn:Eu; [congruence|]. destruct (Hcov u) as (f & Hf & Hu); [simpl; auto|].
    assert (HuU : In u (utilities_of V)) by (fold U; rewrite Eu; simpl; auto). apply filter_In in HuU. destruct HuU as [_ HuU]. apply nodeType_eqb_spec in HuU.
    assert (Hfu : In f (utility_factors fs)) by (apply filter_In; split; auto; apply any_is_utility; eauto).
    rewrite HU in Hfu. rewrite Hlen. destruct lu; [contradiction|simpl; lia]. }
  assert (HpU : forall u, In u U -> (0 < v_outcomes u)%nat) by (intros; apply Hpos, HiU; auto).
  assert (HiH : incl H V) by (intros v Hv; apply filter_In in Hv; tauto).
  assert (HpH : forall u, In u H -> (0 < v_outcomes u)%nat) by (intros; apply Hpos, HiH; auto).
  assert (HwU : wf_vars U) by (apply NoDup_filter_map; auto).
  set (bt := bound_utility bu bw (length lu) U) in *.
  assert (Hst_sane : sane bt).
  { apply grow_sane; auto. apply bsum_sane; [|rewrite <- Hlen; auto]. apply bprod_sane; constructor; [auto|]; constructor; [auto|]; constructor. }
  assert (Hls : Forall sane (map s_b l)).
  { rewrite Forall_forall in *. intros b Hb. apply in_map_iff in Hb. destruct Hb as (i & <- & Hi). apply (Hok i Hi). }
  assert (HsafeP : safe (bprod (map s_b l ++ [bt]))).
  { apply grow_safe_none with H; auto. apply bprod_sane. apply Forall_app. split; auto. }
  assert (HsafeT : safe bt).
  { rewrite bprod_app in HsafeP. simpl map in HsafeP. rewrite bprod_one in HsafeP. destruct (bprod_sane _ Hls) as [[S1 S2] S3]. destruct Hst_sane as [[T1 T2] T3].
    destruct HsafeP as (H1 & H2 & H3). cbn [b_k b_lo b_hi] in *. split; [|split].
    - apply Rle_trans with (1 := H1). nra.
    - apply Rle_trans with (2 := H2). nra.
    - eapply few_mono; [|exact H3]. lia. }
  assert (Htot : sitem_ok V (total_item V bu bw wq lv tot)).
  { apply (total_item_ok V bu bw w wq lv tot us); auto.
    - rewrite <- Elv. auto.
    - intros u Hu. rewrite <- Elv. auto.
    - rewrite Hlen. auto. }
  set (l2 := lp ++ [total_item V bu bw wq lv tot]).
  assert (Eb2 : sbudget l2 = bprod (map s_b l ++ [bt])).
  { unfold l2, sbudget. rewrite map_app. rewrite !bprod_app. fold (sbudget lp). rewrite (plugged_budget V evs l lp lp2) by auto. simpl map. unfold total_item. cbn [s_b]. rewrite Hlen. reflexivity. }
  assert (Hfr2 : frame s0 s2) by (eapply frame_trans; eauto).
  assert (Hne : forall v, In v H -> is_evidence evs v = false).
  { intros v Hv. apply filter_In in Hv. rewrite !andb_true_iff in Hv. apply negb_true_iff. tauto. }
  assert (Hnu : forall v, In v H -> v_type v <> Utility).
  { intros v Hv. apply filter_In in Hv. rewrite !andb_true_iff in Hv. destruct Hv as [_ [[[Hv _] _] _]]. apply nodeType_eqb_spec in Hv. congruence. }
  assert (Hsc2 : forall v, In v V -> (in_scope s2 v <-> (exists g, In g fs /\ In v (f_vars g)) /\ is_evidence evs v = false /\ v_type v <> Utility)).
  { assert (Hsc1 : forall u, In u V -> (in_scope s1 u <-> (exists f, In f fs /\ In u (f_vars f)) /\ is_evidence evs u = false)) by (intros x Hx; apply (any_plug_scope V evs fs (live s1)); auto).
    intros u Hu. split.
    - intros (f & Hf & Huf). rewrite Hl2, in_app_iff in Hf. destruct Hf as [Hf|[<-|[]]].
      + apply filter_In in Hf. destruct Hf as [Hf Hnot]. destruct (proj1 (Hsc1 u Hu)) as [Ha Hb]; [exists f; auto|].
        split; auto. split; auto. intros Ht. apply negb_true_iff in Hnot. assert (is_utility_factor f = true) by (apply any_is_utility; eauto). congruence.
      + apply Hst in Huf; auto. destruct Huf as [(f & Hf & Huf) Ht]. apply filter_In in Hf.
        destruct (proj1 (Hsc1 u Hu)) as [Ha Hb]; [exists f; tauto|]. auto.
    - intros (Hf & He & Ht). destruct (proj2 (Hsc1 u Hu)) as (f & Hf' & Huf); [auto|].
      destruct (any_utility_or_prob _ _ Hf') as [Hp|Hp].
      + exists f. split; auto. rewrite Hl2. apply in_app_iff. auto.
      + exists tot. split. { rewrite Hl2. apply in_app_iff. simpl; auto. } apply Hst; auto. split; auto. exists f. auto. }
  rewrite E2. cbn [gbind].
  destruct (stracked_finish sc vs deps s2 evs query l2) as (s' & f & E3 & Hw3 & Hi3 & Hvs3 & Hf3 & Hc3 & Hval3); auto.
  { constructor; auto.
    - rewrite Hl2, Elp. unfold l2. rewrite map_app. auto.
    - unfold l2. apply Forall_app. split; auto. }
  { rewrite (fr_vars _ _ Hfr2). auto. }
  { rewrite (fr_deps _ _ Hfr2). auto. }
  { intros i v Hi Ht. rewrite Hel2, Hel1. simpl. rewrite nth_repeat. simpl. apply not_true_iff_false. intros Hx. apply existsb_exists in Hx.
    destruct Hx as (u & Hu & E). apply Nat.eqb_eq in E. apply filter_In in Hu. destruct Hu as [Hu Htu]. apply nodeType_eqb_spec in Htu.
    apply In_nth_error in Hu. destruct Hu as (j & Hj). pose proof (vp_index _ _ _ Hpb _ _ Hj). fold V in Hi. congruence. }
  { intros v Hv. apply Hsc2; auto. split; [|split; auto]. apply Hcov. apply in_or_app. auto. }
  { rewrite Eb2. auto. }
  exists s', f. split; auto. do 2 (split; auto). split.
  { intros v Hv. rewrite Hvs3, Hsc2 by auto. fold V. fold H. tauto. }
  split; [eapply frame_trans; eauto|]. split; auto.
  intros a Ha. specialize (Hval3 a Ha). rewrite Eb2 in Hval3. fold V in Hval3. fold H in Hval3.
  destruct (ok_localized V l Hok) as [Lq Lm]. destruct (ok_localized V lu Huok) as [Lqu Lmu].
  assert (G : forall g wg, localized g l -> localized g lu -> (forall b, prod_at g lp b = prod_at g l (plug evs b)) ->
      (forall b, utility_at V wg g lv b = utility_at V wg g lu (plug evs b)) ->
      g (total_item V bu bw wq lv tot) = total (utility_at V wg g lv) U ->
      total (prod_at g l2) H a = total (fun x => prod_at g l x * total (utility_at V wg g lu) U x)%Qc H (plug evs a)).
  { intros g wg Lg Lgu Eg Eu Et. rewrite <- total_plug; auto.
    - apply (total_ext_range _ _ V); auto. intros b Hb. unfold l2. rewrite prod_app, Eg. f_equal. unfold prod_at. simpl. rewrite Et.
      rewrite <- total_plug; auto; [|apply utility_proper; auto]. rewrite Qcmult_comm, Qcmult_1_l. apply total_ext. auto.
    - intros x y E. rewrite (prod_proper g l Lg x y E). f_equal. apply total_proper; auto. apply utility_proper. auto. }
  rewrite <- (G s_q wq), <- (G s_m (abs_weights wq)); auto.
  - intros b; apply (plugged_prod V evs l lp lp2); auto.
  - intros b; apply (utility_plug V evs (abs_weights wq) lu lv lv2); auto.
  - intros b; apply (plugged_prod V evs l lp lp2); auto.
  - intros b; apply (utility_plug V evs wq lu lv lv2); auto.
Qed.
