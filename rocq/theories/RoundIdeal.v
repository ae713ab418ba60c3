(** Policies with equal weights on the best options: the float64 policies and the exact ones. *)
From Coq Require Import ZArith List Bool String Lia Permutation QArith Qcanon Qcabs Reals Lra Qreals.
From Coq Require Import Floats.SpecFloat.
From Flocq Require Import Core.Core IEEE754.BinarySingleNaN.
From Verif Require Import Num GoBase VarModel GoFacts SpecFactor Tuples FactorFacts FactorSum FactorProd FactorPolicy FactorAt XnumFacts ExactFactor
  FactorThms VEModel SpecVE VEWorlds VEFacts VETopo VEHidden VESolve VEThms VEUtil NetModel SpecNet NetVars NetFactors NetVE NetSums NetQuery
  VEAny RoundFacts RoundSum RoundVE SpecRound RoundNet SpecTrain RoundTrain.
Import ListNotations.
Open Scope string_scope.
Open Scope list_scope.
Open Scope R_scope.
Local Opaque bpow.

#[local] Existing Instance prec_pos.
#[local] Existing Instance prec_emax.
#[local] Existing Instance fexp64_valid.

(** ** One over a small integer *)

Lemma one_over (k : nat) : (1 <= k)%nat -> (Z.of_nat k < 2 ^ 53)%Z ->
  stored (ndiv n1 (nofint (Z.of_nat k)) : f64) /\ is_finite_SF (ndiv n1 (nofint (Z.of_nat k)) : f64) = true /\
  SF2R radix2 (ndiv n1 (nofint (Z.of_nat k)) : f64) = rnd (1 / IZR (Z.of_nat k)).
Proof.
  intros H1 H2. set (b := Z.of_nat k) in *. destruct (int64_correct 1) as (A1 & A2 & _); [reflexivity|]. destruct (int64_correct b) as (B1 & B2 & _); [lia|].
  change (ndiv n1 (nofint b) : f64) with (SFdiv 53 1024 (f64_of_int 1) (f64_of_int b)). rewrite !int64_spec, div_B.
  assert (Hb0 : IZR b <> 0) by (apply IZR_neq; lia).
  pose proof (Bdiv_correct 53 1024 prec_pos prec_emax mode_NE (int64 1) (int64 b)) as D. rewrite B1 in D. specialize (D Hb0). rewrite A1 in D. cbn [round_mode] in D.
  assert (Hq : 0 <= 1 / IZR b <= 1).
  { assert (1 <= IZR b) by (apply IZR_le; lia). split.
    - unfold Rdiv. apply Rmult_le_pos; [lra|]. left. apply Rinv_0_lt_compat. lra.
    - apply Rmult_le_reg_r with (IZR b); [lra|]. unfold Rdiv. rewrite Rmult_assoc, Rinv_l by auto. lra. }
  assert (Hr : 0 <= rnd (1 / IZR b) <= 1).
  { split.
    - rewrite <- (round_0 radix2 fexp64 ZnearestE). apply round_le; auto with typeclass_instances. apply Hq.
    - apply Rle_trans with (rnd 1); [apply round_le; auto with typeclass_instances; apply Hq|]. right. apply (rnd_int 1). reflexivity. }
  rewrite Rlt_bool_true in D.
  2: { rewrite Rabs_pos_eq by tauto. apply Rle_lt_trans with 1; [tauto|]. change 1 with (bpow radix2 0). apply bpow_lt. reflexivity. }
  destruct D as (D1 & D2 & _). rewrite A2 in D2. split; [apply B_stored|]. split; [rewrite is_finite_SF_B2SF; exact D2|].
  rewrite SF2R_B. exact D1.
Qed.

Lemma bpow_format z : (-1000 <= z <= 1000)%Z -> generic_format radix2 fexp64 (bpow radix2 z).
Proof.
  intros H. apply generic_format_bpow. unfold SpecFloat.fexp, SpecFloat.emin. lia.
Qed.

(** The exact weight [1 / k] and its float64. *)
Definition uniform_pair (m : nat) (x : f64) (q : xnum) : Prop :=
  x = n0 /\ q = Fin 0%Qc \/
  exists k, (1 <= k <= m)%nat /\ x = ndiv n1 (nofint (Z.of_nat k)) /\ q = Fin (1 / qz (Z.of_nat k))%Qc.

Lemma near_int (k : nat) : (Z.of_nat k < 2 ^ 53)%Z -> near 0 (nofint (Z.of_nat k)) (qz (Z.of_nat k)).
Proof.
  intros H. destruct (int64_correct (Z.of_nat k)) as (B1 & B2 & _); [lia|]. change (nofint (Z.of_nat k) : f64) with (f64_of_int (Z.of_nat k)). rewrite int64_spec.
  split; [apply B_stored|]. rewrite is_finite_SF_B2SF, SF2R_B, B1, qr_qz, B2. split; auto. assert (0 <= IZR (Z.of_nat k)) by (apply IZR_le; lia).
  split; auto. simpl. lra.
Qed.

Lemma uniform_number m e x q : uniform_pair m x q -> (Z.of_nat m <= 2 ^ Z.of_nat e)%Z -> (e <= 1000)%nat -> (Z.of_nat m < 2 ^ 53)%Z ->
  stored x /\ exists r r', f64_exact x = Fin r /\ q = Fin r' /\ near 1 x r' /\
    (r = 0%Qc \/ bpow radix2 (- Z.of_nat e) <= qr r <= 1) /\ (r' = 0%Qc \/ bpow radix2 (- Z.of_nat e) <= qr r' <= 1).
Proof.
  intros [[-> ->]|(k & Hk & -> & ->)] He Hb Hm.
  - split; [reflexivity|]. exists 0%Qc, 0%Qc. do 2 (split; [reflexivity|]). split; [apply near_zero|]. auto.
  - destruct (one_over k ltac:(lia) ltac:(lia)) as (Hs & Hf & Hr). split; auto.
    destruct (exact_of_finite _ Hf) as (r & Er). exists r, (1 / qz (Z.of_nat k))%Qc. split; auto. split; auto.
    assert (Hk0 : qz (Z.of_nat k) <> 0%Qc). { intros E. pose proof (qr_qz (Z.of_nat k)) as E'. rewrite E, qr_0 in E'. symmetry in E'. apply eq_IZR in E'. lia. }
    assert (Hq : qr (1 / qz (Z.of_nat k))%Qc = 1 / IZR (Z.of_nat k)). { rewrite qr_div, qr_1, qr_qz by auto. auto. }
    assert (Hbd : bpow radix2 (- Z.of_nat e) <= 1 / IZR (Z.of_nat k) <= 1).
    { assert (1 <= IZR (Z.of_nat k)) by (apply IZR_le; lia). unfold Rdiv. rewrite Rmult_1_l. split.
      - rewrite bpow_opp. apply Rinv_le; [lra|]. rewrite <- IZR_Zpower by lia. apply IZR_le. simpl radix_val. lia.
      - rewrite <- Rinv_1. apply Rinv_le; lra. }
    split; [|split].
    + assert (H1 : near 1 (ndiv n1 (nofint (Z.of_nat k))) (1 / qz (Z.of_nat k))%Qc).
      { apply (near_div 0 0); auto.
        - apply (near_int 1). reflexivity.
        - apply near_int. lia.
        - rewrite Hq. right. split.
          + apply Rle_trans with (2 := proj1 Hbd). apply bpow_le. lia.
          + apply Rle_trans with 1; [apply Hbd|]. change 1 with (bpow radix2 0). apply bpow_le. lia.
        - apply few_le. simpl. lia. }
      exact H1.
    + right. destruct (SF2R_exact _ _ Er) as [<- _]. rewrite Hr. split.
      * rewrite <- (round_generic radix2 fexp64 ZnearestE (bpow radix2 (- Z.of_nat e))); [|apply bpow_format; lia].
        apply round_le; auto with typeclass_instances. apply Hbd.
      * apply Rle_trans with (rnd 1); [apply round_le; auto with typeclass_instances; apply Hbd|]. right. apply (rnd_int 1). reflexivity.
    + right. rewrite Hq. exact Hbd.
Qed.

(** The policy found by the solver and the exact one. *)
Definition uniform_policy (vars : list nvar) (dp : string * factor f64) (dq : string * factor xnum) : Prop :=
  fst dq = fst dp /\ f_id (snd dq) = f_id (snd dp) /\ f_vars (snd dq) = f_vars (snd dp) /\
  Forall2 (uniform_pair (num_outcomes vars (fst dp))) (f_data (snd dp)) (f_data (snd dq)).

Lemma Forall2_nth_any {X Y} (R : X -> Y -> Prop) l m dx dy : Forall2 R l m -> R dx dy -> forall i, R (nth i l dx) (nth i m dy).
Proof. induction 1; intros Hd i; destruct i; simpl; auto. Qed.

Lemma forall2_length {X Y} (R : X -> Y -> Prop) l m : Forall2 R l m -> List.length l = List.length m.
Proof. induction 1; simpl; auto. Qed.

Lemma uniform_fst vars P Q : Forall2 (uniform_policy vars) P Q -> map fst Q = map fst P.
Proof. induction 1 as [|x y l m H _ IH]; auto. simpl. rewrite (proj1 H). f_equal. auto. Qed.

Lemma uniform_fv vars d p q a : uniform_policy vars (d, p) (d, q) -> uniform_pair (num_outcomes vars d) (fv p a) (fv q a).
Proof.
  intros (_ & _ & Hv & Hd). cbn [fst snd] in *. unfold fv, ft. rewrite Hv. apply Forall2_nth_any; auto. left. auto.
Qed.

Lemma data_get {A} {ops : NumOps A} (f : factor A) a x : get_at f a = Ok x -> In x (f_data f).
Proof.
  unfold get_at, f_get. destruct (f_index f _); try discriminate. cbn [gbind]. intros H. apply sget_inv in H. destruct H as [_ H]. eapply nth_error_In; eauto.
Qed.

Section Ideal.
Variables (n : network f64) (Pq : list (string * factor xnum)) (b : string -> nat) (s : nat).
Notation N := (exact_net n).
Notation M := (with_policies (exact_net n) Pq).
Notation vars := (n_vars n).
Hypothesis HwM : wf_network M.
Hypothesis HU : Forall2 (uniform_policy vars) (n_policies n) Pq.
Hypothesis Hfl : forall f x, In f (n_factors n) -> In x (slice_of (nf_table f)) -> is_float64 x = true.
Hypothesis Hst : in_float_range (with_policies N []) b s.
Hypothesis Hnn : forall f s, In f (chance_factors N) -> (0 <= entry vars f s)%Qc.
Hypothesis Hout : forall d, kind vars d = Some Decision -> (Z.of_nat (num_outcomes vars d) <= 2 ^ Z.of_nat (b d))%Z /\ (b d <= 1000)%nat.
Hypothesis Hsum : (list_sum (map (fun f => b (nf_for f)) (chance_factors N)) + list_sum (map (fun dp => b (fst dp)) (n_policies n)) + s <= 1000)%nat.
Hypothesis Hfew : (Z.of_nat (rounding_steps N) <= 2 ^ 50)%Z.

(** *** The same problem but for the policies *)

Lemma ideal_fst : map fst Pq = map fst (n_policies n).
Proof. eapply uniform_fst; eauto. Qed.

Lemma has_key_fst {X Y} (l : list (string * X)) (m : list (string * Y)) x : map fst l = map fst m -> has_key l x = has_key m x.
Proof.
  intros H. destruct (has_key l x) eqn:E, (has_key m x) eqn:E'; auto.
  - apply has_key_spec in E. rewrite H in E. apply has_key_spec in E. congruence.
  - apply has_key_spec in E'. rewrite <- H in E'. apply has_key_spec in E'. congruence.
Qed.

Lemma ideal_keys x : has_key (n_policies M) x = has_key (n_policies N) x.
Proof. simpl. rewrite exact_keys. apply has_key_fst. apply ideal_fst. Qed.

Lemma ideal_entry iv : ve_entry M iv = ve_entry N iv.
Proof. unfold ve_entry, ve_type. rewrite ideal_keys. auto. Qed.
Lemma ideal_entries : entries M = entries N.
Proof. unfold entries. apply map_ext. apply ideal_entry. Qed.
Lemma ideal_all : all_entries M = all_entries N.
Proof. unfold all_entries. apply map_ext. intros iv. rewrite ideal_entry. auto. Qed.
Lemma ideal_vars : net_vars M = net_vars N.
Proof. unfold net_vars. rewrite ideal_entries. auto. Qed.
Lemma ideal_vv x : vv M x = vv N x.
Proof. unfold vv, lookup. rewrite ideal_entries. auto. Qed.
Lemma ideal_by_name a : by_name M a = by_name N a.
Proof. unfold by_name, lookup. rewrite ideal_entries. auto. Qed.
Lemma ideal_tvars f : tvars M f = tvars N f.
Proof. unfold tvars. apply map_ext. apply ideal_vv. Qed.
Lemma ideal_became f g : became N f g <-> became M f g.
Proof. unfold became. rewrite ideal_tvars. unfold denotes. split; intros (H1 & H2 & H3); (split; [|split]); auto; intros a Ha; rewrite (H3 a Ha), ideal_by_name; auto. Qed.
Lemma ideal_dep f : dep_of M f = dep_of N f.
Proof. unfold dep_of. rewrite ideal_vv. f_equal. apply map_ext. apply ideal_vv. Qed.
Lemma ideal_deps : net_deps M = net_deps N.
Proof.
  unfold net_deps. change (n_factors M) with (n_factors N).
  replace (filter (is_open M) (n_factors N)) with (filter (is_open N) (n_factors N)) by (apply filter_ext; intros f; unfold is_open; rewrite ideal_keys; auto).
  generalize (filter (is_open N) (n_factors N)). intros L. generalize (@nil (variable * list variable)). induction L as [|f L IH]; auto.
  intros m. cbn [fold_left]. rewrite ideal_dep. apply IH.
Qed.
Lemma ideal_pol_var v : pol_var M v = pol_var N v.
Proof. unfold pol_var. rewrite ideal_all. destruct (nodeType_eqb (v_type v) Decision); auto. destruct (nth_error _ _); auto. rewrite ideal_keys. auto. Qed.
Lemma ideal_represents v : represents M v -> represents N v.
Proof. unfold represents. setoid_rewrite ideal_keys. auto. Qed.

(** *** The exact values of the float64 policies *)

Lemma ideal_in d p : In (d, p) (n_policies n) -> exists q, In (d, q) Pq /\ uniform_policy vars (d, p) (d, q).
Proof.
  intros H. destruct (Forall2_in_l _ _ _ _ HU H) as ([d' q] & Hq & HR). pose proof HR as (Ed & _). cbn [fst] in Ed. subst d'. exists q. auto.
Qed.

Lemma ideal_small d : kind vars d = Some Decision -> (Z.of_nat (num_outcomes vars d) < 2 ^ 53)%Z.
Proof.
  unfold kind, num_outcomes. destruct (var_named vars d) as [v|] eqn:E; [|discriminate]. intros _. apply (var_named_in M HwM) in E.
  pose proof (wn_outcomes M HwM v (proj1 E)) as H. unfold zlen in H. simpl. lia.
Qed.

Lemma ideal_value d p q a : In (d, p) (n_policies n) -> In (d, q) Pq -> uniform_policy vars (d, p) (d, q) ->
  stored (fv p a) /\ exists r r', f64_exact (fv p a) = Fin r /\ fv q a = Fin r' /\ near 1 (fv p a) r' /\
    (r = 0%Qc \/ bpow radix2 (- Z.of_nat (b d)) <= qr r <= 1) /\ (r' = 0%Qc \/ bpow radix2 (- Z.of_nat (b d)) <= qr r' <= 1).
Proof.
  intros Hp Hq HR. pose proof (wp_decision M d q (wn_policies M HwM d q Hq)) as Hk. destruct (Hout d Hk) as [Ho Hb].
  apply (uniform_number _ _ _ _ (uniform_fv vars d p q a HR) Ho Hb (ideal_small d Hk)).
Qed.

Lemma ideal_wf d p q : uniform_policy vars (d, p) (d, q) -> wf_factor q -> wf_factor p.
Proof. intros (_ & _ & Hv & Hd) [H1 H2]. cbn [fst snd] in *. split; rewrite <- Hv; auto. rewrite (forall2_length _ _ _ Hd). auto. Qed.

Lemma ideal_exact_wf : wf_network N.
Proof.
  split.
  - apply (wn_names M HwM).
  - apply (wn_nonempty M HwM).
  - apply (wn_count M HwM).
  - apply (wn_outcomes M HwM).
  - apply (wn_distinct M HwM).
  - intros f Hf Ht. destruct (wn_tables M HwM f Hf Ht). split; auto.
  - pose proof (wn_total M HwM) as H. exact H.
  - change (NoDup (map fst (map (fun dp => (fst dp, exact_factor (snd dp))) (n_policies n)))). rewrite map_map. change (NoDup (map fst (n_policies n))). rewrite <- ideal_fst. apply (wn_keys M HwM).
  - intros d p Hin. apply in_map_iff in Hin. destruct Hin as ([d' p'] & E & Hin). injection E as <- <-.
    destruct (ideal_in d' p' Hin) as (q & Hq & HR). pose proof (wn_policies M HwM d' q Hq) as [W1 W2 W3 W4 W5].
    pose proof HR as (_ & _ & Hv & Hd). cbn [fst snd] in *. rewrite Hv in *. pose proof (ideal_wf d' p' q HR W2) as Hwp. split; auto.
    + apply exact_wf. auto.
    + intros a Ha. simpl in Ha. destruct (ideal_value d' p' q a Hin Hq HR) as (_ & r & _ & Er & _). exists r.
      assert (Hw' : wf_factor (exact_factor p')) by (apply exact_wf; auto).
      rewrite get_at_fv by (auto using wf_fits). rewrite fv_exact by auto. rewrite Er. auto.
    + intros v Hv'. apply ideal_represents. auto.
Qed.

Lemma ideal_float : float_network n.
Proof.
  split; auto. intros d p x Hp Hx. destruct (ideal_in d p Hp) as (q & Hq & HR). pose proof HR as (_ & _ & _ & Hd). cbn [fst snd] in Hd.
  destruct (Forall2_in_l _ _ _ _ Hd Hx) as (y & _ & Hxy). pose proof (wp_decision M d q (wn_policies M HwM d q Hq)) as Hk. destruct (Hout d Hk) as [Ho Hb].
  apply (uniform_number _ _ _ _ Hxy Ho Hb (ideal_small d Hk)).
Qed.

Lemma ideal_range : in_float_range N b s.
Proof.
  destruct Hst as [F1 F2 F3 F4 F5 F6]. split; auto.
  - intros d p w Hin Hw. apply in_map_iff in Hin. destruct Hin as ([d' p'] & E & Hin). injection E as <- <-.
    destruct (ideal_in d' p' Hin) as (q & Hq & HR). pose proof (wn_policies M HwM d' q Hq) as [W1 W2 W3 W4 W5]. pose proof HR as (_ & _ & Hv & Hd). cbn [fst snd] in *.
    pose proof (ideal_wf d' p' q HR W2) as Hwp. destruct (ideal_value d' p' q (positions vars w) Hin Hq HR) as (_ & r & _ & Er & _ & _ & Hr & _).
    assert (Hra : in_range (f_vars p') (positions vars w)).
    { intros v Hv'. rewrite <- Hv in Hv'. destruct (W4 v Hv') as (i & nv & Hi & Hid & _ & Ho & _). unfold positions. rewrite Hid, Nat2Z.id. simpl in Hi. rewrite Hi, Ho.
      apply Hw. simpl. eapply nth_error_In; eauto. }
    assert (Hw' : wf_factor (exact_factor p')) by (apply exact_wf; auto).
    assert (Ev : policy_prob vars (exact_factor p') w = r). { unfold policy_prob, value. rewrite get_at_fv by auto using wf_fits. rewrite fv_exact, Er by auto. auto. }
    change (n_vars N) with vars. rewrite Ev. destruct Hr as [Hr|[Hr1 Hr2]]; auto. right. split; apply qr_le; [rewrite qr_pow_half|rewrite qr_1]; auto.
  - simpl n_policies. rewrite map_map. simpl. exact Hsum.
Qed.

Lemma ideal_nonneg : nonnegative N.
Proof.
  split; auto. intros d p w Hin. apply in_map_iff in Hin. destruct Hin as ([d' p'] & E & Hin). injection E as <- <-.
  unfold policy_prob, value. destruct (get_at _ _) as [x| |] eqn:Eg; try apply Qcle_refl. apply data_get in Eg. simpl in Eg. apply in_map_iff in Eg.
  destruct Eg as (y & <- & Hy). destruct (ideal_in d' p' Hin) as (q & Hq & HR). pose proof HR as (_ & _ & _ & Hd). cbn [fst snd] in Hd.
  destruct (Forall2_in_l _ _ _ _ Hd Hy) as (z & _ & Hyz). pose proof (wp_decision M d' q (wn_policies M HwM d' q Hq)) as Hk. destruct (Hout d' Hk) as [Ho Hb].
  destruct (uniform_number _ _ _ _ Hyz Ho Hb (ideal_small d' Hk)) as (_ & r & _ & -> & _ & _ & Hr & _). apply qr_nonneg.
  destruct Hr as [->|[Hr _]]; [rewrite qr_0; lra|]. pose proof (bpow_gt_0 radix2 (- Z.of_nat (b d'))). lra.
Qed.

(** *** toVE *)

Definition pb1 (x : string) : bound := mkB 1 (bpow radix2 (- Z.of_nat (b x))) 1.
Lemma pb1_sane x : sane (pb1 x).
Proof. pose proof (pb_sane b x) as H. exact H. Qed.

Lemma ideal_items P Q fs : Forall2 (fpol_became n b) P fs -> Forall2 (uniform_policy vars) P Q ->
  (forall dp, In dp P -> In dp (n_policies n)) -> (forall dq, In dq Q -> In dq Pq) ->
  exists hs l, Forall2 (pol_became M) Q hs /\ Forall2 same_shape fs hs /\
    prob_factors fs = map i_f l /\ Forall (item_ok (net_vars M)) l /\
    map i_b l = map (fun dp => pb1 (fst dp)) P /\
    forall a, mass_of l a = weight_of (prob_factors hs) a.
Proof.
  intros HF. revert Q. induction HF as [|[d p] g F fs Hfg HF IH]; intros Q HQ Hp Hq.
  - inversion HQ. exists [], []. simpl. repeat split; auto.
  - destruct Q as [|y m0]; [inversion HQ|]. assert (HR : uniform_policy vars (d, p) y) by (inversion HQ; auto). assert (HQ' : Forall2 (uniform_policy vars) F m0) by (inversion HQ; auto). clear HQ.
    destruct (IH m0 HQ') as (hs & l & H1 & H2 & H3 & H4 & H5 & H6). { intros; apply Hp; simpl; auto. } { intros; apply Hq; simpl; auto. }
    destruct y as [d' q]. pose proof HR as (Ed & _ & Ev & Edat). cbn [fst snd] in Ed, Ev, Edat. subst d'.
    assert (Hdp : In (d, p) (n_policies n)) by (apply Hp; simpl; auto). assert (Hdq : In (d, q) Pq) by (apply Hq; simpl; auto).
    destruct Hfg as (Hw & Hv & Hap). cbn [fst snd] in *. pose proof (wn_policies M HwM d q Hdq) as Hwq.
    pose proof (policy_became M HwM (f_id g) d q Hwq) as Hh.
    set (h := mkFactor (f_id g) (map (pol_var M) (f_vars q)) (f_data q)) in *.
    assert (Ehv : f_vars h = f_vars g). { simpl. rewrite Hv, Ev. apply map_ext. apply ideal_pol_var. }
    assert (Hsame : same_shape g h) by (split; [|split]; auto).
    assert (Eu : is_utility_factor h = false) by (eapply (pol_no_utility M HwM); eauto).
    pose proof (same_utility g h Hsame) as Hu.
    exists (h :: hs), (mkI (pb1 d) g (value h) :: l). split; [constructor; auto|]. split; [constructor; auto|].
    split; [unfold prob_factors in *; cbn [filter map]; rewrite Hu, Eu; cbn [negb]; simpl; congruence|]. split; [|split].
    + constructor; auto. split; [apply pb1_sane|]. cbn [i_f i_q i_b]. split; [destruct Hsame as [<- _]; apply local_value|].
      intros a Ha. destruct Hh as (Hwh & Hvh & Hdh). rewrite (denotes_value h _ a Hdh).
      2: { apply (in_range_incl _ (net_vars M)); auto. intros v Hv0. rewrite Hvh in Hv0. apply in_map_iff in Hv0. destruct Hv0 as (w & <- & Hw').
        destruct (represents_vv M HwM w (wp_scope M d _ Hwq w Hw')) as (i & nv & _ & _ & _ & Hk & -> & _). apply vv_in; auto. }
      cbn [snd]. set (c := positions vars (by_name M a)).
      assert (Hc : in_range (f_vars q) c).
      { intros v Hv0. pose proof (wp_scope M d _ Hwq v Hv0) as Hrep. unfold c. change vars with (n_vars M). rewrite (positions_by_name M HwM a v Hrep).
        destruct (represents_vv M HwM v Hrep) as (i & nv & _ & _ & _ & Hk & _ & -> & -> & _). apply Ha. apply vv_in; auto. }
      pose proof (wp_wf M d q Hwq) as Hwfq. pose proof (ideal_wf d p q HR Hwfq) as Hwfp.
      destruct (ideal_value d p q c Hdp Hdq HR) as (Hs & r & r' & Er & Eq & Hn1 & Hr & Hr').
      assert (E1 : policy_prob vars q (by_name M a) = r'). { unfold policy_prob, value. fold c. rewrite get_at_fv by auto using wf_fits. rewrite Eq. auto. }
      change (n_vars M) with vars. rewrite E1.
      assert (E2 : policy_prob vars (exact_factor p) (by_name N a) = r).
      { rewrite <- ideal_by_name. unfold policy_prob, value. fold c. assert (Hw' : wf_factor (exact_factor p)) by (apply exact_wf; auto).
        rewrite get_at_fv by (auto using wf_fits; simpl; rewrite <- Ev; auto). rewrite fv_exact, Er by (auto; rewrite <- Ev; auto). auto. }
      assert (Ha' : in_range (net_vars N) a) by (rewrite <- ideal_vars; auto).
      destruct (Hap a Ha') as [Hn0 _]. rewrite E2 in Hn0. cbn [pb b_k] in Hn0. destruct (SF2R_exact _ _ Er) as [Es _].
      destruct Hn0 as (S1 & S2 & S3 & S4). destruct Hn1 as (_ & _ & T3 & T4). rewrite Es in T4. simpl in S4.
      assert (Eg : SF2R radix2 (fv g a) = qr r) by lra. split.
      * cbn [pb1 b_k]. split; auto. split; auto. split; auto. rewrite Eg. exact T4.
      * exact Hr'.
    + simpl. rewrite H5. auto.
    + intros a. unfold prob_factors, weight_of, mass_of in *. cbn [filter]. rewrite Eu. cbn [negb map i_q]. simpl. rewrite H6. auto.
Qed.

Record icreated (vs : vstate) (fs : list (factor f64)) (hs : list (factor xnum)) (l : list item) : Prop := {
  ic_created : created M [] vs hs;
  ic_same : Forall2 same_shape fs hs;
  ic_items : prob_factors fs = map i_f l;
  ic_ok : Forall (item_ok (net_vars M)) l;
  ic_mass : forall a, mass_of l a = weight_of (prob_factors hs) a;
  ic_utils : Forall2 (util_became n) (utility_tables N) (utility_factors fs);
  ic_budget : exists P, Permutation P (n_policies n) /\
    map i_b l = map (fun f => tb n b (nf_for f)) (chance_factors N) ++ map (fun dp => pb1 (fst dp)) P
}.

Theorem ideal_to_ve sc t : exists vs fs w hs l,
  to_ve sc t n [] = Ok (ve_new (S t) vs fs (net_deps M) w, name_map (entries M)) /\ icreated vs fs hs l /\ exact_weights w (weights M).
Proof.
  pose proof ideal_exact_wf as Hwf.
  destruct (float_to_ve n ideal_float Hwf b s ideal_range ideal_nonneg Hfew sc t []) as (vs & fs & w & hsN & lN & E & Hcr & Hw).
  destruct Hcr as [C1 C2 C3 C4 C5 C6 C7 C8]. destruct C8 as (tfs & pfs & P & Efs & Ht & HP & Hpf).
  assert (HP' : Permutation P (n_policies n)).
  { replace (n_policies n) with (filter (fun dp => negb (has_key (@nil (string * string)) (fst dp))) (n_policies n)); auto.
    generalize (n_policies n). intros L. induction L as [|x L IH]; simpl; auto. f_equal. auto. }
  destruct (Permutation_Forall2 (Permutation_sym HP') HU) as (Q & HQ & HPQ).
  destruct (table_items n Hwf b _ _ Ht) as (ht & lt & T1 & T2 & T3 & T4 & T5 & T6). { intros f Hf. apply filter_In in Hf. auto. }
  destruct (ideal_items _ _ _ Hpf HPQ) as (hp & lp & P1 & P2 & P3 & P4 & P5 & P6).
  { intros dp H. eapply Permutation_in; eauto. } { intros dq H. eapply Permutation_in; [apply Permutation_sym|]; eauto. }
  assert (Etab : map exact_table (filter (fun f => is_table N (exact_table f)) (n_factors n)) = filter (is_table N) (n_factors N)).
  { simpl. rewrite filter_map_comm'. auto. }
  rewrite Etab in *. rewrite (chance_tables N Hwf) in T5.
  assert (Hsame : Forall2 same_shape fs (ht ++ hp)) by (rewrite Efs; apply Forall2_app_same; auto).
  assert (T1' : Forall2 (became M) (filter (is_table N) (n_factors N)) ht).
  { clear -T1 HU. induction T1; constructor; auto. apply ideal_became. auto. }
  exists vs, fs, w, (ht ++ hp), (lt ++ lp). rewrite ideal_deps, ideal_entries. split; auto. split; [|exact Hw]. split; auto.
  - destruct C1 as [V1 V2 _]. split.
    + rewrite V1. symmetry. apply ideal_vars.
    + rewrite ideal_deps. destruct V2 as [B1 B2 B3 B4 B5 B6]. split; auto.
      * intros h Hh. destruct (Forall2_in_r _ _ _ _ Hsame Hh) as (g & Hg & Hs1). destruct (Forall2_in_l _ _ _ _ C2 Hg) as (h' & Hh' & Hs2).
        destruct (B3 h' Hh') as (_ & _ & I1 & I2). destruct Hs1 as (S1 & S2 & _), Hs2 as (S3 & S4 & _).
        assert (Ev : f_vars h = f_vars h') by congruence. assert (Ei : f_id h = f_id h') by congruence. rewrite Ev, Ei.
        apply in_app_iff in Hh. destruct Hh as [Hh|Hh].
        -- destruct (Forall2_in_r _ _ _ _ T1 Hh) as (x & _ & D1 & _ & D3). split; auto. split; auto. eapply denotes_finite; eauto.
        -- destruct (Forall2_in_r _ _ _ _ P1 Hh) as (x & _ & D1 & _ & D3). split; auto. split; auto. eapply denotes_finite; eauto.
      * rewrite (same_ids _ _ Hsame). rewrite <- (same_ids _ _ C2). auto.
    + exists ht, hp, Q. split; auto. split; [exact T1'|]. split; [|exact P1]. unfold active. simpl.
      replace (filter (fun _ => true) Pq) with Pq by (clear; induction Pq as [|x L IH]; simpl; congruence). apply Permutation_sym. auto.
  - rewrite Efs. unfold prob_factors in *. rewrite filter_app, map_app. congruence.
  - apply Forall_app. split; auto. rewrite ideal_vars. auto.
  - intros a. unfold prob_factors in *. rewrite filter_app, weight_app, <- T6, <- P6. apply mass_app.
  - exists P. split; auto. rewrite map_app. congruence.
Qed.
End Ideal.
