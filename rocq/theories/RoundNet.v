(** SolveQuery on float64 numbers. *)
From Coq Require Import ZArith List Bool String Lia Permutation QArith Qcanon Reals Lra Qreals.
From Coq Require Import Floats.SpecFloat.
From Flocq Require Import Core.Core IEEE754.BinarySingleNaN.
From Verif Require Import Num GoBase VarModel GoFacts SpecFactor Tuples FactorFacts FactorSum FactorProd FactorPolicy FactorAt XnumFacts ExactFactor
  FactorThms VEModel SpecVE VEWorlds VEFacts VETopo VEHidden VESolve VEThms VEUtil NetModel SpecNet NetVars NetFactors NetVE NetSums NetQuery
  VEAny RoundFacts RoundSum RoundVE SpecRound.
Import ListNotations.
Open Scope string_scope.
Open Scope list_scope.
Open Scope R_scope.
Local Opaque bpow.

(** ** Exact values of float64 numbers *)

Lemma qr_Q2Qc q : qr (Q2Qc q) = Q2R q.
Proof. unfold qr, Q2Qc. simpl. apply Qeq_eqR. apply Qred_correct. Qed.

Lemma Q2R_inject z : Q2R (inject_Z z) = IZR z.
Proof. unfold Q2R, inject_Z. simpl. field. Qed.

Lemma SF2R_exact (x : f64) q : f64_exact x = Fin q -> SF2R radix2 x = qr q /\ is_finite_SF x = true.
Proof.
  destruct x as [s|[]| |s m e]; simpl; intros H; try discriminate H; injection H as <-.
  - rewrite qr_0. auto.
  - split; auto. rewrite qr_Q2Qc. unfold F2R. simpl Fnum. simpl Fexp.
    replace (SpecFloat.cond_Zopp s (Z.pos m)) with (if s then Z.neg m else Z.pos m) by (destruct s; auto).
    set (z := if s then Z.neg m else Z.pos m). destruct (0 <=? e)%Z eqn:E.
    + apply Z.leb_le in E. rewrite Q2R_inject, mult_IZR. f_equal. rewrite <- IZR_Zpower by auto. auto.
    + apply Z.leb_gt in E. unfold Q2R. simpl Qnum. simpl Qden. f_equal.
      rewrite Z2Pos.id by (apply Z.pow_pos_nonneg; lia).
      rewrite <- (Z.opp_involutive e) at 1. rewrite bpow_opp. f_equal. rewrite <- IZR_Zpower by lia. auto.
Qed.

Lemma near_exact x q : stored x -> f64_exact x = Fin q -> (0 <= q)%Qc -> near 0 x q.
Proof.
  intros Hs E Hq. destruct (SF2R_exact x q E) as [Hr Hf]. split; auto. split; auto.
  split. { rewrite <- qr_0. apply qr_le. auto. } simpl. rewrite Hr. lra.
Qed.

Lemma exact_of_finite (x : f64) : is_finite_SF x = true -> exists q, f64_exact x = Fin q.
Proof. destruct x as [s|[]| |s m e]; simpl; intros H; try discriminate H; eauto. Qed.

Lemma qr_pow_half k : qr (two_to_minus k) = bpow radix2 (- Z.of_nat k).
Proof.
  unfold two_to_minus. induction k.
  - simpl. rewrite qr_1. auto.
  - change (Q2Qc (1 # 2) ^ S k)%Qc with (Q2Qc (1 # 2) * (Q2Qc (1 # 2) ^ k))%Qc. rewrite qr_mult, IHk, qr_Q2Qc.
    replace (- Z.of_nat (S k))%Z with (-1 + - Z.of_nat k)%Z by lia. rewrite bpow_plus. f_equal. unfold Q2R. simpl. Transparent bpow. simpl. Opaque bpow. lra.
Qed.
Lemma qr_pow_two k : qr (two_to k) = bpow radix2 (Z.of_nat k).
Proof.
  unfold two_to. induction k.
  - simpl. rewrite qr_1. auto.
  - change (Q2Qc (2 # 1) ^ S k)%Qc with (Q2Qc (2 # 1) * (Q2Qc (2 # 1) ^ k))%Qc. rewrite qr_mult, IHk, qr_Q2Qc.
    replace (Z.of_nat (S k)) with (1 + Z.of_nat k)%Z by lia. rewrite bpow_plus. f_equal. unfold Q2R. simpl. Transparent bpow. simpl. Opaque bpow. lra.
Qed.

Lemma few_le k : (Z.of_nat k <= 2 ^ 52)%Z -> few k.
Proof.
  intros H. unfold few. rewrite ulp1_val, INR_IZR_INZ. apply IZR_le in H.
  replace (IZR (2 ^ 53)) with (2 * IZR (2 ^ 52)) by (rewrite <- mult_IZR; f_equal).
  assert (0 < IZR (2 ^ 52)) by (apply IZR_lt; reflexivity).
  apply (Rmult_le_reg_r (2 * IZR (2 ^ 52))); [lra|]. rewrite Rmult_assoc, Rinv_l by lra. lra.
Qed.

Lemma near_close k x q : near k x q -> few k -> close_to k x q.
Proof.
  intros (Hs & Hf & Hq & Hlo & Hhi) Hk. destruct (exact_of_finite x Hf) as (r & E). exists r. split; auto.
  destruct (SF2R_exact x r E) as [Hr _]. rewrite Hr in *.
  pose proof (rho_upper k Hk) as Hu. pose proof (rho_lower k) as Hl.
  assert (He : qr (error_of k) = 2 * (INR k * ulp1)).
  { unfold error_of. rewrite qr_mult, qr_Q2Qc, Q2R_inject, qr_pow_half, INR_IZR_INZ, ulp1_val.
    replace (bpow radix2 (- Z.of_nat 52)) with (/ IZR (2 ^ 52)).
    - replace (IZR (2 ^ 53)) with (2 * IZR (2 ^ 52)) by (rewrite <- mult_IZR; f_equal).
      assert (0 < IZR (2 ^ 52)) by (apply IZR_lt; reflexivity). field. lra.
    - rewrite bpow_opp. f_equal. }
  assert (Hp : 0 <= INR k * ulp1). { apply Rmult_le_pos; [apply pos_INR|left; apply ulp1_pos]. }
  split; apply qr_le.
  - unfold Qcminus. rewrite qr_plus. replace (qr (- (q * error_of k))%Qc) with (- (qr q * qr (error_of k))).
    + rewrite He. apply Rle_trans with (2 := Hlo). unfold Rdiv.
      apply Rle_trans with (qr q * (1 - INR k * ulp1)).
      * assert (0 <= qr q * (INR k * ulp1)) by (apply Rmult_le_pos; auto). lra.
      * apply Rmult_le_compat_l; auto.
    + rewrite <- qr_mult. pose proof (qr_plus (- (q * error_of k)) (q * error_of k)) as Hx.
      replace (- (q * error_of k) + q * error_of k)%Qc with 0%Qc in Hx by ring. rewrite qr_0 in Hx. lra.
  - rewrite qr_plus, qr_mult, He. apply Rle_trans with (1 := Hhi).
    apply Rle_trans with (qr q * (1 + 2 * (INR k * ulp1))); [apply Rmult_le_compat_l; auto|]. lra.
Qed.

(** ** Exact shadows *)

Lemma exact_keys {X Y} (g : X -> Y) (l : list (string * X)) x :
  has_key (map (fun dp => (fst dp, g (snd dp))) l) x = has_key l x.
Proof.
  unfold has_key. induction l as [|[k v] l IH]; auto. simpl. destruct (String.eqb x k); auto.
Qed.

Lemma fv_exact (f : factor f64) a : wf_factor f -> in_range (f_vars f) a -> fv (exact_factor f) a = f64_exact (fv f a).
Proof.
  intros Hw Ha. pose proof (wf_fits _ Hw) as Hf. unfold fits in Hf. unfold fv, ft. simpl.
  apply in_range_inb in Ha. pose proof (flat_lt _ _ Ha) as Hlt.
  change (Fin (Q2Qc 0)) with (f64_exact (S754_zero false)). apply map_nth.
Qed.

Lemma exact_wf (f : factor f64) : wf_factor (exact_factor f) <-> wf_factor f.
Proof.
  split; intros [H1 H2]; split; simpl in *; auto; rewrite map_length in *; auto.
Qed.

Lemma qr_nonneg q : (0 <= q)%Qc <-> 0 <= qr q.
Proof. rewrite <- qr_0. apply qr_le. Qed.

Lemma qc_div_le_one p q : (0 <= p)%Qc -> (p <= q)%Qc -> q <> 0%Qc -> qr (p / q)%Qc <= 1.
Proof.
  intros Hp Hle Hq. rewrite qr_div by auto. apply qr_nonneg in Hp. apply qr_le in Hle. apply qr_neq0 in Hq.
  apply Rmult_le_reg_r with (qr q); [lra|]. unfold Rdiv. rewrite Rmult_assoc, Rinv_l by auto. lra.
Qed.

Lemma qsum_ge_member l x : (forall y, In y l -> (0 <= y)%Qc) -> In x l -> (x <= qsum l)%Qc.
Proof.
  induction l as [|y l IH]; intros H Hin; [destruct Hin|]. simpl. change (fold_right Qcplus 0%Qc l) with (qsum l).
  assert (0 <= qsum l)%Qc by (apply qsum_nonneg; intros; apply H; simpl; auto).
  destruct Hin as [->|Hin].
  - rewrite <- (Qcplus_0_r x) at 1. apply Qcplus_le_compat; auto. apply Qcle_refl.
  - rewrite <- (Qcplus_0_l x) at 1. apply Qcplus_le_compat; auto. { apply H; simpl; auto. } apply IH; auto. intros; apply H; simpl; auto.
Qed.

Lemma tiny_le_one : tiny <= 1.
Proof. change 1 with (bpow radix2 0). apply bpow_le. lia. Qed.
Lemma bpow_neg_le_one k : bpow radix2 (- Z.of_nat k) <= 1.
Proof. change 1 with (bpow radix2 0). apply bpow_le. lia. Qed.
Lemma big_bound : sane (mkB 0 tiny huge) /\ safe (mkB 0 tiny huge).
Proof.
  unfold sane, safe. cbn [b_k b_lo b_hi]. pose proof tiny_le_one. pose proof one_le_huge. pose proof (bpow_gt_0 radix2 (-1000)).
  repeat split; try lra. unfold few. simpl. lra.
Qed.

Section Net.
Variable n : network f64.
Notation N := (exact_net n).
Notation vars := (n_vars n).
Notation vv := (vv N).
Notation by_name := (by_name N).
Notation known := (known N).
Notation V := (net_vars N).
Hypothesis Hfl : float_network n.
Hypothesis Hwf : wf_network N.

Lemma exact_has_key x : has_key (n_policies N) x = has_key (n_policies n) x.
Proof. simpl. apply exact_keys. Qed.

Lemma exact_entry iv : ve_entry N iv = ve_entry n iv.
Proof. unfold ve_entry, ve_type, ve_index. rewrite exact_has_key. auto. Qed.
Lemma exact_entries : entries n = entries N.
Proof. unfold entries. apply map_ext. intros. symmetry. apply exact_entry. Qed.
Lemma exact_all : all_entries n = all_entries N.
Proof. unfold all_entries. apply map_ext. intros iv. rewrite exact_entry. auto. Qed.
Lemma exact_vars : net_vars n = V.
Proof. unfold net_vars. rewrite exact_entries. auto. Qed.

Lemma float_variables : add_net_variables n = Ok (mkVS 0 V [], name_map (entries N), all_entries N, total_name N).
Proof.
  rewrite add_net_variables_ok.
  - rewrite exact_vars, exact_entries, exact_all. auto.
  - apply (wn_names N Hwf).
  - apply (wn_count N Hwf).
Qed.

Lemma in_exact f : In f (n_factors n) -> In (exact_table f) (n_factors N).
Proof. intros H. simpl. apply in_map. auto. Qed.

Variables (b : string -> nat) (s : nat).
Hypothesis Hrange : in_float_range N b s.
Hypothesis Hnn : nonnegative N.
Hypothesis Hfew : (Z.of_nat (rounding_steps N) <= 2 ^ 50)%Z.

Lemma list_sum_ge {X} (g : X -> nat) l x : In x l -> (g x <= list_sum (map g l))%nat.
Proof. induction l; intros Hin; [destruct Hin|]. simpl. destruct Hin as [->|Hin]; [lia|]. apply IHl in Hin. lia. Qed.

Definition tb (x : string) : bound := mkB (S (num_outcomes vars x)) (bpow radix2 (- Z.of_nat (b x))) 1.
Definition pb (x : string) : bound := mkB 0 (bpow radix2 (- Z.of_nat (b x))) 1.

Lemma tb_sane x : sane (tb x).
Proof. unfold sane, tb. cbn [b_lo b_hi]. pose proof (bpow_gt_0 radix2 (- Z.of_nat (b x))). pose proof (bpow_neg_le_one (b x)). lra. Qed.
Lemma pb_sane x : sane (pb x).
Proof. unfold sane, pb. cbn [b_lo b_hi]. pose proof (bpow_gt_0 radix2 (- Z.of_nat (b x))). pose proof (bpow_neg_le_one (b x)). lra. Qed.

Lemma range_in_table f a : is_total N (nf_for f) = false -> wf_table N f -> in_range V a -> in_table vars f (by_name a).
Proof.
  intros Ht Hw Ha x Hx. pose proof (table_names N f Ht Hw x Hx) as Hk. rewrite (by_name_vv N Hwf) by auto.
  change vars with (n_vars N). rewrite <- (proj1 (vv_outcomes N Hwf x Hk)). apply Ha. apply vv_in; auto.
Qed.

Lemma chance_in f : In f (chance_factors N) -> In f (n_factors N) /\ kind vars (nf_for f) = Some Chance /\ is_total N (nf_for f) = false /\ wf_table N f.
Proof.
  intros H. apply filter_In in H. destruct H as [Hin Hk]. simpl in Hk.
  assert (Ek : kind vars (nf_for f) = Some Chance) by (destruct (kind vars (nf_for f)) as [[]|]; auto; discriminate Hk).
  assert (Et : is_total N (nf_for f) = false).
  { destruct (is_total N (nf_for f)) eqn:E; auto. apply (total_kind N Hwf) in E. simpl in E. rewrite Ek in E. discriminate E. }
  split; auto. split; auto. split; auto. apply (wn_tables N Hwf); auto.
Qed.

Lemma steps_table f : In f (chance_factors N) -> (num_outcomes vars (nf_for f) + 2 <= rounding_steps N)%nat.
Proof.
  intros H. unfold rounding_steps. pose proof (list_sum_ge (fun f => (num_outcomes (n_vars N) (nf_for f) + 2)%nat) _ _ H) as Hl. simpl in *. lia.
Qed.

(** Row normalisation of a table. *)
Lemma float_row f c tbl st : In f (n_factors n) -> In (exact_table f) (chance_factors N) -> nf_table f = Some tbl ->
  wf_factor (mkFactor c (tvars N (exact_table f)) tbl) ->
  (forall a, in_range (tvars N (exact_table f)) a -> f64_exact (fv (mkFactor c (tvars N (exact_table f)) tbl) a) = Fin (entry vars (exact_table f) (by_name a))) ->
  exists g, normalize_for st (mkFactor c (tvars N (exact_table f)) tbl) (vv (nf_for f)) = Ok (bump st, g) /\
    f_id g = vs_counter st /\ wf_factor g /\ f_vars g = tvars N (exact_table f) /\
    forall a, in_range V a -> approx (tb (nf_for f)) (fv g a) (cond_prob vars (exact_table f) (by_name a)).
Proof.
  intros Hin Hch Htb Hwg Hex. destruct (chance_in _ Hch) as (_ & Hk & Ht & Hwt).
  pose proof (table_names N _ Ht Hwt) as Hkn. assert (Hkf : known (nf_for f)) by (apply Hkn; apply in_app_iff; simpl; auto).
  set (g0 := mkFactor c (tvars N (exact_table f)) tbl) in *.
  assert (Hinv : In (vv (nf_for f)) (f_vars g0)).
  { simpl. unfold tvars. apply in_map. simpl. apply in_app_iff. simpl. auto. }
  destruct (vv_outcomes N Hwf _ Hkf) as [Hout Hpos].
  destruct (normalize_for_at st g0 (vv (nf_for f)) Hwg Hinv Hpos) as (g & E & Hid & Hw & Hvs & Hat).
  exists g. split; auto. split; auto. split; auto.
  assert (Hvs' : f_vars g = tvars N (exact_table f)).
  { rewrite Hvs. simpl f_vars. apply (others_last N Hwf (exact_table f) Ht Hwt). }
  split; auto. intros a Ha.
  assert (HtV : incl (tvars N (exact_table f)) V).
  { intros v Hv. apply in_map_iff in Hv. destruct Hv as (x & <- & Hx). apply vv_in; auto. }
  assert (Har : in_range (tvars N (exact_table f)) a) by (eapply in_range_incl; eauto).
  assert (Hfv : fv g a = row_norm (row_at g0 (vv (nf_for f)) a) (fv g0 a)).
  { apply fv_get_at; [apply wf_fits; auto|rewrite Hvs'; auto|]. apply Hat. rewrite Hvs'. auto. }
  rewrite Hfv.
  set (ps := map (fun k => entry vars (exact_table f) (nupd (by_name a) (nf_for f) k)) (seq 0 (num_outcomes vars (nf_for f)))).
  assert (Hst : forall k, (k < v_outcomes (vv (nf_for f)))%nat -> stored (fv g0 (upd a (v_id (vv (nf_for f))) k))).
  { intros k Hkk. destruct Hfl as [Hf1 _]. apply (Hf1 f); auto. rewrite Htb. simpl. unfold fv, ft. simpl f_data. apply nth_In.
    pose proof (wf_fits _ Hwg) as Hfit. unfold fits in Hfit. simpl in Hfit. rewrite Hfit. apply flat_lt. apply in_range_inb.
    apply in_range_upd'; auto. apply Hwg. }
  assert (Hrowk : forall k, (k < v_outcomes (vv (nf_for f)))%nat ->
     near 0 (fv g0 (upd a (v_id (vv (nf_for f))) k)) (entry vars (exact_table f) (nupd (by_name a) (nf_for f) k))).
  { intros k Hkk. apply near_exact; auto; [|apply (proj1 Hnn); auto]. rewrite Hex.
    - f_equal. apply (entry_proper N). intros y. apply (by_name_upd N Hwf); auto.
    - apply in_range_upd'; auto. apply Hwg. }
  assert (Hrow : Forall2 (near 0) (row_at g0 (vv (nf_for f)) a) ps).
  { unfold row_at, ps. change vars with (n_vars N) at 2. rewrite <- Hout.
    assert (G : forall l, (forall k, In k l -> (k < v_outcomes (vv (nf_for f)))%nat) ->
      Forall2 (near 0) (map (fun k => fv g0 (upd a (v_id (vv (nf_for f))) k)) l) (map (fun k => entry vars (exact_table f) (nupd (by_name a) (nf_for f) k)) l)).
    { induction l; intros Hl; simpl; constructor; auto; [apply Hrowk; apply Hl; simpl; auto|]. apply IHl. intros; apply Hl; simpl; auto. }
    apply G. intros k Hk0. apply in_seq in Hk0. lia. }
  assert (Hps : qsum ps = row_sum vars (exact_table f) (by_name a)) by reflexivity.
  assert (Hps0 : forall y, In y ps -> (0 <= y)%Qc).
  { intros y Hy. apply in_map_iff in Hy. destruct Hy as (k & <- & _). apply (proj1 Hnn); auto. }
  pose proof (range_in_table _ a Ht Hwt Ha) as Hitab.
  assert (Htup : forall k, (k < num_outcomes vars (nf_for f))%nat -> in_table vars (exact_table f) (nupd (by_name a) (nf_for f) k)).
  { intros k Hk0 x Hx. unfold nupd. destruct (String.eqb x (nf_for f)) eqn:Ex; [apply String.eqb_eq in Ex; subst; auto|]. apply Hitab. auto. }
  assert (Hlep : forall y, In y ps -> (y <= qsum ps)%Qc) by (intros; apply qsum_ge_member; auto).
  assert (Hsumb : qr (qsum ps) <= huge).
  { change huge with (bpow radix2 (Z.of_nat 1000)). rewrite <- qr_pow_two. apply qr_le. apply (fr_rows N b s Hrange); auto. }
  assert (Hwin : Forall (within (mkB 0 tiny huge)) ps).
  { apply Forall_forall. intros y Hy. pose proof (Hlep y Hy) as Hle. apply in_map_iff in Hy. destruct Hy as (k & <- & Hk0). apply in_seq in Hk0.
    destruct (fr_entries N b s Hrange (exact_table f) _ Hch (Htup k (proj2 Hk0))) as [E0|E0]; [left; auto|right]. cbn [b_lo b_hi].
    apply qr_le in E0, Hle. rewrite qr_pow_half in E0. split; auto. eapply Rle_trans; eauto. }
  assert (Hlen : List.length (row_at g0 (vv (nf_for f)) a) = num_outcomes vars (nf_for f)).
  { unfold row_at. rewrite map_length, seq_length. apply Hout. }
  assert (Hfk : few (S (num_outcomes vars (nf_for f)))).
  { apply few_le. pose proof (steps_table _ Hch). simpl in H. lia. }
  destruct big_bound as [Hsane Hsafe].
  pose proof (near_sum 0 (mkB 0 tiny huge) _ _ Hsane Hsafe Hrow Hwin Hsumb) as Hsum. rewrite Hlen in Hsum. simpl plus in Hsum.
  specialize (Hsum (few_mono _ _ (Nat.le_succ_diag_r _) Hfk)). rewrite Hps in Hsum.
  assert (Hself : near 0 (fv g0 a) (entry vars (exact_table f) (by_name a))).
  { assert (Hlt : (a (v_id (vv (nf_for f))) < v_outcomes (vv (nf_for f)))%nat) by (apply Har; auto).
    pose proof (Hrowk _ Hlt) as Hn. rewrite (fv_ext g0 _ a) in Hn by (intros v _; apply upd_id_in).
    rewrite (entry_proper N (exact_table f) _ (by_name a)) in Hn; auto. intros y. unfold nupd.
    destruct (String.eqb y (nf_for f)) eqn:Ey; auto. apply String.eqb_eq in Ey. subst y. symmetry. apply (by_name_vv N Hwf). auto. }
  assert (Hle0 : (entry vars (exact_table f) (by_name a) <= row_sum vars (exact_table f) (by_name a))%Qc).
  { rewrite <- Hps. apply Hlep. apply in_map_iff. exists (by_name a (nf_for f)). split.
    - apply (entry_proper N). intros y. unfold nupd. destruct (String.eqb y (nf_for f)) eqn:Ey; auto. apply String.eqb_eq in Ey. subst y. auto.
    - apply in_seq. split; [lia|]. simpl. apply Hitab. simpl. apply in_app_iff. simpl. auto. }
  pose proof (proj1 Hnn _ (by_name a) Hch) as Hge0. simpl in Hge0.
  unfold row_norm. rewrite (near_eqb _ _ _ Hsum). unfold cond_prob.
  destruct (qeq (row_sum vars (exact_table f) (by_name a)) 0%Qc) eqn:Ez.
  - apply qeq_spec in Ez. rewrite Ez in Hle0. assert (E0 : entry vars (exact_table f) (by_name a) = 0%Qc) by (apply Qcle_antisym; auto).
    split; [|left; auto]. eapply near_mono; [|exact Hself]. lia.
  - assert (Hne : row_sum vars (exact_table f) (by_name a) <> 0%Qc) by (intros E0; rewrite E0, qeq_refl in Ez; discriminate Ez).
    pose proof (fr_tables N b s Hrange (exact_table f) (by_name a) Hch Hitab) as Hcp. unfold cond_prob in Hcp. simpl n_vars in Hcp. rewrite Ez in Hcp.
    assert (Hb : tiny <= bpow radix2 (- Z.of_nat (b (nf_for f)))).
    { apply bpow_le. pose proof (list_sum_ge (fun f => b (nf_for f)) _ _ Hch) as Hl. pose proof (fr_sum N b s Hrange). simpl in *. lia. }
    split.
    + cbn [b_k tb]. apply near_quotient with (j := 0%nat); auto.
      destruct Hcp as [E0|E0].
      * left. assert (E1 : (entry vars (exact_table f) (by_name a) / row_sum vars (exact_table f) (by_name a) * row_sum vars (exact_table f) (by_name a) = 0)%Qc) by (rewrite E0; ring).
        rewrite <- E1. field. auto.
      * right. apply qr_le in E0. rewrite qr_pow_half in E0. simpl nf_for in E0. eapply Rle_trans; eauto.
    + destruct Hcp as [E0|E0]; [left; auto|right]. cbn [b_lo b_hi tb]. apply qr_le in E0. rewrite qr_pow_half in E0. split; auto.
      apply qc_div_le_one; auto.
Qed.

(** ** toVE on float64 *)
Definition fbecame (f : nfactor f64) (g : factor f64) : Prop :=
  wf_factor g /\ f_vars g = tvars N (exact_table f) /\
  (In (exact_table f) (chance_factors N) -> forall a, in_range V a -> approx (tb (nf_for f)) (fv g a) (cond_prob vars (exact_table f) (by_name a))) /\
  (kind vars (nf_for f) = Some Utility -> forall a, in_range V a -> stored (fv g a) /\ f64_exact (fv g a) = Fin (entry vars (exact_table f) (by_name a))).

Lemma table_exact f c tbl l : In f (n_factors n) -> is_total N (nf_for f) = false -> wf_table N (exact_table f) ->
  nf_table f = Some tbl -> nf_table (exact_table f) = Some (map Fin l) -> List.length l = table_size vars (nf_given f ++ [nf_for f]) ->
  wf_factor (mkFactor c (tvars N (exact_table f)) tbl) /\
  (forall a, in_range (tvars N (exact_table f)) a -> f64_exact (fv (mkFactor c (tvars N (exact_table f)) tbl) a) = Fin (entry vars (exact_table f) (by_name a))).
Proof.
  intros Hin Ht Hw Htb Hl Hlen. destruct (table_denotes N Hwf (exact_table f) c l Ht Hw Hl Hlen) as [Hwe Hd].
  assert (E : map Fin l = map f64_exact tbl) by (simpl in Hl; rewrite Htb in Hl; simpl in Hl; congruence).
  rewrite E in Hwe, Hd. change (mkFactor c (tvars N (exact_table f)) (map f64_exact tbl)) with (exact_factor (mkFactor c (tvars N (exact_table f)) tbl)) in *.
  pose proof (proj1 (exact_wf _) Hwe) as Hwg. split; auto. intros a Ha.
  rewrite <- fv_exact by auto. apply (denotes_fv _ _ a Hwe Hd). auto.
Qed.

Lemma float_given (f : nfactor f64) : is_total N (nf_for f) = false -> wf_table N (exact_table f) ->
  mapM (fun g => match sget_map (name_map (entries N)) g with
                 | None => Err (EMsg "variable in factor not found")
                 | Some vv => Ok (en_ve vv) end) (nf_given f) = Ok (map vv (nf_given f)).
Proof. intros Ht Hw. apply (mapM_given N Hwf (exact_table f) Ht Hw). Qed.

Theorem float_factors L : (forall f, In f L -> In f (n_factors n)) -> forall c deps0 fs0,
  exists c' fs, foldM (add_net_factor (name_map (entries N)) (total_name N)) (vs_at N c, deps0, fs0) L
      = Ok (vs_at N c', fold_left (fun m f => mset var_eqb m (fst (dep_of N f)) (snd (dep_of N f))) (filter (is_open N) (map exact_table L)) deps0, fs0 ++ fs) /\
    Forall2 fbecame (filter (fun f => is_table N (exact_table f)) L) fs /\ (c <= c')%Z /\
    NoDup (map f_id fs) /\ forall f, In f fs -> (c <= f_id f < c')%Z.
Proof.
  induction L as [|f L IH]; intros Hw c deps0 fs0.
  - exists c, []. simpl. rewrite app_nil_r. repeat split; auto; try lia; try constructor; intros ? [].
  - assert (Hf0 := Hw f (or_introl eq_refl)). specialize (IH (fun g Hg => Hw g (or_intror Hg))).
    assert (Hf : is_total N (nf_for f) = false -> wf_table N (exact_table f)).
    { intros Ht. apply (wn_tables N Hwf); auto. apply in_exact. auto. }
    cbn [foldM map filter]. unfold add_net_factor at 1. rewrite (total_name_eq N Hwf (exact_table f) Hf : String.eqb (nf_for f) (total_name N) = is_total N (nf_for f)).
    assert (Ho : is_open N (exact_table f) = negb (is_total N (nf_for f)) && match kind vars (nf_for f) with Some Decision => true | _ => false end
      && negb (has_key (n_policies N) (nf_for f))) by reflexivity.
    assert (Hta : is_table N (exact_table f) = negb (is_total N (nf_for f)) && match kind vars (nf_for f) with Some Decision => false | Some _ => true | None => false end)
      by reflexivity.
    rewrite Ho, Hta. clear Ho Hta.
    destruct (is_total N (nf_for f)) eqn:Et; cbn [negb andb].
    { cbn [gbind]. apply IH. }
    specialize (Hf eq_refl). assert (Hkn : known (nf_for f)) by (split; auto; apply Hf).
    destruct (lookup_known N Hwf _ Hkn) as (k & v & Hk & Hn & Hv & _ & E). unfold lookup in E. rewrite E.
    rewrite (float_given f Et Hf). cbn [gbind].
    assert (Ev : en_ve (ve_entry N (Z.of_nat k, v)) = vv (nf_for f)) by (unfold NetFactors.vv, lookup; rewrite E; auto).
    rewrite Ev. destruct (kind_known N Hwf _ Hkn) as (t & Hkt & Htype). simpl in Hkt. rewrite Hkt, Htype.
    assert (Hvt : nv_type (en_var (ve_entry N (Z.of_nat k, v))) = t).
    { simpl. unfold kind in Hkt. simpl in Hv. rewrite Hv in Hkt. simpl in Hkt. congruence. }
    rewrite Hvt.
    destruct (nodeType_eqb t Decision) eqn:Etd.
    + assert (Heq : t = Decision) by (destruct t; try discriminate Etd; auto). rewrite Heq in *. clear Heq. cbn [andb].
      destruct (has_key (n_policies N) (nf_for f)) eqn:Ep; cbn [nodeType_eqb negb andb gbind].
      * apply IH.
      * cbn [fold_left]. apply IH.
    + cbn [andb]. rewrite Etd.
      replace (match t with Decision => true | _ => false end) with false by (destruct t; auto; discriminate Etd).
      replace (match t with Decision => false | _ => true end) with true by (destruct t; auto; discriminate Etd).
      cbn [andb].
      destruct (wt_table N (exact_table f) Hf) as (l & Hl & Hlen).
      { simpl. rewrite Hkt. intros Hc. injection Hc as Hc. rewrite Hc in Etd. discriminate Etd. }
      destruct (nf_table f) as [tbl|] eqn:Htb; [|simpl in Hl; rewrite Htb in Hl; discriminate Hl].
      destruct (table_exact f c tbl l Hf0 Et Hf Htb Hl Hlen) as [Hwfc Hden].
      pose proof (wf_fits _ Hwfc) as Hfit. unfold fits in Hfit. simpl in Hfit.
      assert (Etv : map vv (nf_given f) ++ [vv (nf_for f)] = tvars N (exact_table f)) by (unfold tvars; simpl; rewrite map_app; auto).
      pose proof (last_tvars N (exact_table f)) as Hlast. simpl in Hlast.
      rewrite Hlast, Etv.
      rewrite (create_factor_some (vs_at N c) (tvars N (exact_table f)) tbl Hfit). cbn [gbind vs_counter vs_at].
      destruct (nodeType_eqb t Chance) eqn:Etc.
      * assert (Heq : t = Chance) by (destruct t; try discriminate Etc; auto). rewrite Heq in *. clear Heq.
        assert (Hch : In (exact_table f) (chance_factors N)).
        { apply filter_In. split; [apply in_exact; auto|]. simpl. rewrite Hkt. auto. }
        destruct (float_row f c tbl (bump (vs_at N c)) Hf0 Hch Htb Hwfc Hden) as (g & Eg & Hgid & Hgw & Hgv & Hgd).
        unfold bump in Eg. cbn [vs_at vs_counter vs_vars vs_ids] in Eg |- *. rewrite Eg. cbn [gbind].
        destruct (IH (c + 1 + 1)%Z deps0 (fs0 ++ [g])) as (c' & fs & E' & Hfs & Hc & Hnd & Hids).
        unfold vs_at in E'. unfold vs_at. cbn [bump vs_counter vs_vars vs_ids] in *.
        exists c', (g :: fs). rewrite E'. split; [rewrite <- app_assoc; auto|].
        simpl in Hgid.
        split; [|split; [lia|split]].
        { constructor; auto. split; auto. split; auto. split; auto. rewrite Hkt. discriminate. }
        { simpl. constructor; auto. intros Hin. apply in_map_iff in Hin. destruct Hin as (h & Hh & Hin).
          specialize (Hids h Hin). lia. }
        { intros h [<-|Hin]; [lia|]. specialize (Hids h Hin). lia. }
      * cbn [gbind].
        destruct (IH (c + 1)%Z deps0 (fs0 ++ [mkFactor c (tvars N (exact_table f)) tbl])) as (c' & fs & E' & Hfs & Hc & Hnd & Hids).
        unfold vs_at in E'. unfold vs_at. cbn [vs_vars vs_ids].
        exists c', (mkFactor c (tvars N (exact_table f)) tbl :: fs). rewrite E'. split; [rewrite <- app_assoc; auto|].
        split; [|split; [lia|split]].
        { constructor; auto. split; auto. split; auto. split.
          2:{ intros _ a Ha.
            assert (Har : in_range (tvars N (exact_table f)) a).
            { apply (in_range_incl _ V); auto. intros x Hx. apply in_map_iff in Hx. destruct Hx as (y & <- & Hy). apply vv_in; auto. apply (table_names N (exact_table f) Et Hf). exact Hy. }
            split; auto. destruct Hfl as [Hf1 _]. apply (Hf1 f); auto. rewrite Htb. simpl. unfold fv, ft. simpl f_data. apply nth_In.
            rewrite Hfit. apply flat_lt. apply in_range_inb. auto. }
          intros Hch. destruct (chance_in _ Hch) as (_ & Hkc & _). simpl in Hkc. rewrite Hkt in Hkc. injection Hkc as Hkc. rewrite Hkc in Etc. discriminate Etc. }
        { simpl. constructor; auto. intros Hin. apply in_map_iff in Hin. destruct Hin as (h & Hh & Hin).
          specialize (Hids h Hin). lia. }
        { intros h [<-|Hin]; [simpl; lia|]. specialize (Hids h Hin). lia. }
Qed.

Definition fpol_became (dp : string * factor f64) (g : factor f64) : Prop :=
  wf_factor g /\ f_vars g = map (pol_var N) (f_vars (snd dp)) /\
  forall a, in_range V a -> approx (pb (fst dp)) (fv g a) (policy_prob vars (exact_factor (snd dp)) (by_name a)).

Lemma in_exact_policy x p : In (x, p) (n_policies n) -> In (x, exact_factor p) (n_policies N).
Proof. intros H. simpl. apply in_map_iff. exists (x, p). auto. Qed.

Lemma by_name_proper_state a : in_range V a -> proper_state N (fun x => if is_total N x then 0%nat else by_name a x).
Proof.
  intros Ha v Hv. destruct (is_total N (nv_name v)) eqn:Et.
  - pose proof (wn_outcomes N Hwf v Hv). unfold zlen in *. lia.
  - assert (Hk : known (nv_name v)) by (split; auto; exists v; apply (var_named_in N Hwf); auto).
    rewrite (by_name_vv N Hwf) by auto. pose proof (proj1 (vv_outcomes N Hwf _ Hk)) as Ho. unfold num_outcomes in Ho.
    rewrite (proj2 (var_named_in N Hwf (nv_name v) v)) in Ho by auto. rewrite <- Ho. apply Ha. apply vv_in; auto.
Qed.

Lemma float_policy id x p : In (x, p) (n_policies n) -> fpol_became (x, p) (mkFactor id (map (pol_var N) (f_vars p)) (f_data p)).
Proof.
  intros Hin. pose proof (wn_policies N Hwf _ _ (in_exact_policy _ _ Hin)) as Hp.
  destruct (policy_became N Hwf id x (exact_factor p) Hp) as (Hwe & Hve & Hd). simpl in *.
  set (g := mkFactor id (map (pol_var N) (f_vars p)) (f_data p)).
  change (mkFactor id (map (pol_var N) (f_vars p)) (map f64_exact (f_data p))) with (exact_factor g) in *.
  pose proof (proj1 (exact_wf _) Hwe) as Hwg. split; auto. split; auto. intros a Ha. cbn [fst snd].
  assert (HgV : incl (f_vars g) V).
  { intros v Hv. simpl in Hv. apply in_map_iff in Hv. destruct Hv as (w & <- & Hw').
    destruct (represents_vv N Hwf w (wp_scope N x _ Hp w Hw')) as (i & nv & _ & _ & _ & Hk & -> & _). apply vv_in; auto. }
  assert (Hag : in_range (f_vars g) a) by (eapply in_range_incl; eauto).
  assert (Ex : f64_exact (fv g a) = Fin (policy_prob vars (exact_factor p) (by_name a))).
  { rewrite <- fv_exact by auto. apply (denotes_fv _ _ a Hwe Hd). auto. }
  assert (Hsame : policy_prob vars (exact_factor p) (by_name a) = policy_prob vars (exact_factor p) (fun y => if is_total N y then 0%nat else by_name a y)).
  { unfold policy_prob. apply value_agree. intros v Hv. unfold positions.
    destruct (represents_vv N Hwf v (wp_scope N x _ Hp v Hv)) as (i & nv & Hi & Hid & _ & Hk & _). rewrite Hid, Nat2Z.id.
    simpl in Hi. rewrite Hi. rewrite (proj1 Hk). auto. }
  split.
  - apply near_exact; auto; [|apply (proj2 Hnn x _ (by_name a) (in_exact_policy _ _ Hin))].
    destruct Hfl as [_ Hf2]. apply (Hf2 x p _ Hin). unfold fv, ft. simpl f_data. apply nth_In.
    pose proof (wf_fits _ Hwg) as Hfit. unfold fits in Hfit. simpl f_data in Hfit. rewrite Hfit. apply flat_lt. apply in_range_inb. auto.
  - destruct (fr_policies N b s Hrange x _ _ (in_exact_policy _ _ Hin) (by_name_proper_state a Ha)) as [E|[E1 E2]]; simpl n_vars in *; rewrite <- Hsame in *.
    + left. auto.
    + right. cbn [pb b_lo b_hi]. apply qr_le in E1, E2. rewrite qr_pow_half in E1. rewrite qr_1 in E2. auto.
Qed.

Lemma float_pol_vars x (p : factor f64) : In (x, p) (n_policies n) ->
  mapM (fun v => if nodeType_eqb (v_type v) Decision then
            let! vv := sget (all_entries N) (v_id v) in
            if has_key (n_policies n) (nv_name (en_var vv)) then Ok (withNodeType v Chance) else Ok v
          else Ok v) (f_vars p : list variable) = Ok (map (pol_var N) (f_vars p)).
Proof.
  intros Hin. pose proof (wn_policies N Hwf _ _ (in_exact_policy _ _ Hin)) as Hp.
  apply mapM_ok. intros v Hv. destruct (represents_vv N Hwf v (wp_scope N x _ Hp v Hv)) as (i & nv & Hi & Hid & _ & _ & _ & _ & _ & Ha).
  unfold pol_var. destruct (nodeType_eqb (v_type v) Decision); auto.
  rewrite Hid, (sget_ok _ _ _ Ha), Nat2Z.id, Ha. cbn [gbind]. rewrite exact_has_key. destruct (has_key _ _); auto.
Qed.

Lemma float_policies ev (L : list (string * factor f64)) : (forall x p, In (x, p) L -> In (x, p) (n_policies n)) -> forall c fs0,
  exists c' fs, foldM (fun '(vs, fs) '((name, f) : string * factor f64) =>
      if has_key (ev : list (string * string)) name then Ok (vs, fs)
      else
        let! variables := mapM (fun v =>
            if nodeType_eqb (v_type v) Decision then
              let! vv := sget (all_entries N) (v_id v) in
              if has_key (n_policies n) (nv_name (en_var vv)) then Ok (withNodeType v Chance) else Ok v
            else Ok v) (f_vars f) in
        let! (vs, fac) := create_factor vs variables (Some (f_data f)) in
        Ok (vs, fs ++ [fac])) (vs_at N c, fs0) L = Ok (vs_at N c', fs0 ++ fs) /\
    Forall2 fpol_became (filter (fun dp => negb (has_key ev (fst dp))) L) fs /\ (c <= c')%Z /\
    NoDup (map f_id fs) /\ forall f, In f fs -> (c <= f_id f < c')%Z.
Proof.
  induction L as [|[x p] L IH]; intros Hw c fs0.
  - exists c, []. simpl. rewrite app_nil_r. repeat split; auto; try lia; try constructor; intros ? [].
  - specialize (IH (fun y q Hq => Hw y q (or_intror Hq))). assert (Hin := Hw x p (or_introl eq_refl)).
    cbn [foldM filter fst]. destruct (has_key ev x); cbn [negb].
    { cbn [gbind]. apply IH. }
    rewrite (float_pol_vars x p Hin). cbn [gbind].
    pose proof (float_policy c x p Hin) as Hb. pose proof (wf_fits _ (proj1 Hb)) as Hfit. unfold fits in Hfit. simpl in Hfit.
    rewrite (create_factor_some (vs_at N c) _ _ Hfit). cbn [gbind].
    destruct (IH (c + 1)%Z (fs0 ++ [mkFactor c (map (pol_var N) (f_vars p)) (f_data p)])) as (c' & fs & E' & Hfs & Hc & Hnd & Hids).
    exists c', (mkFactor c (map (pol_var N) (f_vars p)) (f_data p) :: fs). unfold vs_at in E'. unfold vs_at. cbn [vs_vars vs_ids vs_counter]. rewrite E'.
    split; [rewrite <- app_assoc; auto|]. split; [|split; [lia|split]].
    + constructor; auto.
    + simpl. constructor; auto. intros Hi. apply in_map_iff in Hi. destruct Hi as (h & Hh & Hi). specialize (Hids h Hi). lia.
    + intros h [<-|Hi]; [simpl; lia|]. specialize (Hids h Hi). lia.
Qed.

(** The float64 weights and the exact ones. *)
Definition exact_weights (w : option (list f64)) (wq : option (list Qc)) : Prop :=
  match w, wq with
  | None, None => True
  | Some l, Some lq => Forall2 (fun x q => stored x /\ f64_exact x = Fin q) l lq
  | _, _ => False
  end.
Lemma float_weights : exists w, prepare_utility_weights n = Ok w /\ exact_weights w (weights N).
Proof.
  unfold prepare_utility_weights, weights. simpl n_tui. destruct (n_tui n <? 0)%Z eqn:E0; [exists None; split; simpl; auto|].
  destruct (wn_total N Hwf) as [H|(i & v & k & f & l & Hi & Hv & Hu & Hk & Hf & Hl & Hlen & Hall)]; simpl in *; [lia|].
  rewrite Hi, (sget_ok _ _ _ Hv). cbn [gbind]. rewrite Hk. pose proof Hf as HfN. rewrite nth_error_map in Hf.
  destruct (nth_error (n_factors n) k) as [f0|] eqn:Ef; [|discriminate Hf]. injection Hf as <-. rewrite (sget_ok _ _ _ Ef). cbn [gbind].
  simpl in *. destruct (nf_table f0) as [tbl|] eqn:Et; [|discriminate Hl]. simpl in Hl. injection Hl as Hl.
  assert (Hlt : List.length tbl = List.length l) by (apply (f_equal (@List.length xnum)) in Hl; rewrite !map_length in Hl; auto).
  assert (Hnodes : utility_nodes N = map snd (filter (fun '((j, w) : Z * nvar) => negb (j =? Z.of_nat i)%Z && nodeType_eqb (nv_type w) Utility) (combine (zrange 0 (zlen vars)) vars))).
  { unfold utility_nodes, numbered. f_equal. apply filter_ext. intros [j w]. simpl. rewrite Hi. auto. }
  assert (Hgiven : forall u, In u (utility_nodes N) -> In (nv_name u) (nf_given f0)).
  { intros u Hin. rewrite Hnodes in Hin. apply in_map_iff in Hin. destruct Hin as ([j w] & Hw & Hin). simpl in Hw. subst w.
    apply filter_In in Hin. destruct Hin as [Hin Hc]. apply andb_true_iff in Hc. destruct Hc as [Hc1 Hc2].
    fold (numbered n) in Hin. apply in_numbered in Hin. destruct Hin as (j' & -> & Hj).
    apply (Hall j' u Hj); [intros ->; rewrite Z.eqb_refl in Hc1; discriminate Hc1|]. destruct (nv_type u); auto; discriminate Hc2. }
  rewrite <- Hnodes.
  rewrite mapM_ok with (g := fun u => nth (position (nv_name u) (nf_given f0)) tbl n0).
  - cbn [gbind]. eexists. split; [reflexivity|]. simpl exact_weights.
    assert (G : forall L, incl L (utility_nodes N) -> Forall2 (fun x q => stored x /\ f64_exact x = Fin q)
      (map (fun u => nth (position (nv_name u) (nf_given f0)) tbl n0) L) (map (fun u => net_weight N (nv_name u)) L)).
    { induction L as [|u L IH]; intros HL; simpl; constructor; [|apply IH; intros x Hx; apply HL; simpl; auto].
      destruct (str_index_position _ _ (Hgiven u (HL u (or_introl eq_refl)))) as [_ Hp].
      assert (Hpt : (position (nv_name u) (nf_given f0) < List.length tbl)%nat) by lia.
      split.
      - apply (proj1 Hfl f0); [eapply nth_error_In; eauto|]. rewrite Et. simpl. apply nth_In. auto.
      - assert (Hnw : net_weight N (nv_name u) = fin_value (nth_error (map f64_exact tbl) (position (nv_name u) (nf_given f0)))).
        { unfold net_weight, total_factor. simpl. rewrite E0, Hi, Nat2Z.id, Hv, Hk. simpl in HfN. rewrite HfN. simpl. rewrite Et. auto. }
        rewrite Hnw. assert (En : nth_error (map f64_exact tbl) (position (nv_name u) (nf_given f0)) = Some (f64_exact (nth (position (nv_name u) (nf_given f0)) tbl n0))).
        { rewrite nth_error_map. rewrite (nth_error_nth' tbl n0 Hpt). auto. }
        rewrite En. assert (Hfin : exists q, f64_exact (nth (position (nv_name u) (nf_given f0)) tbl n0) = Fin q).
        { rewrite Hl, nth_error_map in En. destruct (nth_error l _) as [q|]; [|discriminate En]. simpl in En. injection En as En. eauto. }
        destruct Hfin as (q & Hq). rewrite Hq. exact Hq. }
    apply G. intros x Hx. auto.
  - intros u Hin. destruct (str_index_position _ _ (Hgiven u Hin)) as [Ei Hlt']. rewrite Ei.
    replace (Z.of_nat (position (nv_name u) (nf_given f0)) <? 0)%Z with false by lia.
    apply sget_ok. simpl slice_of. apply nth_error_nth'. lia.
Qed.

(** ** The elimination problem on float64 with its exact counterpart *)
Definition same_shape (g : factor f64) (h : factor xnum) : Prop :=
  f_vars h = f_vars g /\ f_id h = f_id g /\ wf_factor g.

Lemma same_utility g h : same_shape g h -> is_utility_factor g = is_utility_factor h.
Proof. intros (Hv & _). unfold is_utility_factor. rewrite Hv. auto. Qed.

Lemma with_id (F : nfactor xnum) : In F (n_factors N) -> is_table N F = true -> forall id, exists h, became N F h /\ f_id h = id.
Proof.
  intros Hin Ht id. destruct (add_net_factors_ok N Hwf [F]) with (c := 0%Z) (deps0 := @nil (variable * list variable)) (fs0 := @nil (factor xnum)) as (c' & fs & _ & Hb & _).
  { intros f [<-|[]] Hf. apply (wn_tables N Hwf); auto. }
  simpl in Hb. rewrite Ht in Hb. inversion Hb as [|? h ? ? Hh _]; subst. destruct Hh as (Hw & Hv & Hd).
  exists (mkFactor id (f_vars h) (f_data h)). split; auto. split; [|split]; auto. 
Qed.

Lemma local_value (h : factor xnum) : local (f_vars h) (value h).
Proof. intros a c H. apply value_agree. auto. Qed.

Lemma table_items F fs : Forall2 fbecame F fs -> (forall f, In f F -> In f (n_factors n) /\ is_table N (exact_table f) = true) ->
  exists hs l, Forall2 (became N) (map exact_table F) hs /\ Forall2 same_shape fs hs /\
    prob_factors fs = map i_f l /\ Forall (item_ok V) l /\
    map i_b l = map (fun f => tb (nf_for f)) (filter (is_chance N) (map exact_table F)) /\
    forall a, mass_of l a = weight_of (prob_factors hs) a.
Proof.
  induction 1 as [|f g F fs Hfg HF IH]; intros Hin.
  - exists [], []. simpl. repeat split; auto.
  - destruct IH as (hs & l & H1 & H2 & H3 & H4 & H5 & H6). { intros; apply Hin; simpl; auto. }
    destruct (Hin f (or_introl eq_refl)) as [Hf Ht]. destruct Hfg as (Hw & Hv & Hap & _).
    destruct (with_id (exact_table f) (in_exact f Hf) Ht (f_id g)) as (h & Hh & Hid).
    assert (Hsame : same_shape g h). { split; [|split]; auto. rewrite Hv. apply Hh. }
    pose proof (same_utility g h Hsame) as Hu.
    assert (Hc : is_chance N (exact_table f) = negb (is_utility_factor h)).
    { apply became_chance; auto. apply filter_In. split; auto. apply in_exact. auto. }
    cbn [map filter]. unfold prob_factors in *. cbn [filter].
    destruct (is_utility_factor h) eqn:Eu; rewrite Hu, Hc; cbn [negb].
    + exists (h :: hs), l. split; [constructor; auto|]. split; [constructor; auto|]. split; auto. split; auto. split; auto.
      intros a. simpl. rewrite Eu. apply H6.
    + assert (Hch : In (exact_table f) (chance_factors N)).
      { rewrite <- (chance_tables N Hwf). apply filter_In. split; auto. apply filter_In. split; auto. apply in_exact. auto. }
      exists (h :: hs), (mkI (tb (nf_for f)) g (value h) :: l). split; [constructor; auto|]. split; [constructor; auto|].
      split; [simpl; congruence|]. split; [|split].
      * constructor; auto. split; [apply tb_sane|]. cbn [i_f i_q i_b]. split; [destruct Hsame as [<- _]; apply local_value|].
        intros a Ha. destruct Hh as (Hwh & Hvh & Hdh). rewrite (denotes_value h _ a Hdh).
        -- unfold table_value. simpl n_vars. pose proof (chance_in _ Hch) as (_ & Hkc & _). rewrite Hkc. apply Hap; auto.
        -- apply (in_range_incl _ V); auto. rewrite Hvh. intros v Hv0. apply in_map_iff in Hv0. destruct Hv0 as (x & <- & Hx). apply vv_in; auto.
           destruct (chance_in _ Hch) as (_ & _ & Htt & Hwt). eapply table_names; eauto.
      * simpl. rewrite H5. auto.
      * intros a. simpl. rewrite Eu. simpl. unfold mass_of in *. simpl. rewrite H6. auto.
Qed.

Lemma policy_items P fs : Forall2 fpol_became P fs -> (forall d p, In (d, p) P -> In (d, p) (n_policies n)) ->
  exists hs l, Forall2 (pol_became N) (map (fun dp => (fst dp, exact_factor (snd dp))) P) hs /\ Forall2 same_shape fs hs /\
    prob_factors fs = map i_f l /\ Forall (item_ok V) l /\
    map i_b l = map (fun dp => pb (fst dp)) P /\
    forall a, mass_of l a = weight_of (prob_factors hs) a.
Proof.
  induction 1 as [|[d p] g F fs Hfg HF IH]; intros Hin.
  - exists [], []. simpl. repeat split; auto.
  - destruct IH as (hs & l & H1 & H2 & H3 & H4 & H5 & H6). { intros; apply Hin; simpl; auto. }
    assert (Hdp : In (d, p) (n_policies n)) by (apply Hin; simpl; auto). destruct Hfg as (Hw & Hv & Hap). cbn [fst snd] in *.
    pose proof (policy_became N Hwf (f_id g) d (exact_factor p) (wn_policies N Hwf _ _ (in_exact_policy _ _ Hdp))) as Hh.
    set (h := mkFactor (f_id g) (map (pol_var N) (f_vars (exact_factor p))) (f_data (exact_factor p))) in *.
    assert (Hsame : same_shape g h) by (split; [|split]; auto).
    assert (Eu : is_utility_factor h = false) by (eapply (pol_no_utility N Hwf); [apply in_exact_policy; eauto|]; auto).
    pose proof (same_utility g h Hsame) as Hu.
    exists (h :: hs), (mkI (pb d) g (value h) :: l). split; [constructor; auto|]. split; [constructor; auto|].
    split; [unfold prob_factors in *; cbn [filter map]; rewrite Hu, Eu; cbn [negb]; simpl; congruence|]. split; [|split].
    + constructor; auto. split; [apply pb_sane|]. cbn [i_f i_q i_b]. split; [destruct Hsame as [<- _]; apply local_value|].
      intros a Ha. destruct Hh as (Hwh & Hvh & Hdh). rewrite (denotes_value h _ a Hdh).
      * apply Hap; auto.
      * apply (in_range_incl _ V); auto. intros v Hv0. simpl in Hv0. apply in_map_iff in Hv0. destruct Hv0 as (w & <- & Hw').
        destruct (represents_vv N Hwf w (wp_scope N d _ (wn_policies N Hwf _ _ (in_exact_policy _ _ Hdp)) w Hw')) as (i & nv & _ & _ & _ & Hk & -> & _). apply vv_in; auto.
    + simpl. rewrite H5. auto.
    + intros a. unfold prob_factors, weight_of, mass_of in *. cbn [filter]. rewrite Eu. cbn [negb map i_q]. simpl. rewrite H6. auto.
Qed.

(** The factor made of a utility table holds its entries. *)
Definition util_became (F : nfactor xnum) (g : factor f64) : Prop :=
  wf_factor g /\ f_vars g = tvars N F /\
  forall a, in_range V a -> stored (fv g a) /\ f64_exact (fv g a) = Fin (entry vars F (by_name a)).
Lemma table_utils F fs : Forall2 fbecame F fs -> (forall f, In f F -> In f (n_factors n) /\ is_table N (exact_table f) = true) ->
  Forall2 util_became (filter (is_util N) (map exact_table F)) (utility_factors fs).
Proof.
  induction 1 as [|f g F fs Hfg HF IH]; intros Hin; [constructor|].
  assert (IH' := IH (fun x Hx => Hin x (or_intror Hx))). clear IH.
  destruct (Hin f (or_introl eq_refl)) as [Hf Ht]. destruct Hfg as (Hw & Hv & _ & Hap).
  destruct (with_id (exact_table f) (in_exact f Hf) Ht (f_id g)) as (h & Hh & Hid).
  assert (Hsame : same_shape g h). { split; [|split]; auto. rewrite Hv. apply Hh. }
  assert (Hc : is_util N (exact_table f) = is_utility_factor h).
  { apply became_utility; auto. apply filter_In. split; auto. apply in_exact. auto. }
  unfold utility_factors in *. cbn [map filter]. rewrite (same_utility g h Hsame), <- Hc. destruct (is_util N (exact_table f)) eqn:Eu; auto.
  constructor; auto. split; auto. split; auto. intros a Ha. apply Hap; auto.
  unfold is_util in Eu. simpl in Eu. destruct (kind vars (nf_for f)) as [[]|]; auto; discriminate Eu.
Qed.

Record fcreated (ev : list (string * string)) (vs : vstate) (fs : list (factor f64)) (hs : list (factor xnum)) (l : list item) : Prop := {
  fc_created : created N ev vs hs;
  fc_same : Forall2 same_shape fs hs;
  fc_items : prob_factors fs = map i_f l;
  fc_ok : Forall (item_ok V) l;
  fc_mass : forall a, mass_of l a = weight_of (prob_factors hs) a;
  fc_utils : Forall2 util_became (utility_tables N) (utility_factors fs);
  fc_budget : exists P, Permutation P (filter (fun dp => negb (has_key ev (fst dp))) (n_policies n)) /\
    map i_b l = map (fun f => tb (nf_for f)) (chance_factors N) ++ map (fun dp => pb (fst dp)) P;
  fc_split : exists tfs pfs P, fs = tfs ++ pfs /\ Forall2 fbecame (filter (fun f => is_table N (exact_table f)) (n_factors n)) tfs /\
    Permutation P (filter (fun dp => negb (has_key ev (fst dp))) (n_policies n)) /\ Forall2 fpol_became P pfs
}.

Lemma Forall2_app_same {X Y} (R : X -> Y -> Prop) l1 l2 m1 m2 : Forall2 R l1 m1 -> Forall2 R l2 m2 -> Forall2 R (l1 ++ l2) (m1 ++ m2).
Proof. induction 1; simpl; auto. Qed.

Lemma same_ids fs hs : Forall2 same_shape fs hs -> map f_id hs = map f_id fs.
Proof. induction 1 as [|g h fs hs (_ & Hid & _) _ IH]; simpl; congruence. Qed.

Theorem float_to_ve sc t ev : exists vs fs w hs l,
  to_ve sc t n ev = Ok (ve_new (S t) vs fs (net_deps N) w, name_map (entries N)) /\ fcreated ev vs fs hs l /\ exact_weights w (weights N).
Proof.
  unfold to_ve. rewrite float_variables. cbn [gbind].
  destruct (float_factors (n_factors n) (fun f Hf => Hf) 0%Z [] []) as (c1 & tfs & E1 & Hb & Hc1 & Hnd1 & Hid1).
  match type of E1 with _ = ?r => match goal with |- context [foldM ?g ?i (n_factors n)] =>
    replace (foldM g i (n_factors n)) with r by (symmetry; exact E1) end end.
  cbn [gbind]. change (fold_left _ (filter (is_open N) (map exact_table (n_factors n))) []) with (net_deps N).
  assert (Hperm : Permutation (shuffle sc t (n_policies n)) (n_policies n)) by (apply Permutation_sym, shuffle_perm).
  destruct (float_policies ev (shuffle sc t (n_policies n))) with (c := c1) (fs0 := @nil (factor f64)) as (c2 & pfs & E2 & Hpb & Hc2 & Hnd2 & Hid2).
  { intros x p Hin. eapply Permutation_in; eauto. }
  unfold policy_factors. rewrite E2. cbn [gbind]. destruct float_weights as (w & Ew & Hew). rewrite Ew. cbn [gbind].
  set (P := filter (fun dp => negb (has_key ev (fst dp))) (shuffle sc t (n_policies n))) in *.
  assert (HP : Permutation P (filter (fun dp => negb (has_key ev (fst dp))) (n_policies n))) by (apply Permutation_filter; auto).
  destruct (table_items _ _ Hb) as (ht & lt & T1 & T2 & T3 & T4 & T5 & T6). { intros f Hf. apply filter_In in Hf. auto. }
  destruct (policy_items _ _ Hpb) as (hp & lp & P1 & P2 & P3 & P4 & P5 & P6).
  { intros d p Hin. apply filter_In in Hin. eapply Permutation_in; [apply Hperm|]. apply Hin. }
  assert (Etab : map exact_table (filter (fun f => is_table N (exact_table f)) (n_factors n)) = filter (is_table N) (n_factors N)).
  { simpl. rewrite filter_map_comm'. auto. }
  rewrite Etab in *. rewrite (chance_tables N Hwf) in T5.
  exists (vs_at N c2), (tfs ++ pfs), w, (ht ++ hp), (lt ++ lp). split; auto.
  split; [|exact Hew]. split.
  - assert (Hact : active N ev = map (fun dp => (fst dp, exact_factor (snd dp))) (filter (fun dp => negb (has_key ev (fst dp))) (n_policies n))).
    { unfold active. simpl. rewrite filter_map_comm'. auto. }
    split; auto.
    + split; simpl.
      * apply net_vars_wf.
      * apply net_vars_index.
      * intros h Hh. apply in_app_iff in Hh. destruct Hh as [Hh|Hh].
        -- destruct (Forall2_in_r _ _ _ _ T1 Hh) as (nf & Hnf & Hw & Hvs & Hd). split; auto. split; [eapply denotes_finite; eauto|]. split.
           ++ rewrite Hvs. intros v Hv. apply in_map_iff in Hv. destruct Hv as (x & <- & Hx). apply vv_in; auto.
              apply filter_In in Hnf. destruct Hnf as [Hin Ht]. unfold is_table in Ht. apply andb_true_iff in Ht. destruct Ht as [Ht _]. apply negb_true_iff in Ht.
              eapply table_names; eauto. apply (wn_tables N Hwf); auto.
           ++ destruct (Forall2_in_r _ _ _ _ T2 Hh) as (g & Hg & _ & Hid & _). specialize (Hid1 g Hg). rewrite Hid. lia.
        -- destruct (Forall2_in_r _ _ _ _ P1 Hh) as ([d p] & Hdp & Hw & Hvs & Hd). split; auto. split; [eapply denotes_finite; eauto|]. split.
           ++ rewrite Hvs. intros v Hv. apply in_map_iff in Hv. destruct Hv as (u & <- & Hu).
              apply in_map_iff in Hdp. destruct Hdp as ([d' p'] & Edp & Hdp). injection Edp as <- <-. simpl in Hu.
              apply filter_In in Hdp. destruct Hdp as [Hdp _]. apply (Permutation_in _ Hperm) in Hdp.
              destruct (represents_vv N Hwf u (wp_scope N d' _ (wn_policies N Hwf _ _ (in_exact_policy _ _ Hdp)) u Hu)) as (i & nv & _ & _ & _ & Hk & -> & _).
              apply vv_in; auto.
           ++ destruct (Forall2_in_r _ _ _ _ P2 Hh) as (g & Hg & _ & Hid & _). specialize (Hid2 g Hg). rewrite Hid. lia.
      * rewrite map_app, (same_ids _ _ T2), (same_ids _ _ P2). apply NoDup_app_intro; auto. intros x Hx Hx'. apply in_map_iff in Hx, Hx'.
        destruct Hx as (f & <- & Hf). destruct Hx' as (g & Hg' & Hg). specialize (Hid1 f Hf). specialize (Hid2 g Hg). lia.
      * apply net_deps_keys.
      * intros d ps Hin. apply (net_deps_spec N) in Hin. destruct Hin as (f & Hf & Ho & -> & ->).
        pose proof (open_known N Hwf f Hf Ho) as Hk. split.
        -- apply vv_in; auto. apply Hk. apply in_app_iff. simpl. auto.
        -- intros v Hv. apply in_map_iff in Hv. destruct Hv as (x & <- & Hx). apply vv_in; auto. apply Hk. apply in_app_iff. auto.
    + exists ht, hp. eexists. split; [reflexivity|]. split; [exact T1|]. split; [|exact P1]. rewrite Hact. apply Permutation_map. auto.
  - apply Forall2_app_same; auto.
  - unfold prob_factors in *. rewrite filter_app, map_app. congruence.
  - apply Forall_app. auto.
  - intros a. unfold prob_factors in *. rewrite filter_app, weight_app, <- T6, <- P6. apply mass_app.
  - unfold utility_factors. rewrite filter_app.
    assert (Ep : filter is_utility_factor pfs = []).
    { assert (G : forall g, In g pfs -> is_utility_factor g = false).
      { intros g Hg. destruct (Forall2_in_l _ _ _ _ P2 Hg) as (h & Hh & Hsh). rewrite (same_utility g h Hsh).
        destruct (Forall2_in_r _ _ _ _ P1 Hh) as ([d p] & Hdp & Hpbm). eapply (pol_no_utility N Hwf); [|exact Hpbm].
        apply in_map_iff in Hdp. destruct Hdp as ([d' p'] & Edp & Hdp). injection Edp as <- <-. apply in_exact_policy.
        apply filter_In in Hdp. destruct Hdp as [Hdp _]. apply (Permutation_in _ Hperm) in Hdp. auto. }
      clear -G. induction pfs as [|g pfs IH]; simpl; auto. rewrite (G g) by (simpl; auto). apply IH. intros; apply G; simpl; auto. }
    rewrite Ep, app_nil_r. pose proof (table_utils _ _ Hb) as Hu. rewrite Etab in Hu. rewrite <- (util_tables N). apply Hu.
    intros f Hf. apply filter_In in Hf. auto.
  - exists P. split; auto. rewrite map_app. congruence.
  - exists tfs, pfs, P. auto.
Qed.
End Net.
