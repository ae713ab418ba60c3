(** Training on float64 numbers. *)
From Coq Require Import ZArith List Bool String Lia Permutation QArith Qcanon Qcabs Reals Lra Qreals.
From Coq Require Import Floats.SpecFloat.
From Flocq Require Import Core.Core IEEE754.BinarySingleNaN.
From Verif Require Import Num GoBase VarModel GoFacts SpecFactor VEModel NetModel SpecNet TrainModel SpecTrain TrainFacts TrainUpdate TrainThms
  RoundFacts SpecRound RoundNet.
Import ListNotations.
Open Scope string_scope.
Open Scope list_scope.
Open Scope R_scope.
Local Opaque bpow.

#[local] Existing Instance prec_pos.
#[local] Existing Instance prec_emax.

#[local] Instance fexp64_valid : Valid_exp fexp64 := fexp_correct 53 1024 prec_pos.

(** Integers below 2^53 are float64 numbers. *)
Lemma int_format z : (Z.abs z < 2 ^ 53)%Z -> generic_format radix2 fexp64 (IZR z).
Proof.
  intros H. change fexp64 with (FLT_exp (-1074) 53). apply generic_format_FLT. exists (Float radix2 z 0).
  - unfold F2R. cbn [Fnum Fexp]. change (bpow radix2 0) with 1. rewrite Rmult_1_r. reflexivity.
  - cbn [Fnum]. change (radix2 : Z) with 2%Z. exact H.
  - cbn [Fexp]. discriminate.
Qed.

Lemma rnd_int z : (Z.abs z < 2 ^ 53)%Z -> rnd (IZR z) = IZR z.
Proof. intros H. apply round_generic; auto with typeclass_instances. apply int_format. exact H. Qed.

Lemma int_small z : (Z.abs z < 2 ^ 53)%Z -> Rabs (IZR z) < bpow radix2 1024.
Proof.
  intros H. apply Rlt_trans with (bpow radix2 53).
  - rewrite <- (IZR_Zpower radix2 53) by discriminate. rewrite <- abs_IZR. apply IZR_lt. exact H.
  - apply bpow_lt. reflexivity.
Qed.

Definition int64 (z : Z) : b64 := binary_normalize 53 1024 prec_pos prec_emax mode_NE z 0 false.
Lemma int64_spec z : f64_of_int z = B2SF (int64 z).
Proof. unfold f64_of_int, int64. apply normalize_equiv. Qed.
Lemma int64_correct z : (Z.abs z < 2 ^ 53)%Z -> B2R (int64 z) = IZR z /\ is_finite (int64 z) = true /\ (z <> 0%Z -> is_finite_strict (int64 z) = true).
Proof.
  intros H. pose proof (binary_normalize_correct 53 1024 prec_pos prec_emax mode_NE z 0 false) as C.
  assert (E : F2R (Float radix2 z 0) = IZR z).
  { unfold F2R. cbn [Fnum Fexp]. change (bpow radix2 0) with 1. apply Rmult_1_r. }
  rewrite E in C. cbn [round_mode] in C. rewrite (rnd_int z H) in C. rewrite Rlt_bool_true in C by (apply int_small; exact H).
  destruct C as (C1 & C2 & _). fold (int64 z) in C1, C2. split; [exact C1|]. split; [exact C2|].
  intros Hz. destruct (int64 z) as [s|s| |s m e Hb]; try discriminate C2; auto. exfalso. apply Hz. simpl in C1. apply eq_IZR. rewrite <- C1. reflexivity.
Qed.

(** Counting by adding one gives the exact number. *)
Lemma int64_succ z : (0 <= z)%Z -> (z + 1 < 2 ^ 53)%Z -> nadd (f64_of_int z) (n1 : f64) = f64_of_int (z + 1).
Proof.
  intros H0 H. change (n1 : f64) with (f64_of_int 1). change (nadd (f64_of_int z) (f64_of_int 1)) with (SFadd 53 1024 (f64_of_int z) (f64_of_int 1)).
  rewrite !int64_spec, add_B. f_equal.
  destruct (int64_correct z) as (A1 & A2 & _); [lia|]. destruct (int64_correct 1) as (B1 & B2 & _); [simpl; lia|].
  destruct (int64_correct (z + 1)) as (C1 & C2 & C3); [lia|]. specialize (C3 ltac:(lia)).
  pose proof (Bplus_correct 53 1024 prec_pos prec_emax mode_NE (int64 z) (int64 1) A2 B2) as P.
  rewrite A1, B1, <- plus_IZR in P. cbn [round_mode] in P. rewrite rnd_int in P by lia. rewrite Rlt_bool_true in P by (apply int_small; lia).
  destruct P as (P1 & P2 & _). apply B2R_inj; [|exact C3|congruence].
  destruct (Bplus mode_NE (int64 z) (int64 1)) as [s|s| |s m e Hb]; try discriminate P2; auto. exfalso. simpl in P1. apply (IZR_neq (z + 1) 0); [lia|auto].
Qed.

Lemma add_up_snoc {A} {N : NumOps A} (l : list A) x : add_up (l ++ [x]) = nadd (add_up l) x.
Proof. unfold add_up. rewrite fold_left_app. reflexivity. Qed.

Lemma add_up_ones_repeat {A} {N : NumOps A} {X} (l : list X) : add_up (map (fun _ => n1) l) = add_up (repeat n1 (List.length l)).
Proof. f_equal. induction l; simpl; congruence. Qed.

Lemma add_up_ones64 {X} (l : list X) : (zlen l < 2 ^ 53)%Z -> add_up (map (fun _ => n1) l) = f64_of_int (zlen l).
Proof.
  intros H. rewrite add_up_ones_repeat. unfold zlen in *. induction (List.length l) as [|k IH].
  - reflexivity.
  - replace (S k) with (k + 1)%nat by lia. rewrite repeat_app. cbn [repeat]. rewrite add_up_snoc, IH by lia. rewrite int64_succ by lia. f_equal. lia.
Qed.

(** ** Division of integers *)
Lemma qr_minus p q : qr (p - q)%Qc = qr p - qr q.
Proof. unfold Qcminus. rewrite qr_plus. unfold Rminus. f_equal. unfold qr. rewrite <- Q2R_opp. apply Qeq_eqR. apply Qred_correct. Qed.
Lemma qr_abs q : qr (Qcabs q) = Rabs (qr q).
Proof.
  apply Qcabs_case; intros H.
  - symmetry. apply Rabs_pos_eq. apply qr_nonneg. exact H.
  - rewrite Rabs_left1.
    + unfold qr. rewrite <- Q2R_opp. apply Qeq_eqR. apply Qred_correct.
    + rewrite <- qr_0. apply qr_le. exact H.
Qed.
Lemma qr_qz z : qr (qz z) = IZR z.
Proof. unfold qz. rewrite qr_Q2Qc. apply Q2R_inject. Qed.

Lemma stored_format x : stored x -> is_finite_SF x = true -> generic_format radix2 fexp64 (SF2R radix2 x).
Proof. intros H Hf. destruct (stored_B x H) as (b & <-). rewrite SF2R_B. apply generic_format_B2R. Qed.

Lemma nearest_div a b : (0 <= a <= b)%Z -> (0 < b < 2 ^ 53)%Z -> nearest_float (ndiv (f64_of_int a) (f64_of_int b)) (qz a / qz b)%Qc.
Proof.
  intros Ha Hb. destruct (int64_correct a) as (A1 & A2 & _); [lia|]. destruct (int64_correct b) as (B1 & B2 & _); [lia|].
  change (ndiv (f64_of_int a) (f64_of_int b)) with (SFdiv 53 1024 (f64_of_int a) (f64_of_int b)). rewrite !int64_spec, div_B.
  assert (Hb0 : IZR b <> 0) by (apply IZR_neq; lia).
  pose proof (Bdiv_correct 53 1024 prec_pos prec_emax mode_NE (int64 a) (int64 b)) as D. rewrite B1 in D. specialize (D Hb0). rewrite A1 in D. cbn [round_mode] in D.
  assert (Hq : 0 <= IZR a / IZR b <= 1).
  { assert (0 < IZR b) by (apply IZR_lt; lia). split.
    - unfold Rdiv. apply Rmult_le_pos; [apply IZR_le; lia|]. left. apply Rinv_0_lt_compat. auto.
    - apply Rmult_le_reg_r with (IZR b); auto. unfold Rdiv. rewrite Rmult_assoc, Rinv_l, Rmult_1_l, Rmult_1_r by auto. apply IZR_le. lia. }
  assert (Hr : 0 <= rnd (IZR a / IZR b) <= 1).
  { split.
    - rewrite <- (round_0 radix2 fexp64 ZnearestE). apply round_le; auto with typeclass_instances. apply Hq.
    - apply Rle_trans with (rnd 1); [apply round_le; auto with typeclass_instances; apply Hq|]. right. apply (rnd_int 1). reflexivity. }
  rewrite Rlt_bool_true in D.
  2: { rewrite Rabs_pos_eq by tauto. apply Rle_lt_trans with 1; [tauto|]. change 1 with (bpow radix2 0). apply bpow_lt. reflexivity. }
  destruct D as (D1 & D2 & _). rewrite A2 in D2.
  set (r := Bdiv mode_NE (int64 a) (int64 b)) in *. split; [apply B_stored|].
  assert (Hf : is_finite_SF (B2SF r) = true) by (rewrite is_finite_SF_B2SF; exact D2).
  destruct (exact_of_finite _ Hf) as (q & Eq). exists q. split; [exact Eq|]. intros y r' Hy Ey.
  destruct (SF2R_exact _ _ Eq) as [Q1 _]. destruct (SF2R_exact _ _ Ey) as [Q2 Q3]. rewrite SF2R_B in Q1.
  apply qr_le. rewrite !qr_abs, !qr_minus. rewrite <- Q1, <- Q2, D1.
  assert (Ed : qr (qz a / qz b)%Qc = IZR a / IZR b).
  { unfold Qcdiv. rewrite qr_mult, qr_qz. unfold Rdiv. f_equal. unfold qr. assert (E : (this (/ qz b)%Qc == / this (qz b))%Q) by apply Qred_correct.
    rewrite (Qeq_eqR _ _ E), Q2R_inv. { f_equal. apply qr_qz. }
    intros Hz. apply Hb0. rewrite <- qr_qz. unfold qr. rewrite (Qeq_eqR _ _ Hz). unfold Q2R. simpl. lra. }
  rewrite Ed. destruct (round_N_pt radix2 fexp64 (fun x => negb (Z.even x)) (IZR a / IZR b)) as [_ N]. apply N. apply stored_format; auto.
Qed.

(** ** Chance tables *)
Open Scope Z_scope.
Lemma shows_le {A} {N : NumOps A} vars (v : nvar) G s (samples : list (sample A)) : nv_type v = Chance ->
  0 <= count_of (shows vars (G ++ [nv_name v]) s) samples <= usable_count vars v G s samples.
Proof.
  intros Ht. unfold usable_count, count_of, zlen. split; [lia|]. apply inj_le. induction samples as [|x l IH]; [simpl; lia|]. cbn [filter].
  assert (H : shows vars (G ++ [nv_name v]) s x = true -> usable vars v G s x = true).
  { unfold usable, shows. rewrite forallb_app, Ht. cbn [forallb nodeType_eqb]. rewrite !andb_true_iff. intros (H1 & H2 & _). split; auto. apply Z.eqb_eq in H2. apply Z.leb_le. lia. }
  destruct (shows vars (G ++ [nv_name v]) s x); [rewrite H by auto; simpl; lia|]. destruct (usable vars v G s x); simpl; lia.
Qed.

Lemma usable_all {A} {N : NumOps A} vars (v : nvar) G s (samples : list (sample A)) : usable_count vars v G s samples <= zlen samples.
Proof. unfold usable_count, count_of, zlen. apply inj_le. induction samples as [|x l IH]; simpl; [lia|]. destruct (usable vars v G s x); simpl; lia. Qed.

Theorem chance_entry64 (n : network f64) (Hta : trainable n) samples v s : In v (n_vars n) -> nv_type v = Chance -> state_of (n_vars n) s ->
  (forall smp, In smp samples -> valid_sample (n_vars n) smp) -> zlen samples < 2 ^ 53 ->
  usable_count (n_vars n) v (nf_given (fac n v)) s samples <> 0 ->
  exists p, nth_error (slice_of (nf_table (trained n samples v))) (cell (n_vars n) (nf_given (fac n v) ++ [nv_name v]) s) = Some p /\
  nearest_float p (qz (count_of (shows (n_vars n) (nf_given (fac n v) ++ [nv_name v]) s) samples) / qz (usable_count (n_vars n) v (nf_given (fac n v)) s samples))%Qc.
Proof.
  intros Hv Ht Hs Hval Hlen Hnz. rewrite (trained_entry n Hta) by (auto; congruence). eexists. split; [reflexivity|].
  rewrite sum_usable, count_usable by auto. unfold is_utility. rewrite Ht. cbn [nodeType_eqb]. rewrite Z.mul_1_l.
  pose proof (shows_le (n_vars n) v (nf_given (fac n v)) s samples Ht) as L1. pose proof (usable_all (n_vars n) v (nf_given (fac n v)) s samples) as L2.
  rewrite add_up_ones64 by (unfold count_of in L1; lia). apply nearest_div; unfold count_of in *; lia.
Qed.

(** The order of the samples, for any kind of numbers. *)
Section Order.
Context {A : Type} {N : NumOps A}.
Variable n : network A.
Lemma fold_ones {X} (l l' : list X) (z : A) : List.length l = List.length l' -> fold_left (fun x _ => nadd x n1) l z = fold_left (fun x _ => nadd x n1) l' z.
Proof. revert l' z. induction l as [|x l IH]; intros [|y l'] z H; try discriminate H; auto. cbn [fold_left]. apply IH. injection H as H. exact H. Qed.
Lemma hit_sum_order samples samples' v j k : Permutation samples samples' -> is_utility v = false -> hit_sum n v j k samples = hit_sum n v j k samples'.
Proof. intros P Hu. unfold hit_sum. rewrite Hu. apply fold_ones. apply Permutation_length, filter_perm. exact P. Qed.
Lemma hit_count_order samples samples' v j : Permutation samples samples' -> hit_count n v j samples = hit_count n v j samples'.
Proof. intros P. unfold hit_count, count_of, zlen. do 2 f_equal. apply Permutation_length, filter_perm. exact P. Qed.
Lemma trained_order samples samples' v : Permutation samples samples' -> is_utility v = false -> trained n samples v = trained n samples' v.
Proof.
  intros P Hu. unfold trained. f_equal. destruct (nf_table (fac n v)); auto. cbn [option_map]. f_equal. unfold new_entries. apply map_ext. intros i.
  rewrite (hit_sum_order _ _ _ _ _ P Hu), (hit_count_order _ _ _ _ P). reflexivity.
Qed.
Lemma train_order_any samples samples' : trainable n -> Permutation samples samples' -> (forall smp, In smp samples -> valid_sample (n_vars n) smp) ->
  (forall v, In v (n_vars n) -> nv_type v <> Utility) -> train n samples = train n samples'.
Proof.
  intros Hta P Hval Hu. apply train_depends; auto.
  - intros smp H. apply Hval. eapply Permutation_in; [apply Permutation_sym; eauto|auto].
  - intros v j k Hv. apply hit_sum_order; auto. unfold is_utility. specialize (Hu v Hv). destruct (nv_type v); auto. congruence.
  - intros v j Hv. apply hit_count_order; auto.
Qed.
End Order.
