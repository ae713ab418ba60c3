(** Rounding errors of the float64 operations, from Flocq's correctness proofs. *)
From Coq Require Import ZArith List Bool Lia QArith Qcanon Reals Lra Qreals.
From Coq Require Import Floats.SpecFloat.
From Flocq Require Import Core.Core IEEE754.BinarySingleNaN.
Require Import Flocq.Prop.Relative.
From Verif Require Import Num GoBase.
Import ListNotations.
Open Scope R_scope.

#[local] Instance prec_pos : Prec_gt_0 53 := eq_refl.
#[local] Instance prec_emax : Prec_lt_emax 53 1024 := eq_refl.
Notation b64 := (binary_float 53 1024).
Notation fexp64 := (SpecFloat.fexp 53 1024).
Notation rnd := (round radix2 fexp64 ZnearestE).

(** A float64 as the processor would store it. *)
Definition stored (x : f64) : Prop := valid_binary 53 1024 x = true.

Lemma stored_B (x : f64) : stored x -> exists b : b64, B2SF b = x.
Proof. intros H. exists (SF2B x H). apply B2SF_SF2B. Qed.
Lemma B_stored (b : b64) : stored (B2SF b).
Proof. apply valid_binary_B2SF. Qed.

Lemma round_nearest_even_equiv s m l : round_nearest_even m l = choice_mode mode_NE s m l.
Proof. case l; [reflexivity|intro c]. case c; [|reflexivity..]. now simpl; unfold Round.cond_incr; case Z.even. Qed.

Lemma round_aux_equiv sx mx ex lx :
  SpecFloat.binary_round_aux 53 1024 sx mx ex lx = binary_round_aux 53 1024 mode_NE sx mx ex lx.
Proof.
  unfold SpecFloat.binary_round_aux, binary_round_aux. set (mrse' := shr_fexp _ _ _ _ _). case mrse'; intros mrs' e'; simpl.
  now rewrite (round_nearest_even_equiv sx).
Qed.

Lemma round_equiv s m e : SpecFloat.binary_round 53 1024 s m e = binary_round 53 1024 mode_NE s m e.
Proof.
  unfold SpecFloat.binary_round, binary_round, shl_align_fexp. set (mez := shl_align _ _ _). case mez as [mz ez]. apply round_aux_equiv.
Qed.

Lemma normalize_equiv m e szero : SpecFloat.binary_normalize 53 1024 m e szero
  = B2SF (binary_normalize 53 1024 prec_pos prec_emax mode_NE m e szero).
Proof. case m as [ |p|p]; [now simpl|simpl; rewrite B2SF_SF2B; apply round_equiv..]. Qed.

Lemma add_B (x y : b64) : SFadd 53 1024 (B2SF x) (B2SF y) = B2SF (Bplus mode_NE x y).
Proof.
  case x as [sx|sx| |sx mx ex Bx]; case y as [sy|sy| |sy my ey By]; [now (trivial || simpl; case Bool.eqb)..|].
  apply normalize_equiv.
Qed.
Lemma mul_B (x y : b64) : SFmul 53 1024 (B2SF x) (B2SF y) = B2SF (Bmult mode_NE x y).
Proof.
  case x as [sx|sx| |sx mx ex Bx]; case y as [sy|sy| |sy my ey By]; [now trivial..|].
  simpl. rewrite B2SF_SF2B. apply round_aux_equiv.
Qed.
Lemma div_B (x y : b64) : SFdiv 53 1024 (B2SF x) (B2SF y) = B2SF (Bdiv mode_NE x y).
Proof.
  case x as [sx|sx| |sx mx ex Bx]; case y as [sy|sy| |sy my ey By]; [now (trivial || simpl; case Bool.eqb)..|].
  simpl. rewrite B2SF_SF2B. set (melz := SFdiv_core_binary _ _ _ _ _ _). case melz as [[mz ez] lz]. apply round_aux_equiv.
Qed.

Lemma stored_add x y : stored x -> stored y -> stored (nadd x y).
Proof. intros Hx Hy. destruct (stored_B x Hx) as (bx & <-), (stored_B y Hy) as (by_ & <-). change (stored (SFadd 53 1024 (B2SF bx) (B2SF by_))). rewrite add_B. apply B_stored. Qed.
Lemma stored_mul x y : stored x -> stored y -> stored (nmul x y).
Proof. intros Hx Hy. destruct (stored_B x Hx) as (bx & <-), (stored_B y Hy) as (by_ & <-). change (stored (SFmul 53 1024 (B2SF bx) (B2SF by_))). rewrite mul_B. apply B_stored. Qed.
Lemma stored_div x y : stored x -> stored y -> stored (ndiv x y).
Proof. intros Hx Hy. destruct (stored_B x Hx) as (bx & <-), (stored_B y Hy) as (by_ & <-). change (stored (SFdiv 53 1024 (B2SF bx) (B2SF by_))). rewrite div_B. apply B_stored. Qed.

(** ** The relative error of one rounding *)
Definition ulp1 : R := / 2 * bpow radix2 (-53 + 1).
Definition rho : R := 1 + ulp1.

Lemma ulp1_val : ulp1 = / IZR (2 ^ 53).
Proof. unfold ulp1. simpl bpow. change (Z.pow_pos 2 52) with 4503599627370496%Z. change (2 ^ 53)%Z with 9007199254740992%Z. lra. Qed.
Lemma ulp1_pos : 0 < ulp1.
Proof. rewrite ulp1_val. apply Rinv_0_lt_compat. apply IZR_lt. reflexivity. Qed.
Lemma rho_gt1 : 1 < rho.
Proof. unfold rho. pose proof ulp1_pos. lra. Qed.
Lemma rho_pos k : 0 < rho ^ k.
Proof. apply pow_lt. pose proof rho_gt1. lra. Qed.
Lemma rho_ge1 k : 1 <= rho ^ k.
Proof. apply pow_R1_Rle. pose proof rho_gt1. lra. Qed.
Lemma rho_mono j k : (j <= k)%nat -> rho ^ j <= rho ^ k.
Proof. intros H. apply Rle_pow; auto. pose proof rho_gt1. lra. Qed.

(** rho^k stays below 1 + 2 k ulp1 as long as k ulp1 is at most one half. *)
Lemma rho_bound k : INR k * ulp1 <= / 2 -> rho ^ k * (1 - INR k * ulp1) <= 1.
Proof.
  pose proof ulp1_pos as Hu. induction k as [|k IH]; intros H.
  - simpl. lra.
  - rewrite S_INR in *. simpl pow.
    assert (Hk : INR k * ulp1 <= / 2) by (pose proof (pos_INR k); nra).
    specialize (IH Hk). pose proof (rho_pos k) as Hp. unfold rho in *.
    apply Rle_trans with ((1 + ulp1) ^ k * (1 - INR k * ulp1)); auto.
    rewrite (Rmult_comm (1 + ulp1)), Rmult_assoc. apply Rmult_le_compat_l; [lra|].
    pose proof (pos_INR k). nra.
Qed.
Lemma rho_upper k : INR k * ulp1 <= / 2 -> rho ^ k <= 1 + 2 * (INR k * ulp1).
Proof.
  intros H. pose proof (rho_bound k H) as Hb. pose proof (rho_pos k). pose proof ulp1_pos. pose proof (pos_INR k).
  assert (0 <= INR k * ulp1) by nra. set (t := INR k * ulp1) in *. set (p := rho ^ k) in *.
  assert (p <= 2) by nra. nra.
Qed.
Lemma rho_lower k : 1 - INR k * ulp1 <= / rho ^ k.
Proof.
  pose proof ulp1_pos as Hu. induction k as [|k IH].
  - simpl. rewrite Rinv_1. lra.
  - rewrite S_INR. simpl pow. rewrite Rinv_mult.
    pose proof rho_gt1. assert (Hi : 1 - ulp1 <= / rho).
    { apply Rmult_le_reg_r with rho; [lra|]. rewrite Rinv_l by lra. unfold rho. nra. }
    assert (/ rho <= 1) by (rewrite <- Rinv_1; apply Rinv_le; lra).
    pose proof (Rinv_0_lt_compat _ (rho_pos k)). assert (/ rho ^ k <= 1) by (rewrite <- Rinv_1; apply Rinv_le; [lra|apply rho_ge1]).
    nra.
Qed.
Lemma rho_two k : INR k * ulp1 <= / 2 -> rho ^ k <= 2.
Proof. intros H. pose proof (rho_upper k H). lra. Qed.

Lemma rnd_rel z : z = 0 \/ bpow radix2 (-1022) <= z -> z / rho <= rnd z <= z * rho.
Proof.
  intros [->|Hz].
  - rewrite round_0 by auto with typeclass_instances. unfold Rdiv. rewrite !Rmult_0_l. lra.
  - assert (Hp : 0 < z) by (pose proof (bpow_gt_0 radix2 (-1022)); lra).
    assert (E : rnd z = round radix2 (FLX_exp 53) ZnearestE z).
    { change fexp64 with (FLT_exp (-1074) 53). apply round_FLT_FLX. rewrite Rabs_pos_eq by lra. simpl (_ + _ - _)%Z. exact Hz. }
    rewrite E. pose proof (relative_error_N_FLX' radix2 53 eq_refl (fun x => negb (Z.even x)) z) as H. rewrite (Rabs_pos_eq z) in H by lra.
    change (u_ro radix2 53) with ulp1 in H. set (y := round _ _ _ z) in *.
    pose proof ulp1_pos. pose proof rho_gt1. apply Rabs_le_inv in H.
    assert (Ed : ulp1 / (1 + ulp1) * z = z - z / rho) by (unfold rho; field; lra). rewrite Ed in H.
    split; [lra|]. apply Rle_trans with (z + (z - z / rho)); [lra|].
    assert (z - z / rho = z / rho * ulp1) by (unfold rho; field; lra).
    assert (z / rho <= z). { unfold Rdiv. rewrite <- (Rmult_1_r z) at 2. apply Rmult_le_compat_l; [lra|]. rewrite <- Rinv_1. apply Rinv_le; lra. }
    rewrite H2. unfold rho at 2. nra.
Qed.

(** ** Numbers close to exact values *)
Definition qr (q : Qc) : R := Q2R (this q).
Lemma qr_plus p q : qr (p + q)%Qc = qr p + qr q.
Proof. unfold qr. rewrite <- Q2R_plus. apply Qeq_eqR. apply Qred_correct. Qed.
Lemma qr_mult p q : qr (p * q)%Qc = qr p * qr q.
Proof. unfold qr. rewrite <- Q2R_mult. apply Qeq_eqR. apply Qred_correct. Qed.
Lemma qr_0 : qr 0%Qc = 0.
Proof. unfold qr. simpl. unfold Q2R. simpl. lra. Qed.
Lemma qr_1 : qr 1%Qc = 1.
Proof. unfold qr. simpl. unfold Q2R. simpl. lra. Qed.
Lemma qr_le p q : (p <= q)%Qc <-> qr p <= qr q.
Proof. unfold qr. split; intros H; [apply Qle_Rle; exact H|apply Rle_Qle; auto]. Qed.
Lemma qr_inj p q : qr p = qr q -> p = q.
Proof. unfold qr. intros H. apply Qc_is_canon. apply eqR_Qeq. auto. Qed.
Lemma qr_neq0 p : p <> 0%Qc -> qr p <> 0.
Proof. intros H E. apply H. apply qr_inj. rewrite E, qr_0. auto. Qed.
Lemma qr_div p q : q <> 0%Qc -> qr (p / q)%Qc = qr p / qr q.
Proof.
  intros H. pose proof (qr_neq0 q H). apply Rmult_eq_reg_r with (qr q); auto. rewrite <- qr_mult.
  unfold Rdiv. rewrite Rmult_assoc, Rinv_l, Rmult_1_r by auto. f_equal. field. auto.
Qed.

(** The number of rounding steps is far below 2^52. *)
Definition few (k : nat) : Prop := INR k * ulp1 <= / 2.
Lemma few_mono j k : (j <= k)%nat -> few k -> few j.
Proof. unfold few. intros H Hk. pose proof ulp1_pos. apply le_INR in H. nra. Qed.

Notation tiny := (bpow radix2 (-1000)).
Notation huge := (bpow radix2 1000).
(** Neither underflow nor overflow is near. *)
Definition ranged (v : R) : Prop := v = 0 \/ tiny <= v <= huge.

(** [x] is [q] up to [k] roundings. *)
Definition near (k : nat) (x : f64) (q : Qc) : Prop :=
  stored x /\ is_finite_SF x = true /\ 0 <= qr q /\ qr q / rho ^ k <= SF2R radix2 x <= qr q * rho ^ k.

Lemma near_mono j k x q : (j <= k)%nat -> near j x q -> near k x q.
Proof.
  intros H (Hs & Hf & Hq & H1 & H2). do 3 (split; auto). pose proof (rho_mono j k H). pose proof (rho_pos j).
  split.
  - apply Rle_trans with (qr q / rho ^ j); auto. unfold Rdiv. apply Rmult_le_compat_l; auto. apply Rinv_le; auto.
  - apply Rle_trans with (qr q * rho ^ j); auto. apply Rmult_le_compat_l; auto.
Qed.

Lemma ranged_round v z k : ranged v -> few (S k) -> v / rho ^ k <= z <= v * rho ^ k ->
  (v / rho ^ S k <= rnd z <= v * rho ^ S k) /\ Rabs (rnd z) < bpow radix2 1024.
Proof.
  intros Hv Hf [H1 H2]. pose proof (rho_pos k) as Hp. pose proof rho_gt1 as Hr.
  assert (Hk : few k) by (apply (few_mono k (S k)); auto). pose proof (rho_two k Hk) as H2k. pose proof (rho_two (S k) Hf) as H2S.
  assert (Hz : z = 0 \/ bpow radix2 (-1022) <= z).
  { destruct Hv as [->|[Hv _]].
    - left. unfold Rdiv in *. rewrite Rmult_0_l in *. lra.
    - right. apply Rle_trans with (v / rho ^ k); auto.
      apply Rle_trans with (tiny / 2).
      + replace (tiny / 2) with (bpow radix2 (-1001)). 2:{ change (-1000)%Z with (-1001 + 1)%Z. rewrite bpow_plus. simpl (bpow radix2 1). lra. }
        apply bpow_le. lia.
      + unfold Rdiv. pose proof (bpow_gt_0 radix2 (-1000)). apply Rmult_le_compat; try lra. apply Rinv_le; lra. }
  pose proof (rnd_rel z Hz) as [Ha Hb].
  assert (Hzn : 0 <= z). { destruct Hz as [->|Hz]; [lra|]. pose proof (bpow_gt_0 radix2 (-1022)). lra. }
  assert (Hrn : 0 <= rnd z). { apply Rle_trans with (z / rho); auto. apply Rmult_le_pos; auto. apply Rlt_le, Rinv_0_lt_compat. lra. }
  split.
  - simpl pow. split.
    + apply Rle_trans with (z / rho); auto. replace (v / (rho * rho ^ k)) with (v / rho ^ k / rho) by (field; lra).
      apply Rmult_le_compat_r; auto. apply Rlt_le, Rinv_0_lt_compat. lra.
    + apply Rle_trans with (z * rho); auto. replace (v * (rho * rho ^ k)) with (v * rho ^ k * rho) by ring. apply Rmult_le_compat_r; lra.
  - rewrite Rabs_pos_eq by auto. apply Rle_lt_trans with (z * rho); auto.
    apply Rle_lt_trans with (v * rho ^ k * rho); [apply Rmult_le_compat_r; lra|].
    replace (v * rho ^ k * rho) with (v * rho ^ S k) by (simpl; ring).
    apply Rle_lt_trans with (huge * 2).
    + destruct Hv as [->|[Hv1 Hv2]]; [rewrite Rmult_0_l; pose proof (bpow_gt_0 radix2 1000); lra|].
      pose proof (bpow_gt_0 radix2 (-1000)). apply Rmult_le_compat; try lra. apply Rlt_le, rho_pos.
    + replace (huge * 2) with (bpow radix2 1001). 2:{ change 1001%Z with (1000 + 1)%Z. rewrite bpow_plus. change (bpow radix2 1) with 2. ring. }
      apply bpow_lt. lia.
Qed.

Lemma SF2R_B (b : b64) : SF2R radix2 (B2SF b) = B2R b.
Proof. destruct b; auto. Qed.

Lemma near_add j k x y p q : near j x p -> near k y q -> ranged (qr (p + q)) -> few (S (Nat.max j k)) ->
  near (S (Nat.max j k)) (nadd x y) (p + q)%Qc.
Proof.
  intros Hx Hy Hr Hf. set (m := Nat.max j k) in *.
  apply (near_mono j m) in Hx; [|lia]. apply (near_mono k m) in Hy; [|lia].
  destruct Hx as (Sx & Fx & Px & X1 & X2), Hy as (Sy & Fy & Py & Y1 & Y2).
  destruct (stored_B x Sx) as (bx & <-), (stored_B y Sy) as (by_ & <-). rewrite !SF2R_B in *. rewrite is_finite_SF_B2SF in *.
  change (near (S m) (SFadd 53 1024 (B2SF bx) (B2SF by_)) (p + q)%Qc). rewrite add_B.
  pose proof (Bplus_correct 53 1024 _ _ mode_NE bx by_ Fx Fy) as H. simpl round_mode in H.
  destruct (ranged_round (qr (p + q)) (B2R bx + B2R by_) m Hr Hf) as [Ha Hb].
  { rewrite qr_plus. pose proof (rho_pos m). unfold Rdiv in *. rewrite !Rmult_plus_distr_r. lra. }
  rewrite Rlt_bool_true in H by exact Hb. destruct H as (E & Ef & _).
  split; [apply B_stored|]. rewrite is_finite_SF_B2SF, SF2R_B, Ef, E. split; auto. split; [rewrite qr_plus; lra|exact Ha].
Qed.

Lemma near_mul j k x y p q : near j x p -> near k y q -> ranged (qr (p * q)) -> few (S (j + k)) ->
  near (S (j + k)) (nmul x y) (p * q)%Qc.
Proof.
  intros Hx Hy Hr Hf.
  destruct Hx as (Sx & Fx & Px & X1 & X2), Hy as (Sy & Fy & Py & Y1 & Y2).
  destruct (stored_B x Sx) as (bx & <-), (stored_B y Sy) as (by_ & <-). rewrite !SF2R_B in *. rewrite is_finite_SF_B2SF in *.
  change (near (S (j + k)) (SFmul 53 1024 (B2SF bx) (B2SF by_)) (p * q)%Qc). rewrite mul_B.
  pose proof (Bmult_correct 53 1024 _ _ mode_NE bx by_) as H. simpl round_mode in H.
  pose proof (rho_pos j). pose proof (rho_pos k). pose proof (Rinv_0_lt_compat _ H0). pose proof (Rinv_0_lt_compat _ H1).
  destruct (ranged_round (qr (p * q)) (B2R bx * B2R by_) (j + k) Hr Hf) as [Ha Hb].
  { rewrite qr_mult, pow_add. unfold Rdiv in *. rewrite Rinv_mult. split.
    - replace (qr p * qr q * (/ rho ^ j * / rho ^ k)) with ((qr p * / rho ^ j) * (qr q * / rho ^ k)) by ring.
      apply Rmult_le_compat; auto; apply Rmult_le_pos; lra.
    - replace (qr p * qr q * (rho ^ j * rho ^ k)) with ((qr p * rho ^ j) * (qr q * rho ^ k)) by ring.
      apply Rmult_le_compat; auto; [apply Rle_trans with (qr p * / rho ^ j)|apply Rle_trans with (qr q * / rho ^ k)]; auto; apply Rmult_le_pos; lra. }
  rewrite Rlt_bool_true in H by exact Hb. destruct H as (E & Ef & _).
  split; [apply B_stored|]. rewrite is_finite_SF_B2SF, SF2R_B, Ef, E, Fx, Fy. split; auto. split; [rewrite qr_mult; nra|exact Ha].
Qed.

Lemma near_div j k x y p q : near j x p -> near k y q -> q <> 0%Qc -> ranged (qr (p / q)) -> few (S (j + k)) ->
  near (S (j + k)) (ndiv x y) (p / q)%Qc.
Proof.
  intros Hx Hy Hq0 Hr Hf.
  destruct Hx as (Sx & Fx & Px & X1 & X2), Hy as (Sy & Fy & Py & Y1 & Y2).
  destruct (stored_B x Sx) as (bx & <-), (stored_B y Sy) as (by_ & <-). rewrite !SF2R_B in *. rewrite is_finite_SF_B2SF in *.
  change (near (S (j + k)) (SFdiv 53 1024 (B2SF bx) (B2SF by_)) (p / q)%Qc). rewrite div_B.
  pose proof (rho_pos j) as Hj. pose proof (rho_pos k) as Hk. pose proof (Rinv_0_lt_compat _ Hj). pose proof (Rinv_0_lt_compat _ Hk).
  pose proof (qr_neq0 q Hq0) as Hn. assert (Hqp : 0 < qr q) by lra.
  assert (Hyp : 0 < B2R by_). { apply Rlt_le_trans with (qr q / rho ^ k); auto. apply Rmult_lt_0_compat; auto. }
  pose proof (Bdiv_correct 53 1024 _ _ mode_NE bx by_ ltac:(lra)) as H1. simpl round_mode in H1.
  destruct (ranged_round (qr (p / q)) (B2R bx / B2R by_) (j + k) Hr Hf) as [Ha Hb].
  { rewrite qr_div, pow_add by auto. assert (Hi1 : / B2R by_ <= / (qr q / rho ^ k)) by (apply Rinv_le; auto; apply Rmult_lt_0_compat; auto).
    assert (Hi2 : / (qr q * rho ^ k) <= / B2R by_) by (apply Rinv_le; auto).
    assert (Hxp : 0 <= B2R bx). { apply Rle_trans with (qr p / rho ^ j); auto. apply Rmult_le_pos; lra. }
    split.
    - replace (qr p / qr q / (rho ^ j * rho ^ k)) with ((qr p / rho ^ j) * / (qr q * rho ^ k)) by (field; lra).
      unfold Rdiv at 2. apply Rmult_le_compat; auto; [apply Rmult_le_pos; lra|]. apply Rlt_le, Rinv_0_lt_compat. apply Rmult_lt_0_compat; auto.
    - replace (qr p / qr q * (rho ^ j * rho ^ k)) with ((qr p * rho ^ j) * / (qr q / rho ^ k)) by (field; lra).
      unfold Rdiv at 1. apply Rmult_le_compat; auto. apply Rlt_le, Rinv_0_lt_compat. auto. }
  rewrite Rlt_bool_true in H1 by exact Hb. destruct H1 as (E & Ef & _).
  split; [apply B_stored|]. rewrite is_finite_SF_B2SF, SF2R_B, Ef, E, Fx. split; auto. split; [|exact Ha].
  rewrite qr_div by auto. apply Rmult_le_pos; auto. apply Rlt_le, Rinv_0_lt_compat. auto.
Qed.

Lemma near_zero k : near k n0 0%Qc.
Proof.
  split; [reflexivity|]. split; [reflexivity|]. rewrite qr_0. simpl SF2R. split; [lra|]. unfold Rdiv. rewrite !Rmult_0_l. lra.
Qed.
Lemma near_one : near 0 n1 1%Qc.
Proof.
  split; [reflexivity|]. split; [reflexivity|]. rewrite qr_1. change (n1 : f64) with (S754_finite false 4503599627370496 (-52)).
  split; [lra|]. assert (E : SF2R radix2 (S754_finite false 4503599627370496 (-52)) = 1).
  { unfold SF2R, F2R. cbn [Fnum Fexp cond_Zopp bpow]. change (Z.pow_pos radix2 52) with 4503599627370496%Z. apply Rinv_r. apply IZR_neq. discriminate. }
  rewrite E, pow_O. lra.
Qed.

(** Comparing with zero gives the exact answer. *)
Lemma near_eqb k x q : near k x q -> neqb x n0 = qeq q 0%Qc.
Proof.
  intros (Sx & Fx & Pq & H1 & H2). unfold qeq.
  assert (Hz : SF2R radix2 x = 0 <-> q = 0%Qc).
  { pose proof (rho_pos k) as Hp. split.
    - intros E. apply qr_inj. rewrite qr_0. rewrite E in H1. assert (0 < / rho ^ k) by (apply Rinv_0_lt_compat; auto).
      unfold Rdiv in H1. nra.
    - intros ->. rewrite qr_0 in *. unfold Rdiv in *. rewrite Rmult_0_l in *. lra. }
  assert (Hb : Qeq_bool (this q) (this 0%Qc) = true <-> q = 0%Qc).
  { rewrite Qeq_bool_iff. split; [intros E; apply Qc_is_canon; exact E|intros ->; reflexivity]. }
  destruct x as [s|s| |s m e]; try discriminate Fx.
  - simpl. symmetry. apply Hb. apply Hz. reflexivity.
  - assert (Hne : q <> 0%Qc).
    { intros E. apply Hz in E. simpl in E. unfold F2R in E. simpl in E. apply Rmult_integral in E. destruct E as [E|E].
      - apply eq_IZR in E. destruct s; discriminate E.
      - pose proof (bpow_gt_0 radix2 e). lra. }
    simpl. transitivity false; [destruct s; reflexivity|]. symmetry. apply not_true_iff_false. rewrite Hb. exact Hne.
Qed.
