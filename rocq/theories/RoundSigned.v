(** Rounding errors of sums and products of float64 numbers of any sign. Instead of the relative
    error of the result, the error is measured against the magnitude: the same sums and
    products with all numbers replaced by their absolute values. *)
From Coq Require Import ZArith List Bool Lia QArith Qcanon Reals Lra Qreals.
From Coq Require Import Floats.SpecFloat.
From Flocq Require Import Core.Core IEEE754.BinarySingleNaN.
Require Import Flocq.Prop.Relative.
From Verif Require Import Num GoBase VarModel SpecFactor XnumFacts RoundFacts RoundSum.
Import ListNotations.
Open Scope R_scope.
#[local] Existing Instance prec_pos.
#[local] Existing Instance prec_emax.
Local Opaque bpow.

(** [x] is [q] up to [k] roundings of numbers of magnitude [m]. *)
Definition snear (k : nat) (x : f64) (q m : Qc) : Prop :=
  stored x /\ is_finite_SF x = true /\ Rabs (qr q) <= qr m /\ Rabs (SF2R radix2 x - qr q) <= (rho ^ k - 1) * qr m.

Lemma snear_mono j k x q m : (j <= k)%nat -> snear j x q m -> snear k x q m.
Proof.
  intros H (Hs & Hf & Hq & He). do 3 (split; auto). pose proof (rho_mono j k H). pose proof (Rabs_pos (qr q)).
  apply Rle_trans with (1 := He). apply Rmult_le_compat_r; lra.
Qed.
Lemma near_snear k x q : near k x q -> snear k x q q.
Proof.
  intros (Hs & Hf & Hq & H1 & H2). do 2 (split; auto). rewrite Rabs_pos_eq by auto. split; [lra|].
  pose proof (rho_ge1 k) as Hr. apply Rabs_le. split; [|lra].
  assert (E : qr q - qr q / rho ^ k <= (rho ^ k - 1) * qr q).
  { replace (qr q - qr q / rho ^ k) with ((rho ^ k - 1) * qr q * / rho ^ k) by (field; lra).
    rewrite <- (Rmult_1_r ((rho ^ k - 1) * qr q)) at 2. apply Rmult_le_compat_l; [apply Rmult_le_pos; lra|].
    rewrite <- Rinv_1. apply Rinv_le; lra. }
  lra.
Qed.

(** One rounding. *)
Lemma rnd_abs z v : tiny <= v -> Rabs (rnd z - z) <= ulp1 * Rmax (Rabs z) v.
Proof.
  intros Hv. destruct (error_N_FLT radix2 (-1074) 53 eq_refl (fun x => negb (Z.even x)) z) as (eps & eta & He & Ht & H0 & E).
  change (round radix2 (FLT_exp (-1074) 53) (Znearest (fun x => negb (Z.even x))) z) with (rnd z) in E. rewrite E.
  replace (z * (1 + eps) + eta - z) with (z * eps + eta) by ring.
  change (/ 2 * bpow radix2 (-53 + 1)) with ulp1 in He.
  pose proof (Rmax_l (Rabs z) v) as M1. pose proof (Rmax_r (Rabs z) v) as M2. pose proof ulp1_pos as Hu.
  apply Rmult_integral in H0. destruct H0 as [->| ->].
  - rewrite Rmult_0_r, Rplus_0_l. apply Rle_trans with (1 := Ht). apply Rle_trans with (ulp1 * tiny).
    + unfold ulp1. rewrite Rmult_assoc, <- bpow_plus. apply Rmult_le_compat_l; [lra|]. apply bpow_le. lia.
    + apply Rmult_le_compat_l; lra.
  - rewrite Rplus_0_r, Rabs_mult, Rmult_comm. apply Rmult_le_compat; auto using Rabs_pos.
Qed.

Lemma sranged_round v y z k : ranged v -> few (S k) -> Rabs y <= v -> Rabs (z - y) <= (rho ^ k - 1) * v ->
  Rabs (rnd z - y) <= (rho ^ S k - 1) * v /\ Rabs (rnd z) < bpow radix2 1024.
Proof.
  intros Hv Hf Hy Hz. pose proof (rho_ge1 k) as Hr. pose proof (rho_two (S k) Hf) as H2. pose proof ulp1_pos as Hu.
  assert (Hzv : Rabs z <= rho ^ k * v).
  { replace z with ((z - y) + y) by ring. apply Rle_trans with (1 := Rabs_triang _ _). lra. }
  destruct Hv as [->|[Hlo Hhi]].
  - rewrite Rmult_0_r in *. assert (z = 0). { pose proof (Rabs_pos z). destruct (Req_dec z 0); auto. pose proof (Rabs_pos_lt z H0). lra. }
    assert (y = 0). { destruct (Req_dec y 0); auto. pose proof (Rabs_pos_lt y H0). lra. }
    subst. rewrite round_0 by auto with typeclass_instances. rewrite Rminus_0_r, Rabs_R0. split; [lra|apply bpow_gt_0].
  - pose proof (rnd_abs z v Hlo) as Hn. assert (Hvp : 0 < v) by (pose proof (bpow_gt_0 radix2 (-1000)); lra).
    assert (Hmax : Rmax (Rabs z) v <= rho ^ k * v). { apply Rmax_lub; auto. rewrite <- (Rmult_1_l v) at 1. apply Rmult_le_compat_r; lra. }
    assert (Hn2 : Rabs (rnd z - z) <= ulp1 * (rho ^ k * v)). { apply Rle_trans with (1 := Hn). apply Rmult_le_compat_l; lra. }
    assert (E : rho ^ S k = rho ^ k + ulp1 * rho ^ k) by (simpl; unfold rho; ring).
    split.
    + replace (rnd z - y) with ((rnd z - z) + (z - y)) by ring. apply Rle_trans with (1 := Rabs_triang _ _).
      rewrite E. lra.
    + replace (rnd z) with ((rnd z - z) + z) by ring. apply Rle_lt_trans with (1 := Rabs_triang _ _).
      apply Rle_lt_trans with (huge * 2).
      * apply Rle_trans with (rho ^ S k * v); [rewrite E; lra|]. rewrite Rmult_comm. apply Rmult_le_compat; try lra. pose proof (rho_pos (S k)). lra.
      * replace (huge * 2) with (bpow radix2 1001). 2:{ change 1001%Z with (1000 + 1)%Z. rewrite bpow_plus. change (bpow radix2 1) with 2. ring. }
        apply bpow_lt. lia.
Qed.

Lemma snear_add j k x y p q m1 m2 : snear j x p m1 -> snear k y q m2 -> ranged (qr (m1 + m2)) -> few (S (Nat.max j k)) ->
  snear (S (Nat.max j k)) (nadd x y) (p + q)%Qc (m1 + m2)%Qc.
Proof.
  intros Hx Hy Hr Hf. set (m := Nat.max j k) in *.
  apply (snear_mono j m) in Hx; [|lia]. apply (snear_mono k m) in Hy; [|lia].
  destruct Hx as (Sx & Fx & Px & X1), Hy as (Sy & Fy & Py & Y1).
  destruct (stored_B x Sx) as (bx & <-), (stored_B y Sy) as (by_ & <-). rewrite !SF2R_B in *. rewrite is_finite_SF_B2SF in *.
  change (snear (S m) (SFadd 53 1024 (B2SF bx) (B2SF by_)) (p + q)%Qc (m1 + m2)%Qc). rewrite add_B.
  pose proof (Bplus_correct 53 1024 _ _ mode_NE bx by_ Fx Fy) as H. simpl round_mode in H.
  assert (Hpq : Rabs (qr (p + q)) <= qr (m1 + m2)). { rewrite !qr_plus. apply Rle_trans with (1 := Rabs_triang _ _). lra. }
  destruct (sranged_round (qr (m1 + m2)) (qr (p + q)) (B2R bx + B2R by_) m Hr Hf Hpq) as [Ha Hb].
  { rewrite !qr_plus. replace (B2R bx + B2R by_ - (qr p + qr q)) with ((B2R bx - qr p) + (B2R by_ - qr q)) by ring.
    apply Rle_trans with (1 := Rabs_triang _ _). rewrite Rmult_plus_distr_l. lra. }
  rewrite Rlt_bool_true in H by exact Hb. destruct H as (E & Ef & _).
  split; [apply B_stored|]. rewrite is_finite_SF_B2SF, SF2R_B, Ef, E. auto.
Qed.

Lemma snear_mul j k x y p q m1 m2 : snear j x p m1 -> snear k y q m2 -> ranged (qr (m1 * m2)) -> few (S (j + k)) ->
  snear (S (j + k)) (nmul x y) (p * q)%Qc (m1 * m2)%Qc.
Proof.
  intros Hx Hy Hr Hf.
  destruct Hx as (Sx & Fx & Px & X1), Hy as (Sy & Fy & Py & Y1).
  destruct (stored_B x Sx) as (bx & <-), (stored_B y Sy) as (by_ & <-). rewrite !SF2R_B in *. rewrite is_finite_SF_B2SF in *.
  change (snear (S (j + k)) (SFmul 53 1024 (B2SF bx) (B2SF by_)) (p * q)%Qc (m1 * m2)%Qc). rewrite mul_B.
  pose proof (Bmult_correct 53 1024 _ _ mode_NE bx by_) as H. simpl round_mode in H.
  assert (Hpq : Rabs (qr (p * q)) <= qr (m1 * m2)). { rewrite !qr_mult, Rabs_mult. apply Rmult_le_compat; auto using Rabs_pos. }
  destruct (sranged_round (qr (m1 * m2)) (qr (p * q)) (B2R bx * B2R by_) (j + k) Hr Hf Hpq) as [Ha Hb].
  { rewrite !qr_mult, pow_add. set (r1 := rho ^ j) in *. set (r2 := rho ^ k) in *.
    pose proof (rho_ge1 j) as G1. pose proof (rho_ge1 k) as G2. fold r1 in G1. fold r2 in G2.
    set (e1 := B2R bx - qr p) in *. set (e2 := B2R by_ - qr q) in *.
    replace (B2R bx * B2R by_ - qr p * qr q) with (qr p * e2 + e1 * qr q + e1 * e2) by (unfold e1, e2; ring).
    apply Rle_trans with (Rabs (qr p) * Rabs e2 + Rabs e1 * Rabs (qr q) + Rabs e1 * Rabs e2).
    { rewrite <- !Rabs_mult. apply Rle_trans with (1 := Rabs_triang _ _). apply Rplus_le_compat_r. apply Rabs_triang. }
    pose proof (Rabs_pos (qr p)). pose proof (Rabs_pos (qr q)). pose proof (Rabs_pos e1). pose proof (Rabs_pos e2).
    replace ((r1 * r2 - 1) * (qr m1 * qr m2)) with (qr m1 * ((r2 - 1) * qr m2) + ((r1 - 1) * qr m1) * qr m2 + ((r1 - 1) * qr m1) * ((r2 - 1) * qr m2)) by ring.
    repeat apply Rplus_le_compat; apply Rmult_le_compat; auto. }
  rewrite Rlt_bool_true in H by exact Hb. destruct H as (E & Ef & _).
  split; [apply B_stored|]. rewrite is_finite_SF_B2SF, SF2R_B, Ef, E, Fx, Fy. auto.
Qed.

Lemma snear_zero k : snear k n0 0%Qc 0%Qc.
Proof. apply near_snear, near_zero. Qed.
Lemma snear_one : snear 0 n1 1%Qc 1%Qc.
Proof. apply near_snear, near_one. Qed.

Definition sapprox (b : bound) (x : f64) (q m : Qc) : Prop := snear (b_k b) x q m /\ within b m.
Lemma approx_sapprox b x q : approx b x q -> sapprox b x q q.
Proof. intros [H1 H2]. split; auto. apply near_snear. auto. Qed.

(** Sums. The list holds the numbers, their exact values and their magnitudes. *)
Notation entry3 := (f64 * Qc * Qc)%type.
Definition e_x (t : entry3) := fst (fst t).
Definition e_q (t : entry3) := snd (fst t).
Definition e_m (t : entry3) := snd t.

Lemma snear_sum_from k b : sane b -> safe b -> forall (ts : list entry3) i acc a m,
  Forall (fun t => snear k (e_x t) (e_q t) (e_m t) /\ within b (e_m t)) ts ->
  snear (k + i) acc a m -> (m = 0%Qc \/ b_lo b <= qr m) -> 0 <= qr m -> qr m + qr (qsum (map e_m ts)) <= huge -> few (k + i + length ts) ->
  snear (k + i + length ts) (fold_left nadd (map e_x ts) acc) (a + qsum (map e_q ts))%Qc (m + qsum (map e_m ts))%Qc.
Proof.
  intros Hs Hf. induction ts as [|t ts IH]; intros i acc a m Hall Ha Hlo Hpos Hhi Hfew.
  - simpl. rewrite Nat.add_0_r. replace (a + 0)%Qc with a by ring. replace (m + 0)%Qc with m by ring. auto.
  - inversion Hall as [|? ? [Hn Hw] Hall']; subst. simpl map. simpl fold_left. simpl length in *.
    replace (k + i + S (length ts))%nat with (k + S i + length ts)%nat in * by lia. simpl map in Hhi.
    change (qsum (e_m t :: map e_m ts)) with (e_m t + qsum (map e_m ts))%Qc in *. change (qsum (e_q t :: map e_q ts)) with (e_q t + qsum (map e_q ts))%Qc in *. rewrite qr_plus in Hhi.
    assert (Hy : 0 <= qr (e_m t)) by (eapply within_nonneg; eauto).
    assert (Hrest : 0 <= qr (qsum (map e_m ts))).
    { rewrite <- qr_0. apply qr_le. apply qsum_nonneg. intros z Hz. apply qr_le. rewrite qr_0. apply in_map_iff in Hz. destruct Hz as (u & <- & Hu).
      rewrite Forall_forall in Hall'. eapply within_nonneg; eauto. apply Hall'. auto. }
    replace (a + (e_q t + qsum (map e_q ts)))%Qc with (a + e_q t + qsum (map e_q ts))%Qc by ring.
    replace (m + (e_m t + qsum (map e_m ts)))%Qc with (m + e_m t + qsum (map e_m ts))%Qc by ring.
    assert (Hay : (m + e_m t)%Qc = 0%Qc \/ b_lo b <= qr (m + e_m t)%Qc).
    { rewrite qr_plus. destruct Hw as [->|[Hl _]]; [|right; lra]. destruct Hlo as [->|Hl]; [left; ring|right; rewrite qr_0; lra]. }
    apply IH; auto.
    + apply snear_mono with (S (Nat.max (k + i) k)); [lia|]. apply snear_add; auto.
      * destruct Hay as [->|Hay]; [left; apply qr_0|]. right. destruct Hf as (Ht & _). rewrite qr_plus in *. lra.
      * eapply few_mono; [|exact Hfew]. lia.
    + rewrite qr_plus. lra.
    + rewrite qr_plus. lra.
Qed.

Lemma sapprox_sum b (ts : list entry3) : sane b -> (0 < length ts)%nat -> safe (bsum b (length ts)) ->
  Forall (fun t => sapprox b (e_x t) (e_q t) (e_m t)) ts ->
  sane (bsum b (length ts)) /\ sapprox (bsum b (length ts)) (fold_left nadd (map e_x ts) n0) (qsum (map e_q ts)) (qsum (map e_m ts)).
Proof.
  intros Hs Hn (Hlo & Hhi & Hfew) H2. simpl in Hlo, Hhi, Hfew.
  assert (Hw : Forall (within b) (map e_m ts)). { clear -H2. induction H2; constructor; auto. destruct H; auto. }
  assert (H1n : 1 <= INR (length ts)). { change 1 with (INR 1). apply le_INR. lia. }
  destruct Hs as [[Hp1 Hp2] Hp3].
  assert (Hs : sane b) by (split; auto).
  assert (Hmul : b_hi b <= INR (length ts) * b_hi b).
  { rewrite <- (Rmult_1_l (b_hi b)) at 1. apply Rmult_le_compat_r; lra. }
  assert (Hsafe : safe b). { split; [auto|split]; [lra|]. eapply few_mono; [|exact Hfew]. lia. }
  pose proof (qsum_le_const b (map e_m ts) Hs Hw) as Hle. rewrite map_length in Hle.
  split; [split; simpl; lra|]. split; simpl.
  - replace (qsum (map e_q ts)) with (0 + qsum (map e_q ts))%Qc by ring. replace (qsum (map e_m ts)) with (0 + qsum (map e_m ts))%Qc by ring.
    replace (b_k b + length ts)%nat with (b_k b + 0 + length ts)%nat in * by lia.
    apply (snear_sum_from (b_k b) b Hs Hsafe); auto; [apply snear_zero|rewrite qr_0; lra|rewrite qr_0; lra].
  - destruct (qsum_within b (map e_m ts) Hs Hw) as [E|E]; [left; auto|right; simpl; lra].
Qed.

(** Products. *)
Lemma snear_prod_from (l : list (bound * entry3)) : forall k L H acc a m,
  Forall (fun t => sane (fst t) /\ sapprox (fst t) (e_x (snd t)) (e_q (snd t)) (e_m (snd t))) l ->
  snear k acc a m -> 0 < L -> 0 < H -> (m = 0%Qc \/ L <= qr m <= H) ->
  let bs := map fst l in
  tiny <= L * b_lo (bprod bs) -> H * b_hi (bprod bs) <= huge -> few (k + b_k (bprod bs)) ->
  snear (k + b_k (bprod bs)) (fold_left nmul (map (fun t => e_x (snd t)) l) acc) (a * qprod (map (fun t => e_q (snd t)) l))%Qc (m * qprod (map (fun t => e_m (snd t)) l))%Qc /\
  ((m * qprod (map (fun t => e_m (snd t)) l))%Qc = 0%Qc \/ L * b_lo (bprod bs) <= qr (m * qprod (map (fun t => e_m (snd t)) l))%Qc <= H * b_hi (bprod bs)).
Proof.
  induction l as [|[b t] l IH]; intros k L H acc a m Hall Hnear HL HH Ha; cbv zeta; intros Hlo Hhi Hfew.
  - simpl in *. rewrite Nat.add_0_r, !Rmult_1_r. replace (a * 1)%Qc with a by ring. replace (m * 1)%Qc with m by ring. auto.
  - inversion Hall as [|? ? [Hs [Hn Hw]] Hall']; subst. simpl fst in *. simpl snd in *.
    simpl map in *. unfold bprod in Hlo, Hhi, Hfew. simpl in Hlo, Hhi, Hfew.
    set (bs := map fst l) in *.
    assert (HPlo : 0 < b_lo (bprod bs) <= 1).
    { unfold bs. clear -Hall'. induction Hall' as [|u l' [[[H1 H2] H3] _] _ IH]; simpl; [lra|]. simpl in IH. nra. }
    assert (HPhi : 1 <= b_hi (bprod bs)).
    { unfold bs. clear -Hall'. induction Hall' as [|u l' [[[H1 H2] H3] _] _ IH]; simpl; [lra|]. simpl in IH. nra. }
    simpl in HPlo, HPhi. destruct Hs as [[Hl0 Hl1] Hh]. set (q := e_q t) in *. set (mt := e_m t) in *.
    assert (Hpq : (m * mt)%Qc = 0%Qc \/ L * b_lo b <= qr (m * mt)%Qc <= H * b_hi b).
    { destruct Ha as [->|[Ha1 Ha2]]; [left; ring|]. destruct Hw as [->|[Hw1 Hw2]]; [left; ring|]. right. rewrite qr_mult. split; apply Rmult_le_compat; lra. }
    assert (Hlb : 0 < L * b_lo b) by (apply Rmult_lt_0_compat; lra).
    assert (Hhb : 0 < H * b_hi b) by (apply Rmult_lt_0_compat; lra).
    rewrite <- Rmult_assoc in Hlo, Hhi.
    assert (Hmid1 : tiny <= L * b_lo b).
    { apply Rle_trans with (1 := Hlo). rewrite <- (Rmult_1_r (L * b_lo b)) at 2. apply Rmult_le_compat_l; lra. }
    assert (Hmid2 : H * b_hi b <= huge).
    { apply Rle_trans with (2 := Hhi). rewrite <- (Rmult_1_r (H * b_hi b)) at 1. apply Rmult_le_compat_l; lra. }
    set (Q := map (fun t => e_q (snd t)) l) in *. set (M := map (fun t => e_m (snd t)) l) in *.
    change (qprod (q :: Q)) with (q * qprod Q)%Qc. change (qprod (mt :: M)) with (mt * qprod M)%Qc.
    replace (a * (q * qprod Q))%Qc with ((a * q) * qprod Q)%Qc by ring. replace (m * (mt * qprod M))%Qc with ((m * mt) * qprod M)%Qc by ring.
    destruct (IH (S (k + b_k b)) (L * b_lo b) (H * b_hi b) (nmul acc (e_x t)) (a * q)%Qc (m * mt)%Qc) as [I1 I2]; auto.
    + apply snear_mul; auto. { destruct Hpq as [->|Hpq]; [left; apply qr_0|right; lra]. } eapply few_mono; [|exact Hfew]. lia.
    + eapply few_mono; [|exact Hfew]. simpl. fold bs. lia.
    + simpl fold_left. split.
      * eapply snear_mono; [|exact I1]. simpl. fold bs. lia.
      * simpl in *. rewrite !Rmult_assoc in I2. exact I2.
Qed.

Lemma sapprox_prod (l : list (bound * entry3)) :
  Forall (fun t => sane (fst t) /\ sapprox (fst t) (e_x (snd t)) (e_q (snd t)) (e_m (snd t))) l ->
  safe (bprod (map fst l)) ->
  sapprox (bprod (map fst l)) (fold_left nmul (map (fun t => e_x (snd t)) l) n1)
    (qprod (map (fun t => e_q (snd t)) l)) (qprod (map (fun t => e_m (snd t)) l)).
Proof.
  intros Hall (Hlo & Hhi & Hfew). destruct (snear_prod_from l 0 1 1 n1 1%Qc 1%Qc Hall snear_one) as [I1 I2]; try lra.
  - right. rewrite qr_1. lra.
  - exact Hfew.
  - set (Q := qprod (map (fun t => e_q (snd t)) l)) in *. set (M := qprod (map (fun t => e_m (snd t)) l)) in *.
    replace (1 * Q)%Qc with Q in * by ring. replace (1 * M)%Qc with M in * by ring. rewrite !Rmult_1_l in I2. split; auto.
Qed.

Lemma sapprox_mono b b' x q m : (b_k b <= b_k b')%nat -> b_lo b' <= b_lo b -> b_hi b <= b_hi b' -> sapprox b x q m -> sapprox b' x q m.
Proof. intros Hk Hl Hh [Hn Hw]. split; [eapply snear_mono; eauto|]. destruct Hw as [->|[H1 H2]]; [left; auto|right; lra]. Qed.
