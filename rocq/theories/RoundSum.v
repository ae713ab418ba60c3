(** Sums and products of float64 numbers close to exact values. *)
From Coq Require Import ZArith List Bool Lia QArith Qcanon Reals Lra Qreals.
From Coq Require Import Floats.SpecFloat.
From Flocq Require Import Core.Core IEEE754.BinarySingleNaN.
From Verif Require Import Num GoBase VarModel SpecFactor XnumFacts RoundFacts.
Import ListNotations.
Open Scope R_scope.

Lemma one_le_huge : 1 <= huge.
Proof. change 1 with (bpow radix2 0). apply bpow_le. lia. Qed.
Local Opaque bpow.

(** Number of roundings, and bounds of the non-zero values. *)
Record bound := mkB { b_k : nat; b_lo : R; b_hi : R }.
Definition sane (b : bound) : Prop := 0 < b_lo b <= 1 /\ 1 <= b_hi b.
Definition safe (b : bound) : Prop := tiny <= b_lo b /\ b_hi b <= huge /\ few (b_k b).
Definition within (b : bound) (q : Qc) : Prop := q = 0%Qc \/ b_lo b <= qr q <= b_hi b.
Definition approx (b : bound) (x : f64) (q : Qc) : Prop := near (b_k b) x q /\ within b q.

Definition bsum (b : bound) (n : nat) : bound := mkB (b_k b + n) (b_lo b) (INR n * b_hi b).
Definition bprod (bs : list bound) : bound :=
  mkB (list_sum (map (fun b => S (b_k b)) bs)) (fold_right Rmult 1 (map b_lo bs)) (fold_right Rmult 1 (map b_hi bs)).

Lemma within_ranged b q : safe b -> within b q -> ranged (qr q).
Proof. intros (H1 & H2 & _) [->|[Ha Hb]]; [left; apply qr_0|right; lra]. Qed.
Lemma within_nonneg b q : sane b -> within b q -> 0 <= qr q.
Proof. intros [[H0 _] _] [->|[Ha Hb]]; [rewrite qr_0; lra|lra]. Qed.

(** Sums of nonnegative values. *)
Lemma near_sum_from k b : sane b -> safe b -> forall xs qs i acc a, Forall2 (near k) xs qs -> Forall (within b) qs ->
  near (k + i) acc a -> (a = 0%Qc \/ b_lo b <= qr a) -> 0 <= qr a -> qr a + qr (qsum qs) <= huge -> few (k + i + length xs) ->
  near (k + i + length xs) (fold_left nadd xs acc) (a + qsum qs)%Qc.
Proof.
  intros Hs Hf. induction xs as [|x xs IH]; intros qs i acc a H2 Hw Ha Hlo Hpos Hhi Hfew; inversion H2; subst.
  - simpl. rewrite Nat.add_0_r. replace (a + 0)%Qc with a by ring. auto.
  - inversion Hw as [|? ? Hy0 Hw0]; subst. simpl fold_left. simpl length in *. replace (k + i + S (length xs))%nat with (k + S i + length xs)%nat in * by lia.
    change (qsum (y :: l')) with (y + qsum l')%Qc in *. rewrite qr_plus in Hhi.
    assert (Hy : 0 <= qr y) by (eapply within_nonneg; eauto).
    assert (Hrest : 0 <= qr (qsum l')).
    { rewrite <- qr_0. apply qr_le. apply qsum_nonneg. intros z Hz. apply qr_le. rewrite qr_0. rewrite Forall_forall in Hw0. eapply within_nonneg; eauto. }
    replace (a + (y + qsum l'))%Qc with (a + y + qsum l')%Qc by ring.
    assert (Hay : (a + y)%Qc = 0%Qc \/ b_lo b <= qr (a + y)%Qc).
    { rewrite qr_plus. destruct Hy0 as [->|[Hl _]]; [|right; lra]. destruct Hlo as [->|Hl]; [left; ring|right; rewrite qr_0; lra]. }
    apply IH; auto.
    + apply near_mono with (S (Nat.max (k + i) k)); [lia|]. apply near_add; auto.
      * destruct Hay as [->|Hay]; [left; apply qr_0|]. right. destruct Hf as (Ht & _). rewrite qr_plus in *. lra.
      * eapply few_mono; [|exact Hfew]. lia.
    + rewrite qr_plus. lra.
    + rewrite qr_plus. lra.
Qed.

Lemma qsum_le_const b qs : sane b -> Forall (within b) qs -> qr (qsum qs) <= INR (length qs) * b_hi b.
Proof.
  intros [H0 H1]. induction 1 as [|q qs Hq Hw IH].
  - simpl. rewrite qr_0. lra.
  - change (qsum (q :: qs)) with (q + qsum qs)%Qc. rewrite qr_plus. simpl length. rewrite S_INR.
    assert (qr q <= b_hi b). { destruct Hq as [->|[_ Hq]]; [rewrite qr_0; lra|lra]. } lra.
Qed.

Lemma qsum_within b qs : sane b -> Forall (within b) qs -> qsum qs = 0%Qc \/ b_lo b <= qr (qsum qs).
Proof.
  intros Hs. induction 1 as [|q qs Hq Hw IH]; [left; reflexivity|].
  change (qsum (q :: qs)) with (q + qsum qs)%Qc. rewrite qr_plus.
  assert (Hr : 0 <= qr (qsum qs)).
  { rewrite <- qr_0. apply qr_le. apply qsum_nonneg. intros z Hz. apply qr_le. rewrite qr_0. rewrite Forall_forall in Hw. eapply within_nonneg; eauto. }
  destruct Hq as [->|[Hl _]]; [|right; lra].
  destruct IH as [->|IH]; [left; ring|right; rewrite qr_0; lra].
Qed.

Lemma near_sum k b xs qs : sane b -> safe b -> Forall2 (near k) xs qs -> Forall (within b) qs ->
  qr (qsum qs) <= huge -> few (k + length xs) ->
  near (k + length xs) (fold_left nadd xs n0) (qsum qs).
Proof.
  intros Hs Hf H2 Hw Hhi Hfew. replace (qsum qs) with (0 + qsum qs)%Qc by ring.
  replace (k + length xs)%nat with (k + 0 + length xs)%nat in * by lia.
  apply (near_sum_from k b Hs Hf); auto; [apply near_zero|rewrite qr_0; lra|rewrite qr_0; lra].
Qed.

Lemma approx_sum b xs qs : sane b -> (0 < length xs)%nat -> safe (bsum b (length xs)) -> Forall2 (approx b) xs qs ->
  sane (bsum b (length xs)) /\ approx (bsum b (length xs)) (fold_left nadd xs n0) (qsum qs).
Proof.
  intros Hs Hn (Hlo & Hhi & Hfew) H2. simpl in *.
  assert (Hlen : length xs = length qs) by (clear -H2; induction H2; simpl; lia).
  assert (Hw : Forall (within b) qs). { clear -H2. induction H2; constructor; auto. destruct H; auto. }
  assert (Hnr : Forall2 (near (b_k b)) xs qs). { clear -H2. induction H2; constructor; auto. destruct H; auto. }
  assert (H1n : 1 <= INR (length xs)). { change 1 with (INR 1). apply le_INR. lia. }
  destruct Hs as [[Hp1 Hp2] Hp3].
  assert (Hs : sane b) by (split; auto).
  assert (Hmul : b_hi b <= INR (length xs) * b_hi b).
  { rewrite <- (Rmult_1_l (b_hi b)) at 1. apply Rmult_le_compat_r; lra. }
  assert (Hb : b_hi b <= huge) by lra.
  assert (Hsafe : safe b). { split; [auto|split; auto]. eapply few_mono; [|exact Hfew]. lia. }
  pose proof (qsum_le_const b qs Hs Hw) as Hle. rewrite <- Hlen in Hle.
  split; [split; simpl; lra|]. split; simpl.
  - eapply near_sum; eauto. lra.
  - destruct (qsum_within b qs Hs Hw) as [E|E]; [left; auto|right; simpl; lra].
Qed.

(** Products. *)
Lemma near_prod_from (l : list (bound * f64 * Qc)) : forall k L H acc a,
  Forall (fun t => sane (fst (fst t)) /\ approx (fst (fst t)) (snd (fst t)) (snd t)) l ->
  near k acc a -> 0 < L -> 0 < H -> (a = 0%Qc \/ L <= qr a <= H) ->
  let bs := map (fun t => fst (fst t)) l in
  tiny <= L * b_lo (bprod bs) -> H * b_hi (bprod bs) <= huge -> few (k + b_k (bprod bs)) ->
  near (k + b_k (bprod bs)) (fold_left nmul (map (fun t => snd (fst t)) l) acc) (a * qprod (map snd l))%Qc /\
  ((a * qprod (map snd l))%Qc = 0%Qc \/ L * b_lo (bprod bs) <= qr (a * qprod (map snd l))%Qc <= H * b_hi (bprod bs)).
Proof.
  induction l as [|[[b x] q] l IH]; intros k L H acc a Hall Hnear HL HH Ha; cbv zeta; intros Hlo Hhi Hfew.
  - simpl in *. rewrite Nat.add_0_r, !Rmult_1_r. replace (a * 1)%Qc with a by ring. auto.
  - inversion Hall as [|? ? [Hs [Hn Hw]] Hall']; subst. simpl fst in *. simpl snd in *.
    simpl map in *. unfold bprod in Hlo, Hhi, Hfew. simpl in Hlo, Hhi, Hfew.
    set (bs := map (fun t : bound * f64 * Qc => fst (fst t)) l) in *.
    fold (bprod bs) in *.
    assert (HPlo : 0 < b_lo (bprod bs) <= 1).
    { unfold bs. clear -Hall'. induction Hall' as [|t l' [[[H1 H2] H3] _] _ IH]; simpl; [lra|]. simpl in IH. nra. }
    assert (HPhi : 1 <= b_hi (bprod bs)).
    { unfold bs. clear -Hall'. induction Hall' as [|t l' [[[H1 H2] H3] _] _ IH]; simpl; [lra|]. simpl in IH. nra. }
    simpl in HPlo, HPhi. destruct Hs as [[Hl0 Hl1] Hh].
    assert (Hpq : (a * q)%Qc = 0%Qc \/ L * b_lo b <= qr (a * q)%Qc <= H * b_hi b).
    { destruct Ha as [->|[Ha1 Ha2]]; [left; ring|]. destruct Hw as [->|[Hw1 Hw2]]; [left; ring|]. right. rewrite qr_mult. split; apply Rmult_le_compat; lra. }
    assert (Hlb : 0 < L * b_lo b) by (apply Rmult_lt_0_compat; lra).
    assert (Hhb : 0 < H * b_hi b) by (apply Rmult_lt_0_compat; lra).
    rewrite <- Rmult_assoc in Hlo, Hhi.
    assert (Hmid1 : tiny <= L * b_lo b).
    { apply Rle_trans with (1 := Hlo). rewrite <- (Rmult_1_r (L * b_lo b)) at 2. apply Rmult_le_compat_l; lra. }
    assert (Hmid2 : H * b_hi b <= huge).
    { apply Rle_trans with (2 := Hhi). rewrite <- (Rmult_1_r (H * b_hi b)) at 1. apply Rmult_le_compat_l; lra. }
    change (qprod (q :: map snd l)) with (q * qprod (map snd l))%Qc.
    replace (a * (q * qprod (map snd l)))%Qc with ((a * q) * qprod (map snd l))%Qc by ring.
    destruct (IH (S (k + b_k b)) (L * b_lo b) (H * b_hi b) (nmul acc x) (a * q)%Qc) as [I1 I2]; auto.
    + apply near_mul; auto. { destruct Hpq as [->|Hpq]; [left; apply qr_0|right; lra]. } eapply few_mono; [|exact Hfew]. lia.
    + eapply few_mono; [|exact Hfew]. simpl. fold bs. lia.
    + simpl fold_left. split.
      * eapply near_mono; [|exact I1]. simpl. fold bs. lia.
      * simpl in *. rewrite !Rmult_assoc in I2. exact I2.
Qed.

Lemma bprod_sane bs : Forall sane bs -> sane (bprod bs).
Proof.
  intros H. unfold sane. simpl. induction H as [|b bs [[H1 H2] H3] _ [IH1 IH2]]; simpl; [lra|]. split; nra.
Qed.

Lemma approx_prod (l : list (bound * f64 * Qc)) :
  Forall (fun t => sane (fst (fst t)) /\ approx (fst (fst t)) (snd (fst t)) (snd t)) l ->
  safe (bprod (map (fun t => fst (fst t)) l)) ->
  approx (bprod (map (fun t => fst (fst t)) l)) (fold_left nmul (map (fun t => snd (fst t)) l) n1) (qprod (map snd l)).
Proof.
  intros Hall (Hlo & Hhi & Hfew). destruct (near_prod_from l 0 1 1 n1 1%Qc Hall near_one) as [I1 I2]; try lra.
  - right. rewrite qr_1. lra.
  - exact Hfew.
  - replace (1 * qprod (map snd l))%Qc with (qprod (map snd l)) in * by ring. rewrite !Rmult_1_l in I2. split; auto.
Qed.

Lemma approx_mono b b' x q : (b_k b <= b_k b')%nat -> b_lo b' <= b_lo b -> b_hi b <= b_hi b' -> approx b x q -> approx b' x q.
Proof. intros Hk Hl Hh [Hn Hw]. split; [eapply near_mono; eauto|]. destruct Hw as [->|[H1 H2]]; [left; auto|right; lra]. Qed.

(** Dividing by a sum. *)
Lemma near_quotient j k x y p q : near j x p -> near k y q -> q <> 0%Qc -> (p <= q)%Qc ->
  p = 0%Qc \/ tiny <= qr (p / q)%Qc -> few (S (j + k)) -> near (S (j + k)) (ndiv x y) (p / q)%Qc.
Proof.
  intros Hx Hy Hq Hle Hlo Hf. apply near_div; auto. destruct Hlo as [->|Hlo].
  - left. replace (0 / q)%Qc with 0%Qc by (field; auto). apply qr_0.
  - right. split; auto. rewrite qr_div by auto. destruct Hy as (_ & _ & Hq0 & _). pose proof (qr_neq0 q Hq).
    apply Rle_trans with 1; [|apply one_le_huge].
    apply Rmult_le_reg_r with (qr q); [lra|]. unfold Rdiv. rewrite Rmult_assoc, Rinv_l, Rmult_1_r, Rmult_1_l by auto. apply qr_le. auto.
Qed.
