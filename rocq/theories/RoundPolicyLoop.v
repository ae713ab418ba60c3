(** SolvePolicies of networks with float64 numbers: all steps, and the tables returned. *)
From Coq Require Import ZArith List Bool String Lia Permutation QArith Qcanon Qcabs Reals Lra Qreals.
From Coq Require Import Floats.SpecFloat.
From Flocq Require Import Core.Core IEEE754.BinarySingleNaN.
From Verif Require Import Num GoBase VarModel GoFacts SpecFactor Tuples FactorFacts FactorSum FactorProd FactorPolicy FactorAt XnumFacts ExactFactor
  FactorThms VEModel SpecVE SpecPolicy VEWorlds VEFacts VETopo VEHidden VESolve VEThms VEUtil VEShadow VEOrder VEOptimal VEPolicy NetModel SpecNet NetVars NetFactors NetVE NetSums NetQuery NetEvents NetUtil
  NetMass NetMarkov NetHistory SpecNetPolicy NetPolicy NetPolicyStep NetPolicyLoop NetPolicyNear
  VEAny VEAnyUtil RoundFacts RoundSum RoundVE RoundSigned RoundSVE SpecTrain RoundTrain RoundUtility SpecRound RoundNet RoundQuery SpecFloatUtility RoundExpect RoundCalls
  SpecFloatPolicy RoundPolicy RoundIdeal RoundPolicyNet.
Import ListNotations.
Open Scope string_scope.
Open Scope list_scope.
Open Scope Z_scope.

Lemma error_nonneg k : (0 <= error_of k)%Qc.
Proof.
  unfold error_of. apply qmult_nonneg.
  - apply qr_le. rewrite qr_0. change (Q2Qc (inject_Z (Z.of_nat k))) with (qz (Z.of_nat k)). rewrite qr_qz. apply IZR_le. lia.
  - unfold two_to_minus. apply qr_le. rewrite qr_0, qr_pow_half. apply bpow_ge_0.
Qed.

(** The weighted sum is linear. *)
Lemma mixed_sum_linear M sigma u m c : mixed_sum M sigma (fun x => u x + c * m x)%Qc = (mixed_sum M sigma u + c * mixed_sum M sigma m)%Qc.
Proof. unfold mixed_sum. rewrite <- qsum_scale, <- qsum_add. apply qsum_ext. intros x _. ring. Qed.

Section Loop.
Variables (n : network f64) (b : string -> nat) (s e : nat).
Notation N := (exact_net n).
Notation vars := (n_vars n).
Hypothesis Hfl : forall f x, In f (n_factors n) -> In x (slice_of (nf_table f)) -> is_float64 x = true.
Hypothesis Hpr : policies_in_range N b s e.
Hypothesis Hfew : Z.of_nat (policy_rounding_steps N) <= 2 ^ 50.
Let K := policy_rounding_steps N.

(** The float64 network with policies [P], and the exact one. *)
Notation at64 P a nm := (with_solver (with_policies n P) a nm).
Notation atq Q := (with_policies (exact_net n) Q).

Definition evens (Q : list (string * factor xnum)) : Prop :=
  forall d q, In (d, q) Q -> forall x, proper_state N x -> evenly vars d (policy_prob vars q) x.

Lemma store64 sc t P Q a (d : string) fac (pol : factor f64) nm : wf_network (atq Q) -> Forall2 (uniform_policy vars) P Q ->
  known (atq Q) d -> v_type (vv (atq Q) d) = Decision -> has_key Q d = false -> nm = name_map (entries (atq Q)) ->
  store_policies sc t (at64 P a nm) [(vv (atq Q) d, (fac, pol))] = at64 (P ++ [(d, pol)]) a nm.
Proof.
  intros Hwf HU Hk Ht Ho ->. set (M := atq Q) in *. unfold store_policies. cbn [with_solver with_policies n_names n_policies].
  set (F := fun (m : list (string * factor f64)) '((name, e) : string * nentry) => _).
  assert (E : fold_left F (shuffle sc t (name_map (entries M))) P = P ++ [(d, pol)]); [|unfold with_policies, with_solver; cbn; rewrite E; reflexivity].
  assert (Hs : forall name e, In (name, e) (name_map (entries M)) -> forall m, F m (name, e) = if String.eqb name d then sset_map m d pol else m).
  { intros name e0 Hin m. unfold F. unfold name_map in Hin. apply in_map_iff in Hin. destruct Hin as (e' & E & Hin). injection E as <- <-.
    assert (El : lookup M (nv_name (en_var e')) = Some e') by (apply (lookup_spec M Hwf); auto).
    destruct (lookup_inv M Hwf _ _ El) as (Hke & _ & Ev). rewrite Ev. cbn [mget].
    destruct (String.eqb_spec (nv_name (en_var e')) d) as [->|Hne].
    - rewrite Ht, (proj2 (var_eqb_spec _ _) eq_refl). auto.
    - destruct (negb (nodeType_eqb (v_type (vv M (nv_name (en_var e')))) Decision)); auto.
      destruct (var_eqb (vv M (nv_name (en_var e'))) (vv M d)) eqn:Eq; auto. apply var_eqb_spec in Eq. exfalso. apply Hne. apply (vv_inj M Hwf); auto. congruence. }
  assert (Hin : In d (map fst (shuffle sc t (name_map (entries M))))).
  { destruct (lookup_known M Hwf d Hk) as (i & v & _ & _ & _ & _ & L). unfold lookup in L. apply (mget_In _ String.eqb_eq) in L.
    apply (in_map fst) in L. eapply Permutation_in; [|apply L]. apply Permutation_map. apply shuffle_perm. }
  assert (Hsub : forall ne, In ne (shuffle sc t (name_map (entries M))) -> In ne (name_map (entries M))).
  { intros ne Hne. eapply Permutation_in; [|apply Hne]. apply Permutation_sym. apply shuffle_perm. }
  rewrite <- (mset_new _ String.eqb_eq). 2:{ intros Hc. apply has_key_spec in Hc. rewrite (has_key_fst P Q d) in Hc; [congruence|]. symmetry. apply (uniform_fst vars). auto. }
  revert Hin Hsub. generalize (shuffle sc t (name_map (entries M))) as L. intros L.
  assert (G : forall L, (forall ne, In ne L -> In ne (name_map (entries M))) -> fold_left F L (sset_map P d pol) = sset_map P d pol).
  { induction L0 as [|[name e0] L0 IH]; intros Hsub; cbn [fold_left]; auto. rewrite Hs by (apply Hsub; simpl; auto).
    destruct (String.eqb name d). rewrite (mset_idem _ String.eqb_eq). all: apply IH; intros; apply Hsub; simpl; auto. }
  induction L as [|[name e0] L IH]; cbn [fold_left map In fst]; intros Hin Hsub; [tauto|].
  rewrite Hs by (apply Hsub; simpl; auto). destruct (String.eqb_spec name d).
  - apply G. intros; apply Hsub; simpl; auto.
  - apply IH; [|intros; apply Hsub; simpl; auto]. destruct Hin; auto. contradiction.
Qed.

(** The conditions do not depend on stored policies. *)
Lemma range_at P a nm : policies_in_range (exact_net (at64 P a nm)) b s e.
Proof. destruct Hpr as [A B C D]. constructor; [exact A|exact B|exact C|exact D]. Qed.

(** The names of the solver instance are set. *)
Definition names_ready (nm : list (string * nentry)) : Prop :=
  forall i v, nth_error vars i = Some v -> nv_type v = Decision -> exists x, sget_map nm (nv_name v) = Some x /\ v_id (en_ve x) = Z.of_nat i.

Theorem fsteps_ok sc stepwise U : (forall x, proper_state N x -> (utility_magnitude N x <= U)%Qc) ->
  forall k P Q t a nm, partly_solved (atq Q) -> Forall2 (uniform_policy vars) P Q -> evens Q ->
  List.length (open_ones (atq Q)) = k -> stepwise = true \/ (k <= 1)%nat ->
  exists P' Q' t' a' nm', policy_steps sc k t (at64 P a nm) stepwise = (at64 P' a' nm', Ok t') /\
    partly_solved (atq Q') /\ Forall2 (uniform_policy vars) P' Q' /\ evens Q' /\ open_ones (atq Q') = [] /\
    (k <> O \/ (a <> None /\ names_ready nm) -> a' <> None /\ names_ready nm') /\
    forall sigma, valid_strategy N sigma ->
      (mixed_value (atq Q) sigma <= mixed_value (atq Q') sigma + qz (Z.of_nat (2 * k)) * error_of K * U)%Qc.
Proof.
  intros HUm. induction k as [|k IH]; intros P Q t a nm Hps HU Hev Hlen Hst.
  - exists P, Q, t, a, nm. split; auto. split; auto. split; auto. split; auto. split. { destruct (open_ones (atq Q)); auto. discriminate. }
    split. { intros [H|H]; auto. congruence. } intros sigma _. change (qz (Z.of_nat (2 * 0))) with 0%Qc. rewrite !Qcmult_0_l, Qcplus_0_r. apply Qcle_refl.
  - cbn [policy_steps]. pose proof (dn_wf _ (ps_net _ Hps)) as Hwf. unfold assign_ve.
    destruct (float_solver_step (at64 P a nm) Q b s e Hps HU Hfl (range_at P a nm) Hfew sc t stepwise) as (ve & s' & d & fac & pol & q & -> & Es & Hun & Hsp & Hed & Hle).
    { intros E. change (open_ones (atq Q) = []) in E. rewrite E in Hlen. discriminate. }
    { destruct Hst as [Hst|Hst]; auto. right. change (List.length (open_ones (atq Q)) = 1%nat). lia. }
    change (with_policies (exact_net (at64 P a nm)) Q) with (atq Q) in *. change (n_vars (at64 P a nm)) with vars in *.
    rewrite Es. cbv beta iota zeta.
    pose proof (sp_open _ _ _ Hsp) as Ho. pose proof Ho as Hot. apply (open_type _ Hps) in Hot. destruct Hot as [Hk Ht].
    assert (Hkey : has_key Q d = false). { unfold open_ones in Ho. apply filter_In in Ho. rewrite negb_true_iff in Ho. tauto. }
    change (with_solver (with_solver (at64 P a nm) (Some ve) (name_map (entries (atq Q)))) (Some s') (name_map (entries (atq Q))))
      with (at64 P (Some s') (name_map (entries (atq Q)))).
    rewrite (store64 sc _ P Q (Some s') d fac pol (name_map (entries (atq Q))) Hwf HU Hk Ht Hkey eq_refl).
    assert (Hps1 : partly_solved (atq (Q ++ [(d, q)]))) by apply (step_solved _ Hps d q Hsp).
    destruct (IH (P ++ [(d, pol)]) (Q ++ [(d, q)]) (S (ve_tick s')) (Some s') (name_map (entries (atq Q)))) as (P' & Q' & t' & a' & nm' & E & Hps' & HU' & Hev' & Hop & Hrd & Hle'); auto.
    { apply Forall2_app; auto. }
    { intros x p Hin. apply in_app_iff in Hin. destruct Hin as [Hin|[Hin|[]]]; [apply (Hev x p Hin)|]. injection Hin as <- <-. apply Hed. }
    { pose proof (Permutation_length (open_plus _ Hps d q Ho)) as HL. simpl in HL. change (open_ones (plus (atq Q) d q)) with (open_ones (atq (Q ++ [(d, q)]))) in HL. lia. }
    { destruct Hst; auto. right. lia. }
    exists P', Q', t', a', nm'. split; auto. split; auto. split; auto. split; auto. split; auto. split.
    + intros _. apply Hrd. right. split; [discriminate|]. intros i v Hi Hty. exists (ve_entry (atq Q) (Z.of_nat i, v)). split; auto.
      change (sget_map (name_map (entries (atq Q))) (nv_name v) = Some (ve_entry (atq Q) (Z.of_nat i, v))).
      apply (lookup_spec (atq Q) Hwf). split; auto. apply in_entries. exists i, v. split; [exact Hi|]. split; auto. apply (tui_utility (atq Q) Hwf i v); auto. rewrite Hty. discriminate.
    + intros sigma Hsig. assert (Hs0 : valid_strategy (atq Q) sigma) by (intros x Hx; destruct (Hsig x Hx); constructor; auto).
      assert (Hs1 : valid_strategy (atq (Q ++ [(d, q)])) sigma) by (intros x Hx; destruct (Hsig x Hx); constructor; auto).
      specialize (Hle sigma Hs0). specialize (Hle' sigma Hsig).
      assert (B0 : (mixed_sum (atq Q) sigma (utility_magnitude N) <= U)%Qc) by (apply (mixed_sum_bound _ Hps); auto).
      assert (B1 : (mixed_sum (atq (Q ++ [(d, q)])) sigma (utility_magnitude N) <= U)%Qc) by (apply (mixed_sum_bound _ Hps1); auto).
      assert (L0 : mixed_sum (atq Q) sigma (lowered (at64 P a nm)) = (mixed_value (atq Q) sigma + - error_of K * mixed_sum (atq Q) sigma (utility_magnitude N))%Qc).
      { change (mixed_value (atq Q) sigma) with (mixed_sum (atq Q) sigma (utility_of N)). rewrite <- mixed_sum_linear. unfold mixed_sum. apply qsum_ext. intros x _. f_equal. unfold lowered.
        change (exact_net (at64 P a nm)) with (with_policies N (map (fun dp => (fst dp, exact_factor (snd dp))) P)).
        change (policy_rounding_steps (with_policies N (map (fun dp => (fst dp, exact_factor (snd dp))) P))) with K.
        change (utility_of (with_policies N (map (fun dp => (fst dp, exact_factor (snd dp))) P)) x) with (utility_of N x).
        change (utility_magnitude (with_policies N (map (fun dp => (fst dp, exact_factor (snd dp))) P)) x) with (utility_magnitude N x). ring. }
      assert (L1 : mixed_sum (plus (atq Q) d q) sigma (raised (at64 P a nm)) = (mixed_value (atq (Q ++ [(d, q)])) sigma + error_of K * mixed_sum (atq (Q ++ [(d, q)])) sigma (utility_magnitude N))%Qc).
      { change (mixed_value (atq (Q ++ [(d, q)])) sigma) with (mixed_sum (atq (Q ++ [(d, q)])) sigma (utility_of N)). rewrite <- mixed_sum_linear. apply qsum_ext. intros x _. f_equal. }
      change (exact_net (at64 P a nm)) with (with_policies N (map (fun dp => (fst dp, exact_factor (snd dp))) P)) in Hle.
      rewrite L1 in Hle. rewrite L0 in Hle. pose proof (error_nonneg K) as HE.
      apply qr_le in Hle, Hle', B0, B1, HE. apply qr_le. rewrite ?qr_plus, ?qr_mult, ?qr_qz, ?qr_0 in *.
      assert (Em : qr (- error_of K)%Qc = (- qr (error_of K))%R).
      { replace (- error_of K)%Qc with (0 - error_of K)%Qc by ring. rewrite qr_minus, qr_0. ring. }
      rewrite Em in Hle. replace (Z.of_nat (2 * S k)) with (Z.of_nat (2 * k) + 2)%Z by lia. rewrite plus_IZR.
      assert (P0 := Rmult_le_compat_l _ _ _ HE B0). assert (P1 := Rmult_le_compat_l _ _ _ HE B1). nra.
Qed.
End Loop.
