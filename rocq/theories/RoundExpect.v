(** SolveUtility of networks with float64 numbers. *)
From Coq Require Import ZArith List Bool String Lia Permutation QArith Qcanon Qcabs Reals Lra Qreals.
From Coq Require Import Floats.SpecFloat.
From Flocq Require Import Core.Core IEEE754.BinarySingleNaN.
From Verif Require Import Num GoBase VarModel GoFacts SpecFactor Tuples FactorFacts FactorSum FactorProd FactorPolicy FactorAt XnumFacts ExactFactor
  FactorThms VEModel SpecVE VEWorlds VEFacts VETopo VEHidden VESolve VEThms VEUtil NetModel SpecNet NetVars NetFactors NetVE NetSums NetQuery NetEvents NetUtil
  VEAny VEAnyUtil RoundFacts RoundSum RoundVE RoundSigned RoundSVE RoundTrain RoundUtility SpecRound RoundNet RoundQuery SpecFloatUtility.
Import ListNotations.
Open Scope string_scope.
Open Scope list_scope.
Open Scope R_scope.
Local Opaque bpow.

(** A factor that holds the values of a function. *)
Lemma tabulate vs (q : asg -> Qc) : wf_vars vs -> local vs q ->
  exists h, f_vars h = vs /\ wf_factor h /\ forall a, in_range vs a -> get_at h a = Ok (Fin (q a)).
Proof.
  intros Hv Hq. set (W := worlds vs (fun _ => 0%nat)).
  pose proof (worlds_tups vs Hv (fun _ => 0%nat)) as HW. fold W in HW.
  assert (Hlen : List.length (map (fun w => Fin (q w)) W) = prod (outs vs)).
  { rewrite map_length, <- (map_length (tof vs)), HW. unfold all_tups. rewrite map_length, seq_length. auto. }
  exists (mkFactor 0%Z vs (map (fun w => Fin (q w)) W)). split; auto. split; [apply fits_wf; auto|].
  intros a Ha. apply mk_get_at; auto. rewrite nth_error_map.
  pose proof (proj1 (in_range_inb vs a) Ha) as Hb.
  assert (E : nth_error (map (tof vs) W) (flat (outs vs) (tof vs a)) = Some (tof vs a)).
  { rewrite HW. unfold all_tups. rewrite nth_error_map, (nth_error_nth' _ 0%nat) by (rewrite seq_length; apply flat_lt; auto).
    rewrite seq_nth by (apply flat_lt; auto). simpl. rewrite tup_flat; auto. }
  rewrite nth_error_map in E. destruct (nth_error W (flat (outs vs) (tof vs a))) as [w|]; [|discriminate E].
  simpl in *. injection E as E. do 2 f_equal. apply Hq. intros v Hin. clear -E Hin. unfold tof in E.
  induction vs as [|u vs IH]; [destruct Hin|]. simpl in E. injection E as E1 E2. destruct Hin as [->|Hin]; auto.
Qed.

(** Errors measured against magnitudes. *)
Lemma snear_close k x q m c : snear k x q m -> few k -> (0 < c)%Qc ->
  exists r, f64_exact x = Fin r /\ (Qcabs (c * r - c * q) <= error_of k * (c * m))%Qc.
Proof.
  intros (Hs & Hf & Hq & Hd) Hk Hc. destruct (exact_of_finite x Hf) as (r & E). exists r. split; auto.
  destruct (SF2R_exact x r E) as [Hr _]. rewrite Hr in *.
  pose proof (rho_upper k Hk) as Hu.
  assert (He : qr (error_of k) = 2 * (INR k * ulp1)).
  { unfold error_of. rewrite qr_mult, qr_Q2Qc, Q2R_inject, qr_pow_half, INR_IZR_INZ, ulp1_val.
    replace (bpow radix2 (- Z.of_nat 52)) with (/ IZR (2 ^ 52)).
    - replace (IZR (2 ^ 53)) with (2 * IZR (2 ^ 52)) by (rewrite <- mult_IZR; f_equal).
      assert (0 < IZR (2 ^ 52)) by (apply IZR_lt; reflexivity). field. lra.
    - rewrite bpow_opp. f_equal. }
  assert (Hc' : 0 < qr c). { destruct (Rle_or_lt (qr c) 0) as [Hn|]; auto. exfalso. rewrite <- qr_0 in Hn. apply qr_le in Hn. apply Qclt_not_le in Hc. auto. }
  apply qr_le. rewrite qr_abs. replace (c * r - c * q)%Qc with (c * (r - q))%Qc by ring.
  rewrite !qr_mult, qr_minus, Rabs_mult, (Rabs_pos_eq (qr c)) by lra.
  assert (Hm : 0 <= qr m) by (eapply Rle_trans; [apply Rabs_pos|exact Hq]).
  rewrite He. rewrite (Rmult_comm (2 * (INR k * ulp1))), Rmult_assoc. apply Rmult_le_compat_l; [lra|].
  eapply Rle_trans; [exact Hd|]. rewrite Rmult_comm. apply Rmult_le_compat_l; auto. lra.
Qed.

Section E.
Variable n : network f64.
Notation N := (exact_net n).
Notation vars := (n_vars n).
Notation vv := (vv N).
Notation by_name := (by_name N).
Notation known := (known N).
Notation V := (net_vars N).
Hypothesis Hwf : wf_network N.

(** From the factor of the solver to the result: exact values and magnitudes in two factors. *)
Record float_solver_result (ev' : list (string * string)) (query uts : list string) (occurs : variable -> Prop) (Fa Ga : asg -> Qc) (B : bound) (f : factor f64) : Prop := {
  fs_wf : wf_factor f;
  fs_incl : incl (f_vars f) V;
  fs_scope : forall v, In v V -> v_type v <> Utility -> (In v (f_vars f) <-> occurs v /\ is_evidence (map (obs N) ev') v = false /\
    ~ In v (hidden_in V (net_deps N) (map (obs N) ev') (map vv query)));
  fs_utility : forall v, In v (f_vars f) -> v_type v = Utility -> v_outcomes v = 1%nat /\ occurs v /\ exists x, In x uts /\ known x /\ v = vv x;
  fs_covered : forall h, In h (hidden_in V (net_deps N) (map (obs N) ev') (map vv query)) -> occurs h;
  fs_value : forall a, in_range V a -> sapprox B (fv f a)
    (total Fa (hidden_in V (net_deps N) (map (obs N) ev') (map vv query)) (plug (map (obs N) ev') a))
    (total Ga (hidden_in V (net_deps N) (map (obs N) ev') (map vv query)) (plug (map (obs N) ev') a));
  fs_local : exists W, local W Fa /\ local W Ga /\ forall v, In v W -> In v V /\ occurs v /\ (v_type v = Utility -> In v (f_vars f))
}.

Lemma shadow ev' query uts occurs Fa Ga B f Q : float_solver_result ev' query uts occurs Fa Ga B f -> valid_observations N ev' ->
  (exists W, local W Q /\ forall v, In v W -> In v V /\ occurs v /\ (v_type v = Utility -> In v (f_vars f))) ->
  exists h, f_vars h = f_vars f /\ solver_result N ev' query uts occurs Q h.
Proof.
  intros Hr Hv (W & HW & HWo). set (H := hidden_in V (net_deps N) (map (obs N) ev') (map vv query)).
  set (q := fun a => total Q H (plug (map (obs N) ev') a)).
  assert (HVw : wf_vars V) by apply net_vars_wf.
  assert (Hq : local (f_vars f) q).
  { intros a b Hab. unfold q.
    apply (local_total Q W H (filter (fun v => negb (existsb (fun h => (v_id h =? v_id v)%Z) H)) W)); auto.
    - intros v Hin. destruct (existsb (fun h => (v_id h =? v_id v)%Z) H) eqn:E.
      + left. apply existsb_exists in E. destruct E as (h & Hh & E). apply Z.eqb_eq in E. rewrite <- E. apply in_map. auto.
      + right. apply in_map. apply filter_In. rewrite E. auto.
    - intros v Hin. apply filter_In in Hin. destruct Hin as [Hin Hn]. apply negb_true_iff in Hn.
      destruct (is_evidence (map (obs N) ev') v) eqn:Ee; [apply plug_fixed; auto|]. apply plug_agree. apply Hab.
      destruct (HWo v Hin) as (HvV & Ho & Hut). assert (Hdec : v_type v = Utility \/ v_type v <> Utility) by (destruct (v_type v); auto; right; discriminate). destruct Hdec as [Ht|Ht]; auto. apply (fs_scope _ _ _ _ _ _ _ _ Hr); auto. split; auto. split; auto.
      intros Hh. apply not_true_iff_false in Hn. apply Hn. apply existsb_exists. exists v. split; auto. apply Z.eqb_refl. }
  destruct (tabulate (f_vars f) q) as (h & Ev & Hw & Hval); auto. { apply (fs_wf _ _ _ _ _ _ _ _ Hr). }
  exists h. split; auto. split.
  - auto.
  - rewrite Ev. apply (fs_incl _ _ _ _ _ _ _ _ Hr).
  - rewrite Ev. apply (fs_scope _ _ _ _ _ _ _ _ Hr).
  - rewrite Ev. apply (fs_utility _ _ _ _ _ _ _ _ Hr).
  - apply (fs_covered _ _ _ _ _ _ _ _ Hr).
  - intros a Ha. apply Hval. eapply in_range_incl; [apply (fs_incl _ _ _ _ _ _ _ _ Hr)|]. auto.
  - eapply local_proper; eauto.
  - intros v HvV _ Hno a k. apply HW. intros u Hu. apply upd_other. intros E. apply Hno. destruct (HWo u Hu) as (HuV & Ho & _).
    replace v with u; auto. eapply wf_vars_inj; eauto.
Qed.

Theorem float_result_ok ev ev' query uts occurs Fa Ga B f F M rel k : float_solver_result ev' query uts occurs Fa Ga B f ->
  (b_k B <= k)%nat -> (Z.of_nat k <= 2 ^ 52)%Z ->
  nproper F -> nproper M -> matches N Fa F -> matches N Ga M ->
  valid_observations N ev -> Permutation ev ev' -> valid_query N query -> (forall x, known x -> (occurs (vv x) <-> rel x)) ->
  float_result N ev query uts rel F M k f.
Proof.
  intros Hr Hk Hk2 HF HM HmF HmM Hv Hp Hq Hrel. pose proof (perm_observations N _ _ Hp Hv) as Hv'.
  destruct (fs_local _ _ _ _ _ _ _ _ Hr) as (W & LF & LM & HW).
  destruct (shadow _ _ _ _ _ _ _ _ Fa Hr Hv') as (h & Eh & Hh). { exists W; auto. }
  destruct (shadow _ _ _ _ _ _ _ _ Ga Hr Hv') as (g & Eg & Hg). { exists W; auto. }
  pose proof (result_ok N Hwf ev ev' query uts occurs Fa h F rel Hh HF HmF Hv Hp Hq Hrel) as Hres.
  assert (En : factor_names N h = names_of N f) by (unfold names_of, factor_names; simpl; rewrite Eh; auto).
  assert (Eng : factor_names N g = names_of N f) by (unfold names_of, factor_names; simpl; rewrite Eg; auto).
  pose proof (fs_wf _ _ _ _ _ _ _ _ Hr) as Hwff.
  destruct (rest_constant N Hwf ev ev' query uts occurs Fa h rel Hh Hv Hp Hrel) as [Hc Hone].
  set (H := hidden_in V (net_deps N) (map (obs N) ev') (map vv query)) in *.
  set (c := volume (rest N ev' (inner N h) H)) in *.
  assert (Ei : inner N g = inner N h) by (unfold inner; rewrite Eng, En; auto).
  destruct Hres as [_ _ R1 R2 _]. rewrite En in R1, R2.
  split; auto. exists c. split; auto. split; auto. intros s Hs event.
  assert (H1 : sum_over N F event = (c * factor_value N h s)%Qc).
  { unfold event, c. rewrite <- En. apply (result_value N Hwf ev ev' query uts uts occurs occurs Fa Fa h h F s); auto. }
  assert (H2 : sum_over N M event = (c * factor_value N g s)%Qc).
  { unfold event, c. rewrite <- Eng, <- Ei. apply (result_value N Hwf ev ev' query uts uts occurs occurs Ga Ga g g M s); auto. }
  assert (Ha : in_range V (positions vars s)).
  { intros v Hin. destruct (vv_surj N Hwf v Hin) as (x & Hkx & ->). rewrite (positions_vv N Hwf) by auto. destruct (vv_outcomes N Hwf x Hkx) as [-> _].
    destruct Hkx as [_ (w & Hw0)]. unfold num_outcomes. rewrite Hw0. apply (var_named_in N Hwf) in Hw0. destruct Hw0 as [Hin' <-]. apply Hs. auto. }
  set (a := positions vars s) in *.
  pose proof (fs_value _ _ _ _ _ _ _ _ Hr a Ha) as [Hn _]. fold H in Hn.
  assert (Eh' : factor_value N h s = total Fa H (plug (map (obs N) ev') a)) by (change (factor_value N h s) with (value h a); unfold value; rewrite (sr_value _ _ _ _ _ _ _ Hh a Ha); auto).
  assert (Eg' : factor_value N g s = total Ga H (plug (map (obs N) ev') a)) by (change (factor_value N g s) with (value g a); unfold value; rewrite (sr_value _ _ _ _ _ _ _ Hg a Ha); auto).
  rewrite <- Eh', <- Eg' in Hn. apply (snear_mono _ k) in Hn; auto.
  destruct (snear_close _ _ _ _ c Hn (few_le k Hk2) Hc) as (r & Er & Hle).
  exists (fv f a), r. rewrite H1, H2. split; [|split; auto].
  apply get_at_fv; [apply wf_fits; auto|]. eapply in_range_incl; [apply (fs_incl _ _ _ _ _ _ _ _ Hr)|]. auto.
Qed.
End E.
