(** SolvePolicies of networks with float64 numbers: the tables returned. *)
From Coq Require Import ZArith List Bool String Lia Permutation QArith Qcanon Qcabs Reals Lra Qreals.
From Coq Require Import Floats.SpecFloat.
From Flocq Require Import Core.Core IEEE754.BinarySingleNaN.
From Verif Require Import Num GoBase VarModel GoFacts SpecFactor Tuples FactorFacts FactorSum FactorProd FactorPolicy FactorAt XnumFacts ExactFactor
  FactorThms VEModel SpecVE SpecPolicy VEWorlds VEFacts VETopo VEHidden VESolve VEThms VEUtil VEShadow VEOrder VEOptimal VEPolicy NetModel SpecNet NetVars NetFactors NetVE NetSums NetQuery NetEvents NetUtil
  NetMass NetMarkov NetHistory NetCor VECheck NetCheck SpecNetPolicy NetPolicy NetPolicyStep NetPolicyLoop NetPolicyAll NetPolicyThms NetPolicyNear
  VEAny VEAnyUtil RoundFacts RoundSum RoundVE RoundSigned RoundSVE SpecTrain RoundTrain RoundUtility SpecRound RoundNet RoundQuery SpecFloatUtility RoundExpect RoundCalls
  SpecFloatPolicy RoundPolicy RoundIdeal RoundPolicyNet RoundPolicyLoop.
Import ListNotations.
Open Scope string_scope.
Open Scope list_scope.
Open Scope Z_scope.

Section Tables.
Variable n : network f64.
Notation N := (exact_net n).
Notation vars := (n_vars n).
Notation at64 P a nm := (with_solver (with_policies n P) a nm).
Notation atq Q := (with_policies (exact_net n) Q).

(** [f] is the table of the float64 policy for the exact policy [q] of decision [d]. *)
Record float_table (d : string) (q : factor xnum) (f : nfactor f64) : Prop := {
  fl_for : nf_for f = d;
  fl_names : Permutation (nf_given f ++ [d]) (factor_names N q);
  fl_table : exists l, nf_table f = Some l /\ List.length l = table_size vars (nf_given f ++ [d]);
  fl_value : forall x, proper_state N x -> exists p, nth_error (slice_of (nf_table f)) (cell vars (nf_given f ++ [d]) x) = Some p /\
    uniform_pair (num_outcomes vars d) p (Fin (policy_prob vars q x))
}.

Lemma result64 P Q st nm d p q : wf_network (atq Q) -> In (d, q) Q -> uniform_policy vars (d, p) (d, q) -> names_ready n nm ->
  exists st' f, policy_result (at64 P (Some st) nm) d p = Ok (at64 P (Some st') nm, f) /\ float_table d q f.
Proof.
  intros Hwf Hin HU Hr. destruct (policy_in (atq Q) Hwf d q Hin) as (Hk & Ht & _ & Hwp). unfold policy_result. cbn [with_solver n_names].
  pose proof (ideal_wf n d p q HU (wp_wf _ _ _ Hwp)) as Hwfp. pose proof HU as (_ & _ & Evs & _). cbn [fst snd] in Evs.
  destruct (wp_own _ _ _ Hwp) as (i & nv & v & Hi & En & Hv & Eid). change (n_vars (atq Q)) with vars in *.
  assert (Hty : nv_type nv = Decision).
  { pose proof (wp_decision _ _ _ Hwp) as Hd. unfold kind in Hd. change (n_vars (atq Q)) with vars in Hd.
    pose proof (proj2 (var_named_in (atq Q) Hwf d nv)) as Hvn. change (n_vars (atq Q)) with vars in Hvn. rewrite Hvn in Hd; [simpl in Hd; congruence|].
    split; auto. eapply nth_error_In; eauto. }
  destruct (Hr i nv Hi Hty) as (e & Ee & Eeid). rewrite <- En, Ee. rewrite Evs in Hv.
  destruct (index_func_spec (var_is (en_ve e)) (f_vars p)) as [[_ Hno]|(k & w & Ei & Hw & Hp & _)].
  { specialize (Hno v Hv). unfold var_is in Hno. rewrite Eeid, Eid, Z.eqb_refl in Hno. discriminate. }
  rewrite Ei, (sget_ok _ _ _ Hw). cbn [gbind]. unfold var_is in Hp. apply Z.eqb_eq in Hp. rewrite Nat2Z.id.
  assert (Esplit : f_vars p = firstn k (f_vars p) ++ w :: skipn (S k) (f_vars p)).
  { rewrite <- (firstn_skipn k (f_vars p)) at 1. f_equal. clear - Hw. revert k Hw. induction (f_vars p) as [|y l IH]; intros [|k] Hw; simpl in *; try discriminate; auto. congruence. }
  set (others := firstn k (f_vars p) ++ skipn (S k) (f_vars p)).
  rewrite app_assoc. fold others.
  assert (Hperm : Permutation (others ++ [w]) (f_vars p)).
  { rewrite Esplit. unfold others. rewrite <- app_assoc. apply Permutation_app_head. apply Permutation_sym. apply Permutation_cons_append. }
  unfold on_variables. cbn [with_solver n_ve]. destruct (rearrange_at (ve_vs st) p (others ++ [w]) Hwfp Hperm) as (f' & -> & _ & Hwf' & Hvs' & Hget).
  cbn [gbind]. rewrite removelast_last.
  set (nm' := fun v => match nth_error vars (Z.to_nat (v_id v)) with Some nv => nv_name nv | None => "" end).
  assert (Hrep : forall u, In u (others ++ [w]) -> represents (atq Q) u). { intros u Hu. apply (wp_scope _ _ _ Hwp). rewrite Evs. eapply Permutation_in; eauto. }
  rewrite (mapM_ok _ nm').
  2:{ intros u Hu. destruct (Hrep u) as (j & nu & Hj & Ej & _). { apply in_app_iff; auto. } change (n_vars (atq Q)) with vars in Hj.
      change (n_vars _) with vars. unfold nm'. rewrite Ej, (sget_ok _ _ _ Hj), Nat2Z.id, Hj. auto. }
  cbn [gbind]. eexists; eexists. split; [reflexivity|].
  assert (Ew : nm' w = nv_name nv). { unfold nm'. rewrite <- Hp, Eeid, Nat2Z.id, Hi. auto. }
  assert (Enames : map nm' (others ++ [w]) = map nm' others ++ [nv_name nv]). { rewrite map_app. simpl. rewrite Ew. auto. }
  assert (Hout : outs (others ++ [w]) = map (num_outcomes vars) (map nm' others ++ [nv_name nv])).
  { rewrite <- Enames. unfold outs. rewrite map_map. apply map_ext_in. intros u Hu. destruct (Hrep u Hu) as (j & nu & Hj & Ej & _ & Eo & _). change (n_vars (atq Q)) with vars in *.
    unfold nm'. rewrite Ej, Nat2Z.id, Hj, Eo. unfold num_outcomes. pose proof (proj2 (var_named_in (atq Q) Hwf (nv_name nu) nu)) as Hvn. change (n_vars (atq Q)) with vars in Hvn. rewrite Hvn; auto. split; auto. eapply nth_error_In; eauto. }
  constructor; cbn [nf_for nf_given nf_table slice_of].
  - auto.
  - rewrite <- Enames. unfold factor_names. rewrite Evs. change (n_vars N) with vars. fold nm'. apply Permutation_map. auto.
  - eexists. split; [reflexivity|]. rewrite (wf_fits _ Hwf'), Hvs', Hout. symmetry. apply (table_size_prod N).
  - intros x Hx. rewrite (cell_spec N). change (n_vars N) with vars. rewrite <- Hout.
    assert (Htof : map x (map nm' others ++ [nv_name nv]) = tof (others ++ [w]) (positions vars x)).
    { rewrite <- Enames. unfold tof. rewrite map_map. apply map_ext_in. intros u Hu. destruct (Hrep u Hu) as (j & nu & Hj & Ej & _). change (n_vars (atq Q)) with vars in *.
      unfold nm', positions. rewrite Ej, Nat2Z.id, Hj. auto. }
    rewrite Htof. assert (Hra : in_range (others ++ [w]) (positions vars x)).
    { intros u Hu. destruct (Hrep u Hu) as (j & nu & Hj & Ej & _ & Eo & _). change (n_vars (atq Q)) with vars in *. unfold positions. rewrite Ej, Nat2Z.id, Hj, Eo. apply Hx. eapply nth_error_In; eauto. }
    assert (Hrp : in_range (f_vars p) (positions vars x)). { intros u Hu. apply Hra. eapply Permutation_in; [apply Permutation_sym; apply Hperm|auto]. }
    exists (fv p (positions vars x)). split.
    + specialize (Hget _ Hra). rewrite <- Hvs' in *. rewrite (get_at_fv f' _ (wf_fits _ Hwf') Hra), (get_at_fv p _ (wf_fits _ Hwfp) Hrp) in Hget.
      rewrite (ft_nth f' _ (wf_fits _ Hwf')) by (apply in_range_inb; auto). unfold fv in *. congruence.
    + pose proof (uniform_fv vars _ _ _ (positions vars x) HU) as Hup. rewrite <- En in Hup. unfold policy_prob, value. rewrite <- Evs in Hrp.
      rewrite (get_at_fv q _ (wf_fits _ (wp_wf _ _ _ Hwp)) Hrp). pose proof Hup as Hup'. destruct Hup as [[_ E]|(k0 & _ & _ & E)]; rewrite E in *; auto.
Qed.

Lemma tables64 P Q L : wf_network (atq Q) -> (forall d p, In (d, p) L -> exists q, In (d, q) Q /\ uniform_policy vars (d, p) (d, q)) ->
  forall nm, names_ready n nm -> NoDup (map fst L) -> forall st res0,
  exists st' tables, foldM (fun '((n, res) : network f64 * list (string * nfactor f64)) '((name, f) : string * factor f64) =>
      let! (n', r) := policy_result n name f in Ok (n', sset_map res name r)) (at64 P (Some st) nm, res0) L
      = Ok (at64 P (Some st') nm, tables) /\
    (forall d, In d (map fst L) -> exists q f, In (d, q) Q /\ sget_map tables d = Some f /\ float_table d q f) /\
    (forall d, ~ In d (map fst L) -> sget_map tables d = sget_map res0 d).
Proof.
  intros Hwf Hi nm Hr. induction L as [|[x p] L IH]; intros Hn st res0; cbn [foldM].
  - exists st, res0. split; auto. split; auto. intros d [].
  - destruct (Hi x p) as (q & Hq & HU). { simpl; auto. }
    destruct (result64 P Q st nm x p q Hwf Hq HU Hr) as (st' & f & -> & Hpt).
    cbn [gbind]. inversion Hn; subst.
    destruct (IH (fun d y Hy => Hi d y (or_intror Hy)) H2 st' (sset_map res0 x f)) as (st2 & tables & E & Ht & Ho).
    exists st2, tables. split; auto. split.
    + intros d [Eq|Hin]; auto. cbn [fst] in Eq. subst d. exists q, f. split; auto. split; auto. rewrite Ho by auto. apply (mget_mset_same _ String.eqb_eq).
    + intros d Hd. simpl in Hd. rewrite Ho by tauto. apply (mget_mset_other _ String.eqb_eq). tauto.
Qed.

(** What a table says. *)
Section One.
Variables (d : string) (q : factor xnum) (f : nfactor f64) (e : nat).
Hypothesis Hf : float_table d q f.
Hypothesis He : (Z.of_nat (num_outcomes vars d) <= 2 ^ Z.of_nat e)%Z /\ (e <= 1000)%nat /\ (Z.of_nat (num_outcomes vars d) < 2 ^ 53)%Z.
Hypothesis Hstate : forall x k, proper_state N x -> (k < num_outcomes vars d)%nat -> proper_state N (nupd x d k).
Hypothesis Hev : forall x, proper_state N x -> evenly vars d (policy_prob vars q) x.

Lemma recommended_prob x : proper_state N x -> recommended vars f x = negb (qeq (policy_prob vars q x) 0%Qc).
Proof.
  intros Hx. unfold recommended. f_equal. unfold entry. cbn [exact_table nf_for nf_given nf_table].
  destruct (fl_value _ _ _ Hf x Hx) as (p & Ep & Hp). rewrite (fl_for _ _ _ Hf). destruct (fl_table _ _ _ Hf) as (l & El & _). rewrite El in *. cbn [option_map slice_of] in *.
  rewrite (map_nth_error f64_exact _ _ Ep). destruct He as (E1 & E2 & E3).
  destruct (uniform_number _ e _ _ Hp E1 E2 E3) as (Hst & r & r' & Er & Er' & Hn & _). rewrite Er. cbn [fin_value]. injection Er' as Er'. rewrite Er'.
  destruct (SF2R_exact _ _ Er) as [Es _]. destruct Hn as (_ & _ & P0 & N1 & N2). pose proof (rho_pos 1) as Hrho.
  apply eq_true_iff_eq. rewrite !qeq_spec. split; intros E; subst.
  - rewrite qr_0 in Es. rewrite Es in N1. apply qr_inj. rewrite qr_0.
    assert (0 <= qr (policy_prob vars q x) / rho ^ 1)%R. { apply Rmult_le_pos; [apply P0|]. left. apply Rinv_0_lt_compat. auto. }
    assert (Hz : (qr (policy_prob vars q x) / rho ^ 1 = 0)%R) by lra.
    replace (qr (policy_prob vars q x)) with (qr (policy_prob vars q x) / rho ^ 1 * rho ^ 1)%R by (field; lra). rewrite Hz. ring.
  - rewrite E, qr_0 in *. apply qr_inj. rewrite qr_0, <- Es. unfold Rdiv in N1. rewrite Rmult_0_l in N1, N2. lra.
Qed.

Lemma even_prob x : proper_state N x -> even_choice vars f x = policy_prob vars q x.
Proof.
  intros Hx. unfold even_choice. rewrite (recommended_prob x Hx). pose proof (Hev x Hx) as E. unfold evenly in E.
  destruct (qeq (policy_prob vars q x) 0%Qc) eqn:Eq; cbn [negb]; rewrite E; auto.
  unfold recommended_options. rewrite (fl_for _ _ _ Hf). unfold qz. do 5 f_equal.
  apply filter_ext_in. intros k Hk. apply in_seq in Hk. rewrite recommended_prob; auto. apply Hstate; auto. lia.
Qed.

Lemma even_nearest x : proper_state N x ->
  exists p, nth_error (slice_of (nf_table f)) (cell vars (nf_given f ++ [d]) x) = Some p /\ nearest_float p (even_choice vars f x).
Proof.
  intros Hx. destruct (fl_value _ _ _ Hf x Hx) as (p & Ep & Hp). exists p. split; auto. rewrite (even_prob x Hx).
  destruct Hp as [[-> E]|(k & Hk & -> & E)]; injection E as E; rewrite E.
  - split; [reflexivity|]. exists 0%Qc. split; [reflexivity|]. intros y r' _ _. replace (0 - 0)%Qc with 0%Qc by ring. apply Qcabs_nonneg.
  - apply (nearest_div 1 (Z.of_nat k)); lia.
Qed.
End One.
End Tables.
