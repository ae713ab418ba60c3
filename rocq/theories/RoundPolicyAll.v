(** SolvePolicies of networks with float64 numbers: the theorem. *)
From Coq Require Import ZArith List Bool String Lia Permutation QArith Qcanon Qcabs Reals Lra Qreals.
From Coq Require Import Floats.SpecFloat.
From Flocq Require Import Core.Core IEEE754.BinarySingleNaN.
From Verif Require Import Num GoBase VarModel GoFacts SpecFactor Tuples FactorFacts FactorSum FactorProd FactorPolicy FactorAt XnumFacts ExactFactor
  FactorThms VEModel SpecVE SpecPolicy VEWorlds VEFacts VETopo VEHidden VESolve VEThms VEUtil VEShadow VEOrder VEOptimal VEPolicy NetModel SpecNet NetVars NetFactors NetVE NetSums NetQuery NetEvents NetUtil
  NetMass NetMarkov NetHistory NetCor VECheck NetCheck SpecNetPolicy NetPolicy NetPolicyStep NetPolicyLoop NetPolicyAll NetPolicyThms NetPolicyNear
  VEAny VEAnyUtil RoundFacts RoundSum RoundVE RoundSigned RoundSVE SpecTrain RoundTrain RoundUtility SpecRound RoundNet RoundQuery SpecFloatUtility RoundExpect RoundCalls
  SpecFloatPolicy RoundPolicy RoundIdeal RoundPolicyNet RoundPolicyLoop RoundPolicyTables.
Import ListNotations.
Open Scope string_scope.
Open Scope list_scope.
Open Scope Z_scope.

Section Read64.
Variables (n : network f64) (Q : list (string * factor xnum)) (tables : list (string * nfactor f64)) (b : string -> nat).
Notation N := (exact_net n).
Notation M := (with_policies (exact_net n) Q).
Notation vars := (n_vars n).
Hypothesis Hps : partly_solved M.
Hypothesis Hop : open_ones M = [].
Hypothesis Hev : evens n Q.
Hypothesis Htab : forall d, In d (map fst Q) -> exists q f, In (d, q) Q /\ sget_map tables d = Some f /\ float_table n d q f.
Hypothesis Hout : forall d, kind vars d = Some Decision -> (Z.of_nat (num_outcomes vars d) <= 2 ^ Z.of_nat (b d))%Z /\ (b d <= 1000)%nat.
Let Hwf : wf_network M := dn_wf _ (ps_net _ Hps).

Lemma keys64 d : In d (map fst Q) <-> In d (decisions N).
Proof.
  split; intros Hd.
  - apply in_map_iff in Hd. destruct Hd as ([x q] & <- & Hin). apply (policy_decision M Hps x q) in Hin. apply Hin.
  - destruct (has_key Q d) eqn:E; [apply has_key_spec in E; auto|]. assert (H : In d (open_ones M)) by (apply filter_In; cbn [with_policies n_policies]; rewrite E; auto).
    rewrite Hop in H. destruct H.
Qed.

Lemma perm64 : Permutation (map fst Q) (decisions N).
Proof.
  apply NoDup_Permutation; [apply (wn_keys _ Hwf)|apply (decisions_nodup M Hps)|]. apply keys64.
Qed.

Lemma small64 d : In d (decisions N) -> (Z.of_nat (num_outcomes vars d) <= 2 ^ Z.of_nat (b d))%Z /\ (b d <= 1000)%nat /\ (Z.of_nat (num_outcomes vars d) < 2 ^ 53)%Z.
Proof.
  intros Hd. apply (decision_known M Hps) in Hd. destruct Hd as [_ Hk]. change (n_vars M) with vars in Hk. destruct (Hout d Hk) as [H1 H2]. split; auto. split; auto.
  unfold kind, num_outcomes in *. destruct (var_named vars d) as [v|] eqn:E; [|discriminate]. apply (var_named_in M Hwf) in E.
  pose proof (wn_outcomes M Hwf v (proj1 E)) as H. unfold zlen in H. simpl. lia.
Qed.

Lemma state64 d x k : In d (decisions N) -> proper_state N x -> (k < num_outcomes vars d)%nat -> proper_state N (nupd x d k).
Proof.
  intros Hd Hp Hk v Hv. unfold nupd. destruct (String.eqb_spec (nv_name v) d) as [E|E]; auto.
  unfold num_outcomes in Hk. pose proof (proj2 (var_named_in M Hwf d v)) as H. change (n_vars M) with vars in H. rewrite H in Hk; auto.
Qed.

Lemma one_key d q q' : In (d, q) Q -> In (d, q') Q -> q = q'.
Proof.
  intros H1 H2. pose proof (wn_keys _ Hwf) as Hn. cbn [with_policies n_policies] in Hn. clear - H1 H2 Hn. induction Q as [|[x p] l IH]; [destruct H1|].
  inversion Hn; subst. destruct H1 as [E1|H1], H2 as [E2|H2]; try congruence; auto.
  - injection E1 as -> ->. exfalso. apply H3. change d with (fst (d, q')). apply in_map. auto.
  - injection E2 as -> ->. exfalso. apply H3. change d with (fst (d, q)). apply in_map. auto.
Qed.

Lemma even64 d q x : In (d, q) Q -> proper_state N x -> even_policy vars tables d x = policy_prob vars q x.
Proof.
  intros Hin Hx. assert (Hd : In d (map fst Q)) by (change d with (fst (d, q)); apply in_map; auto).
  destruct (Htab d Hd) as (q' & f & Hq' & Ef & Hft). rewrite <- (one_key d q q' Hin Hq') in *. unfold even_policy. rewrite Ef.
  apply keys64 in Hd. apply (even_prob n d q f (b d) Hft (small64 d Hd)); auto. intros. apply state64; auto.
Qed.

Lemma returned64 d : In d (decisions N) -> exists f, sget_map tables d = Some f /\ returned_float_policy N d f.
Proof.
  intros Hd. destruct (Htab d (proj2 (keys64 d) Hd)) as (q & f & Hq & Ef & Hft). exists f. split; auto.
  destruct (ps_policy _ Hps d q Hq) as [Hpf Hi]. destruct (policy_in M Hwf d q Hq) as (_ & _ & _ & Hwp).
  assert (Hnd : NoDup (nf_given f ++ [d])).
  { eapply Permutation_NoDup; [apply Permutation_sym; apply (fl_names _ _ _ _ Hft)|]. pose proof (proj1 (wp_wf _ _ _ Hwp)) as Hw. unfold wf_vars in Hw.
    unfold factor_names. assert (Hr : forall v, In v (f_vars q) -> represents M v) by apply Hwp. clear - Hw Hr Hwf.
    induction (f_vars q) as [|v l IH]; simpl; constructor; inversion Hw; subst.
    - intros Hc. apply in_map_iff in Hc. destruct Hc as (w & E & Hin). apply H1. apply in_map_iff. exists w. split; auto.
      destruct (Hr v) as (i & nv & Hi & Ei & _); [simpl; auto|]. destruct (Hr w) as (j & nw & Hj & Ej & _); [simpl; auto|]. change (n_vars M) with vars in *.
      rewrite Ei, Ej, !Nat2Z.id, Hi, Hj in E. rewrite Ei, Ej. f_equal. apply (name_pos_inj M Hwf j i nw nv); auto.
    - apply IH; auto. intros; apply Hr; simpl; auto. }
  assert (Hgi : incl (nf_given f) (observed_by N d)).
  { intros x Hx. assert (Hxi : In x (factor_names M q)) by (eapply Permutation_in; [apply (fl_names _ _ _ _ Hft)|apply in_app_iff; auto]).
    apply Hi in Hxi. destruct Hxi as [<-|Hxi]; auto. apply NoDup_remove_2 in Hnd. rewrite app_nil_r in Hnd. tauto. }
  assert (Hval : forall x, proper_state N x -> even_choice vars f x = policy_prob vars q x).
  { intros x Hx. rewrite <- (even64 d q x Hq Hx). unfold even_policy. rewrite Ef. auto. }
  constructor; auto.
  - apply Hft.
  - apply Hft.
  - intros x Hx. apply (even_nearest n d q f (b d) Hft (small64 d Hd)); auto. intros. apply state64; auto.
  - constructor; change (n_vars N) with vars.
    + intros x Hx. rewrite Hval by auto. apply (pf_nonneg _ _ _ Hpf). auto.
    + intros x Hx. rewrite <- (pf_rows _ _ _ Hpf x) by auto. apply qsum_ext. intros k Hk. apply in_seq in Hk. change (n_vars M) with vars in Hk. apply Hval. apply state64; auto. lia.
    + intros x x' H. pose proof (fl_for _ _ _ _ Hft) as Ed.
      assert (Hrec : forall y y', (forall z, z = d \/ In z (observed_by N d) -> y z = y' z) -> recommended vars f y = recommended vars f y').
      { intros y y' Hy. unfold recommended, entry. cbn [exact_table nf_given nf_for]. rewrite Ed, (cell_ext' vars _ y y'); auto.
        intros z Hz. apply Hy. apply in_app_iff in Hz. destruct Hz as [Hz|[<-|[]]]; auto. }
      unfold even_choice. rewrite (Hrec x x' H). destruct (recommended vars f x'); auto.
      assert (E : recommended_options vars f x = recommended_options vars f x'); [|rewrite E; auto]. unfold recommended_options. f_equal. apply filter_ext. intros k.
      apply Hrec. intros z Hz. unfold nupd. rewrite Ed. destruct (String.eqb z d); auto.
Qed.

Lemma value64 sigma : mixed_value M sigma = expected_value N (even_policy vars tables).
Proof.
  unfold mixed_value, expected_value. rewrite Hop. cbn [map]. apply qsum_ext. intros x Hx. change (utility_of M x) with (utility_of N x).
  simpl qprod at 1. rewrite Qcmult_1_r. f_equal. unfold joint. change (chance_factors M) with (chance_factors N). change (n_vars M) with vars. change (n_vars N) with vars. f_equal.
  rewrite filter_all by auto. cbn [with_policies n_policies].
  rewrite <- (qprod_perm_map _ _ _ perm64), map_map. f_equal. apply map_ext_in. intros [d q] Hin. cbn [fst snd]. symmetry. apply even64; auto.
  apply (world_proper M Hwf x). auto.
Qed.
End Read64.

Section All.
Variables (n : network f64) (b : string -> nat) (s e : nat).
Notation N := (exact_net n).
Notation vars := (n_vars n).
Notation at64 P a nm := (with_solver (with_policies n P) a nm).
Notation atq Q := (with_policies (exact_net n) Q).
Hypothesis Hdn : decision_network N.
Hypothesis Hnf : no_forgetting N.
Hypothesis Hfn : float_network n.
Hypothesis Hpr : policies_in_range N b s e.
Hypothesis Hfew : Z.of_nat (policy_rounding_steps N) <= 2 ^ 50.

Theorem float_policies_ok sc stepwise U : stepwise = true \/ (List.length (decisions N) <= 1)%nat ->
  (forall x, proper_state N x -> (utility_magnitude N x <= U)%Qc) ->
  exists n' tables, net_solve_policies sc n stepwise = (n', Ok tables) /\
    (forall d, In d (decisions N) -> exists f, sget_map tables d = Some f /\ returned_float_policy N d f) /\
    (forall d, ~ In d (decisions N) -> sget_map tables d = None) /\
    forall sigma, (forall d, In d (decisions N) -> policy_for N d (sigma d)) ->
      (expected_value N sigma <= expected_value N (even_policy vars tables) + qz (Z.of_nat (2 * List.length (decisions N))) * error_of (policy_rounding_steps N) * U)%Qc.
Proof.
  intros Hst HUm. unfold net_solve_policies. pose proof (ps_start N Hdn Hnf) as Hps0. pose proof (dn_wf _ (ps_net _ Hps0)) as Hwf0. destruct Hfn as [Hfl _].
  assert (Eop : open_ones (atq []) = decisions N) by (apply filter_all; auto).
  assert (Hev0 : evens n []) by (intros d q []).
  assert (Ec : forall k : nat, List.length (decisions N) = S k -> count_decision_steps (with_policies n []) stepwise = S k).
  { intros k Ek. unfold count_decision_steps. change (n_vars (with_policies n [])) with (n_vars N). rewrite decisions_count, Ek. destruct stepwise; auto. destruct Hst as [Hst|Hst]; [discriminate|]. f_equal. lia. }
  set (F := fun '((n, res) : network f64 * list (string * nfactor f64)) '((name, f) : string * factor f64) => _).
  assert (G : exists P Q t a nm, policy_steps sc (count_decision_steps (with_policies n []) stepwise) 0 (with_policies n []) stepwise = (at64 P a nm, Ok t) /\
     partly_solved (atq Q) /\ Forall2 (uniform_policy vars) P Q /\ evens n Q /\ open_ones (atq Q) = [] /\ (P = [] \/ a <> None /\ names_ready n nm) /\
     forall sigma, valid_strategy N sigma -> (mixed_value (atq []) sigma <= mixed_value (atq Q) sigma + qz (Z.of_nat (2 * List.length (decisions N))) * error_of (policy_rounding_steps N) * U)%Qc).
  { destruct (decisions N) as [|d0 ds] eqn:Ed.
    - assert (Ec1 : count_decision_steps (with_policies n []) stepwise = 1%nat).
      { unfold count_decision_steps. change (n_vars (with_policies n [])) with (n_vars N). rewrite decisions_count, Ed. destruct stepwise; auto. }
      rewrite Ec1. cbn [policy_steps]. unfold assign_ve.
      assert (Hpr0 : policies_in_range (exact_net (with_policies n [])) b s e). { destruct Hpr as [A B C D]. constructor; [exact A|exact B|exact C|exact D]. }
      assert (HU0 : Forall2 (uniform_policy vars) (n_policies (with_policies n [])) []) by constructor.
      destruct (ideal_to_ve (with_policies n []) [] b s Hwf0 HU0 Hfl (pr_tables _ _ _ _ Hpr0) (Hnn (with_policies n []) [] Hps0) (Hout (with_policies n []) [] b s e Hps0 Hpr0)
        (Hsum' (with_policies n []) [] b s e Hps0 HU0 Hpr0) (Hfew2 (with_policies n []) [] b Hps0 HU0 Hfew) sc 0) as (vs & fs & w & hs & l & -> & Hic & _).
      pose proof (ic_created _ _ _ _ _ _ _ Hic) as Hcr. change (with_policies (exact_net (with_policies n [])) []) with (atq []) in *.
      set (s0 := ve_new 1 vs fs (net_deps (atq [])) w).
      assert (Hr0 : ready s0). { apply (problem_ready vs hs (net_deps (atq []))); auto. apply Hcr. apply repeat_length. }
      destruct (get_decisions_spec sc s0 (r_wf _ Hr0) (r_closed _ Hr0)) as (t0 & r & E0 & Hpr1 & _).
      unfold ve_solve_policies. rewrite E0. cbn [gbind].
      assert (Er : r = []).
      { assert (Edv : decisions_of (vs_vars (ve_vs s0)) = []).
        { change (vs_vars (ve_vs s0)) with (vs_vars vs). rewrite (cr_vars _ _ _ _ Hcr). change (decisions_of (net_vars (atq []))) with (decision_vars (net_vars (atq []))).
          destruct (decision_vars (net_vars (atq []))) as [|v l1] eqn:Ev; auto. assert (Hv : In v (decision_vars (net_vars (atq [])))) by (rewrite Ev; simpl; auto).
          apply (open_dvars (atq []) Hps0) in Hv. destruct Hv as (d & Hd & _). rewrite Eop in Hd. destruct Hd. }
        rewrite Edv in Hpr1. apply Permutation_nil in Hpr1. auto. }
      subst r. exists [], []. do 3 eexists. split; [reflexivity|]. split; auto. split; [constructor|]. split; auto. split; [exact Eop|].
      split; [left; reflexivity|]. intros sigma _. cbn [List.length]. change (qz (Z.of_nat (2 * 0))) with 0%Qc. rewrite !Qcmult_0_l, Qcplus_0_r. apply Qcle_refl.
    - assert (Hlen : List.length (open_ones (atq [])) = S (List.length ds)) by (rewrite Eop; auto).
      rewrite (Ec (List.length ds)) by auto.
      destruct (fsteps_ok n b s e Hfl Hpr Hfew sc stepwise U HUm (S (List.length ds)) [] [] 0%nat (n_ve n) (n_names n) Hps0 (Forall2_nil _) Hev0 Hlen) as (P' & Q' & t' & a' & nm' & E & H1 & H2 & H3 & H4 & H5 & H6); auto.
      exists P', Q', t', a', nm'. split; [exact E|]. split; [exact H1|]. split; [exact H2|]. split; [exact H3|]. split; [exact H4|]. split; [right; apply H5; left; discriminate|].
      exact H6. }
  destruct G as (P & Q & t & a & nm & -> & Hps & HU & Hev & Hop & Hrd & Hle). cbv beta iota zeta. change (n_policies (at64 P a nm)) with P.
  pose proof (dn_wf _ (ps_net _ Hps)) as Hwf. pose proof (uniform_fst vars P Q HU) as Ek.
  assert (Hperm : Permutation P (shuffle sc t P)) by apply shuffle_perm.
  assert (T : exists a' tables, foldM F (at64 P a nm, []) (shuffle sc t P) = Ok (at64 P a' nm, tables) /\
     (forall d, In d (map fst Q) -> exists q f, In (d, q) Q /\ sget_map tables d = Some f /\ float_table n d q f) /\
     (forall d, ~ In d (map fst Q) -> sget_map tables d = None)).
  { destruct Hrd as [E|[Ha Hr]].
    - subst P. apply Permutation_nil in Hperm. rewrite Hperm. inversion HU; subst. exists a, []. split; auto. split; auto. intros d [].
    - destruct a as [st|]; [|congruence].
      destruct (tables64 n P Q (shuffle sc t P) Hwf) with (nm := nm) (st := st) (res0 := @nil (string * nfactor f64)) as (st' & tables & E & Ht & Ho); auto.
      { intros d p Hd. apply (Permutation_in _ (Permutation_sym Hperm)) in Hd. destruct (Forall2_in_l _ _ _ _ HU Hd) as ([d' q] & Hq & Hu). pose proof Hu as (Ed & _). cbn [fst] in Ed. subst d'. eauto. }
      { eapply Permutation_NoDup; [apply Permutation_map; apply Hperm|]. rewrite <- Ek. apply (wn_keys _ Hwf). }
      exists (Some st'), tables. split; [exact E|]. rewrite Ek. split.
      + intros d Hd. apply Ht. eapply Permutation_in; [apply Permutation_map; apply Hperm|auto].
      + intros d Hd. rewrite Ho; auto. intros Hc. apply Hd. eapply Permutation_in; [apply Permutation_map; apply Permutation_sym; apply Hperm|auto]. }
  destruct T as (a' & tables & E & Ht & Hn). rewrite E. eexists; exists tables. split; [reflexivity|].
  pose proof (Hout n [] b s e Hps0 Hpr) as Ho.
  split; [intros d Hd; apply (returned64 n Q tables b); auto|]. split.
  - intros d Hd. apply Hn. intros Hc. apply Hd. apply (keys64 n Q Hps Hop). auto.
  - intros sigma Hs. rewrite <- (value64 n Q tables b Hps Hop Hev Ht Ho sigma), <- start_value. apply Hle. auto.
Qed.
End All.
