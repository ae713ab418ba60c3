(** Expected utilities of several calls fit together. *)
From Coq Require Import ZArith List Bool String Lia Permutation QArith Qcanon.
From Verif Require Import Num GoBase VarModel GoFacts SpecFactor XnumFacts ExactFactor VEModel SpecVE VEWorlds NetModel SpecNet NetVars NetFactors NetVE NetSums
  NetQuery NetEvents NetUtil NetMass NetHistory NetCor SpecNetPolicy NetPolicy NetPolicyStep NetPolicyLoop NetPolicyThms SpecAnswers NetJoint NetBayes SpecGraph StateSums NetGraph NetMarkov NetSame NetAdvice.
Import ListNotations.
Open Scope string_scope.
Open Scope list_scope.
Open Scope Z_scope.

Section Tower.
Variable n : network xnum.
Hypothesis Hwf : wf_network n.
Hypothesis Hco : complete n.
Hypothesis Hsv : solved n.
Hypothesis Hpl : plain_utilities n.
Hypothesis Hso : some_utility n.
Notation vars := (n_vars n).
Definition value_given (ign : string -> bool) (ev : list (string * string)) : Qc := sum_over n (fun s => joint n ign s * utility_of n s)%Qc (agrees vars ev).

Theorem utility_given sc ig ev : valid_observations n ev -> exists n'' f, net_solve_utility sc n ev [] "" ig = (n'', Ok f) /\ f_vars f = [] /\
  f_data f = [Fin (value_given (ignored_by ig ev) ev)].
Proof.
  intros Hv. destruct (solve_utility_factor n Hwf sc ig ev [] Hco Hpl Hso Hv) as (n'' & f & E & Hr); [intros q []|].
  exists n'', f. split; auto.
  assert (Hnames : f_vars f = []).
  { destruct (f_vars f) as [|v l] eqn:Ef; auto. exfalso.
    pose proof (rf_names _ _ _ _ _ _ _ Hr) as Hn. unfold factor_names in Hn. rewrite Ef in Hn.
    destruct (Hn _ (or_introl eq_refl)) as (_ & _ & t & Ht & [[_ []]|[_ [[]|Ho]]]).
    assert (Hop : exists d, open_decision n d) by (destruct Ho as [Ho|(g & _ & Ho & _)]; eauto).
    destruct Hop as (d & Hd1 & Hd2). unfold kind in Hd1. destruct (var_named vars d) as [w|] eqn:Ew; [|discriminate].
    apply (var_named_in n Hwf) in Ew. destruct Ew as [Hw <-]. simpl in Hd1. inversion Hd1 as [Hty]. rewrite (Hsv w Hw Hty) in Hd2. discriminate. }
  split; auto. destruct (rf_value _ _ _ _ _ _ _ Hr) as (c & Hc & Hc1 & Hval).
  assert (Ec : c = 1%Qc).
  { apply Hc1. intros v Hvin Ht Hne. left. apply (mentioned_solved n Hwf (ignored_by ig ev) ev v); auto.
    intros x Hx. unfold ignored_by in Hx. apply andb_prop in Hx. apply has_key_spec. tauto. }
  assert (Hs0 : proper_state n nowhere).
  { intros v Hvin. unfold nowhere. pose proof (wn_outcomes n Hwf v Hvin) as H0. unfold zlen in H0. lia. }
  specialize (Hval nowhere Hs0). rewrite Ec, Qcmult_1_l in Hval. unfold factor_names in Hval. rewrite Hnames in Hval. cbn [map same_on forallb] in Hval.
  rewrite (denotes_data f (value f) (positions vars nowhere) (rf_wf _ _ _ _ _ _ _ Hr)), Hnames.
  2:{ intros a Ha. destruct (rf_finite _ _ _ _ _ _ _ Hr a Ha) as (q & Eq). unfold value. rewrite Eq. auto. }
  cbn [worlds map]. do 2 f_equal. unfold factor_value in Hval. rewrite Hval. unfold value_given, sum_over. do 2 f_equal. apply filter_ext. intros s. apply andb_true_r.
Qed.

Lemma sum_cases F x v event : In v vars -> nv_name v = x ->
  sum_over n F event = qsum (map (fun k => sum_over n F (fun s => event s && (s x =? k)%nat)) (seq 0 (List.length (nv_outcomes v)))).
Proof.
  intros Hin Hn. rewrite (sum_over_if n).
  rewrite (qsum_ext (fun k => sum_over n F _) (fun k => qsum (map (fun s => if event s && (s x =? k)%nat then F s else 0%Qc) (worlds_of n)))) by (intros k _; apply (sum_over_if n)).
  rewrite qsum_swap. apply qsum_ext. intros s Hs.
  rewrite (qsum_ext _ (fun k => if (k =? s x)%nat then (if event s then F s else 0%Qc) else 0%Qc)).
  - rewrite (qsum_pick (fun _ => if event s then F s else 0%Qc)); auto. subst x. apply (NetMarkov.world_proper n Hwf s Hs). auto.
  - intros k _. rewrite (Nat.eqb_sym (s x) k). destruct (event s), (k =? s x)%nat; auto.
Qed.
Lemma value_cases ign ev x v : var_named vars x = Some v -> 
  value_given ign ev = qsum (map (fun i => value_given ign (ev ++ [(x, nth i (nv_outcomes v) "")])) (seq 0 (List.length (nv_outcomes v)))).
Proof.
  intros Hx. pose proof (proj1 (var_named_in n Hwf x v) Hx) as [Hin Hn]. unfold value_given at 1. rewrite (sum_cases _ x v _ Hin Hn). apply qsum_ext. intros i Hi. apply in_seq in Hi.
  unfold value_given, sum_over. do 2 f_equal. apply filter_ext. intros s. symmetry. apply (agrees_more n Hwf ev x _ v i); auto. apply nth_error_nth'. lia.
Qed.
Hypothesis Hnn : nonnegative n.
Lemma joint_nonneg' ign s : (0 <= joint n ign s)%Qc.
Proof. apply joint_nonneg; auto. Qed.
Lemma zero_value ign event : mass n ign event = 0%Qc -> sum_over n (fun s => joint n ign s * utility_of n s)%Qc event = 0%Qc.
Proof.
  intros H. unfold sum_over. apply XnumFacts.qsum_zero. intros s Hs. replace (joint n ign s) with 0%Qc; [ring|]. symmetry. apply (zero_parts (joint n ign) (filter event (worlds_of n))); auto. intros x _. apply joint_nonneg'.
Qed.
(** Utilities between two bounds *)
Lemma value_bounds ign ev lo hi : (forall s, proper_state n s -> (lo <= utility_of n s)%Qc /\ (utility_of n s <= hi)%Qc) ->
  (lo * mass n ign (agrees vars ev) <= value_given ign ev)%Qc /\ (value_given ign ev <= hi * mass n ign (agrees vars ev))%Qc.
Proof.
  intros H. unfold value_given, sum_over, mass. assert (G : forall c l, (c * qsum (map (joint n ign) l))%Qc = qsum (map (fun s => joint n ign s * c)%Qc l)).
  { intros c l. induction l as [|a l IH]; [unfold qsum; cbn; ring|]. cbn [map]. rewrite !qsum_one, <- IH. ring. }
  rewrite !G. split; apply NetAdvice.qsum_le; intros s Hs; apply filter_In in Hs; destruct Hs as [Hs _]; destruct (H s (NetMarkov.world_proper n Hwf s Hs)) as [H1 H2];
    rewrite (Qcmult_comm (joint n ign s)), (Qcmult_comm (joint n ign s)); apply Qcmult_le_compat_r; auto; apply joint_nonneg'.
Qed.
End Tower.
