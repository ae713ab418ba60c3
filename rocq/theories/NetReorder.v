(** Networks built by New from the same variables and tables in another order, and from one
    variable more. *)
From Coq Require Import ZArith List Bool String Lia Permutation QArith Qcanon.
From Verif Require Import Num GoBase VarModel GoFacts SpecFactor XnumFacts VEModel SpecVE VEWorlds NetModel SpecNet NetVars NetFactors NetSums NetQuery NetMass NetCor NetNew
  SpecNetPolicy NetPolicyStep NetPolicyThms SpecGraph StateSums NetGraph NetChange.
Import ListNotations.
Open Scope string_scope.
Open Scope list_scope.
Open Scope Z_scope.

(** ** The total utility node of a new network *)
Lemma new_total name info vars (factors : list (nfactor xnum)) n : (forall v, In v vars -> nv_factor v = None) -> net_new name info vars factors = Ok n ->
  ((forall v, In v vars -> ~ collects vars factors v) /\ total_factor n = None /\ forall x, is_total n x = false) \/
  exists v f, In v vars /\ collects vars factors v /\ factor_for factors (nv_name v) = Some f /\ total_factor n = Some (linked_factor vars f) /\
    forall x, is_total n x = String.eqb (nv_name v) x.
Proof.
  intros Hun E. destruct (new_api name info vars factors Hun) as (Hv & _ & H). destruct (H n E) as (_ & _ & _ & _ & Hvs & Hfs & Hlink & Ht).
  assert (Hst : valid_structure vars factors) by (apply Hv; exists n; auto). pose proof (st_names _ _ Hst) as Hnd.
  destruct Ht as [[Ht Hno]|[Ht (v & Hv' & Hc)]].
  - left. split; auto. unfold total_factor, is_total. rewrite Ht. split; [reflexivity|]. intros x. destruct (nth_error (n_vars n) (Z.to_nat (-1))); reflexivity.
  - right. pose proof Hc as (_ & f & Hf & _). exists v, f. split; [eapply nth_error_In; eauto|]. split; auto. split; auto.
    destruct (Hlink v f (nth_error_In _ _ Hv') Hf) as (v' & k & Hn & Hk & _ & Hlf).
    assert (K : forall i l l', Forall2 same_variable l l' -> nth_error l i = Some v -> exists w, nth_error l' i = Some w /\ nv_name w = nv_name v).
    { clear. induction i as [|i IH]; intros l l' [|a b l0 l0' H Hl] E; simpl in E; try discriminate.
      - injection E as ->. exists b. split; auto. apply H.
      - apply (IH _ _ Hl). auto. }
    destruct (K _ _ _ Hvs Hv') as (w & Hw & Ew).
    assert (Hnd' : NoDup (map nv_name (n_vars n))).
    { replace (map nv_name (n_vars n)) with (map nv_name vars); auto. clear - Hvs. induction Hvs as [|a b l l' H Hl IH]; auto. simpl. rewrite IH. destruct H as (-> & _). auto. }
    assert (w = v'). { rewrite <- Ew in Hn. rewrite (var_named_in' _ w Hnd' (nth_error_In _ _ Hw)) in Hn. congruence. }
    subst w. unfold total_factor, is_total. replace (n_tui n <? 0) with false by (symmetry; apply Z.ltb_ge; lia). rewrite Hw, Hk, Hlf. split; auto.
    intros x. replace (0 <=? n_tui n) with true by (symmetry; apply Z.leb_le; lia). rewrite Ew. auto.
Qed.

Section Perm.
Variables vars vars' : list nvar.
Variables factors factors' : list (nfactor xnum).
Hypothesis Hvp : Permutation vars vars'.
Hypothesis Hfp : Permutation factors factors'.
Hypothesis Hnames : NoDup (map nv_name vars).
Hypothesis Hfor : NoDup (map nf_for factors).
Lemma p_named x : var_named vars' x = var_named vars x.
Proof. symmetry. apply named_perm; auto. Qed.
Lemma p_kind x : kind vars' x = kind vars x.
Proof. unfold kind. rewrite p_named. auto. Qed.
Lemma p_factor x : factor_for factors' x = factor_for factors x.
Proof. symmetry. apply factor_perm; auto. Qed.
Lemma p_in v : In v vars' <-> In v vars.
Proof. split; apply Permutation_in; auto. apply Permutation_sym; auto. Qed.
Lemma p_fin f : In f factors' <-> In f factors.
Proof. split; apply Permutation_in; auto. apply Permutation_sym; auto. Qed.
Lemma p_collects v : collects vars' factors' v <-> collects vars factors v.
Proof. unfold collects. rewrite p_factor. split; intros (H & f & H1 & H2 & H3); split; auto; exists f; repeat (split; auto); intros g Hg; specialize (H3 g Hg); rewrite p_kind in *; auto. Qed.
Lemma p_rewards v : rewards vars' factors' v <-> rewards vars factors v.
Proof. unfold rewards. rewrite p_factor. split; intros (H & f & H1 & H2 & H3); split; auto; exists f; repeat (split; auto); intros g Hg; specialize (H3 g Hg); rewrite !p_kind in *; auto. Qed.
Lemma p_structure : valid_structure vars factors -> valid_structure vars' factors'.
Proof.
  intros [H1 H2 H3 H4 H5]. constructor.
  - eapply Permutation_NoDup; [apply Permutation_map; exact Hvp|auto].
  - intros v f g Hv Hf Hg. rewrite p_factor in Hf. apply p_in in Hv. destruct (H2 v f g Hv Hf Hg) as (p & Hp & E). exists p. rewrite p_in. auto.
  - intros v Hv Ht. rewrite p_collects, p_rewards. apply H3; auto. apply p_in. auto.
  - intros v w Hv Hw. rewrite !p_collects. apply H4; apply p_in; auto.
  - intros v f Hv Hc Hf. rewrite p_factor in Hf. apply p_collects in Hc. apply H5; auto. apply p_in. auto.
Qed.
Lemma p_size names : table_size vars' names = table_size vars names.
Proof. unfold table_size. induction names as [|x l IH]; auto. simpl. rewrite IH. unfold num_outcomes. rewrite p_named. auto. Qed.
Lemma p_input : good_input vars factors -> good_input vars' factors'.
Proof.
  intros [H1 H2 H3 H4 H5 H6 H7]. constructor.
  - intros v Hv. apply H1. apply p_in. auto.
  - intros v Hv. apply H2. apply p_in. auto.
  - unfold zlen in *. rewrite <- (Permutation_length Hvp). auto.
  - intros v Hv. apply H4. apply p_in. auto.
  - intros f Hf. apply p_fin in Hf. destruct (H5 f Hf) as (v & Hv & E). exists v. rewrite p_in. auto.
  - intros f v Hf Hv E Hc. apply p_fin in Hf. apply p_in in Hv. rewrite p_collects in Hc. destruct (H6 f v Hf Hv E Hc) as (K1 & K2 & K3). split; auto. split.
    + intros g Hg. rewrite p_kind. auto.
    + intros Ht. destruct (K3 Ht) as (l & El & Hl). exists l. rewrite p_size. auto.
  - intros f v Hv Hc Hf. rewrite p_factor in Hf. apply p_in in Hv. apply p_collects in Hc. destruct (H7 f v Hv Hc Hf) as (K1 & K2). split; auto.
    intros u Hu. apply K2. apply p_in. auto.
Qed.

Theorem new_reordered name info name' info' n : (forall v, In v vars -> nv_factor v = None) -> net_new name info vars factors = Ok n ->
  exists n', net_new name' info' vars' factors' = Ok n' /\ reordered n n'.
Proof.
  intros Hun E. assert (Hun' : forall v, In v vars' -> nv_factor v = None) by (intros v Hv; apply Hun, p_in; auto).
  destruct (new_api name info vars factors Hun) as (Hv & _ & H). assert (Hst : valid_structure vars factors) by (apply Hv; exists n; auto).
  destruct (new_api name' info' vars' factors' Hun') as (Hv' & _ & H'). destruct (proj1 Hv' (p_structure Hst)) as (n' & E'). exists n'. split; auto.
  destruct (H n E) as (_ & _ & Hp & _ & Hvs & Hfs & _). destruct (H' n' E') as (_ & _ & Hp' & _ & Hvs' & Hfs' & _).
  assert (En : map nv_name (n_vars n) = map nv_name vars). { clear - Hvs. induction Hvs as [|a b l l' H Hl IH]; auto. simpl. rewrite IH. destruct H as (-> & _). auto. }
  assert (Ef : map nf_for (n_factors n) = map nf_for factors). { clear - Hfs. induction Hfs as [|a b l l' H Hl IH]; auto. simpl. rewrite IH. destruct H as (-> & _). auto. }
  assert (P : forall X (R : X -> X -> Prop), (forall a b c, R a b -> R a c -> R b c) -> forall a a', Permutation a a' -> forall b, Forall2 R a b -> exists c, Permutation b c /\ forall d, Forall2 R a' d -> Forall2 R c d).
  { clear. intros X R HR a a' Hp. assert (K : forall b c : list X, forall a, Forall2 R a b -> Forall2 R a c -> Forall2 R b c).
    { intros b c a0 H. revert c. induction H as [|x y l l' H Hl IH]; intros c Hc; inversion Hc; subst; constructor; eauto. }
    intros b Hb. destruct (Permutation_Forall2 Hp Hb) as (c & Hbc & Hc). exists c. split; auto. intros d Hd. eapply K; eauto. }
  assert (T : forall x, is_total n' x = is_total n x /\ net_weight n' x = net_weight n x).
  { intros x. destruct (new_total name info vars factors n Hun E) as [(Hno & Htf & Hit)|(v & f & Hvin & Hc & Hf & Htf & Hit)];
    destruct (new_total name' info' vars' factors' n' Hun' E') as [(Hno' & Htf' & Hit')|(w & g & Hwin & Hc' & Hg & Htf' & Hit')].
    - rewrite Hit, Hit'. unfold net_weight. rewrite Htf, Htf'. auto.
    - exfalso. apply (Hno w); [apply p_in; auto|apply p_collects; auto].
    - exfalso. apply (Hno' v); [apply p_in; auto|apply p_collects; auto].
    - assert (v = w). { apply (st_single _ _ Hst); auto; [apply p_in; auto|apply p_collects; auto]. } subst w. rewrite p_factor in Hg. assert (g = f) by congruence. subst g.
      rewrite Hit, Hit'. unfold net_weight. rewrite Htf, Htf'. auto. }
  constructor; auto; try congruence.
  - destruct (P nvar same_variable) with (a := vars) (a' := vars') (b := n_vars n) as (c & Hc & Hd); auto.
    { intros a b c (A1 & A2 & A3 & A4 & A5) (B1 & B2 & B3 & B4 & B5). repeat split; congruence. }
    exists c. split; auto.
  - destruct (P (nfactor xnum) same_factor) with (a := factors) (a' := factors') (b := n_factors n) as (c & Hc & Hd); auto.
    { intros a b c (A1 & A2 & A3) (B1 & B2 & B3). repeat split; congruence. }
    exists c. split; auto.
  - intros x. apply T.
  - intros x. apply T.
Qed.
End Perm.

(** ** The maximum expected utility *)
Lemma maximum_exists n : decision_network n -> no_forgetting n -> exists b, maximum_utility n b /\
  (exists policies, (forall d, In d (decisions n) -> policy_for n d (policies d)) /\ expected_value n policies = b) /\
  forall policies, (forall d, In d (decisions n) -> policy_for n d (policies d)) -> (expected_value n policies <= b)%Qc.
Proof.
  intros Hdn Hnf. destruct (solve_policies_ok sched_id n true Hdn Hnf) as (n0 & t0 & E0 & H0).
  pose proof (table_policy_for n n0 t0 H0) as Hp0. pose proof (policies_best n n0 t0 H0) as Hb0.
  exists (expected_value n (table_policy n t0)). split; [|split; [exists (table_policy n t0); auto|auto]].
  intros sc stepwise. destruct (solve_policies_ok sc n stepwise Hdn Hnf) as (n1 & t1 & E1 & H1). exists n1, t1. split; auto.
  pose proof (table_policy_for n n1 t1 H1) as Hp1. pose proof (policies_best n n1 t1 H1) as Hb1.
  rewrite (Qcle_antisym _ _ (Hb1 _ Hp0) (Hb0 _ Hp1)). apply (solved_utility n n1 t1 H1).
Qed.
Lemma maximum_unique n b b' : maximum_utility n b -> maximum_utility n b' -> b = b'.
Proof.
  intros H H'. destruct (H sched_id true) as (n1 & t1 & E1 & K1). destruct (H' sched_id true) as (n2 & t2 & E2 & K2). rewrite E1 in E2. injection E2 as <- <-.
  destruct (K1 sched_id true) as (m1 & f1 & F1 & _ & D1). destruct (K2 sched_id true) as (m2 & f2 & F2 & _ & D2). rewrite F1 in F2. injection F2 as <- <-. congruence.
Qed.
Theorem reordered_maximum n n' : reordered n n' -> wf_network n' -> decision_network n -> no_forgetting n -> exists b, maximum_utility n b /\ maximum_utility n' b.
Proof.
  intros Hro Hwf' Hdn Hnf. destruct (maximum_exists n Hdn Hnf) as (b & Hb & (p & Hp & Ep) & Hmax).
  destruct (maximum_exists n' (ro_network n n' Hro Hwf' Hdn) (ro_no_forgetting n n' Hro Hnf)) as (b' & Hb' & (p' & Hp' & Ep') & Hmax').
  assert (D : forall d, In d (decisions n) <-> In d (decisions n')). { intros d. split; apply Permutation_in; [|apply Permutation_sym]; apply (ro_decisions n n' Hro). }
  assert (P1 : forall d, In d (decisions n') -> policy_for n' d (p d)) by (intros d Hd; apply (ro_policy n n' Hro); apply Hp, D; auto).
  assert (P2 : forall d, In d (decisions n) -> policy_for n d (p' d)) by (intros d Hd; apply (ro_policy n n' Hro); apply Hp', D; auto).
  exists b. split; auto. replace b with b'; auto. symmetry. clear Hb Hb'. apply Qcle_antisym.
  - rewrite <- Ep, (ro_value n n' Hro) by (intros d Hd; apply (policy_proper' n d); auto). apply Hmax'. auto.
  - rewrite <- Ep', <- (ro_value n n' Hro) by (intros d Hd; apply (policy_proper' n d); auto). apply Hmax. auto.
Qed.

(** ** One variable more *)
Section Leaf.
Variables n n' : network xnum.
Variable v : nvar.
Variable f : nfactor xnum.
Hypothesis Hwf : wf_network n.
Hypothesis Hwf' : wf_network n'.
Hypothesis Hopen : n_policies n = [].
Hypothesis Hopen' : n_policies n' = [].
Hypothesis Hvars : exists l, Permutation (v :: n_vars n) l /\ Forall2 same_variable l (n_vars n').
Hypothesis Hfacs : exists l, Permutation (f :: n_factors n) l /\ Forall2 same_factor l (n_factors n').
Hypothesis Hv : nv_type v = Chance.
Hypothesis Hf : nf_for f = nv_name v.
Hypothesis Hrows : forall s, proper_state n s -> row_sum (v :: n_vars n) f s <> 0%Qc.
Notation vars := (n_vars n).
Notation big := (v :: n_vars n).
Lemma leaf_names : NoDup (map nv_name big).
Proof.
  destruct Hvars as (l & Hp & Hs). eapply Permutation_NoDup; [apply Permutation_sym, Permutation_map; exact Hp|]. replace (map nv_name l) with (map nv_name (n_vars n')); [apply (wn_names n' Hwf')|].
  clear - Hs. induction Hs as [|a b l l' H Hl IH]; auto. simpl. rewrite IH. destruct H as (-> & _). auto.
Qed.
Lemma leaf_new x : In x (map nv_name vars) -> x <> nv_name v.
Proof. intros H ->. pose proof leaf_names as Hn. inversion Hn. contradiction. Qed.
Lemma leaf_sig x : x <> nv_name v -> sig big x = sig vars x.
Proof. intros H. unfold sig, var_named. simpl. destruct (String.eqb_spec (nv_name v) x); auto. congruence. Qed.
Lemma leaf_sig' x : sig big x = sig (n_vars n') x.
Proof. destruct Hvars as (l & Hp & Hs). rewrite <- (sig_same _ _ Hs x). unfold sig. rewrite (named_perm _ _ x leaf_names Hp). auto. Qed.
Lemma named_in x w : var_named vars x = Some w -> In x (map nv_name vars).
Proof. intros H. apply var_named_some in H. destruct H as [H <-]. apply in_map. auto. Qed.
Lemma factor_known g : In g (n_factors n) -> In (nf_for g) (map nv_name vars).
Proof.
  intros Hg. destruct (is_total n (nf_for g)) eqn:E.
  - unfold is_total in E. destruct (nth_error vars (Z.to_nat (n_tui n))) as [w|] eqn:Ew; [|discriminate]. apply andb_true_iff in E. destruct E as [_ E]. apply String.eqb_eq in E. rewrite <- E. apply in_map. eapply nth_error_In; eauto.
  - destruct (wt_for _ _ (wn_tables n Hwf g Hg E)) as (w & Hw). apply (named_in _ w). auto.
Qed.
Lemma leaf_scope g x : In g (chance_factors n) -> In x (nf_given g ++ [nf_for g]) -> In x (map nv_name vars).
Proof.
  intros Hg Hx. destruct (chance_in n Hwf g Hg) as (Hin & _ & _ & Ht). apply in_app_iff in Hx. destruct Hx as [Hx|[<-|[]]].
  - destruct (wt_given _ _ Ht x Hx) as (_ & w & Hw). apply (named_in _ w). auto.
  - apply factor_known. auto.
Qed.
Lemma leaf_filter : filter (is_chance big) (n_factors n) = chance_factors n.
Proof.
  unfold chance_factors. apply filter_ext_in. intros g Hg. unfold is_chance. rewrite (sig_kind big vars); auto. apply leaf_sig. apply leaf_new. apply factor_known. auto.
Qed.
Lemma leaf_weight s : tables_weight big (f :: n_factors n) s = (tables_weight vars (n_factors n) s * cond_prob big f s)%Qc.
Proof.
  unfold tables_weight. cbn [filter]. replace (is_chance big f) with true.
  - rewrite leaf_filter. change (filter (is_chance vars) (n_factors n)) with (chance_factors n).
    replace (map (fun g => cond_prob big g s) (f :: chance_factors n)) with (cond_prob big f s :: map (fun g => cond_prob vars g s) (chance_factors n)); [unfold qprod; cbn [fold_right]; ring|].
    cbn [map]. f_equal. apply map_ext_in. intros g Hg. symmetry. apply cond_sig; [|apply same_factor_refl]. intros x Hx. apply sig_outcomes. apply leaf_sig. apply leaf_new. eapply leaf_scope; eauto.
  - unfold is_chance, kind, var_named. simpl. rewrite Hf, String.eqb_refl. simpl. rewrite Hv. auto.
Qed.
Lemma leaf_mass ign event event' : (forall s, event s = event' s) -> looks_event event (fun y => y <> nv_name v) -> mass n ign event = mass n' ign event'.
Proof.
  intros He Hl. rewrite !mass_nsum. change (worldly_vars n) with (worldly_of vars). change (worldly_vars n') with (worldly_of (n_vars n')).
  destruct Hvars as (l & Hp & Hs). destruct Hfacs as (lf & Hfp & Hfs).
  assert (T : forall s, joint n' ign s = (joint n ign s * cond_prob big f s)%Qc).
  { intros s. rewrite !joint_open by auto. rewrite <- leaf_weight. rewrite (weight_reorder big (f :: n_factors n) lf) by auto. symmetry. apply weight_sig; auto. apply leaf_sig'. }
  assert (J : looks_at (joint n ign) (fun y => y <> nv_name v)).
  { intros s s' E. rewrite !joint_open by auto. unfold tables_weight. apply (looks_qprod (fun g => cond_prob vars g) (filter (is_chance vars) (n_factors n)) (fun y => y <> nv_name v)); auto.
    intros g Hg. eapply looks_weaken; [apply cond_looks|]. intros y Hy. apply leaf_new. eapply leaf_scope; eauto. }
  rewrite <- (nsum_same _ (worldly_of l) (worldly_of (n_vars n'))) by (apply worldly_same; auto).
  rewrite (nsum_perm _ (worldly_of l) (worldly_of vars ++ [v])).
  - rewrite nsum_app. apply nsum_ext. intros s Hin. rewrite nsum_cons.
    assert (Hps : proper_state n s).
    { apply (joint_in vars (wn_names n Hwf) (worldly_of vars) nowhere); auto.
      - intros w Hw. apply filter_In in Hw. tauto.
      - apply names_filter. apply (wn_names n Hwf).
      - apply nowhere_in. apply (vars_nonempty n Hwf). }
    rewrite (qsum_ext _ (fun k => (flag (event s) * joint n ign s) * cond_prob big f (nupd s (nf_for f) k))%Qc).
    + rewrite qsum_scale. replace (List.length (nv_outcomes v)) with (num_outcomes big (nf_for f)); [|].
      1:{ pose proof (cond_prob_sum (mkNet "" "" big [] [] None [] (-1)) f s) as K. cbn [n_vars] in K. rewrite K by auto. ring. }
      unfold num_outcomes, var_named. simpl. rewrite Hf, String.eqb_refl. auto.
    + intros k _. rewrite nsum_nil, T, <- He, Hf. rewrite (looks_nupd _ _ s (nv_name v) k J) by tauto.
      rewrite (looks_nupd _ _ s (nv_name v) k (flag_looks _ _ Hl)) by tauto. ring.
  - intros s s' E. rewrite !T, <- !He. rewrite (J s s'), (Hl s s'), (cond_looks big f s s'); auto.
  - assert (P : Permutation (worldly_of l) (worldly_of big)) by (apply filter_perm, Permutation_sym; auto). rewrite P. unfold worldly_of at 1. cbn [filter]. unfold is_kind at 1. rewrite Hv. cbn [nodeType_eqb negb].
    apply Permutation_cons_append.
  - apply names_filter. eapply Permutation_NoDup; [apply Permutation_map; exact Hp|]. apply leaf_names.
Qed.
Lemma leaf_posterior ign ev x k : valid_observations n ev -> In x (map nv_name vars) -> posterior n ign ev x k = posterior n' ign ev x k.
Proof.
  intros [_ Ho] Hx. assert (Hev : forall y, In y (map fst ev) -> y <> nv_name v).
  { intros y Hy. apply leaf_new. apply in_map_iff in Hy. destruct Hy as ([z o] & <- & Hin). destruct (Ho z o Hin) as (w & Hw & _). apply (named_in _ w). auto. }
  assert (Ha : forall s, agrees vars ev s = agrees (n_vars n') ev s). { intros s. apply sig_agrees. intros y Hy. rewrite <- leaf_sig'. symmetry. apply leaf_sig. auto. }
  assert (Hl : looks_event (agrees vars ev) (fun y => y <> nv_name v)).
  { intros s s' E. unfold agrees. clear - E Hev. induction ev as [|[y o] l IH]; auto. simpl. rewrite (E y), IH; auto; [intros z Hz|]; apply Hev; simpl; auto. }
  unfold posterior. rewrite (leaf_mass ign (agrees vars ev) (agrees (n_vars n') ev) Ha Hl).
  rewrite (leaf_mass ign (fun s => agrees vars ev s && (s x =? k)%nat) (fun s => agrees (n_vars n') ev s && (s x =? k)%nat)); auto.
  - intros s. rewrite Ha. auto.
  - intros s s' E. rewrite (Hl s s'), (E x); auto. apply leaf_new. auto.
Qed.
Lemma leaf_complete : complete n -> complete n'.
Proof.
  intros H w Hw Ht. destruct Hvars as (l & Hp & Hs). destruct Hfacs as (lf & Hfp & Hfs). destruct (Forall2_in_r _ _ _ _ Hs Hw) as (u & Hu & En & Et & _).
  assert (Hu' : In u big) by (eapply Permutation_in; [apply Permutation_sym; exact Hp|auto]).
  assert (G : exists g, In g (f :: n_factors n) /\ nf_for g = nv_name u).
  { destruct Hu' as [<-|Hu']; [exists f; simpl; auto|]. destruct (H u Hu') as (g & Hg & Eg); [congruence|]. exists g. simpl. auto. }
  destruct G as (g & Hg & Eg). destruct (Forall2_in_l _ _ _ g Hfs) as (g' & Hg' & E' & _); [eapply Permutation_in; eauto|]. exists g'. split; auto. congruence.
Qed.
Lemma leaf_observations ev : valid_observations n ev -> valid_observations n' ev.
Proof.
  intros [H1 H2]. split; auto. intros x o Hin. destruct (H2 x o Hin) as (w & Hw & Ht & Ho). destruct (sig_named vars (n_vars n') x w) as (u & Hu & Et & Eo); auto.
  - rewrite <- leaf_sig'. symmetry. apply leaf_sig. apply leaf_new. apply (named_in _ w). auto.
  - exists u. rewrite Et, Eo. auto.
Qed.
Lemma leaf_askable ign ev q : askable n ign ev q -> askable n' ign ev q.
Proof.
  intros ((w & Hw & Ht) & Hm & Hn). assert (Hq : forall x, In x (map nv_name vars) -> sig vars x = sig (n_vars n') x) by (intros x Hx; rewrite <- leaf_sig'; symmetry; apply leaf_sig, leaf_new; auto).
  destruct (sig_named vars (n_vars n') q w) as (u & Hu & Et & _); auto; [apply Hq; apply (named_in _ w); auto|]. split; [exists u; rewrite Et; auto|]. split; auto. left.
  destruct Hm as [(g & Hg & Hin)|(d & p & i & u' & w' & Hdp & _)]; [|rewrite Hopen in Hdp; destruct Hdp]. pose proof Hg as Hg0. apply filter_In in Hg0. destruct Hg0 as [Hg0 Hk].
  destruct Hfacs as (lf & Hfp & Hfs). destruct (Forall2_in_l _ _ _ g Hfs) as (g' & Hg' & E1 & E2 & _); [eapply Permutation_in; [exact Hfp|simpl; auto]|].
  exists g'. rewrite E1, E2. split; auto. apply filter_In. split; auto. rewrite E1, <- (sig_kind vars (n_vars n')); auto. apply Hq. apply factor_known. auto.
Qed.
Lemma leaf_outcomes q : In q (map nv_name vars) -> num_outcomes (n_vars n') q = num_outcomes vars q.
Proof. intros H. apply sig_outcomes. rewrite <- leaf_sig'. apply leaf_sig. apply leaf_new. auto. Qed.
End Leaf.
