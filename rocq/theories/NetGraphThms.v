(** The graph theorems at the API, and checks for examples. *)
From Coq Require Import ZArith List Bool String Lia Permutation QArith Qcanon.
From Verif Require Import Num GoBase VarModel GoFacts SpecFactor XnumFacts VEModel SpecVE VEWorlds NetModel SpecNet NetVars NetFactors NetSums NetQuery NetMass NetCor NetNew NetCheck VECheck
  SpecNetPolicy SpecGraph StateSums NetGraph NetMarkov NetChange NetReorder Props_Net.
Import ListNotations.
Open Scope string_scope.
Open Scope list_scope.
Open Scope Z_scope.

Lemma free_mentioned n ign free v : wf_network n -> causal n ign free -> In v (n_vars n) -> nv_type v <> Utility -> ~ In (nv_name v) free -> mentioned n ign (nv_name v).
Proof.
  intros Hwf Hca Hv Ht Hf0. assert (Hin : In (nv_name v) (conditionals n ign)) by (apply (ca_all _ _ _ Hca v); auto).
  apply in_app_iff in Hin. destruct Hin as [Hin|Hin]; apply in_map_iff in Hin; destruct Hin as (f & E & Hf).
  - left. exists f. split; auto. apply in_app_iff. simpl. auto.
  - right. apply filter_In in Hf. destruct Hf as [Hf Hi]. apply negb_true_iff in Hi. destruct f as [d p]. simpl in E, Hi. subst d.
    destruct (wp_own _ _ _ (wn_policies n Hwf _ _ Hf)) as (i & nv & w & H1 & H2 & H3 & H4). exists (nv_name v), p, i, nv, w. repeat (split; auto).
Qed.
Lemma chance_parents n ign free f : wf_network n -> causal n ign free -> In f (chance_factors n) -> parents_of n ign (nf_for f) = nf_given f.
Proof.
  intros Hwf Hca Hf. unfold parents_of. rewrite (filter_single nf_for); auto.
  - replace (filter _ (n_policies n)) with (@nil (string * factor xnum)); [simpl; rewrite !app_nil_r; auto|].
    destruct (filter (fun dp => String.eqb (fst dp) (nf_for f) && negb (ign (fst dp))) (n_policies n)) as [|[d p] l] eqn:E; auto. exfalso.
    assert (H : In (d, p) ((d, p) :: l)) by (simpl; auto). rewrite <- E in H. apply filter_In in H. destruct H as [H He]. apply andb_true_iff in He. destruct He as [He _]. apply String.eqb_eq in He. cbn [fst] in He. subst d.
    pose proof (wp_decision _ _ _ (wn_policies n Hwf _ _ H)) as Hk. destruct (chance_in n Hwf f Hf) as (_ & Hk' & _). congruence.
  - pose proof (ca_unique _ _ _ Hca) as Hu. unfold conditionals in Hu. eapply NoDup_app_l. eauto.
Qed.
Lemma chance_var n f : wf_network n -> In f (chance_factors n) -> exists v, In v (n_vars n) /\ nv_type v = Chance /\ nv_name v = nf_for f.
Proof.
  intros Hwf Hf. destruct (chance_in n Hwf f Hf) as (_ & Hk & _). unfold kind in Hk. destruct (var_named (n_vars n) (nf_for f)) as [v|] eqn:E; [|discriminate]. apply var_named_some in E. destruct E as [Hv E].
  exists v. simpl in Hk. split; auto. split; congruence.
Qed.

(** The answer for a variable whose parents are known. *)
Theorem markov_api n sc ig ev v s free : wf_network n -> complete n -> nonnegative n -> causal n (ignored_by ig ev) free -> incl free (map fst ev) ->
  valid_observations n ev -> mass n (ignored_by ig ev) (agrees (n_vars n) ev) <> 0%Qc ->
  In v (n_vars n) -> nv_type v <> Utility -> ~ In (nv_name v) (map fst ev) ->
  incl (parents_of n (ignored_by ig ev) (nv_name v)) (map fst ev) -> (forall y, In y (map fst ev) -> ~ below n (ignored_by ig ev) (nv_name v) y) ->
  agrees (n_vars n) ev s = true ->
  exists n' res f, net_solve_query sc n ev [nv_name v] ig = (n', Ok (res, f)) /\
    sget_map res (nv_name v) = Some (map (fun k => Fin (conditional n (ignored_by ig ev) (nv_name v) (nupd s (nv_name v) k))) (seq 0 (List.length (nv_outcomes v)))).
Proof.
  intros Hwf Hco Hnn Hca Hfree Hv Hm Hin Ht Hnq Hpar Hdesc Hs.
  assert (En : var_named (n_vars n) (nv_name v) = Some v) by (apply var_named_in'; auto; apply Hwf).
  destruct (C27_posterior n sc ig ev [nv_name v]) as (n' & res & f & E & Hres & _); auto.
  { intros q [<-|[]]. split; [exists v; auto|]. split; auto. eapply free_mentioned; eauto. }
  exists n', res, f. split; auto. rewrite Hres by (simpl; auto). unfold num_outcomes. rewrite En. f_equal. apply map_ext_in. intros k Hk. apply in_seq in Hk. f_equal.
  unfold posterior. rewrite (markov n Hwf _ free Hca v ev s k); auto; [field; auto| |lia]. apply in_fixed_vars. split; auto.
Qed.

(** Evidence on variables that are separated. *)
Theorem separation_api n sc sc' ev more v free : wf_network n -> complete n -> nonnegative n -> causal n (fun _ => false) free -> incl free (map fst ev) ->
  valid_observations n (more ++ ev) -> mass n (fun _ => false) (agrees (n_vars n) (more ++ ev)) <> 0%Qc ->
  In v (n_vars n) -> nv_type v <> Utility -> ~ In (nv_name v) (map fst (more ++ ev)) -> separated n (fun _ => false) (nv_name v) (map fst more) (map fst ev) ->
  exists n1 res f n1' res' f', net_solve_query sc n ev [nv_name v] false = (n1, Ok (res, f)) /\ net_solve_query sc' n (more ++ ev) [nv_name v] false = (n1', Ok (res', f')) /\
    sget_map res (nv_name v) <> None /\ forall q, sget_map res' q = sget_map res q.
Proof.
  intros Hwf Hco Hnn Hca Hfree Hv Hm Hin Ht Hnq Hsep.
  assert (En : var_named (n_vars n) (nv_name v) = Some v) by (apply var_named_in'; auto; apply Hwf).
  assert (Hv' : valid_observations n ev).
  { destruct Hv as [H1 H2]. split; [rewrite map_app in H1; apply (NoDup_app_l (map fst ev) (map fst more)); eapply Permutation_NoDup; [apply Permutation_app_comm|exact H1]|]. intros x o H. apply H2. apply in_app_iff. auto. }
  assert (Hm' : mass n (fun _ => false) (agrees (n_vars n) ev) <> 0%Qc).
  { intros E. apply Hm. apply Qcle_antisym; [|apply (mass_nonneg n); auto]. rewrite <- E. apply mass_le; auto. intros s. unfold agrees. rewrite forallb_app, andb_true_iff. tauto. }
  assert (Hmen : mentioned n (fun _ => false) (nv_name v)). { eapply free_mentioned; eauto. intros H. apply Hnq. rewrite map_app. apply in_app_iff. auto. }
  destruct (C27_posterior n sc false ev [nv_name v]) as (n1 & res & f & E & Hres & Hno & _); auto.
  { intros q [<-|[]]. split; [exists v; auto|]. split; auto. intros H. apply Hnq. rewrite map_app. apply in_app_iff. auto. }
  destruct (C27_posterior n sc' false (more ++ ev) [nv_name v]) as (n1' & res' & f' & E' & Hres' & Hno' & _); auto.
  { intros q [<-|[]]. split; [exists v; auto|]. split; auto. }
  exists n1, res, f, n1', res', f'. split; auto. split; auto. split; [rewrite Hres by (simpl; auto); discriminate|].
  intros q. destruct (string_dec q (nv_name v)) as [->|Hne].
  - rewrite Hres, Hres' by (simpl; auto). f_equal. apply map_ext. intros k. f_equal. apply (separation n Hwf (fun _ => false) free Hca); auto.
  - rewrite Hno, Hno'; auto; intros [H|[]]; congruence.
Qed.

(** Another order. *)
Theorem reordered_api n n' : reordered n n' -> wf_network n -> wf_network n' ->
  forall sc sc' ig ev query, complete n -> nonnegative n -> valid_observations n ev -> (forall q, In q query -> askable n (ignored_by ig ev) ev q) ->
    mass n (ignored_by ig ev) (agrees (n_vars n) ev) <> 0%Qc ->
    exists m res f m' res' f', net_solve_query sc n ev query ig = (m, Ok (res, f)) /\ net_solve_query sc' n' ev query ig = (m', Ok (res', f')) /\
      (forall q, In q query -> sget_map res q <> None) /\ forall q, sget_map res' q = sget_map res q.
Proof.
  intros Hro Hwf Hwf' sc sc' ig ev query Hco Hnn Hv Hask Hm.
  destruct (C27_posterior n sc ig ev query) as (m & res & f & E & Hres & Hno & _); auto.
  assert (Hm' : mass n' (ignored_by ig ev) (agrees (n_vars n') ev) <> 0%Qc).
  { rewrite <- (ro_mass n n' Hro _ (agrees (n_vars n) ev)); auto.
    - intros s. apply sig_agrees. intros y _. apply (ro_sig n n' Hro).
    - intros s s' H. apply agrees_looks. auto. }
  destruct (C27_posterior n' sc' ig ev query) as (m' & res' & f' & E' & Hres' & Hno' & _); auto.
  { apply (ro_complete n n' Hro). auto. } { apply (ro_nonnegative n n' Hro). auto. } { apply (ro_observations n n' Hro). auto. } { intros q Hq. apply (ro_askable n n' Hro). auto. }
  exists m, res, f, m', res', f'. split; auto. split; auto. split; [intros q Hq; rewrite Hres by auto; discriminate|].
  intros q. destruct (in_dec string_dec q query) as [Hq|Hq].
  - rewrite Hres, Hres' by auto. rewrite (sig_outcomes _ _ _ (ro_sig n n' Hro q)). f_equal. apply map_ext. intros k. f_equal. symmetry. apply (ro_posterior n n' Hro).
  - rewrite Hno, Hno'; auto.
Qed.

(** A further variable. *)
Lemma same_trans (X : Type) (R : X -> X -> Prop) (a a' : list X) : (forall x y z, R x y -> R x z -> R y z) -> (forall x, R x x) -> forall x b, Permutation a' (x :: a) -> Forall2 R a b -> forall b', Forall2 R a' b' ->
  exists l, Permutation (x :: b) l /\ Forall2 R l b'.
Proof.
  intros HR Hr x b Hp Hab b' Hb'. assert (H1 : Forall2 R (x :: a) (x :: b)) by (constructor; auto).
  destruct (Permutation_Forall2 (Permutation_sym Hp) H1) as (l & Hl & Hal). exists l. split; auto.
  clear - HR Hal Hb'. revert b' Hb'. induction Hal as [|y z l1 l2 H Hl IH]; intros b' Hb'; inversion Hb'; subst; constructor; eauto.
Qed.
Theorem leaf_api name info vars factors n name' info' vars' factors' n' v f : good_input vars factors -> good_input vars' factors' ->
  net_new name info vars factors = Ok n -> net_new name' info' vars' factors' = Ok n' ->
  Permutation vars' (v :: vars) -> Permutation factors' (f :: factors) -> nv_type v = Chance -> nf_for f = nv_name v ->
  (forall s, proper_state n' s -> row_sum (n_vars n') f s <> 0%Qc) -> complete n -> nonnegative n' ->
  forall sc sc' ig ev query, valid_observations n ev -> (forall q, In q query -> askable n (ignored_by ig ev) ev q) ->
    mass n (ignored_by ig ev) (agrees (n_vars n) ev) <> 0%Qc ->
    exists m res fac m' res' fac', net_solve_query sc n ev query ig = (m, Ok (res, fac)) /\ net_solve_query sc' n' ev query ig = (m', Ok (res', fac')) /\
      (forall q, In q query -> sget_map res q <> None) /\ forall q, sget_map res' q = sget_map res q.
Proof.
  intros Hgi Hgi' E E' Hvp Hfp Hvt Hff Hrows Hco Hnn' sc sc' ig ev query Hv Hask Hm.
  pose proof (new_wf _ _ _ _ _ Hgi E) as Hwf. pose proof (new_wf _ _ _ _ _ Hgi' E') as Hwf'.
  destruct (new_api name info vars factors (gi_unlinked _ _ Hgi)) as (_ & _ & H). destruct (H n E) as (_ & _ & Hp & _ & Hvs & Hfs & _).
  destruct (new_api name' info' vars' factors' (gi_unlinked _ _ Hgi')) as (_ & _ & H'). destruct (H' n' E') as (_ & _ & Hp' & _ & Hvs' & Hfs' & _).
  assert (Hvars : exists l, Permutation (v :: n_vars n) l /\ Forall2 same_variable l (n_vars n')).
  { apply (same_trans _ same_variable vars vars'); auto. intros a b c (A1 & A2 & A3 & A4 & A5) (B1 & B2 & B3 & B4 & B5). repeat split; congruence. intros a. repeat split. }
  assert (Hfacs : exists l, Permutation (f :: n_factors n) l /\ Forall2 same_factor l (n_factors n')).
  { apply (same_trans _ same_factor factors factors'); auto. intros a b c (A1 & A2 & A3) (B1 & B2 & B3). repeat split; congruence. intros a. repeat split. }
  pose proof (leaf_sig' n n' v Hwf' Hvars) as Hsig.
  assert (Hdist : NoDup (nf_given f ++ [nf_for f])).
  { destruct Hfacs as (l & Hl & Hl'). assert (Hin : In f l) by (eapply Permutation_in; [exact Hl|simpl; auto]). destruct (Forall2_in_l _ _ _ _ Hl' Hin) as (g & Hg & G1 & G2 & _).
    rewrite <- G1, <- G2. apply (wt_distinct n'). apply (chance_in n' Hwf'). apply filter_In. split; auto. rewrite G1, Hff, <- (sig_kind _ _ _ (Hsig (nv_name v))). unfold kind, var_named. simpl. rewrite String.eqb_refl. simpl. rewrite Hvt. auto. }
  assert (Hrows' : forall s, proper_state n s -> row_sum (v :: n_vars n) f s <> 0%Qc).
  { intros s Hs. rewrite (row_sig _ (n_vars n') f f s); [|intros x _; apply sig_outcomes; apply Hsig|apply same_factor_refl].
    replace (row_sum (n_vars n') f s) with (row_sum (n_vars n') f (nupd s (nv_name v) 0)).
    - apply Hrows. intros w Hw. destruct Hvars as (l & Hl & Hl'). destruct (Forall2_in_r _ _ _ _ Hl' Hw) as (u & Hu & U1 & _ & U3 & _).
      unfold nupd. pose proof (wn_outcomes n' Hwf' w Hw) as Hpos. unfold zlen in Hpos. destruct (String.eqb_spec (nv_name w) (nv_name v)) as [Ew|Ew]; [lia|].
      assert (Hu' : In u (v :: n_vars n)) by (eapply Permutation_in; [apply Permutation_sym; exact Hl|auto]). destruct Hu' as [<-|Hu']; [congruence|]. rewrite U1, U3. apply Hs. auto.
    - unfold row_sum. f_equal. apply map_ext. intros k. apply entry_looks'. intros y Hy. rewrite Hff. unfold nupd. destruct (String.eqb y (nv_name v)); auto. }
  assert (Hnames : forall q, In q query -> In q (map nv_name (n_vars n))).
  { intros q Hq. destruct (Hask q Hq) as ((w & Hw & _) & _). apply var_named_some in Hw. destruct Hw as [Hw <-]. apply in_map. auto. }
  assert (Hnn : nonnegative n).
  { split; [|rewrite Hp; intros x p s []]. intros g s Hg. destruct Hfacs as (l & Hl & Hl'). pose proof Hg as Hg0. apply filter_In in Hg0. destruct Hg0 as [Hg0 Hk].
    destruct (Forall2_in_l _ _ _ g Hl') as (g' & Hg' & G); [eapply Permutation_in; [exact Hl|simpl; auto]|].
    assert (S : forall x, In x (map nv_name (n_vars n)) -> sig (n_vars n) x = sig (n_vars n') x).
    { intros x Hx. rewrite <- Hsig. symmetry. apply leaf_sig. apply (leaf_new n n' v Hwf' Hvars). auto. }
    rewrite (entry_sig (n_vars n) (n_vars n') g g' s); auto.
    - apply (proj1 Hnn'). apply filter_In. split; auto. rewrite (proj1 G), <- (sig_kind (n_vars n)); auto. apply S. apply (factor_known n Hwf). auto.
    - intros x Hx. apply sig_outcomes. apply S. apply (leaf_scope n Hwf g); auto. }
  destruct (C27_posterior n sc ig ev query) as (m & res & fac & R & Hres & Hno & _); auto.
  assert (Hev : forall y, In y (map fst ev) -> y <> nv_name v).
  { intros y Hy. apply (leaf_new n n' v Hwf' Hvars). apply in_map_iff in Hy. destruct Hy as ([z o] & <- & Hin). destruct (proj2 Hv z o Hin) as (w & Hw & _). apply (named_in n _ w). auto. }
  assert (Hm' : mass n' (ignored_by ig ev) (agrees (n_vars n') ev) <> 0%Qc).
  { rewrite <- (leaf_mass n n' v f Hwf Hwf' Hp Hp' Hvars Hfacs Hvt Hff Hrows' _ (agrees (n_vars n) ev)); auto.
    - intros s. apply sig_agrees. intros y Hy. rewrite <- Hsig. symmetry. apply leaf_sig. auto.
    - intros s s' Hss. apply agrees_looks. auto. }
  destruct (C27_posterior n' sc' ig ev query) as (m' & res' & fac' & R' & Hres' & Hno' & _); auto.
  { apply (leaf_complete n n' v f Hvars Hfacs Hff). auto. } { apply (leaf_observations n n' v Hwf' Hvars). auto. } { intros q Hq. apply (leaf_askable n n' v f Hwf Hwf' Hp Hvars Hfacs). auto. }
  exists m, res, fac, m', res', fac'. split; auto. split; auto. split; [intros q Hq; rewrite Hres by auto; discriminate|].
  intros q. destruct (in_dec string_dec q query) as [Hq|Hq].
  - rewrite Hres, Hres' by auto. rewrite (leaf_outcomes n n' v Hwf' Hvars q) by auto. f_equal. apply map_ext. intros k. f_equal. symmetry.
    apply (leaf_posterior n n' v f Hwf Hwf' Hp Hp' Hvars Hfacs Hvt Hff Hrows'); auto.
  - rewrite Hno, Hno'; auto.
Qed.

(** ** Checks for examples *)
Definition closed_b (n : network xnum) (ign : string -> bool) (M : list string) : bool := forallb (fun y => forallb (fun p => mem p M) (parents_of n ign y)) M.
Lemma closed_parents n ign M y p : closed_b n ign M = true -> In y M -> In p (parents_of n ign y) -> In p M.
Proof. unfold closed_b. rewrite forallb_forall. intros H Hy Hp. specialize (H y Hy). rewrite forallb_forall in H. apply mem_in. auto. Qed.
Lemma below_closed n ign M x y : closed_b n ign M = true -> below n ign x y -> In y M -> In x M.
Proof. intros Hc H. induction H as [y H|y z H IH Hz]; intros Hy; [eapply closed_parents; eauto|]. apply IH. eapply closed_parents; eauto. Qed.
Lemma matters_closed n ign M targets x : closed_b n ign M = true -> incl targets M -> matters n ign targets x -> In x M.
Proof. intros Hc Hi [H|(t & Ht & H)]; auto. eapply below_closed; eauto. Qed.
Lemma not_below_b n ign M x l : closed_b n ign M && forallb (fun y => mem y M) l && negb (mem x M) = true -> forall y, In y l -> ~ below n ign x y.
Proof.
  rewrite !andb_true_iff. intros [[H1 H2] H3] y Hy H. rewrite forallb_forall in H2. apply negb_true_iff, mem_not in H3. apply H3. eapply below_closed; eauto. apply mem_in. auto.
Qed.
Definition separated_b (n : network xnum) (ign : string -> bool) (side : string -> bool) (M : list string) (x : string) (ys zs : list string) : bool :=
  closed_b n ign M && forallb (fun y => mem y M) (x :: ys ++ zs) && side x && forallb (fun y => negb (side y)) ys &&
  forallb (fun c => forallb (fun a => forallb (fun b => mem a zs || mem b zs || Bool.eqb (side a) (side b)) (c :: parents_of n ign c)) (c :: parents_of n ign c)) M.
Lemma separated_b_sound n ign side M x ys zs : separated_b n ign side M x ys zs = true -> separated n ign x ys zs.
Proof.
  unfold separated_b. rewrite !andb_true_iff. intros [[[[H1 H2] H3] H4] H5]. rewrite forallb_forall in H2, H4, H5. exists side. split; auto. split; [intros y Hy; apply negb_true_iff; auto|].
  intros c a b Hc Ha Hb Hza Hzb. assert (Hin : In c M). { eapply matters_closed; eauto. intros y Hy. apply mem_in. auto. }
  specialize (H5 c Hin). rewrite forallb_forall in H5. specialize (H5 a Ha). rewrite forallb_forall in H5. specialize (H5 b Hb).
  apply mem_not in Hza, Hzb. rewrite Hza, Hzb in H5. apply eqb_prop. auto.
Qed.
(** Input without a total utility node. *)
Definition input_b (vars : list nvar) (factors : list (nfactor xnum)) : bool :=
  nodup_b String.eqb (map nv_name vars) && (zlen vars <=? 65536) &&
  forallb (fun v => match nv_factor v with None => true | _ => false end && negb (String.eqb (nv_name v) "") && (0 <? zlen (nv_outcomes v)) && (zlen (nv_outcomes v) <=? 65535) && nodup_b String.eqb (nv_outcomes v)) vars &&
  forallb (fun f => known_b vars (nf_for f) && nodup_b String.eqb (nf_given f ++ [nf_for f]) &&
    forallb (fun g => match kind vars g with Some Chance | Some Decision => true | _ => false end) (nf_given f) &&
    match kind vars (nf_for f) with
    | Some Decision => true
    | _ => match nf_table f with Some l => forallb fin_b l && (List.length l =? table_size vars (nf_given f ++ [nf_for f]))%nat | None => false end
    end) factors.
Lemma input_b_sound vars factors : input_b vars factors = true -> good_input vars factors.
Proof.
  unfold input_b. rewrite !andb_true_iff. intros [[[H1 H2] H3] H4]. rewrite forallb_forall in H3, H4. apply string_nodup_b in H1. apply Z.leb_le in H2.
  assert (K : forall f, In f factors -> forall g, In g (nf_given f) -> kind vars g = Some Chance \/ kind vars g = Some Decision).
  { intros f Hf g Hg. specialize (H4 f Hf). rewrite !andb_true_iff in H4. destruct H4 as [[_ H4] _]. rewrite forallb_forall in H4. specialize (H4 g Hg). destruct (kind vars g) as [[]|]; auto; discriminate. }
  assert (Hno : forall v, ~ collects vars factors v).
  { intros v (_ & f & Hf & Hne & Hk). apply find_some in Hf. destruct Hf as [Hf _]. destruct (nf_given f) as [|g l] eqn:E; [congruence|]. assert (Hg : In g (nf_given f)) by (rewrite E; simpl; auto).
    rewrite <- E in Hk. specialize (Hk g Hg). destruct (K f Hf g Hg); congruence. }
  constructor; auto.
  - intros v Hv. specialize (H3 v Hv). rewrite !andb_true_iff in H3. destruct (nv_factor v); auto. destruct H3 as [[[[H _] _] _] _]. discriminate.
  - intros v Hv E. specialize (H3 v Hv). rewrite !andb_true_iff in H3. rewrite E in H3. destruct H3 as [[[[_ H] _] _] _]. discriminate.
  - intros v Hv. specialize (H3 v Hv). rewrite !andb_true_iff in H3. destruct H3 as [[[_ A] B] C]. apply Z.ltb_lt in A. apply Z.leb_le in B. apply string_nodup_b in C. auto.
  - intros f Hf. specialize (H4 f Hf). rewrite !andb_true_iff in H4. destruct H4 as [[[H _] _] _]. unfold known_b in H. destruct (var_named vars (nf_for f)) as [v|] eqn:E; [|discriminate]. apply var_named_some in E. exists v. auto.
  - intros f v Hf Hv E _. pose proof (K f Hf) as Hk. specialize (H4 f Hf). rewrite !andb_true_iff in H4. destruct H4 as [[[_ A] _] B]. apply string_nodup_b in A. split; auto. split; auto. intros Ht.
    assert (Ek : kind vars (nf_for f) = Some (nv_type v)) by (rewrite <- E; unfold kind; rewrite (var_named_in' _ v H1 Hv); auto). rewrite Ek in B. destruct (nf_table f) as [l|]; [|destruct (nv_type v); congruence].
    assert (B' : forallb fin_b l && (List.length l =? table_size vars (nf_given f ++ [nf_for f]))%nat = true) by (destruct (nv_type v); congruence).
    apply andb_true_iff in B'. destruct B' as [B1 B2]. destruct (fin_b_map l B1) as (l' & ->). exists l'. split; auto. rewrite map_length in B2. apply Nat.eqb_eq in B2. auto.
  - intros f v _ Hc. exfalso. apply (Hno v). auto.
Qed.
