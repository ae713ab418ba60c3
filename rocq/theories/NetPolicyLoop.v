(** SolvePolicies on networks: all steps, and the tables returned. *)
From Coq Require Import ZArith List Bool String Lia Permutation QArith Qcanon.
From Verif Require Import Num GoBase VarModel GoFacts Tuples SpecFactor FactorFacts FactorAt XnumFacts ExactFactor FactorThms
  VEModel SpecVE VEWorlds VEFacts VEHidden VESolve VEThms VEUtil SpecPolicy VEPolicy VEOptimal NetModel SpecNet NetVars NetFactors NetVE NetSums
  NetQuery NetEvents NetUtil NetMass NetHistory SpecNetPolicy NetPolicy NetPolicyStep.
Import ListNotations.
Open Scope string_scope.
Open Scope list_scope.
Open Scope Z_scope.

(** ** Changing the solver instance *)

Lemma wf_with_solver n a b : wf_network n -> wf_network (with_solver n a b).
Proof.
  intros [w1 w2 w3 w4 w5 w6 w7 w8 w9]. constructor; auto.
  - intros f Hf Ht. destruct (w6 f Hf Ht). constructor; auto.
  - intros x p Hx. destruct (w9 x p Hx). constructor; auto.
Qed.
Lemma dn_with_solver n a b : decision_network n -> decision_network (with_solver n a b).
Proof. intros [x1 x2 x3 x4 x5 x6 x7 x8]. constructor; auto. apply wf_with_solver. auto. Qed.
Lemma policy_for_with n a b d p : policy_for n d p -> policy_for (with_solver n a b) d p.
Proof. intros [x1 x2 x3]. constructor; auto. Qed.
Lemma ps_with_solver n a b : partly_solved n -> partly_solved (with_solver n a b).
Proof.
  intros [x1 x2 x3 x4]. constructor; auto. apply dn_with_solver; auto. intros d p H. destruct (x3 d p H). split; auto. apply policy_for_with. auto.
Qed.

Lemma wf_no_policies n : wf_network n -> wf_network (with_policies n []).
Proof.
  intros [w1 w2 w3 w4 w5 w6 w7 w8 w9]. constructor; auto.
  - intros f Hf Ht. destruct (w6 f Hf Ht). constructor; auto.
  - constructor.
  - intros x p [].
Qed.
Lemma ps_start n : decision_network n -> no_forgetting n -> partly_solved (with_policies n []).
Proof.
  intros [x1 x2 x3 x4 x5 x6 x7 x8] Hf. constructor; auto; try discriminate.
  - constructor; auto. apply wf_no_policies. auto.
  - intros d p [].
Qed.

(** ** Storing a policy *)

Lemma mset_idem {K W} (eqb : K -> K -> bool) (Heq : forall a b, eqb a b = true <-> a = b) (m : list (K * W)) k v : mset eqb (mset eqb m k v) k v = mset eqb m k v.
Proof.
  induction m as [|[k1 v1] m IH]; simpl.
  - rewrite (proj2 (Heq k k) eq_refl). auto.
  - destruct (eqb k k1) eqn:E; simpl; rewrite E; auto. f_equal. auto.
Qed.

Lemma store_one sc t n a (d : string) fac pol : wf_network n -> known n d -> v_type (vv n d) = Decision -> has_key (n_policies n) d = false ->
  store_policies sc t (with_solver n a (name_map (entries n))) [(vv n d, (fac, pol))] =
  with_solver (plus n d pol) a (name_map (entries n)).
Proof.
  intros Hwf Hk Ht Ho. unfold store_policies. cbn [with_solver n_names n_policies].
  set (F := fun (m : list (string * factor xnum)) '((name, e) : string * nentry) => _).
  assert (E : fold_left F (shuffle sc t (name_map (entries n))) (n_policies n) = n_policies n ++ [(d, pol)]); [|unfold with_policies, with_solver, plus; cbn; rewrite E; reflexivity].
  assert (Hs : forall name e, In (name, e) (name_map (entries n)) -> forall m, F m (name, e) = if String.eqb name d then sset_map m d pol else m).
  { intros name e Hin m. unfold F. unfold name_map in Hin. apply in_map_iff in Hin. destruct Hin as (e' & E & Hin). injection E as <- <-.
    assert (El : lookup n (nv_name (en_var e')) = Some e') by (apply (lookup_spec n Hwf); auto).
    destruct (lookup_inv n Hwf _ _ El) as (Hke & _ & Ev). rewrite Ev. cbn [mget].
    destruct (String.eqb_spec (nv_name (en_var e')) d) as [->|Hne].
    - rewrite Ht, (proj2 (var_eqb_spec _ _) eq_refl). auto.
    - destruct (negb (nodeType_eqb (v_type (vv n (nv_name (en_var e')))) Decision)); auto.
      destruct (var_eqb (vv n (nv_name (en_var e'))) (vv n d)) eqn:Eq; auto. apply var_eqb_spec in Eq. exfalso. apply Hne. apply (vv_inj n Hwf); auto. congruence. }
  assert (Hin : In d (map fst (shuffle sc t (name_map (entries n))))).
  { destruct (lookup_known n Hwf d Hk) as (i & v & _ & _ & _ & _ & L). unfold lookup in L. apply (mget_In _ String.eqb_eq) in L.
    apply (in_map fst) in L. eapply Permutation_in; [|apply L]. apply Permutation_map. apply shuffle_perm. }
  assert (Hsub : forall ne, In ne (shuffle sc t (name_map (entries n))) -> In ne (name_map (entries n))).
  { intros ne Hne. eapply Permutation_in; [|apply Hne]. apply Permutation_sym. apply shuffle_perm. }
  rewrite <- (mset_new _ String.eqb_eq). 2:{ intros Hc. apply has_key_spec in Hc. congruence. }
  revert Hin Hsub. generalize (shuffle sc t (name_map (entries n))) as L. intros L.
  assert (G : forall L, (forall ne, In ne L -> In ne (name_map (entries n))) -> fold_left F L (sset_map (n_policies n) d pol) = sset_map (n_policies n) d pol).
  { induction L0 as [|[name e] L0 IH]; intros Hsub; cbn [fold_left]; auto. rewrite Hs by (apply Hsub; simpl; auto).
    destruct (String.eqb name d). rewrite (mset_idem _ String.eqb_eq). all: apply IH; intros; apply Hsub; simpl; auto. }
  induction L as [|[name e] L IH]; cbn [fold_left map In fst]; intros Hin Hsub; [tauto|].
  rewrite Hs by (apply Hsub; simpl; auto). destruct (String.eqb_spec name d).
  - apply G. intros; apply Hsub; simpl; auto.
  - apply IH; [|intros; apply Hsub; simpl; auto]. destruct Hin; auto. contradiction.
Qed.

(** ** The steps *)

(** The solver instance and its names are set. *)
Definition ready_net (n : network xnum) : Prop :=
  n_ve n <> None /\ forall i v, nth_error (n_vars n) i = Some v -> nv_type v = Decision ->
    exists e, sget_map (n_names n) (nv_name v) = Some e /\ v_id (en_ve e) = Z.of_nat i.

Definition same_base (n n' : network xnum) : Prop :=
  n_vars n' = n_vars n /\ n_factors n' = n_factors n /\ n_tui n' = n_tui n /\ n_name n' = n_name n /\ n_info n' = n_info n.

Lemma valid_plus n d pol sigma : valid_strategy n sigma -> valid_strategy (plus n d pol) sigma.
Proof. intros H e He. destruct (H e He). constructor; auto. Qed.
Lemma valid_with n a b sigma : valid_strategy n sigma -> valid_strategy (with_solver n a b) sigma.
Proof. intros H e He. destruct (H e He). constructor; auto. Qed.

(** ** What each step establishes *)

(** Each stored policy was the best choice when it was found: with the policies [P] of exactly the
    decisions that observe [d], and any strategy for [d] and the others. *)
Definition advised (n : network xnum) : Prop :=
  forall d p, In (d, p) (n_policies n) -> exists P, incl P (n_policies n) /\ NoDup (map fst P) /\
    (forall e, has_key P e = true <-> In e (decisions n) /\ In d (observed_by n e)) /\
    forall sigma, valid_strategy n sigma -> (mixed_value (with_policies n P) sigma <= mixed_value (with_policies n (P ++ [(d, p)])) sigma)%Qc.

Lemma advised_with_solver n a b : advised n -> advised (with_solver n a b).
Proof.
  intros H d p Hd. destruct (H d p Hd) as (P & H1 & H2 & H3 & H4). exists P. split; auto. split; auto. split; auto.
  intros sigma Hs. apply (H4 sigma). intros e He. destruct (Hs e He). constructor; auto.
Qed.
Lemma advised_perm n P : Permutation (n_policies n) P -> advised n -> advised (with_policies n P).
Proof.
  intros Hp H d p Hd. cbn [with_policies n_policies] in Hd. apply (Permutation_in _ (Permutation_sym Hp)) in Hd.
  destruct (H d p Hd) as (P' & H1 & H2 & H3 & H4). exists P'. split. { intros x Hx. cbn [with_policies n_policies]. eapply Permutation_in; eauto. }
  split; auto. split; auto. intros sigma Hs. apply (H4 sigma). intros e He. destruct (Hs e He). constructor; auto.
Qed.
Lemma advised_step n d pol : partly_solved n -> step_policy n d pol ->
  (forall sigma, valid_strategy n sigma -> (mixed_value n sigma <= mixed_value (plus n d pol) sigma)%Qc) -> advised n -> advised (plus n d pol).
Proof.
  intros Hps Hsp Hle H e p He. cbn [plus with_policies n_policies] in He. apply in_app_iff in He. destruct He as [He|[He|[]]].
  - destruct (H e p He) as (P & H1 & H2 & H3 & H4). exists P. split. { intros x Hx. cbn [plus with_policies n_policies]. apply in_app_iff. auto. }
    split; auto. split; auto. intros sigma Hs. apply (H4 sigma). intros x Hx. destruct (Hs x Hx). constructor; auto.
  - injection He as <- <-. exists (n_policies n). split. { intros x Hx. cbn [plus with_policies n_policies]. apply in_app_iff. auto. }
    split. { apply (wn_keys _ (dn_wf _ (ps_net n Hps))). }
    pose proof (sp_open _ _ _ Hsp) as Ho. assert (Hdd : In d (decisions n) /\ has_key (n_policies n) d = false).
    { unfold open_ones in Ho. apply filter_In in Ho. rewrite negb_true_iff in Ho. auto. }
    destruct Hdd as [Hd Hk]. split.
    + intros e. change (decisions (plus n d pol)) with (decisions n). change (observed_by (plus n d pol) e) with (observed_by n e). split.
      * intros He. assert (Hed : In e (decisions n)).
        { apply has_key_spec in He. apply in_map_iff in He. destruct He as ([x q] & <- & He). apply (policy_decision n Hps) in He. tauto. }
        split; auto. destruct (ps_forget n Hps d e Hd Hed) as [[H1 _]|[H1 _]]; [congruence|auto|].
        exfalso. apply (ps_closed n Hps e d He Hd Hk). auto.
      * intros [He Hob]. destruct (has_key (n_policies n) e) eqn:E; auto. exfalso. apply (sp_last _ _ _ Hsp e); auto.
        unfold open_ones. apply filter_In. rewrite E. auto.
    + intros sigma Hs. apply (Hle sigma). intros x Hx. destruct (Hs x Hx). constructor; auto.
Qed.

Theorem steps_ok sc stepwise : forall k n t, partly_solved n -> List.length (open_ones n) = k -> stepwise = true \/ (k <= 1)%nat ->
  exists n' t', policy_steps sc k t n stepwise = (n', Ok t') /\ partly_solved n' /\ open_ones n' = [] /\ same_base n n' /\
    (k <> O \/ ready_net n -> ready_net n') /\ (advised n -> advised n') /\
    forall sigma, valid_strategy n sigma -> (mixed_value n sigma <= mixed_value n' sigma)%Qc.
Proof.
  induction k as [|k IH]; intros n t Hps Hlen Hst.
  - exists n, t. split; auto. split; auto. split. { destruct (open_ones n); auto. discriminate. }
    split. { repeat split. } split. { intros [H|H]; auto. congruence. } split; auto. intros. apply Qcle_refl.
  - cbn [policy_steps]. pose proof (dn_wf _ (ps_net n Hps)) as Hwf. unfold assign_ve.
    destruct (to_ve_ok n Hwf sc t []) as (vs & fs & -> & Hcr).
    destruct (solver_step n Hps vs fs Hcr sc (S t) stepwise) as (s' & d & fac & pol & -> & Hsp & Hle).
    { intros E. rewrite E in Hlen. discriminate. }
    { destruct Hst as [Hst|Hst]; auto. right. lia. }
    pose proof (sp_open _ _ _ Hsp) as Ho. pose proof Ho as Hot. apply (open_type n Hps) in Hot. destruct Hot as [Hk Ht].
    assert (Hkey : has_key (n_policies n) d = false). { unfold open_ones in Ho. apply filter_In in Ho. rewrite negb_true_iff in Ho. tauto. }
    change (with_solver (with_solver n (Some (ve_new (S t) vs fs (net_deps n) (finite_weights (weights n)))) (name_map (entries n))) (Some s') (name_map (entries n)))
      with (with_solver n (Some s') (name_map (entries n))).
    rewrite (store_one sc _ n (Some s') d fac pol) by auto.
    set (n1 := with_solver (plus n d pol) (Some s') (name_map (entries n))).
    assert (Hps1 : partly_solved n1) by (apply ps_with_solver; apply step_solved; auto).
    destruct (IH n1 (S (ve_tick s')) Hps1) as (n' & t' & E & Hps' & Hop & Hsb & Hrd & Had & Hle').
    { change (open_ones n1) with (open_ones (plus n d pol)). pose proof (Permutation_length (open_plus n Hps d pol Ho)) as HL. simpl in HL. lia. }
    { destruct Hst; auto. right. lia. }
    exists n', t'. split; auto. split; auto. split; auto. split; auto. split; [|split; [intros Ha; apply Had; apply advised_with_solver, advised_step; auto|]].
    + intros _. apply Hrd. right. split; [discriminate|]. intros i v Hi Hty. exists (ve_entry n (Z.of_nat i, v)). split; auto.
      change (sget_map (name_map (entries n)) (nv_name v) = Some (ve_entry n (Z.of_nat i, v))).
      apply (lookup_spec n Hwf). split; auto. apply in_entries. exists i, v. split; [exact Hi|]. split; auto. apply (tui_utility n Hwf i v); auto. rewrite Hty. discriminate.
    + intros sigma Hsig. eapply Qcle_trans; [apply Hle; auto|]. apply (Hle' sigma). apply valid_with, valid_plus. auto.
Qed.

(** ** The tables *)

(** [f] is the table of policy [p] of decision [d]. *)
Record policy_table (n : network xnum) (d : string) (p : factor xnum) (f : nfactor xnum) : Prop := {
  pt_for : nf_for f = d;
  pt_names : Permutation (nf_given f ++ [d]) (factor_names n p);
  pt_table : exists l, nf_table f = Some (map Fin l) /\ List.length l = table_size (n_vars n) (nf_given f ++ [d]);
  pt_value : forall s, proper_state n s -> entry (n_vars n) f s = policy_prob (n_vars n) p s
}.

Lemma finite_data (f : factor xnum) : wf_factor f -> finite_factor f -> exists l, f_data f = map Fin l.
Proof.
  intros Hw Hf. assert (Hd : denotes f (value f)). { intros a Ha. destruct (Hf a Ha) as (q & E). unfold value. rewrite E. auto. }
  eexists. apply (denotes_data f (value f) zero_asg); auto.
Qed.

Lemma map_nth_error_in {X Y} (h : X -> Y) l : forall x, In x l -> In (h x) (map h l).
Proof. intros. apply in_map. auto. Qed.

Lemma policy_result_ok n st x p : wf_network n -> In (x, p) (n_policies n) -> n_ve n = Some st -> ready_net n ->
  exists st' f, policy_result n x p = Ok (with_solver n (Some st') (n_names n), f) /\ policy_table n x p f.
Proof.
  intros Hwf Hin Hve [_ Hr]. destruct (policy_in n Hwf x p Hin) as (Hk & Ht & _ & Hwp). unfold policy_result.
  destruct (wp_own _ _ _ Hwp) as (i & nv & v & Hi & En & Hv & Eid).
  assert (Hty : nv_type nv = Decision).
  { pose proof (wp_decision _ _ _ Hwp) as Hd. unfold kind in Hd. rewrite (proj2 (var_named_in n Hwf x nv)) in Hd; [simpl in Hd; congruence|].
    split; auto. eapply nth_error_In; eauto. }
  destruct (Hr i nv Hi Hty) as (e & Ee & Eeid). rewrite <- En, Ee.
  destruct (index_func_spec (var_is (en_ve e)) (f_vars p)) as [[_ Hno]|(k & w & Ei & Hw & Hp & _)].
  { specialize (Hno v Hv). unfold var_is in Hno. rewrite Eeid, Eid, Z.eqb_refl in Hno. discriminate. }
  rewrite Ei, (sget_ok _ _ _ Hw). cbn [gbind]. unfold var_is in Hp. apply Z.eqb_eq in Hp. rewrite Nat2Z.id.
  assert (Esplit : f_vars p = firstn k (f_vars p) ++ w :: skipn (S k) (f_vars p)).
  { rewrite <- (firstn_skipn k (f_vars p)) at 1. f_equal. clear - Hw. revert k Hw. induction (f_vars p) as [|y l IH]; intros [|k] Hw; simpl in *; try discriminate; auto. congruence. }
  set (others := firstn k (f_vars p) ++ skipn (S k) (f_vars p)).
  rewrite app_assoc. fold others.
  assert (Hperm : Permutation (others ++ [w]) (f_vars p)).
  { rewrite Esplit. unfold others. rewrite <- app_assoc. apply Permutation_app_head. apply Permutation_sym. apply Permutation_cons_append. }
  unfold on_variables. rewrite Hve. destruct (rearrange_at (ve_vs st) p (others ++ [w]) (wp_wf _ _ _ Hwp) Hperm) as (f' & -> & _ & Hwf' & Hvs' & Hget).
  cbn [gbind]. rewrite removelast_last.
  set (nm := fun v => match nth_error (n_vars n) (Z.to_nat (v_id v)) with Some nv => nv_name nv | None => "" end).
  assert (Hrep : forall u, In u (others ++ [w]) -> represents n u). { intros u Hu. apply (wp_scope _ _ _ Hwp). eapply Permutation_in; eauto. }
  rewrite (mapM_ok _ nm).
  2:{ intros u Hu. destruct (Hrep u) as (j & nu & Hj & Ej & _). { apply in_app_iff; auto. } unfold nm. rewrite Ej, (sget_ok _ _ _ Hj), Nat2Z.id, Hj. auto. }
  cbn [gbind]. eexists; eexists. split; [reflexivity|].
  assert (Ew : nm w = nv_name nv). { unfold nm. rewrite <- Hp, Eeid, Nat2Z.id, Hi. auto. }
  assert (Enames : map nm (others ++ [w]) = map nm others ++ [nv_name nv]). { rewrite map_app. simpl. rewrite Ew. auto. }
  assert (Hout : outs (others ++ [w]) = map (num_outcomes (n_vars n)) (map nm others ++ [nv_name nv])).
  { rewrite <- Enames. unfold outs. rewrite map_map. apply map_ext_in. intros u Hu. destruct (Hrep u Hu) as (j & nu & Hj & Ej & _ & Eo & _).
    unfold nm. rewrite Ej, Nat2Z.id, Hj, Eo. unfold num_outcomes. rewrite (proj2 (var_named_in n Hwf _ nu)); auto. split; auto. eapply nth_error_In; eauto. }
  assert (Hfin : finite_factor f').
  { intros a Ha. rewrite Hvs' in Ha. rewrite Hget by auto. apply (wp_finite _ _ _ Hwp). intros u Hu. apply Ha. eapply Permutation_in; [apply Permutation_sym; apply Hperm|auto]. }
  destruct (finite_data f' Hwf' Hfin) as (l & El).
  constructor; cbn [nf_for nf_given nf_table].
  - auto.
  - rewrite <- Enames. unfold factor_names. fold nm. apply Permutation_map. auto.
  - exists l. split; [congruence|]. rewrite <- (map_length Fin l), <- El. rewrite (wf_fits _ Hwf'), Hvs', Hout. symmetry. apply (table_size_prod n).
  - intros s Hs. unfold entry. cbn [nf_for nf_given nf_table slice_of]. rewrite (cell_spec n), <- Hout.
    assert (Htof : map s (map nm others ++ [nv_name nv]) = tof (others ++ [w]) (positions (n_vars n) s)).
    { rewrite <- Enames. unfold tof. rewrite map_map. apply map_ext_in. intros u Hu. destruct (Hrep u Hu) as (j & nu & Hj & Ej & _).
      unfold nm, positions. rewrite Ej, Nat2Z.id, Hj. auto. }
    rewrite Htof. assert (Hra : in_range (others ++ [w]) (positions (n_vars n) s)).
    { intros u Hu. destruct (Hrep u Hu) as (j & nu & Hj & Ej & _ & Eo & _). unfold positions. rewrite Ej, Nat2Z.id, Hj, Eo. apply Hs. eapply nth_error_In; eauto. }
    unfold policy_prob, value. rewrite <- Hget by auto. rewrite <- Hvs' in *. rewrite (get_at_fv f' _ (wf_fits _ Hwf') Hra).
    rewrite (ft_nth f' _ (wf_fits _ Hwf')) by (apply in_range_inb; auto). unfold fv.
    assert (Hfv : exists q, ft f' (tof (f_vars f') (positions (n_vars n) s)) = Fin q).
    { destruct (Hfin _ Hra) as (q & Eq). rewrite (get_at_fv f' _ (wf_fits _ Hwf') Hra) in Eq. injection Eq as Eq. exists q. auto. }
    destruct Hfv as (q & ->). auto.
Qed.

Lemma tables_ok n L : wf_network n -> incl L (n_policies n) -> NoDup (map fst L) -> forall st res0, ready_net (with_solver n (Some st) (n_names n)) ->
  exists st' tables, foldM (fun '((n, res) : network xnum * list (string * nfactor xnum)) '((name, f) : string * factor xnum) =>
      let! (n', r) := policy_result n name f in Ok (n', sset_map res name r)) (with_solver n (Some st) (n_names n), res0) L
      = Ok (with_solver n (Some st') (n_names n), tables) /\
    (forall d p, In (d, p) L -> exists f, sget_map tables d = Some f /\ policy_table n d p f) /\
    (forall d, ~ In d (map fst L) -> sget_map tables d = sget_map res0 d).
Proof.
  intros Hwf Hi. induction L as [|[x p] L IH]; intros Hn st res0 Hr; cbn [foldM].
  - exists st, res0. split; auto. split; auto. intros d p [].
  - set (n1 := with_solver n (Some st) (n_names n)) in *. assert (Hwf1 : wf_network n1) by (apply wf_with_solver; auto).
    destruct (policy_result_ok n1 st x p Hwf1) as (st' & f & -> & Hpt); auto. { apply Hi. simpl; auto. }
    cbn [gbind]. change (with_solver n1 (Some st') (n_names n1)) with (with_solver n (Some st') (n_names n)). inversion Hn; subst.
    destruct (IH (fun y Hy => Hi y (or_intror Hy)) H2 st' (sset_map res0 x f)) as (st2 & tables & E & Ht & Ho).
    { destruct Hr as [_ Hr]. split; [discriminate|]. exact Hr. }
    exists st2, tables. split; auto. split.
    + intros d q [Eq|Hin]; auto. injection Eq as <- <-. exists f. split. { rewrite Ho by auto. apply (mget_mset_same _ String.eqb_eq). }
      destruct Hpt as [q1 q2 q3 q4]. constructor; auto.
    + intros d Hd. simpl in Hd. rewrite Ho by tauto. apply (mget_mset_other _ String.eqb_eq). tauto.
Qed.
