(** What answers depend on: other order of variables and tables, and further variables. *)
From Coq Require Import ZArith List Bool String Lia Permutation QArith Qcanon.
From Verif Require Import Num GoBase VarModel GoFacts SpecFactor XnumFacts VEModel SpecVE VEWorlds NetModel SpecNet NetVars NetFactors NetSums NetQuery NetMass NetCor NetNew
  SpecNetPolicy SpecGraph StateSums NetGraph.
Import ListNotations.
Open Scope string_scope.
Open Scope list_scope.
Open Scope Z_scope.

(** ** What is known of a variable by name *)
Definition sig (vars : list nvar) (x : string) : option (nodeType * list string) := option_map (fun v => (nv_type v, nv_outcomes v)) (var_named vars x).
Lemma sig_outcomes vars vars' x : sig vars x = sig vars' x -> num_outcomes vars x = num_outcomes vars' x.
Proof. unfold sig, num_outcomes. destruct (var_named vars x), (var_named vars' x); simpl; intros [=]; congruence. Qed.
Lemma sig_kind vars vars' x : sig vars x = sig vars' x -> kind vars x = kind vars' x.
Proof. unfold sig, kind. destruct (var_named vars x), (var_named vars' x); simpl; intros [=]; congruence. Qed.
Lemma sig_named vars vars' x v : sig vars x = sig vars' x -> var_named vars x = Some v -> exists v', var_named vars' x = Some v' /\ nv_type v' = nv_type v /\ nv_outcomes v' = nv_outcomes v.
Proof. unfold sig. intros H E. rewrite E in H. destruct (var_named vars' x) as [w|]; simpl in H; [|discriminate]. exists w. split; auto. split; congruence. Qed.
Lemma sig_agrees vars vars' ev s : (forall x, In x (map fst ev) -> sig vars x = sig vars' x) -> agrees vars ev s = agrees vars' ev s.
Proof.
  unfold agrees. induction ev as [|[x o] l IH]; intros H; auto. simpl. f_equal; [|apply IH; intros y Hy; apply H; simpl; auto].
  specialize (H x (or_introl eq_refl)). unfold sig in H. destruct (var_named vars x), (var_named vars' x); simpl in H; try discriminate; auto.
  injection H as _ ->. auto.
Qed.
Lemma sig_same vars vars' : Forall2 same_variable vars vars' -> forall x, sig vars x = sig vars' x.
Proof.
  intros H x. unfold sig, var_named. induction H as [|v v' l l' H Hl IH]; auto. simpl. destruct H as (-> & Ht & Ho & _). destruct (String.eqb (nv_name v) x); auto. simpl. rewrite Ht, Ho. auto.
Qed.
Lemma named_perm vars vars' x : NoDup (map nv_name vars) -> Permutation vars vars' -> var_named vars x = var_named vars' x.
Proof.
  intros Hn Hp. assert (Hn' : NoDup (map nv_name vars')) by (eapply Permutation_NoDup; [apply Permutation_map; exact Hp|auto]).
  destruct (var_named vars x) as [v|] eqn:E.
  - apply var_named_some in E. destruct E as [Hv <-]. symmetry. apply var_named_in'; auto. eapply Permutation_in; eauto.
  - symmetry. apply var_named_none. apply var_named_none in E. intros H. apply E. eapply Permutation_in; [apply Permutation_map; apply Permutation_sym; exact Hp|auto].
Qed.

(** ** Entries of tables *)
Lemma cell_sig vars vars' names s : (forall x, In x names -> num_outcomes vars x = num_outcomes vars' x) -> cell vars names s = cell vars' names s.
Proof.
  unfold cell. generalize 0%nat. induction names as [|x l IH]; intros acc H; auto. simpl. rewrite (H x) by (simpl; auto). apply IH. intros y Hy. apply H. simpl. auto.
Qed.
Definition same_on_scope (vars vars' : list nvar) (f : nfactor xnum) : Prop := forall x, In x (nf_given f ++ [nf_for f]) -> num_outcomes vars x = num_outcomes vars' x.
Lemma entry_sig vars vars' f g s : same_on_scope vars vars' f -> same_factor f g -> entry vars f s = entry vars' g s.
Proof. intros H (E1 & E2 & E3). unfold entry. rewrite E1, E2, E3. rewrite (cell_sig vars vars'); auto. Qed.
Lemma row_sig vars vars' f g s : same_on_scope vars vars' f -> same_factor f g -> row_sum vars f s = row_sum vars' g s.
Proof.
  intros H Hs. unfold row_sum. rewrite (proj1 Hs). rewrite (H (nf_for f)) by (apply in_app_iff; simpl; auto). f_equal. apply map_ext. intros k. apply entry_sig; auto.
Qed.
Lemma cond_sig vars vars' f g s : same_on_scope vars vars' f -> same_factor f g -> cond_prob vars f s = cond_prob vars' g s.
Proof. intros H Hs. unfold cond_prob. rewrite (row_sig vars vars' f g), (entry_sig vars vars' f g); auto. Qed.
Lemma same_factor_refl {A} (f : nfactor A) : same_factor f f.
Proof. repeat split. Qed.

(** ** Weights of variables and tables *)
Definition is_chance (vars : list nvar) (f : nfactor xnum) : bool := match kind vars (nf_for f) with Some Chance => true | _ => false end.
Definition tables_weight (vars : list nvar) (factors : list (nfactor xnum)) (s : nstate) : Qc :=
  qprod (map (fun f => cond_prob vars f s) (filter (is_chance vars) factors)).
Definition worldly_of (vars : list nvar) : list nvar := filter (fun v => negb (is_kind Utility v)) vars.

Lemma weight_sig vars vars' factors factors' s : (forall x, sig vars x = sig vars' x) -> Forall2 same_factor factors factors' ->
  tables_weight vars factors s = tables_weight vars' factors' s.
Proof.
  intros Hs H. unfold tables_weight. induction H as [|f g l l' H Hl IH]; auto. simpl.
  assert (E : is_chance vars f = is_chance vars' g). { unfold is_chance. rewrite (proj1 H), (sig_kind vars vars') by auto. auto. }
  rewrite E. destruct (is_chance vars' g); auto. simpl. f_equal; auto. apply cond_sig; auto. intros x _. apply sig_outcomes. auto.
Qed.
Lemma filter_perm {X} (p : X -> bool) l l' : Permutation l l' -> Permutation (filter p l) (filter p l').
Proof.
  intros H. induction H as [|x l l' H IH|x y l|l1 l2 l3 H1 IH1 H2 IH2]; simpl; auto.
  - destruct (p x); auto.
  - destruct (p x), (p y); auto. apply perm_swap.
  - etransitivity; eauto.
Qed.
Lemma weight_reorder vars factors factors' s : Permutation factors factors' -> tables_weight vars factors s = tables_weight vars factors' s.
Proof. intros H. unfold tables_weight. apply qprod_perm. apply Permutation_map. apply filter_perm. auto. Qed.
Lemma entry_looks' vars f : looks_at (entry vars f) (fun y => In y (nf_given f ++ [nf_for f])).
Proof. intros s s' E. unfold entry, cell. do 2 f_equal. generalize 0%nat. induction (nf_given f ++ [nf_for f]) as [|x l IH]; intros acc; auto. simpl. rewrite (E x) by (simpl; auto). apply IH. intros y Hy. apply E. simpl. auto. Qed.
Lemma cond_looks vars f : looks_at (cond_prob vars f) (fun y => In y (nf_given f ++ [nf_for f])).
Proof.
  intros s s' E. unfold cond_prob. rewrite (entry_looks' vars f s s' E). replace (row_sum vars f s') with (row_sum vars f s); auto. unfold row_sum. f_equal. apply map_ext. intros k. apply entry_looks'.
  intros y Hy. unfold nupd. destruct (String.eqb y (nf_for f)); auto.
Qed.
Lemma weight_looks_all vars factors : looks_at (tables_weight vars factors) (fun y => exists f, In f factors /\ In y (nf_given f ++ [nf_for f])).
Proof.
  unfold tables_weight. apply looks_qprod. intros f Hf. apply filter_In in Hf. destruct Hf as [Hf _]. eapply looks_weaken; [apply cond_looks|]. intros y Hy. exists f. auto.
Qed.

Lemma nsum_same F L L' s : Forall2 same_variable L L' -> nsum F L s = nsum F L' s.
Proof.
  intros H. revert s. induction H as [|v v' l l' H Hl IH]; intros s; auto. rewrite !nsum_cons. destruct H as (-> & _ & -> & _). f_equal. apply map_ext. intros k. apply IH.
Qed.
Lemma filter_same (p : nvar -> bool) L L' : (forall v v', same_variable v v' -> p v = p v') -> Forall2 same_variable L L' -> Forall2 same_variable (filter p L) (filter p L').
Proof. intros Hp H. induction H as [|v v' l l' H Hl IH]; simpl; auto. rewrite (Hp v v' H). destruct (p v'); auto. Qed.
Lemma worldly_same L L' : Forall2 same_variable L L' -> Forall2 same_variable (worldly_of L) (worldly_of L').
Proof. apply filter_same. intros v v' (_ & H & _). unfold is_kind. rewrite H. auto. Qed.

(** ** The same variables and tables in another order *)
Record reordered (n n' : network xnum) : Prop := {
  ro_names : NoDup (map nv_name (n_vars n));
  ro_single : NoDup (map nf_for (n_factors n));
  ro_vars : exists l, Permutation (n_vars n) l /\ Forall2 same_variable l (n_vars n');
  ro_factors : exists l, Permutation (n_factors n) l /\ Forall2 same_factor l (n_factors n');
  ro_open : n_policies n = [];
  ro_open' : n_policies n' = [];
  ro_total : forall x, is_total n' x = is_total n x;
  ro_weights : forall x, net_weight n' x = net_weight n x
}.

Section RO.
Variables n n' : network xnum.
Hypothesis Hro : reordered n n'.
Lemma ro_sig x : sig (n_vars n) x = sig (n_vars n') x.
Proof.
  destruct (ro_vars _ _ Hro) as (l & Hp & Hs). rewrite <- (sig_same _ _ Hs x). unfold sig. rewrite (named_perm _ _ x (ro_names _ _ Hro) Hp). auto.
Qed.
Lemma ro_scope f : same_on_scope (n_vars n) (n_vars n') f.
Proof. intros x _. apply sig_outcomes. apply ro_sig. Qed.
Lemma Forall2_in_l {X Y} (R : X -> Y -> Prop) l l' x : Forall2 R l l' -> In x l -> exists y, In y l' /\ R x y.
Proof. intros H. induction H as [|a b l l' H Hl IH]; intros []; [subst; exists b; simpl; auto|]. destruct IH as (y & Hy & HR); auto. exists y. simpl. auto. Qed.
Lemma Forall2_in_r {X Y} (R : X -> Y -> Prop) l l' y : Forall2 R l l' -> In y l' -> exists x, In x l /\ R x y.
Proof. intros H. induction H as [|a b l l' H Hl IH]; intros []; [subst; exists a; simpl; auto|]. destruct IH as (x & Hx & HR); auto. exists x. simpl. auto. Qed.
Lemma ro_factor f' : In f' (n_factors n') -> exists f, In f (n_factors n) /\ same_factor f f'.
Proof.
  intros H. destruct (ro_factors _ _ Hro) as (l & Hp & Hs). destruct (Forall2_in_r _ _ _ _ Hs H) as (f & Hf & HR). exists f. split; auto. eapply Permutation_in; [apply Permutation_sym; exact Hp|auto].
Qed.
Lemma ro_factor' f : In f (n_factors n) -> exists f', In f' (n_factors n') /\ same_factor f f'.
Proof. intros H. destruct (ro_factors _ _ Hro) as (l & Hp & Hs). apply (Forall2_in_l _ _ _ _ Hs). eapply Permutation_in; eauto. Qed.
Lemma ro_var v' : In v' (n_vars n') -> exists v, In v (n_vars n) /\ same_variable v v'.
Proof.
  intros H. destruct (ro_vars _ _ Hro) as (l & Hp & Hs). destruct (Forall2_in_r _ _ _ _ Hs H) as (f & Hf & HR). exists f. split; auto. eapply Permutation_in; [apply Permutation_sym; exact Hp|auto].
Qed.
Lemma ro_var' v : In v (n_vars n) -> exists v', In v' (n_vars n') /\ same_variable v v'.
Proof. intros H. destruct (ro_vars _ _ Hro) as (l & Hp & Hs). apply (Forall2_in_l _ _ _ _ Hs). eapply Permutation_in; eauto. Qed.
Lemma ro_chance f' : In f' (chance_factors n') -> exists f, In f (chance_factors n) /\ same_factor f f'.
Proof.
  intros H. apply filter_In in H. destruct H as [H Hk]. destruct (ro_factor f' H) as (f & Hf & HR). exists f. split; auto. apply filter_In. split; auto.
  rewrite <- (proj1 HR), (sig_kind _ (n_vars n')) by apply ro_sig. auto.
Qed.
Lemma ro_chance' f : In f (chance_factors n) -> exists f', In f' (chance_factors n') /\ same_factor f f'.
Proof.
  intros H. apply filter_In in H. destruct H as [H Hk]. destruct (ro_factor' f H) as (f' & Hf & HR). exists f'. split; auto. apply filter_In. split; auto.
  rewrite (proj1 HR), <- (sig_kind (n_vars n)) by apply ro_sig. auto.
Qed.
Lemma ro_proper s : proper_state n' s -> proper_state n s.
Proof. intros H v Hv. destruct (ro_var' v Hv) as (v' & Hv' & En & _ & Eo & _). specialize (H v' Hv'). rewrite En, Eo in H. auto. Qed.
Lemma ro_proper' s : proper_state n s -> proper_state n' s.
Proof. intros H v Hv. destruct (ro_var v Hv) as (v' & Hv' & En & _ & Eo & _). specialize (H v' Hv'). rewrite En, Eo. auto. Qed.
Lemma ro_sums F : nproper F -> nsum F (worldly_of (n_vars n)) nowhere = nsum F (worldly_of (n_vars n')) nowhere.
Proof.
  intros HF. destruct (ro_vars _ _ Hro) as (l & Hp & Hs). rewrite (nsum_perm F _ (worldly_of l)); auto.
  - apply nsum_same. apply worldly_same. auto.
  - apply filter_perm. auto.
  - apply names_filter. apply (ro_names _ _ Hro).
Qed.
Lemma ro_tables s : tables_weight (n_vars n) (n_factors n) s = tables_weight (n_vars n') (n_factors n') s.
Proof.
  destruct (ro_factors _ _ Hro) as (l & Hp & Hs). rewrite (weight_reorder _ _ l) by auto. apply weight_sig; auto. apply ro_sig.
Qed.
Lemma ro_joint ign s : joint n ign s = joint n' ign s.
Proof. unfold joint. rewrite (ro_open _ _ Hro), (ro_open' _ _ Hro). f_equal. apply ro_tables. Qed.
Lemma joint_open m ign s : n_policies m = [] -> joint m ign s = tables_weight (n_vars m) (n_factors m) s.
Proof. intros E. unfold joint. rewrite E. cbn [filter map]. change (qprod []) with 1%Qc. rewrite Qcmult_1_r. reflexivity. Qed.
Lemma ro_mass ign event event' : (forall s, event s = event' s) -> looks_event event (fun _ => True) -> mass n ign event = mass n' ign event'.
Proof.
  intros He Hl. rewrite !mass_nsum. transitivity (nsum (fun s => flag (event s) * joint n ign s)%Qc (worldly_of (n_vars n')) nowhere).
  - apply ro_sums. apply (looks_proper _ (fun _ => True)). apply looks_mult; [apply flag_looks; auto|]. intros s s' E. rewrite !joint_open by apply Hro.
    apply weight_looks_all. auto.
  - apply nsum_ext. intros s _. rewrite He, ro_joint. auto.
Qed.
Lemma ro_posterior ign ev x k : posterior n ign ev x k = posterior n' ign ev x k.
Proof.
  assert (Ha : forall s, agrees (n_vars n) ev s = agrees (n_vars n') ev s) by (intros s; apply sig_agrees; intros y _; apply ro_sig).
  assert (Hl : forall vs, looks_event (agrees vs ev) (fun _ => True)).
  { intros vs s s' E. unfold agrees. clear Ha. induction ev as [|[y o] l IH]; auto. simpl. rewrite (E y), IH; auto. }
  unfold posterior. rewrite (ro_mass ign (agrees (n_vars n) ev) (agrees (n_vars n') ev) Ha (Hl _)).
  rewrite (ro_mass ign (fun s => agrees (n_vars n) ev s && (s x =? k)%nat) (fun s => agrees (n_vars n') ev s && (s x =? k)%nat)); auto.
  - intros s. rewrite Ha. auto.
  - intros s s' E. rewrite (Hl _ s s'), (E x); auto.
Qed.
Lemma ro_complete : complete n -> complete n'.
Proof.
  intros H v Hv Ht. destruct (ro_var v Hv) as (w & Hw & En & Et & _). destruct (H w Hw) as (f & Hf & Ef); [congruence|]. destruct (ro_factor' f Hf) as (f' & Hf' & E' & _).
  exists f'. split; auto. congruence.
Qed.
Lemma ro_nonnegative : nonnegative n -> nonnegative n'.
Proof.
  intros [H _]. split; [|rewrite (ro_open' _ _ Hro); intros x p s []]. intros f s Hf. destruct (ro_chance f Hf) as (g & Hg & HR).
  rewrite <- (entry_sig (n_vars n) (n_vars n') g f s (ro_scope g) HR). auto.
Qed.
Lemma ro_observations ev : valid_observations n ev -> valid_observations n' ev.
Proof.
  intros [H1 H2]. split; auto. intros x o Hin. destruct (H2 x o Hin) as (v & Hv & Ht & Ho). destruct (sig_named _ _ _ _ (ro_sig x) Hv) as (w & Hw & Et & Eo). exists w. rewrite Et, Eo. auto.
Qed.
Lemma ro_askable ign ev q : askable n ign ev q -> askable n' ign ev q.
Proof.
  intros ((v & Hv & Ht) & Hm & Hn). destruct (sig_named _ _ _ _ (ro_sig q) Hv) as (w & Hw & Et & _). split; [exists w; rewrite Et; auto|]. split; auto. left.
  destruct Hm as [(f & Hf & Hin)|(d & p & i & u & w' & Hdp & _)]; [|rewrite (ro_open _ _ Hro) in Hdp; destruct Hdp].
  destruct (ro_chance' f Hf) as (g & Hg & E1 & E2 & _). exists g. split; auto. rewrite E1, E2. auto.
Qed.
End RO.

(** ** Decisions in another order *)
Lemma factor_perm (fs fs' : list (nfactor xnum)) x : NoDup (map nf_for fs) -> Permutation fs fs' -> factor_for fs x = factor_for fs' x.
Proof.
  intros Hn Hp. assert (Hn' : NoDup (map nf_for fs')) by (eapply Permutation_NoDup; [apply Permutation_map; exact Hp|auto]).
  assert (K : forall l f, NoDup (map nf_for l) -> In f l -> factor_for l (@nf_for xnum f) = Some f).
  { intros l f. unfold factor_for. induction l as [|g l IH]; simpl; intros Hd []; [subst; rewrite String.eqb_refl; auto|]. inversion Hd; subst.
    destruct (String.eqb_spec (nf_for g) (nf_for f)) as [E|]; auto. exfalso. apply H2. rewrite E. apply in_map. auto. }
  destruct (factor_for fs x) as [f|] eqn:E.
  - apply find_some in E. destruct E as [Hf E]. apply String.eqb_eq in E. subst x. symmetry. apply K; auto. eapply Permutation_in; eauto.
  - symmetry. destruct (factor_for fs' x) as [f|] eqn:E'; auto. apply find_some in E'. destruct E' as [Hf E']. apply String.eqb_eq in E'. subst x.
    rewrite (K fs f) in E; [discriminate|auto|]. eapply Permutation_in; [apply Permutation_sym; exact Hp|auto].
Qed.
Lemma factor_same (fs fs' : list (nfactor xnum)) x : Forall2 same_factor fs fs' ->
  match factor_for fs x, factor_for fs' x with Some f, Some f' => same_factor f f' | None, None => True | _, _ => False end.
Proof.
  intros H. unfold factor_for. induction H as [|f f' l l' H Hl IH]; simpl; auto. destruct H as (E & H). rewrite E. destruct (String.eqb (nf_for f) x); auto. split; auto.
Qed.

Section DN.
Variables n n' : network xnum.
Hypothesis Hro : reordered n n'.
Lemma ro_decisions : Permutation (decisions n) (decisions n').
Proof.
  destruct (ro_vars _ _ Hro) as (l & Hp & Hs). unfold decisions.
  rewrite (Permutation_map nv_name (filter_perm (is_kind Decision) _ _ Hp)). apply Permutation_refl'.
  assert (K : Forall2 same_variable (filter (is_kind Decision) l) (filter (is_kind Decision) (n_vars n'))).
  { apply filter_same; auto. intros v v' (_ & H & _). unfold is_kind. rewrite H. auto. }
  clear - K. induction K as [|v v' a b H Hl IH]; auto. simpl. rewrite IH. destruct H as (-> & _). auto.
Qed.
Lemma ro_observed d : observed_by n' d = observed_by n d.
Proof.
  destruct (ro_factors _ _ Hro) as (l & Hp & Hs). unfold observed_by. rewrite (factor_perm _ _ d (ro_single _ _ Hro) Hp). pose proof (factor_same _ _ d Hs) as K.
  destruct (factor_for l d), (factor_for (n_factors n') d); try contradiction; auto. apply K.
Qed.
Definition is_utility_table (n : network xnum) (f : nfactor xnum) : bool :=
  negb (is_total n (nf_for f)) && match kind (n_vars n) (nf_for f) with Some Utility => true | _ => false end.
Lemma ro_utility s : utility_of n s = utility_of n' s.
Proof.
  destruct (ro_factors _ _ Hro) as (l & Hp & Hs). unfold utility_of, utility_tables. fold (is_utility_table n) (is_utility_table n').
  rewrite (qsum_perm _ _ (Permutation_map _ (filter_perm (is_utility_table n) _ _ Hp))).
  assert (K : forall a b, Forall2 same_factor a b -> qsum (map (fun f => net_weight n (nf_for f) * entry (n_vars n) f s)%Qc (filter (is_utility_table n) a)) =
    qsum (map (fun f => net_weight n' (nf_for f) * entry (n_vars n') f s)%Qc (filter (is_utility_table n') b))).
  { intros a b Hab. induction Hab as [|f g a b H Hab IH]; auto. simpl. assert (E : is_utility_table n' g = is_utility_table n f).
    { unfold is_utility_table. rewrite (ro_total _ _ Hro), (proj1 H), (sig_kind (n_vars n) (n_vars n')) by apply (ro_sig n n' Hro). auto. }
    rewrite E. destruct (is_utility_table n f); auto. cbn [map]. unfold qsum in *. cbn [fold_right]. rewrite IH. f_equal. rewrite (ro_weights _ _ Hro), (proj1 H). f_equal. apply entry_sig; auto. apply (ro_scope n n' Hro). }
  apply K. auto.
Qed.
Lemma utility_looks : nproper (utility_of n).
Proof.
  intros s s' E. unfold utility_of. f_equal. apply map_ext. intros f. f_equal. apply entry_looks'. auto.
Qed.
Lemma ro_value policies : (forall d, In d (decisions n) -> nproper (policies d)) -> expected_value n policies = expected_value n' policies.
Proof.
  intros Hp. change (nsum (fun s => tables_weight (n_vars n) (n_factors n) s * qprod (map (fun d => policies d s) (decisions n)) * utility_of n s)%Qc (worldly_of (n_vars n)) nowhere =
    nsum (fun s => tables_weight (n_vars n') (n_factors n') s * qprod (map (fun d => policies d s) (decisions n')) * utility_of n' s)%Qc (worldly_of (n_vars n')) nowhere).
  rewrite (ro_sums n n' Hro).
  - apply nsum_ext. intros s _. rewrite (ro_tables n n' Hro), ro_utility. do 2 f_equal. apply qprod_perm. apply Permutation_map. apply ro_decisions.
  - intros s s' E. rewrite (utility_looks s s' E). f_equal. f_equal.
    + apply weight_looks_all. auto.
    + f_equal. apply map_ext_in. intros d Hd. apply Hp; auto.
Qed.
Lemma ro_policy d p : policy_for n d p <-> policy_for n' d p.
Proof.
  pose proof (sig_outcomes _ _ _ (ro_sig n n' Hro d)) as En. pose proof (ro_observed d) as Eo.
  split; intros [H1 H2 H3]; constructor.
  - intros s Hs. apply H1. apply (ro_proper n n' Hro). auto.
  - intros s Hs. rewrite <- En. apply H2. apply (ro_proper n n' Hro). auto.
  - intros s s' E. apply H3. rewrite <- Eo. auto.
  - intros s Hs. apply H1. apply (ro_proper' n n' Hro). auto.
  - intros s Hs. rewrite En. apply H2. apply (ro_proper' n n' Hro). auto.
  - intros s s' E. apply H3. rewrite Eo. auto.
Qed.
Lemma policy_proper' m d p : policy_for m d p -> nproper p.
Proof. intros H s s' E. apply (pf_observed _ _ _ H). auto. Qed.
Lemma ro_no_forgetting : no_forgetting n -> no_forgetting n'.
Proof.
  intros H d e Hd He Hne. rewrite !ro_observed. apply H; auto; eapply Permutation_in; try (apply Permutation_sym, ro_decisions); auto.
Qed.
Lemma ro_network : wf_network n' -> decision_network n -> decision_network n'.
Proof.
  intros Hwf [_ H2 H3 H4 H5 H6 [H7 H8] H9]. assert (Hk : forall x, kind (n_vars n') x = kind (n_vars n) x) by (intros x; symmetry; apply sig_kind; apply (ro_sig n n' Hro)).
  constructor; auto.
  - destruct (ro_factors _ _ Hro) as (l & Hp & Hs). assert (E : map nf_for l = map nf_for (n_factors n')).
    { clear - Hs. induction Hs as [|f g a b H Hab IH]; auto. simpl. rewrite IH, (proj1 H). auto. }
    rewrite <- E. eapply Permutation_NoDup; [apply Permutation_map; exact Hp|auto].
  - apply (ro_complete n n' Hro). auto.
  - intros f s Hf. destruct (ro_chance n n' Hro f Hf) as (g & Hg & HR). rewrite <- (entry_sig (n_vars n) _ g f s (ro_scope n n' Hro g) HR). auto.
  - intros f s Hf Hs. destruct (ro_chance n n' Hro f Hf) as (g & Hg & HR). rewrite <- (row_sig (n_vars n) _ g f s (ro_scope n n' Hro g) HR). apply H5; auto. apply (ro_proper n n' Hro). auto.
  - destruct H6 as (rank & H6). exists rank. intros f g Hf Hkf Hg. destruct (ro_factor n n' Hro f Hf) as (f0 & Hf0 & E1 & E2 & _). rewrite E1 in *. rewrite E2 in Hg. rewrite Hk in Hkf. apply H6; auto.
  - split.
    + intros v Hv Ht Htot. destruct (ro_var n n' Hro v Hv) as (w & Hw & En & Et & Eo & _). rewrite En, Eo in *. rewrite Et in Ht. rewrite (ro_total _ _ Hro) in Htot.
      destruct (H7 w Hw Ht Htot) as (Hl & f & Hf & Ef). split; auto. destruct (ro_factor' n n' Hro f Hf) as (f' & Hf' & E' & _). exists f'. split; auto. congruence.
    + destruct H8 as (v & Hv & Ht & Htot). destruct (ro_var' n n' Hro v Hv) as (w & Hw & En & Et & _). exists w. rewrite En, Et, (ro_total _ _ Hro). auto.
  - intros d Hd. destruct (H9 d) as (f & Hf & Htot & Hkf & Hin). { eapply Permutation_in; [apply Permutation_sym, ro_decisions|auto]. }
    destruct (ro_factor' n n' Hro f Hf) as (f' & Hf' & E1 & E2 & _). exists f'. rewrite E1, E2, (ro_total _ _ Hro), Hk. auto.
Qed.
End DN.
