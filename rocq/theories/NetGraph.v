(** Descendants and separation: which variables the answer to a query depends on. *)
From Coq Require Import ZArith List Bool String Lia Permutation QArith Qcanon.
From Verif Require Import Num GoBase VarModel GoFacts SpecFactor XnumFacts VEModel SpecVE VEWorlds NetModel SpecNet NetVars NetFactors NetSums NetQuery NetMass
  SpecGraph StateSums.
Import ListNotations.
Open Scope string_scope.
Open Scope list_scope.
Open Scope Z_scope.

Definition mem (x : string) (l : list string) : bool := existsb (String.eqb x) l.
Lemma mem_in x l : mem x l = true <-> In x l.
Proof. unfold mem. rewrite existsb_exists. split; [intros (y & H & E); apply String.eqb_eq in E; congruence|intros H; exists x; split; auto; apply String.eqb_refl]. Qed.
Lemma mem_not x l : mem x l = false <-> ~ In x l.
Proof. rewrite <- mem_in. destruct (mem x l); split; congruence. Qed.

Lemma filter_single {X} (key : X -> string) (l : list X) c : NoDup (map key l) -> In c l -> filter (fun x => String.eqb (key x) (key c)) l = [c].
Proof.
  induction l as [|x l IH]; [intros _ []|]. simpl. intros Hnd H. inversion Hnd as [|? ? H1 H2]. subst.
  assert (Hno : forall y, In y l -> key y <> key x) by (intros y Hy E; apply H1; rewrite <- E; apply in_map; auto).
  destruct H as [->|H].
  - rewrite String.eqb_refl. f_equal. clear - Hno. induction l as [|y l IH]; simpl; auto.
    destruct (String.eqb_spec (key y) (key c)) as [E|E]; [exfalso; eapply Hno; [left; reflexivity|auto]|]. apply IH. intros z Hz. apply Hno. simpl. auto.
  - destruct (String.eqb_spec (key x) (key c)) as [E|E]; [exfalso; eapply Hno; eauto|]. auto.
Qed.

Section NG.
Variable n : network xnum.
Hypothesis Hwf : wf_network n.
Notation vars := (n_vars n).
Variable ign : string -> bool.
Variable free : list string.
Hypothesis Hca : causal n ign free.

(** ** What a conditional looks at *)
Lemma cell_agree names s s' : (forall y, In y names -> s y = s' y) -> cell vars names s = cell vars names s'.
Proof.
  intros H. unfold cell. generalize 0%nat as acc. induction names as [|y l IH]; intros acc; simpl; auto.
  rewrite (H y) by (simpl; auto). apply IH. intros z Hz. apply H. simpl. auto.
Qed.
Lemma entry_looks f : looks_at (entry vars f) (fun y => In y (nf_given f ++ [nf_for f])).
Proof. intros s s' E. unfold entry. rewrite (cell_agree _ s s'); auto. Qed.
Lemma cond_prob_looks f : looks_at (cond_prob vars f) (fun y => In y (nf_given f ++ [nf_for f])).
Proof.
  intros s s' E. unfold cond_prob. rewrite (entry_looks f s s' E).
  replace (row_sum vars f s) with (row_sum vars f s'); auto. unfold row_sum. apply qsum_ext. intros k _.
  apply entry_looks. intros y Hy. unfold nupd. destruct (String.eqb y (nf_for f)); auto. symmetry. auto.
Qed.
Lemma policy_looks d p : In (d, p) (n_policies n) -> looks_at (policy_prob vars p) (fun y => In y (factor_names n p)).
Proof.
  intros Hp s s' E. unfold policy_prob. apply value_agree. intros v Hv. pose proof (wp_scope n d p (wn_policies n Hwf d p Hp) v Hv) as (i & nv & Hi & Hid & _).
  unfold positions. rewrite Hid, Nat2Z.id, Hi. apply E. unfold factor_names. apply in_map_iff. exists v. split; auto. rewrite Hid, Nat2Z.id, Hi. auto.
Qed.

Definition scope_of (x : string) : list string := x :: parents_of n ign x.
Lemma conditional_looks x : looks_at (conditional n ign x) (fun y => In y (scope_of x)).
Proof.
  intros s s' E. unfold conditional. f_equal.
  - apply qprod_ext. intros f Hf. apply cond_prob_looks. intros y Hy. apply E. apply filter_In in Hf. destruct Hf as [Hf Ef]. apply String.eqb_eq in Ef.
    apply in_app_iff in Hy. destruct Hy as [Hy|[<-|[]]]; [right|left; auto]. unfold parents_of. apply in_app_iff. left. apply in_flat_map. exists f. split; auto.
    apply filter_In. split; auto. apply String.eqb_eq. auto.
  - apply qprod_ext. intros [d p] Hf. pose proof Hf as Hf'. apply filter_In in Hf. destruct Hf as [Hf Ef]. apply (policy_looks d p); auto. intros y Hy. apply E.
    destruct (String.eqb_spec y x) as [->|Hne]; [left; auto|right]. unfold parents_of. apply in_app_iff. right. apply in_flat_map. exists (d, p). split; auto.
    apply filter_In. split; auto. apply negb_true_iff. apply String.eqb_neq. auto.
Qed.

(** ** The joint weight as a product over variables *)
Notation conds := (conds n ign).
Lemma conditional_conds x s : conditional n ign x s = qprod (map (fun c => snd c s) (filter (fun c => String.eqb (fst c) x) conds)).
Proof.
  unfold conditional, NetMass.conds. rewrite filter_app, map_app, qprod_app. f_equal.
  - induction (chance_factors n) as [|f l IH]; auto. simpl. destruct (String.eqb (nf_for f) x); simpl; auto. unfold qprod in *. simpl. rewrite IH. auto.
  - induction (n_policies n) as [|[d p] l IH]; auto. simpl. destruct (ign d); simpl; [rewrite andb_false_r; exact IH|].
    destruct (String.eqb d x); simpl; auto. unfold qprod in *. simpl. rewrite IH. auto.
Qed.
Lemma conditional_one c s : In c conds -> conditional n ign (fst c) s = snd c s.
Proof.
  intros H. rewrite conditional_conds, (filter_single fst); auto.
  - unfold qprod. simpl. ring.
  - rewrite conds_names. apply (ca_unique _ _ _ Hca).
Qed.
Lemma conditional_table f s : In f (chance_factors n) -> conditional n ign (nf_for f) s = cond_prob vars f s.
Proof. intros H. apply (conditional_one (nf_for f, cond_prob vars f)). apply in_app_iff. left. apply in_map_iff. exists f. auto. Qed.
Lemma conditional_policy d p s : In (d, p) (n_policies n) -> ign d = false -> conditional n ign d s = policy_prob vars p s.
Proof.
  intros H Hi. apply (conditional_one (d, policy_prob vars p)). apply in_app_iff. right. apply in_map_iff. exists (d, p). split; auto.
  apply filter_In. split; auto. cbn [fst]. rewrite Hi. auto.
Qed.

(** The variables with a conditional distribution. *)
Definition worldly_vars : list nvar := filter (fun v => negb (is_kind Utility v)) vars.
Definition fixed_vars : list nvar := filter (fun v => negb (mem (nv_name v) free)) worldly_vars.
Lemma in_worldly_vars v : In v worldly_vars <-> In v vars /\ nv_type v <> Utility.
Proof. unfold worldly_vars, is_kind. rewrite filter_In, negb_true_iff. destruct (nv_type v); simpl; split; intros [H1 H2]; split; auto; congruence. Qed.
Lemma in_fixed_vars v : In v fixed_vars <-> In v vars /\ nv_type v <> Utility /\ ~ In (nv_name v) free.
Proof. unfold fixed_vars. rewrite filter_In, in_worldly_vars, negb_true_iff, mem_not. tauto. Qed.
Lemma names_filter (p : nvar -> bool) l : NoDup (map nv_name l) -> NoDup (map nv_name (filter p l)).
Proof.
  induction l as [|v l IH]; simpl; auto. intros H. inversion H as [|? ? H1 H2]. subst. destruct (p v); auto. simpl. constructor; auto.
  intros Hin. apply H1. apply in_map_iff in Hin. destruct Hin as (w & <- & Hw). apply filter_In in Hw. apply in_map. tauto.
Qed.
Lemma worldly_names : NoDup (map nv_name worldly_vars).
Proof. apply names_filter. apply (wn_names n Hwf). Qed.
Lemma fixed_names : NoDup (map nv_name fixed_vars).
Proof. apply names_filter. apply worldly_names. Qed.

Lemma conditionals_vars : Permutation (conditionals n ign) (map nv_name fixed_vars).
Proof.
  apply NoDup_Permutation; [apply (ca_unique _ _ _ Hca)|apply fixed_names|]. intros x. split.
  - intros H. assert (Hx : exists v, In v vars /\ nv_name v = x /\ nv_type v <> Utility).
    { unfold conditionals in H. apply in_app_iff in H. destruct H as [H|H]; apply in_map_iff in H; destruct H as (c & <- & Hc).
      - destruct (chance_in n Hwf c Hc) as (_ & Hk & _). unfold kind in Hk. destruct (var_named vars (nf_for c)) as [v|] eqn:E; [|discriminate Hk].
        apply (var_named_in n Hwf) in E. destruct E as [E1 E2]. exists v. simpl in Hk. injection Hk as Hk. repeat split; auto. congruence.
      - apply filter_In in Hc. destruct Hc as [Hc _]. destruct c as [d p]. pose proof (wp_decision n d p (wn_policies n Hwf d p Hc)) as Hk.
        unfold kind in Hk. cbn [fst]. destruct (var_named vars d) as [v|] eqn:E; [|discriminate Hk].
        apply (var_named_in n Hwf) in E. destruct E as [E1 E2]. exists v. simpl in Hk. injection Hk as Hk. repeat split; auto. congruence. }
    destruct Hx as (v & Hv & <- & Ht). apply in_map. apply in_fixed_vars. repeat split; auto. apply (ca_all _ _ _ Hca v Hv Ht). auto.
  - intros H. apply in_map_iff in H. destruct H as (v & <- & Hv). apply in_fixed_vars in Hv. destruct Hv as (Hv & Ht & Hf). apply (ca_all _ _ _ Hca v Hv Ht). auto.
Qed.

Lemma joint_product s : joint n ign s = qprod (map (fun v => conditional n ign (nv_name v) s) fixed_vars).
Proof.
  rewrite <- (conds_joint n ign s). rewrite <- (map_map nv_name (fun x => conditional n ign x s)).
  rewrite <- (qprod_perm _ _ (Permutation_map (fun x => conditional n ign x s) conditionals_vars)).
  rewrite <- conds_names, map_map. apply qprod_ext. intros c Hc. symmetry. apply conditional_one. auto.
Qed.

(** ** Sums over states *)
Definition cond_of (v : nvar) : cond := mkCond v (conditional n ign (nv_name v)) (scope_of (nv_name v)).
Lemma vars_nonempty v : In v vars -> nv_outcomes v <> [].
Proof. intros H E. pose proof (wn_outcomes n Hwf v H) as Ho. rewrite E in Ho. unfold zlen in Ho. simpl in Ho. lia. Qed.
Lemma cond_of_good v : In v fixed_vars -> good_cond vars (cond_of v).
Proof.
  intros Hv. pose proof Hv as Hv'. apply in_fixed_vars in Hv. destruct Hv as (Hv & Ht & Hf). constructor; auto.
  - intros s Hs. cbn [cond_of c_var c_val]. apply (ca_all _ _ _ Hca v Hv Ht) in Hf. rewrite <- conds_names in Hf.
    apply in_map_iff in Hf. destruct Hf as (c & Ec & Hc).
    rewrite (qsum_ext _ (fun k => snd c (nupd s (nv_name v) k))) by (intros k _; rewrite <- Ec; apply conditional_one; auto).
    assert (Eo : List.length (nv_outcomes v) = num_outcomes vars (nv_name v)).
    { unfold num_outcomes. rewrite (proj2 (var_named_in n Hwf (nv_name v) v)); auto. }
    rewrite Eo. apply in_app_iff in Hc. destruct Hc as [Hc|Hc]; apply in_map_iff in Hc; destruct Hc as (f & <- & Hf); cbn [fst snd] in *.
    + rewrite <- Ec. apply (cond_prob_sum n). apply (ca_rows _ _ _ Hca); auto.
    + apply filter_In in Hf. destruct Hf as [Hf Hi]. apply negb_true_iff in Hi. destruct f as [d p]. cbn [fst snd] in *. rewrite <- Ec.
      apply (ca_policies _ _ _ Hca d p); auto.
  - apply conditional_looks.
Qed.

Definition flag (b : bool) : Qc := if b then 1%Qc else 0%Qc.
Lemma mass_nsum event : mass n ign event = nsum (fun s => flag (event s) * joint n ign s)%Qc worldly_vars nowhere.
Proof.
  unfold mass, nsum, worlds_of, flag. rewrite qsum_filter. apply qsum_ext. intros s _. destruct (event s); ring.
Qed.
Lemma joint_weight s : joint n ign s = weight_of_conds (map cond_of fixed_vars) s.
Proof. rewrite joint_product. unfold weight_of_conds. rewrite map_map. reflexivity. Qed.

Lemma filter_split {X} (p : X -> bool) l : Permutation l (filter (fun x => negb (p x)) l ++ filter p l).
Proof.
  induction l as [|x l IH]; simpl; auto. destruct (p x); simpl.
  - apply Permutation_cons_app. exact IH.
  - apply perm_skip. exact IH.
Qed.

Definition looks_event (event : nstate -> bool) (P : string -> Prop) : Prop := forall s s', (forall y, P y -> s y = s' y) -> event s = event s'.
Lemma flag_looks event P : looks_event event P -> looks_at (fun s => flag (event s)) P.
Proof. intros H s s' E. rewrite (H s s' E). auto. Qed.

(** Leave out a set of variables closed under children. *)
Theorem mass_drop event (drop : string -> bool) :
  (forall x, In x free -> drop x = false) ->
  (forall v y, In v fixed_vars -> drop (nv_name v) = false -> In y (scope_of (nv_name v)) -> drop y = false) ->
  looks_event event (fun y => drop y = false) ->
  mass n ign event = nsum (fun s => flag (event s) * weight_of_conds (map cond_of (filter (fun v => negb (drop (nv_name v))) fixed_vars)) s)%Qc
    (filter (fun v => negb (drop (nv_name v))) worldly_vars) nowhere.
Proof.
  intros Hfree Hclosed Hev. rewrite mass_nsum. set (D := filter (fun v => drop (nv_name v)) worldly_vars).
  assert (ED : filter (fun v => drop (nv_name v)) fixed_vars = D).
  { unfold fixed_vars, D. clear - Hfree. induction worldly_vars as [|v l IH]; simpl; auto. destruct (mem (nv_name v) free) eqn:E; simpl.
    - rewrite (Hfree (nv_name v)) by (apply mem_in; auto). exact IH.
    - rewrite IH. reflexivity. }
  set (L := filter (fun v => negb (drop (nv_name v))) worldly_vars). set (C := filter (fun v => negb (drop (nv_name v))) fixed_vars).
  assert (HDc : map c_var (map cond_of D) = D) by (rewrite map_map; apply map_id).
  assert (HDn : map c_name (map cond_of D) = map nv_name D) by (rewrite map_map; reflexivity).
  assert (HPl : Permutation worldly_vars (L ++ map c_var (map cond_of D))) by (rewrite HDc; apply filter_split).
  assert (HPf : Permutation (map cond_of fixed_vars) (map cond_of C ++ map cond_of D)).
  { rewrite <- map_app, <- ED. apply Permutation_map. apply filter_split. }
  assert (HinD : forall y, In y (map nv_name D) -> drop y = true).
  { intros y Hy. apply in_map_iff in Hy. destruct Hy as (v & <- & Hv). apply filter_In in Hv. tauto. }
  destruct (ca_order _ _ _ Hca) as (rank & Hr1 & Hr2).
  assert (Hrank : forall x y, In y (parents_of n ign x) -> (rank y < rank x)%nat).
  { intros x y Hy. unfold parents_of in Hy. apply in_app_iff in Hy. destruct Hy as [Hy|Hy]; apply in_flat_map in Hy; destruct Hy as (c & Hc & Hy); apply filter_In in Hc; destruct Hc as [Hc Ec].
    - apply String.eqb_eq in Ec. subst x. apply Hr1; auto.
    - apply andb_true_iff in Ec. destruct Ec as [Ec Ei]. apply String.eqb_eq in Ec. apply negb_true_iff in Ei. destruct c as [d p]. cbn [fst snd] in *. subst d.
      apply filter_In in Hy. destruct Hy as [Hy Hne]. apply negb_true_iff, String.eqb_neq in Hne. eapply Hr2; eauto. }
  assert (HgC : forall c, In c (map cond_of C) -> good_cond vars c).
  { intros c Hc. apply in_map_iff in Hc. destruct Hc as (v & <- & Hv). apply filter_In in Hv. apply cond_of_good. tauto. }
  assert (HgD : forall c, In c (map cond_of D) -> good_cond vars c).
  { intros c Hc. apply in_map_iff in Hc. destruct Hc as (v & <- & Hv). rewrite <- ED in Hv. apply filter_In in Hv. apply cond_of_good. tauto. }
  rewrite (nsum_ext _ (fun s => flag (event s) * weight_of_conds (map cond_of C ++ map cond_of D) s)%Qc) by (intros s _; rewrite joint_weight; f_equal; apply weight_perm; exact HPf).
  rewrite (nsum_perm _ _ (L ++ map c_var (map cond_of D))); [| |exact HPl|exact worldly_names].
  - apply (drop_barren vars vars_nonempty (wn_names n Hwf) rank); auto.
    + eapply Permutation_NoDup; [apply Permutation_map; exact HPl|apply worldly_names].
    + intros v Hv. apply filter_In in Hv. apply in_worldly_vars. tauto.
    + intros c y Hc Hy Hne. apply in_map_iff in Hc. destruct Hc as (v & <- & Hv). cbn [cond_of c_scope c_name c_var] in *. unfold c_name in *. cbn [cond_of c_var] in *.
      destruct Hy as [Hy|Hy]; [congruence|]. apply Hrank. auto.
    + intros c y Hc Hy. apply in_map_iff in Hc. destruct Hc as (v & <- & Hv). cbn [cond_of c_scope] in Hy. apply filter_In in Hv. destruct Hv as [Hv Hd]. apply negb_true_iff in Hd.
      rewrite HDn. intros H. apply HinD in H. rewrite (Hclosed v y Hv Hd Hy) in H. discriminate H.
    + apply flag_looks. intros s s' E. apply Hev. intros y Hy. apply E. rewrite HDn. intros H. apply HinD in H. congruence.
  - apply (looks_proper _ (fun _ => True)). apply looks_mult.
    + apply flag_looks. intros s s' E. apply Hev. auto.
    + apply (weight_good vars); auto. intros c Hc. apply in_app_iff in Hc. destruct Hc; auto.
Qed.
End NG.
