(** The factors returned by solve: for queries and for utilities. *)
From Coq Require Import ZArith List Bool String Lia Permutation QArith Qcanon.
From Verif Require Import Num GoBase VarModel GoFacts Tuples SpecFactor FactorFacts FactorAt XnumFacts ExactFactor FactorThms
  VEModel SpecVE VEWorlds VEFacts VEHidden VESolve VEThms VEUtil NetModel SpecNet NetVars NetFactors NetVE NetSums NetQuery NetEvents.
Import ListNotations.
Open Scope string_scope.
Open Scope list_scope.
Open Scope Z_scope.

Section NU.
Variable n : network xnum.
Hypothesis Hwf : wf_network n.
Notation vars := (n_vars n).
Notation vv := (vv n).
Notation by_name := (by_name n).
Notation known := (known n).
Notation V := (net_vars n).

Lemma name_at x : known x -> (match nth_error vars (Z.to_nat (v_id (vv x))) with Some nv => nv_name nv | None => "" end) = x.
Proof.
  intros Hk. destruct (lookup_known n Hwf x Hk) as (i & v & Hi & Hn & _ & _ & L). unfold NetFactors.vv. rewrite L.
  cbn [ve_entry en_ve v_id fst]. rewrite Nat2Z.id, Hi. auto.
Qed.

Lemma in_factor_names f x : incl (f_vars f) V -> (In x (factor_names n f) <-> known x /\ In (vv x) (f_vars f)).
Proof.
  intros Hi. unfold factor_names. rewrite in_map_iff. split.
  - intros (v & E & Hv). destruct (vv_surj n Hwf v (Hi v Hv)) as (y & Hy & ->). rewrite name_at in E by auto. subst y. auto.
  - intros [Hk Hv]. exists (vv x). split; auto. apply name_at. auto.
Qed.

Lemma factor_names_nodup f : wf_factor f -> incl (f_vars f) V -> NoDup (factor_names n f).
Proof.
  intros Hw Hi. unfold factor_names. pose proof (proj1 Hw) as Hd. unfold wf_vars in Hd. revert Hi Hd. generalize (f_vars f). intros l.
  induction l as [|v l IH]; intros Hi Hd; simpl; constructor; inversion Hd; subst.
  - intros H. apply in_map_iff in H. destruct H as (u & E & Hu).
    destruct (vv_surj n Hwf v) as (x & Hx & ->); [apply Hi; simpl; auto|]. destruct (vv_surj n Hwf u) as (y & Hy & ->); [apply Hi; simpl; auto|].
    rewrite !name_at in E by auto. subst y. apply H1. apply in_map. auto.
  - apply IH; auto. intros u Hu. apply Hi. simpl; auto.
Qed.

Lemma known_utility x : known x -> (v_type (vv x) <> Utility <-> exists t, kind vars x = Some t /\ t <> Utility).
Proof.
  intros Hk. rewrite (vv_utility n Hwf x Hk). destruct Hk as [_ (v & Hv)]. unfold kind. rewrite Hv. simpl. split.
  - intros H. exists (nv_type v). split; auto. congruence.
  - intros (t & E & H). congruence.
Qed.

Lemma query_known query : valid_query n query -> forall q, In q query -> known q /\ v_type (vv q) <> Utility.
Proof.
  intros Hq q Hin. destruct (Hq q Hin) as (v & Hv & Hu). assert (Hk : known q).
  { split; eauto. destruct (is_total n q) eqn:E; auto. apply (total_kind n Hwf) in E. unfold kind in E. rewrite Hv in E. simpl in E. congruence. }
  split; auto. intros E. apply (vv_utility n Hwf) in E; auto. unfold kind in E. rewrite Hv in E. simpl in E. congruence.
Qed.

Lemma not_hidden evs query x : known x -> v_type (vv x) <> Utility -> is_evidence evs (vv x) = false -> (forall q, In q query -> known q) ->
  ~ In (vv x) (hidden_in V (net_deps n) evs (map vv query)) -> In x query \/ open_decision n x \/ informs n x.
Proof.
  intros Hk Hu He Hq Hh. destruct (kind_known n Hwf x Hk) as (t & Ek & Et).
  destruct (v_type (vv x)) eqn:Ety; [| |congruence].
  - destruct (contains_id (map vv query) (v_id (vv x))) eqn:Ec.
    { left. apply existsb_exists in Ec. destruct Ec as (u & Hin & E). apply Z.eqb_eq in E. apply in_map_iff in Hin. destruct Hin as (q & <- & Hin).
      replace x with q; auto. apply (vv_inj n Hwf); auto. }
    destruct (is_decision_parent V (net_deps n) (vv x)) eqn:Ed.
    { right. right. apply existsb_exists in Ed. destruct Ed as ([d ps] & Hin & E). do 2 (apply andb_true_iff in E; destruct E as [E ?]).
      apply net_deps_spec in Hin. destruct Hin as (f & Hf & Ho & -> & ->). exists f. split; auto.
      pose proof (open_known n Hwf f Hf Ho) as Hkf. unfold is_open in Ho. do 2 (apply andb_true_iff in Ho; destruct Ho as [Ho ?]). split.
      - split; [destruct (kind vars (nf_for f)) as [[]|]; auto; discriminate|apply negb_true_iff; auto].
      - apply existsb_exists in H. destruct H as (u & Hu' & E'). apply Z.eqb_eq in E'. apply in_map_iff in Hu'. destruct Hu' as (g & <- & Hg).
        replace x with g; auto. apply (vv_inj n Hwf); auto. apply Hkf. apply in_app_iff. auto. }
    exfalso. apply Hh. unfold hidden_in. apply filter_In. split; [apply vv_in; auto|]. rewrite Ety, Ed, He, Ec. reflexivity.
  - right. left. split.
    + destruct t; auto; simpl in Et; try discriminate.
    + destruct t; simpl in Et; try discriminate. destruct (has_key (n_policies n) x); auto. discriminate.
Qed.

(** The shape shared by the three solver results. *)
Record solver_result (ev' : list (string * string)) (query uts : list string) (occurs : variable -> Prop) (Fa : asg -> Qc) (f : factor xnum) : Prop := {
  sr_wf : wf_factor f;
  sr_incl : incl (f_vars f) V;
  sr_scope : forall v, In v V -> v_type v <> Utility -> (In v (f_vars f) <-> occurs v /\ is_evidence (map (obs n) ev') v = false /\
    ~ In v (hidden_in V (net_deps n) (map (obs n) ev') (map vv query)));
  sr_utility : forall v, In v (f_vars f) -> v_type v = Utility -> v_outcomes v = 1%nat /\ occurs v /\ exists x, In x uts /\ known x /\ v = vv x;
  sr_covered : forall h, In h (hidden_in V (net_deps n) (map (obs n) ev') (map vv query)) -> occurs h;
  sr_value : forall a, in_range V a -> get_at f a = Ok (Fin (total Fa (hidden_in V (net_deps n) (map (obs n) ev') (map vv query)) (plug (map (obs n) ev') a)));
  sr_proper : proper Fa;
  sr_ignores : forall v, In v V -> v_type v <> Utility -> ~ occurs v -> ignores Fa (v_id v)
}.

(** The non-utility variables of a factor. *)
Definition inner (f : factor xnum) : list string := filter (fun x => negb (nodeType_eqb (v_type (vv x)) Utility)) (factor_names n f).

Lemma in_inner f x : incl (f_vars f) V -> (In x (inner f) <-> known x /\ v_type (vv x) <> Utility /\ In (vv x) (f_vars f)).
Proof.
  intros Hi. unfold inner. rewrite filter_In, in_factor_names, negb_true_iff by auto. destruct (v_type (vv x)); simpl; intuition congruence.
Qed.

Lemma sr_pinned ev ev' query uts occurs Fa f s : solver_result ev' query uts occurs Fa f -> valid_observations n ev -> Permutation ev ev' -> proper_state n s ->
  pinned n ev' (inner f) s.
Proof.
  intros Hr Hv Hp Hs. pose proof (sr_incl _ _ _ _ _ _ Hr) as Hi. split.
  - unfold inner. apply NoDup_filter. apply factor_names_nodup; auto. apply Hr.
  - intros x Hx. apply in_inner in Hx; auto. tauto.
  - intros x Hx. apply in_inner in Hx; auto. destruct Hx as (Hk & _). destruct (vv_outcomes n Hwf x Hk) as [-> _].
    destruct Hk as [_ (v & Hv0)]. unfold num_outcomes. rewrite Hv0. apply (var_named_in n Hwf) in Hv0. destruct Hv0 as [Hin <-]. apply Hs. auto.
  - intros x Hx. apply in_inner in Hx; auto. destruct Hx as (Hk & Hu & Hx). apply (sr_scope _ _ _ _ _ _ Hr) in Hx; [tauto|apply vv_in; auto|auto].
Qed.

Lemma in_loose_names ev' f v : incl (f_vars f) V -> (In v (loose n ev' (inner f)) <-> In v V /\ v_type v <> Utility /\ is_evidence (map (obs n) ev') v = false /\ ~ In v (f_vars f)).
Proof.
  intros Hi. rewrite in_loose, in_worldly. split.
  - intros ((H1 & H2) & H3 & H4). repeat split; auto. intros H5. apply H4. destruct (vv_surj n Hwf v H1) as (x & Hk & ->). exists x. split; auto.
    apply in_inner; auto.
  - intros (H1 & H2 & H3 & H4). repeat split; auto. intros (x & Hx & E). apply in_inner in Hx; auto. destruct Hx as (Hk & _ & Hx). apply H4.
    replace v with (vv x); auto. apply (wf_vars_inj V); auto. apply net_vars_wf.
Qed.

Lemma hidden_loose ev' query uts occurs Fa f : solver_result ev' query uts occurs Fa f ->
  incl (hidden_in V (net_deps n) (map (obs n) ev') (map vv query)) (loose n ev' (inner f)).
Proof.
  intros Hr h Hh. apply in_loose_names; [apply Hr|]. pose proof (hidden_not_evidence _ _ _ _ _ Hh) as He. pose proof Hh as Hh'.
  unfold hidden_in in Hh. apply filter_In in Hh. destruct Hh as [H1 H2]. do 3 (apply andb_true_iff in H2; destruct H2 as [H2 ?]).
  assert (Hu : v_type h <> Utility) by (destruct (v_type h); discriminate).
  repeat split; auto. intros Hfv. apply (sr_scope _ _ _ _ _ _ Hr) in Hfv; auto. tauto.
Qed.

Definition matches (Fa : asg -> Qc) (F : nstate -> Qc) : Prop :=
  forall a, in_range V a -> (forall v, In v V -> v_type v = Utility -> a (v_id v) = 0%nat) -> Fa a = F (by_name a).

Lemma joint_states_other L x : ~ In x (map nv_name L) -> forall s s', In s' (joint_states L s) -> s' x = s x.
Proof.
  induction L as [|v L IH]; simpl; intros Hn s s' Hs; [destruct Hs as [<-|[]]; auto|].
  apply in_flat_map in Hs. destruct Hs as (k & _ & Hs). rewrite (IH (fun H => Hn (or_intror H)) _ _ Hs). unfold nupd.
  destruct (String.eqb x (nv_name v)) eqn:E; auto. apply String.eqb_eq in E. exfalso. apply Hn. auto.
Qed.

Lemma worlds_utility s x : known x -> v_type (vv x) = Utility -> In s (worlds_of n) -> s x = 0%nat.
Proof.
  intros Hk Hu Hs. rewrite (joint_states_other (filter (fun v => negb (is_kind Utility v)) vars) x) with (s := nowhere); auto.
  intros H. apply in_map_iff in H. destruct H as (v & <- & Hv). apply filter_In in Hv. destruct Hv as [Hv Ht].
  apply (vv_utility n Hwf) in Hu; auto. unfold kind in Hu. rewrite (proj2 (var_named_in n Hwf (nv_name v) v)) in Hu by auto. simpl in Hu.
  inversion Hu as [E]. unfold is_kind in Ht. rewrite E in Ht. discriminate.
Qed.

Lemma sum_over_ext F p q : (forall s, In s (worlds_of n) -> p s = q s) -> sum_over n F p = sum_over n F q.
Proof. intros H. unfold sum_over. do 2 f_equal. apply filter_ext_in. auto. Qed.

Lemma utility_state s x : known x -> v_outcomes (vv x) = 1%nat -> proper_state n s -> s x = 0%nat.
Proof.
  intros Hk H1 Hs. destruct (vv_outcomes n Hwf x Hk) as [Ho _]. destruct Hk as [_ (v & Hv0)]. unfold num_outcomes in Ho. rewrite Hv0 in Ho.
  apply (var_named_in n Hwf) in Hv0. destruct Hv0 as [Hin <-]. specialize (Hs v Hin). lia.
Qed.

Lemma same_inner f s s' : incl (f_vars f) V -> (forall v, In v (f_vars f) -> v_type v = Utility -> v_outcomes v = 1%nat) -> proper_state n s ->
  In s' (worlds_of n) -> same_on (factor_names n f) s s' = same_on (inner f) s s'.
Proof.
  intros Hi Hu Hs Hs'. unfold same_on, inner. assert (G : forall l, incl l (factor_names n f) ->
    forallb (fun x => (s' x =? s x)%nat) l = forallb (fun x => (s' x =? s x)%nat) (filter (fun x => negb (nodeType_eqb (v_type (vv x)) Utility)) l)).
  { induction l as [|x l IH]; intros Hl; auto. simpl. rewrite IH by (intros y Hy; apply Hl; simpl; auto).
    destruct (nodeType_eqb (v_type (vv x)) Utility) eqn:E; simpl; auto. apply nodeType_eqb_spec in E.
    assert (Hx : In x (factor_names n f)) by (apply Hl; simpl; auto). apply in_factor_names in Hx; auto. destruct Hx as [Hk Hx].
    rewrite (worlds_utility s' x), (utility_state s x); auto. }
  apply G. apply incl_refl.
Qed.

Lemma hidden_nodup evs query : NoDup (hidden_in V (net_deps n) evs query).
Proof. unfold hidden_in. apply NoDup_filter. eapply NoDup_map_inv. apply net_vars_wf. Qed.

(** The value of any solver result, summed over the names of another one with the same
    hidden variables. *)
Theorem result_value ev ev' query uts1 uts2 occ1 occ2 Fa Ga f g F s : solver_result ev' query uts1 occ1 Fa f -> solver_result ev' query uts2 occ2 Ga g ->
  (forall v, In v V -> occ1 v -> occ2 v) -> nproper F -> matches Fa F -> valid_observations n ev -> Permutation ev ev' -> proper_state n s ->
  sum_over n F (fun s' => agrees vars ev s' && same_on (factor_names n g) s s') =
  (volume (rest n ev' (inner g) (hidden_in V (net_deps n) (map (obs n) ev') (map vv query))) * factor_value n f s)%Qc.
Proof.
  intros Hr Hr2 Hocc HF Heq Hv Hp Hs.
  pose proof (sr_incl _ _ _ _ _ _ Hr) as Hi. pose proof (sr_incl _ _ _ _ _ _ Hr2) as Hi2. pose proof (perm_observations n _ _ Hp Hv) as Hv'.
  rewrite (sum_over_ext F _ (fun s' => agrees vars ev s' && same_on (inner g) s s')).
  2:{ intros s' Hs'. f_equal. apply same_inner; auto. intros v H1 H2. apply (sr_utility _ _ _ _ _ _ Hr2 v); auto. }
  apply (solved_factor n Hwf f F Fa ev ev'); auto.
  - apply Hr.
  - eapply sr_pinned; eauto.
  - apply hidden_nodup.
  - eapply hidden_loose; eauto.
  - intros v Hin Hnh. apply in_loose_names in Hin; auto. destruct Hin as (H1 & H2 & H3 & H4). apply (sr_ignores _ _ _ _ _ _ Hr); auto.
    intros Ho. apply H4. apply (sr_scope _ _ _ _ _ _ Hr2); auto.
  - intros a Ha. unfold value. rewrite (sr_value _ _ _ _ _ _ Hr a Ha). auto.
  - intros v Hin. destruct (nodeType_eqb (v_type v) Utility) eqn:Eu.
    + left. apply nodeType_eqb_spec in Eu. destruct (sr_utility _ _ _ _ _ _ Hr v Hin Eu) as (H1 & _ & x & _ & Hk & ->). split.
      * auto.
      * split; auto. rewrite (positions_vv n Hwf) by auto. apply utility_state; auto.
    + right. assert (Hu : v_type v <> Utility) by (intros E; rewrite E in Eu; discriminate).
      destruct (vv_surj n Hwf v (Hi v Hin)) as (x & Hk & ->). exists x. split; auto. apply in_inner; auto. split; auto. split; auto.
      apply (sr_scope _ _ _ _ _ _ Hr2); auto. apply (sr_scope _ _ _ _ _ _ Hr) in Hin; auto. destruct Hin as (H1 & H2 & H3). split; auto. apply Hocc; auto. apply vv_in; auto.
Qed.

(** The constant factor of a result: the states of the variables that nothing mentions. *)
Lemma rest_constant ev ev' query uts occurs Fa f rel : solver_result ev' query uts occurs Fa f ->
  valid_observations n ev -> Permutation ev ev' -> (forall x, known x -> (occurs (vv x) <-> rel x)) ->
  let c := volume (rest n ev' (inner f) (hidden_in V (net_deps n) (map (obs n) ev') (map vv query))) in
  (0 < c)%Qc /\
  ((forall v, In v vars -> nv_type v <> Utility -> ~ In (nv_name v) (map fst ev) -> rel (nv_name v)) -> c = 1%Qc).
Proof.
  intros Hr Hv Hp Hrel. pose proof (perm_observations n _ _ Hp Hv) as Hv'.
  pose proof (sr_incl _ _ _ _ _ _ Hr) as Hi.
  assert (Hee : forall x, known x -> (is_evidence (map (obs n) ev') (vv x) = false <-> ~ In x (map fst ev))).
  { intros x Hk. rewrite <- not_true_iff_false, (evidence_key n Hwf ev' x Hv' Hk). split; intros H H1; apply H.
    - exact (Permutation_in _ (Permutation_map fst Hp) H1).
    - exact (Permutation_in _ (Permutation_map fst (Permutation_sym Hp)) H1). }
  set (H := hidden_in V (net_deps n) (map (obs n) ev') (map vv query)) in *. cbv zeta. split.
  - apply volume_pos. intros v Hin. unfold rest in Hin. apply filter_In in Hin. destruct Hin as [Hin _]. apply in_loose, proj1, in_worldly in Hin. apply (V_pos n Hwf). tauto.
  - intros Hall. replace (rest n ev' (inner f) H) with (@nil variable); [reflexivity|].
    symmetry. destruct (rest n ev' (inner f) H) as [|v l] eqn:E; auto. exfalso.
    assert (Hin : In v (rest n ev' (inner f) H)) by (rewrite E; simpl; auto). apply in_rest in Hin; [|eapply hidden_loose; eauto].
    destruct Hin as [Hin Hnh]. apply in_loose_names in Hin; auto. destruct Hin as (H1 & H2 & H3 & H4). apply H4. apply (sr_scope _ _ _ _ _ _ Hr); auto.
    split; auto. destruct (vv_surj n Hwf v H1) as (x & Hk & ->). apply Hrel; auto.
    pose proof Hk as [_ (w & Hw)]. pose proof Hw as Hw'. apply (var_named_in n Hwf) in Hw'. destruct Hw' as [Hwin <-]. apply Hall; auto.
    + apply (known_utility _ Hk) in H2. destruct H2 as (t & Et & Ht). unfold kind in Et. rewrite Hw in Et. inversion Et. congruence.
    + apply Hee; auto.
Qed.

Theorem result_ok ev ev' query uts occurs Fa f F rel : solver_result ev' query uts occurs Fa f -> nproper F -> matches Fa F ->
  valid_observations n ev -> Permutation ev ev' -> valid_query n query -> (forall x, known x -> (occurs (vv x) <-> rel x)) ->
  result_factor n ev query uts rel F f.
Proof.
  intros Hr HF Heq Hv Hp Hq Hrel. pose proof (perm_observations n _ _ Hp Hv) as Hv'. pose proof (query_known query Hq) as Hqk.
  pose proof (sr_incl _ _ _ _ _ _ Hr) as Hi.
  assert (Hfin : finite_factor f). { apply (finite_of_range n Hwf); auto. intros a Ha. eexists. apply (sr_value _ _ _ _ _ _ Hr). auto. }
  assert (Hee : forall x, known x -> (is_evidence (map (obs n) ev') (vv x) = false <-> ~ In x (map fst ev))).
  { intros x Hk. rewrite <- not_true_iff_false, (evidence_key n Hwf ev' x Hv' Hk). split; intros H H1; apply H.
    - exact (Permutation_in _ (Permutation_map fst Hp) H1).
    - exact (Permutation_in _ (Permutation_map fst (Permutation_sym Hp)) H1). }
  split; auto; try apply Hr.
  - intros x Hx Hre Hne. destruct (Hqk x Hx) as [Hk Hu]. apply in_factor_names; auto. split; auto. apply (sr_scope _ _ _ _ _ _ Hr); [apply vv_in; auto|auto|].
    split; [apply Hrel; auto|]. split; [apply Hee; auto|].
    intros Hh. apply filter_In in Hh. destruct Hh as [_ Hh]. apply andb_true_iff in Hh. destruct Hh as [_ Hh].
    apply negb_true_iff in Hh. apply not_true_iff_false in Hh. apply Hh. apply existsb_exists. exists (vv x). split; [apply in_map; auto|apply Z.eqb_refl].
  - intros x Hx. apply in_factor_names in Hx; auto. destruct Hx as [Hk Hx]. destruct (nodeType_eqb (v_type (vv x)) Utility) eqn:Eu.
    + apply nodeType_eqb_spec in Eu. destruct (sr_utility _ _ _ _ _ _ Hr _ Hx Eu) as (H1 & Ho & y & Hy & Hky & E). assert (x = y) by (apply (vv_inj n Hwf); auto; congruence). subst y.
      split; [apply Hrel; auto|]. split; [|exists Utility; split; [apply (vv_utility n Hwf); auto|auto]].
      intros Hin. apply in_map_iff in Hin. destruct Hin as ([y o] & Ey & Hin). simpl in Ey. subst y. destruct (obs_known n Hwf ev Hv x o Hin) as (_ & _ & _ & Hnu & _). auto.
    + assert (Hu : v_type (vv x) <> Utility) by (intros E; rewrite E in Eu; discriminate).
      apply (sr_scope _ _ _ _ _ _ Hr) in Hx; [|apply vv_in; auto|auto]. destruct Hx as (Ho & He & Hh).
      split; [apply Hrel; auto|]. split; [apply Hee; auto|]. apply known_utility in Hu; auto. destruct Hu as (t & Et & Htu). exists t. split; auto. right. split; auto.
      eapply not_hidden; eauto; [apply known_utility; eauto|]. intros q Hin. apply Hqk. auto.
  - set (H := hidden_in V (net_deps n) (map (obs n) ev') (map vv query)) in *.
    destruct (rest_constant ev ev' query uts occurs Fa f rel Hr Hv Hp Hrel) as [Hc1 Hc2]. fold H in Hc1, Hc2.
    exists (volume (rest n ev' (inner f) H)). split; [auto|]. split; [auto|].
    intros s Hs. symmetry. eapply result_value; eauto.
Qed.

Lemma evidence_hidden ig ev ev' query vs fs : created n (ev_ign ig ev) vs fs -> complete n -> valid_observations n ev -> Permutation ev ev' ->
  forall h, In h (hidden_in V (net_deps n) (map (obs n) ev') query) -> exists f, In f (prob_factors fs) /\ In h (f_vars f).
Proof.
  intros Hcr Hco Hv Hp. apply (hidden_covered n Hwf ig ev vs fs Hcr); auto. intros x. eapply ignored_evidence; eauto.
Qed.

Lemma query_result sc t ig ev ev' vs fs query : created n (ev_ign ig ev) vs fs -> complete n -> Permutation ev ev' -> valid_observations n ev ->
  exists s' f, ve_solve_query sc (ve_new t vs fs (net_deps n) (finite_weights (weights n))) (map (obs n) ev') (map vv query) = Ok (s', f) /\
    vs_vars (ve_vs s') = V /\
    solver_result ev' query [] (fun v => exists g, In g (prob_factors fs) /\ In v (f_vars g)) (weight_of (prob_factors fs)) f.
Proof.
  intros Hcr Hco Hp Hv. pose proof (perm_observations n _ _ Hp Hv) as Hv'.
  destruct (problem_V n ig ev vs fs Hcr) as [Hpb HV].
  destruct (solve_query_exact sc t vs fs (net_deps n) (finite_weights (weights n)) (map (obs n) ev') (map vv query)) as (s' & f & E & Hw & Hi & Hsc & Hfr & _ & Hval); auto.
  - rewrite HV. apply (obs_valid n Hwf). auto.
  - rewrite HV. eapply evidence_hidden; eauto.
  - rewrite HV in *. exists s', f. split; auto. split; [rewrite (fr_vars _ _ Hfr); auto|]. split; auto.
    + intros v Hin Ht. exfalso. apply Hsc in Hin; [|apply Hi; auto]. destruct Hin as ((g & Hg & Hgv) & _). apply filter_In in Hg. destruct Hg as [_ Hu]. apply negb_true_iff in Hu. apply not_true_iff_false in Hu. apply Hu.
      apply existsb_exists. exists v. split; auto. rewrite Ht. reflexivity.
    + eapply evidence_hidden; eauto.
    + apply weight_proper.
    + intros v Hin Hty Hn. apply weight_ignores. intros g Hg Hc. apply Hn. exists g. split; auto. apply in_map_iff in Hc. destruct Hc as (u & E1 & Hu).
      replace v with u; auto. apply (wf_vars_inj V); auto; [apply net_vars_wf|]. apply filter_In in Hg. rewrite <- HV. apply (vp_factors _ _ _ Hpb g); tauto.
Qed.

(** ** Utilities *)
Lemma created_util ig ev vs fs : created n (ev_ign ig ev) vs fs -> Forall2 (became n) (utility_tables n) (utility_factors fs).
Proof.
  intros Hcr. destruct (cr_split _ _ _ _ Hcr) as (tfs & pfs & pols & -> & Ht & Hp & Hb).
  unfold utility_factors. rewrite filter_app.
  assert (E : filter is_utility_factor pfs = []).
  { assert (G : forall g, In g pfs -> is_utility_factor g = false).
    { intros g Hg. destruct (Forall2_in_r _ _ _ _ Hb Hg) as ([d p] & Hd & Hdp). eapply (pol_no_utility n Hwf); eauto.
      apply (Permutation_in _ Hp) in Hd. apply filter_In in Hd. tauto. }
    clear - G. induction pfs; simpl; auto. rewrite (G a) by (simpl; auto). apply IHpfs. intros; apply G; simpl; auto. }
  rewrite E, app_nil_r, <- (util_tables n). apply Forall2_filter; auto.
  intros f g Hf Hfg. apply (became_utility n Hwf); auto.
Qed.

Lemma utility_table_in f : In f (utility_tables n) -> In f (n_factors n) /\ is_total n (nf_for f) = false /\ kind vars (nf_for f) = Some Utility /\ wf_table n f.
Proof.
  intros H. apply filter_In in H. destruct H as [H1 H2]. apply andb_true_iff in H2. destruct H2 as [H2 H3]. apply negb_true_iff in H2.
  split; auto. split; auto. split; [destruct (kind vars (nf_for f)) as [[]|]; auto; discriminate|apply (wn_tables n Hwf); auto].
Qed.

Lemma became_weight f g : In f (utility_tables n) -> became n f g -> utility_weight V (weights n) g = net_weight n (nf_for f).
Proof.
  intros Hf (Hw & Hvs & _). destruct (utility_table_in f Hf) as (Hin & Ht & Hk & Hwt). unfold utility_weight, weights.
  destruct (n_tui n <? 0) eqn:E0; [unfold net_weight, total_factor; rewrite E0; auto|].
  rewrite (utilities_net n Hwf).
  assert (Hks : forall x, In x (nf_given f ++ [nf_for f]) -> known x) by (apply (table_names n); auto).
  assert (Hkn : known (nf_for f)) by (apply Hks; apply in_app_iff; simpl; auto).
  assert (Hun : forall u, In u (utility_nodes n) -> known (nv_name u) /\ kind vars (nv_name u) = Some Utility).
  { intros u Hu. unfold utility_nodes in Hu. apply in_map_iff in Hu. destruct Hu as ([i v] & <- & Hu). apply filter_In in Hu. destruct Hu as [Hu Hc].
    apply andb_true_iff in Hc. destruct Hc as [Hc1 Hc2]. cbn [fst snd] in *. apply in_numbered in Hu. destruct Hu as (k & -> & Hi).
    destruct (vv_of_entry n Hwf k v Hi) as [Hkv _]; [apply negb_true_iff, Z.eqb_neq in Hc1; auto|]. split; auto.
    unfold kind. rewrite (proj2 (var_named_in n Hwf (nv_name v) v)); [|split; auto; eapply nth_error_In; eauto]. simpl. f_equal. apply nodeType_eqb_spec. auto. }
  set (p := fun u => contains_var (f_vars g) u).
  assert (Hp : forall u, In u (utility_nodes n) -> (p (vv (nv_name u)) = true <-> nv_name u = nf_for f)).
  { intros u Hu. destruct (Hun u Hu) as [Hku Hutil]. unfold p, contains_var. rewrite existsb_exists, Hvs. split.
    - intros (w & Hw0 & E). unfold tvars in Hw0. apply in_map_iff in Hw0. destruct Hw0 as (x & <- & Hx). apply var_eqb_spec in E. apply (f_equal v_id) in E.
      apply (vv_inj n Hwf) in E; auto. subst x. apply in_app_iff in Hx. destruct Hx as [Hx|[Hx|[]]]; auto.
      exfalso. apply (wt_parents n f Hwt (nv_name u)); auto.
    - intros E. exists (vv (nf_for f)). split; [unfold tvars; apply in_map; apply in_app_iff; simpl; auto|]. rewrite E. apply var_eqb_spec. auto. }
  assert (Hex : exists u, In u (utility_nodes n) /\ nv_name u = nf_for f).
  { destruct Hkn as [Ht' (v & Hv)]. pose proof Hv as Hv'. apply (var_named_in n Hwf) in Hv'. destruct Hv' as [Hvin Hvn]. exists v. split; auto.
    apply In_nth_error in Hvin. destruct Hvin as (i & Hi). unfold utility_nodes. apply in_map_iff. exists (Z.of_nat i, v). split; auto. apply filter_In. split.
    - apply in_numbered. eauto.
    - cbn [fst snd]. rewrite <- (is_total_spec n Hwf i v Hi), Hvn, Ht. unfold kind in Hk. rewrite Hv in Hk. simpl in Hk. assert (Hty : nv_type v = Utility) by congruence. rewrite Hty. reflexivity. }
  destruct (index_func_spec p (map (fun v => vv (nv_name v)) (utility_nodes n))) as [[_ H]|(k & x & E & Hk0 & Hx & _)].
  { destruct Hex as (u & Hu & En). specialize (H (vv (nv_name u))). rewrite (proj2 (Hp u Hu) En) in H. discriminate H. apply in_map_iff. eauto. }
  match goal with |- context [index_func ?q ?l] => change (index_func q l) with (index_func p l) end. rewrite E, Nat2Z.id. rewrite nth_error_map in Hk0. destruct (nth_error (utility_nodes n) k) as [u|] eqn:Eu; [|discriminate].
  simpl in Hk0. inversion Hk0; subst x. apply Hp in Hx; [|eapply nth_error_In; eauto].
  rewrite (nth_error_nth _ _ _ (map_nth_error (fun u => net_weight n (nv_name u)) _ _ Eu)). congruence.
Qed.

Lemma total_utility_of ig ev vs fs a : created n (ev_ign ig ev) vs fs -> in_range V a ->
  total_utility V (weights n) fs a = utility_of n (by_name a).
Proof.
  intros Hcr Ha. unfold total_utility, utility_of. symmetry.
  pose proof (created_util ig ev vs fs Hcr) as HF2.
  assert (Hgi : forall g, In g (utility_factors fs) -> incl (f_vars g) V).
  { intros g Hg. apply filter_In in Hg. destruct Hg as [Hg _]. pose proof (vp_factors _ _ _ (cr_problem _ _ _ _ Hcr) g Hg) as (_ & _ & Hi & _). rewrite (cr_vars _ _ _ _ Hcr) in Hi. auto. }
  assert (G : forall L M, incl L (utility_tables n) -> incl M (utility_factors fs) -> Forall2 (became n) L M ->
    qsum (map (fun f => net_weight n (nf_for f) * entry vars f (by_name a))%Qc L) = qsum (map (fun f => utility_weight V (weights n) f * value f a)%Qc M)).
  { intros L M HL HM HLM. induction HLM as [|f g L M Hfg HLM IH]; auto. simpl.
    change (fold_right Qcplus 0%Qc) with qsum. rewrite IH; [|intros z Hz; apply HL; simpl; auto|intros z Hz; apply HM; simpl; auto]. f_equal.
    rewrite (became_weight f g); auto; [|apply HL; simpl; auto]. f_equal. destruct Hfg as (Hw & Hvs & Hd).
    rewrite (denotes_value g _ a Hd).
    - unfold table_value. destruct (utility_table_in f) as (_ & _ & -> & _); [apply HL; simpl; auto|]. auto.
    - eapply in_range_incl; [|apply Ha]. apply Hgi. apply HM. simpl; auto. }
  apply G; auto; apply incl_refl.
Qed.

Lemma total_single T : proper T -> forall U a, (forall u, In u U -> v_outcomes u = 1%nat /\ a (v_id u) = 0%nat) -> total T U a = T a.
Proof.
  intros HT. induction U as [|u U IH]; intros a H; [apply total_nil|]. rewrite total_cons. destruct (H u (or_introl eq_refl)) as [-> H0].
  assert (E : asg_eq (upd a (v_id u) 0%nat) a) by (intros y; rewrite <- H0; apply upd_self).
  simpl. rewrite (total_proper T U HT _ _ E), IH by (intros; apply H; simpl; auto). ring.
Qed.

Definition util_integrand (fs : list (factor xnum)) (a : asg) : Qc :=
  (weight_of (prob_factors fs) a * total (total_utility V (weights n) fs) (utilities_of V) a)%Qc.

Lemma utilities_V u : In u (utilities_of V) <-> In u V /\ v_type u = Utility.
Proof. unfold utilities_of. rewrite filter_In. rewrite nodeType_eqb_spec. tauto. Qed.

Lemma plain_vv x : plain_utilities n -> known x -> v_type (vv x) = Utility ->
  v_outcomes (vv x) = 1%nat /\ exists f, In f (utility_tables n) /\ nf_for f = x.
Proof.
  intros Hpl Hk Hu. pose proof Hu as Hu'. apply (vv_utility n Hwf) in Hu'; auto. destruct (vv_outcomes n Hwf x Hk) as [-> _].
  destruct Hk as [Ht (v & Hv)]. unfold kind in Hu'. rewrite Hv in Hu'. simpl in Hu'. pose proof Hv as Hv'. apply (var_named_in n Hwf) in Hv'. destruct Hv' as [Hin Hn].
  destruct (Hpl v Hin) as [H1 (f & Hf & Hff)]; [congruence|congruence|]. unfold num_outcomes. rewrite Hv. split; auto.
  exists f. split; [|congruence]. apply filter_In. split; auto. rewrite Hff, Hn, Ht. unfold kind. rewrite Hv. simpl. replace (nv_type v) with Utility by congruence. auto.
Qed.

Lemma util_matches ig ev vs fs : created n (ev_ign ig ev) vs fs -> plain_utilities n ->
  matches (util_integrand fs) (fun s => joint n (ignored_by ig ev) s * utility_of n s)%Qc.
Proof.
  intros Hcr Hpl a Ha Hz. unfold util_integrand. rewrite (weight_joint n Hwf ig ev vs fs Hcr) by auto. f_equal.
  rewrite total_single.
  - eapply total_utility_of; eauto.
  - intros x y E. unfold total_utility. apply qsum_ext. intros f _. f_equal. apply value_proper. auto.
  - intros u Hu. apply utilities_V in Hu. destruct Hu as [Hu Ht]. split; auto.
    destruct (vv_surj n Hwf u Hu) as (x & Hk & ->). apply plain_vv; auto.
Qed.

Lemma utility_of_proper : nproper (utility_of n).
Proof. intros s s' E. unfold utility_of. apply qsum_ext. intros f _. f_equal. apply entry_proper. auto. Qed.

Lemma utility_result sc t ig ev ev' vs fs query : created n (ev_ign ig ev) vs fs -> complete n -> plain_utilities n -> some_utility n ->
  Permutation ev ev' -> valid_observations n ev ->
  exists s' f, ve_solve_utility sc (ve_new t vs fs (net_deps n) (finite_weights (weights n))) (map (obs n) ev') (map vv query) None = Ok (s', f) /\
    vs_vars (ve_vs s') = V /\
    solver_result ev' query [] (fun v => exists g, In g fs /\ In v (f_vars g)) (util_integrand fs) f.
Proof.
  intros Hcr Hco Hpl Hsome Hp Hv. pose proof (perm_observations n _ _ Hp Hv) as Hv'.
  destruct (problem_V n ig ev vs fs Hcr) as [Hpb HV].
  assert (Hcov : forall h, In h (utilities_of V ++ hidden_in V (net_deps n) (map (obs n) ev') (map vv query)) -> exists f, In f fs /\ In h (f_vars f)).
  { intros h Hh. apply in_app_iff in Hh. destruct Hh as [Hh|Hh].
    - apply utilities_V in Hh. destruct Hh as [Hh Ht]. destruct (vv_surj n Hwf h Hh) as (x & Hk & ->).
      destruct (plain_vv x Hpl Hk Ht) as (_ & f & Hf & <-). destruct (Forall2_in_l _ _ _ _ (created_util ig ev vs fs Hcr) Hf) as (g & Hg & _ & Hvs & _).
      exists g. split; [apply filter_In in Hg; tauto|]. rewrite Hvs. unfold tvars. apply in_map. apply in_app_iff. simpl; auto.
    - destruct (evidence_hidden ig ev ev' (map vv query) vs fs Hcr Hco Hv Hp h Hh) as (f & Hf & Hin). exists f. split; auto. apply filter_In in Hf. tauto. }
  destruct (solve_utility_exact sc t vs fs (net_deps n) (weights n) (map (obs n) ev') (map vv query)) as (s' & f & E & Hw & Hi & Hsc & Hfr & _ & Hval); auto.
  - rewrite HV. apply (obs_valid n Hwf). auto.
  - rewrite HV. destruct Hsome as (v & Hin & Hu & Ht). intros E. assert (Hk : known (nv_name v)) by (split; auto; exists v; apply (var_named_in n Hwf); auto).
    assert (Hx : In (vv (nv_name v)) (utilities_of V)); [|rewrite E in Hx; destruct Hx]. apply utilities_V. split; [apply vv_in; auto|].
    apply (vv_utility n Hwf); auto. unfold kind. rewrite (proj2 (var_named_in n Hwf (nv_name v) v)) by auto. simpl. congruence.
  - rewrite HV, (utilities_net n Hwf). unfold weights. destruct (n_tui n <? 0); auto. rewrite !map_length. auto.
  - rewrite HV. auto.
  - rewrite HV in *. exists s', f. split; auto. split; [rewrite (fr_vars _ _ Hfr); auto|]. split; auto.
    + intros v Hin Hu. rewrite Hsc by auto. tauto.
    + intros v Hin Ht. exfalso. apply Hsc in Hin; [|apply Hi; auto]. tauto.
    + intros h Hh. apply Hcov. apply in_app_iff. auto.
    + intros a b Eab. unfold util_integrand. rewrite (weight_proper (prob_factors fs) a b Eab). f_equal. apply total_proper; auto.
      intros x y Exy. unfold total_utility. apply qsum_ext. intros g _. f_equal. apply value_proper. auto.
    + intros v Hin Hty Hn.
      assert (Hno : forall g, In g fs -> ~ In (v_id v) (map v_id (f_vars g))).
      { intros g Hg Hc. apply Hn. exists g. split; auto. apply in_map_iff in Hc. destruct Hc as (u & E1 & Hu).
        replace v with u; auto. apply (wf_vars_inj V); auto; [apply net_vars_wf|]. rewrite <- HV. apply (vp_factors _ _ _ Hpb g); auto. }
      assert (Hpt : proper (total_utility V (weights n) fs)) by (intros x y Exy; unfold total_utility; apply qsum_ext; intros g _; f_equal; apply value_proper; auto).
      intros a k. unfold util_integrand. rewrite (weight_ignores (prob_factors fs) (v_id v)).
      2:{ intros g Hg. apply Hno. apply filter_In in Hg. tauto. }
      f_equal. rewrite total_upd; auto.
      * apply total_ext. intros w _. unfold total_utility. apply qsum_ext. intros g Hg. f_equal. apply value_ignores. apply Hno. apply filter_In in Hg. tauto.
      * intros H. apply in_map_iff in H. destruct H as (u & Eu & Hu). apply utilities_V in Hu. destruct Hu as [Hu Ht]. apply Hty. rewrite <- Ht. f_equal.
        apply (wf_vars_inj V); auto. apply net_vars_wf.
Qed.

Lemma occurs_mentioned ig ev vs fs x : created n (ev_ign ig ev) vs fs -> known x ->
  ((exists g, In g fs /\ In (vv x) (f_vars g)) <-> relevant n (ignored_by ig ev) x).
Proof.
  intros Hcr Hk. unfold relevant. rewrite <- (scope_mentioned n Hwf ig ev vs fs Hcr x Hk). split.
  - intros (g & Hg & Hx). destruct (is_utility_factor g) eqn:Eu.
    + right. assert (Hgu : In g (utility_factors fs)) by (apply filter_In; auto).
      destruct (Forall2_in_r _ _ _ _ (created_util ig ev vs fs Hcr) Hgu) as (f & Hf & _ & Hvs & _). exists f. split; auto.
      rewrite Hvs in Hx. unfold tvars in Hx. apply in_map_iff in Hx. destruct Hx as (y & E & Hy). replace x with y; auto. apply (vv_inj n Hwf); auto; [|congruence].
      destruct (utility_table_in f Hf) as (_ & Ht & _ & Hwt). apply (table_names n f); auto.
    + left. exists g. split; auto. apply filter_In. rewrite Eu. auto.
  - intros [(g & Hg & Hx)|(f & Hf & Hx)].
    + exists g. split; auto. apply filter_In in Hg. tauto.
    + destruct (Forall2_in_l _ _ _ _ (created_util ig ev vs fs Hcr) Hf) as (g & Hg & _ & Hvs & _). exists g. split; [apply filter_In in Hg; tauto|].
      rewrite Hvs. unfold tvars. apply in_map. auto.
Qed.

Lemma product_proper (F G : nstate -> Qc) : nproper F -> nproper G -> nproper (fun s => F s * G s)%Qc.
Proof. intros H1 H2 s s' E. rewrite (H1 s s' E), (H2 s s' E). auto. Qed.

(** ** One utility node *)
Lemma without_other (fs : list (factor xnum)) u g : In g fs -> incl (f_vars g) V -> In u V -> v_type u = Utility ->
  (In g (factors_without_other_utilities u fs) <-> is_utility_factor g = false \/ (forall v, In v (f_vars g) -> v_type v = Utility -> v = u)).
Proof.
  intros Hg Hi Hu Ht. unfold factors_without_other_utilities. rewrite filter_In, forallb_forall. split.
  - intros [_ H]. right. intros v Hv Hty. specialize (H v Hv). rewrite Hty in H. simpl in H. apply Z.eqb_eq in H. apply (wf_vars_inj V); auto. apply net_vars_wf.
  - intros H. split; auto. intros v Hv. destruct (nodeType_eqb (v_type v) Utility) eqn:E; auto. simpl. apply Z.eqb_eq. destruct H as [H|H].
    + exfalso. apply not_true_iff_false in H. apply H. apply existsb_exists. eauto.
    + apply nodeType_eqb_spec in E. f_equal. auto.
Qed.

Lemma without_split (fs : list (factor xnum)) u : (forall g, In g fs -> incl (f_vars g) V) -> In u V -> v_type u = Utility -> forall a,
  weight_of (factors_without_other_utilities u fs) a =
  (weight_of (prob_factors fs) a * weight_of (factors_without_other_utilities u (utility_factors fs)) a)%Qc.
Proof.
  intros Hi Hu Ht a. unfold weight_of, factors_without_other_utilities, prob_factors, utility_factors. induction fs as [|g fs IH]; [simpl; ring|].
  simpl. specialize (IH (fun g Hg => Hi g (or_intror Hg))).
  destruct (is_utility_factor g) eqn:Eu; simpl.
  - destruct (forallb (fun v => negb (nodeType_eqb (v_type v) Utility) || (v_id v =? v_id u)) (f_vars g)) eqn:Ef; simpl; auto. rewrite IH. ring.
  - assert (Ef : forallb (fun v => negb (nodeType_eqb (v_type v) Utility) || (v_id v =? v_id u)) (f_vars g) = true).
    { apply forallb_forall. intros v Hv. destruct (nodeType_eqb (v_type v) Utility) eqn:E; auto. exfalso. apply not_true_iff_false in Eu. apply Eu.
      apply existsb_exists. eauto. }
    rewrite Ef. simpl. rewrite IH. ring.
Qed.

Lemma became_own f (g : factor xnum) u : In f (utility_tables n) -> became n f g -> known u -> v_type (vv u) = Utility ->
  String.eqb (nf_for f) u = forallb (fun v => negb (nodeType_eqb (v_type v) Utility) || (v_id v =? v_id (vv u))) (f_vars g).
Proof.
  intros Hf (_ & Hvs & _) Hk Hu. destruct (utility_table_in f Hf) as (_ & Ht & Hkf & Hwt). pose proof (table_names n f Ht Hwt) as Hks.
  assert (Hfor : known (nf_for f)) by (apply Hks; apply in_app_iff; simpl; auto).
  rewrite Hvs. apply eq_true_iff_eq. rewrite String.eqb_eq, forallb_forall. split.
  - intros E v Hv. apply in_map_iff in Hv. destruct Hv as (x & <- & Hx). pose proof (Hks x Hx) as Hkx. apply in_app_iff in Hx. destruct Hx as [Hx|[<-|[]]].
    + pose proof (wt_parents n f Hwt x Hx) as Hp. apply orb_true_iff. left. apply negb_true_iff. apply not_true_iff_false. intros E1. apply nodeType_eqb_spec in E1.
      apply Hp. apply (vv_utility n Hwf); auto.
    + rewrite E, Z.eqb_refl. apply orb_true_r.
  - intros H. specialize (H (vv (nf_for f))). assert (E : v_type (vv (nf_for f)) = Utility) by (apply (vv_utility n Hwf); auto). rewrite E in H. simpl in H.
    apply (vv_inj n Hwf); auto. apply Z.eqb_eq. apply H. apply in_map. apply in_app_iff. simpl; auto.
Qed.

Lemma own_filter (u : string) (L : list (nfactor xnum)) (M : list (factor xnum)) : known u -> v_type (vv u) = Utility -> incl L (utility_tables n) -> Forall2 (became n) L M ->
  Forall2 (became n) (filter (fun f => String.eqb (nf_for f) u) L) (factors_without_other_utilities (vv u) M).
Proof.
  intros Hk Hu HL H. unfold factors_without_other_utilities. apply Forall2_filter; auto. intros f g Hf Hfg. apply became_own; auto.
Qed.

Lemma in_prob_without (fs : list (factor xnum)) u g : In g fs -> is_utility_factor g = false -> In g (factors_without_other_utilities u fs).
Proof.
  intros Hg Hu. apply filter_In. split; auto. apply forallb_forall. intros v Hv. destruct (nodeType_eqb (v_type v) Utility) eqn:E; auto.
  exfalso. apply not_true_iff_false in Hu. apply Hu. apply existsb_exists. eauto.
Qed.

Lemma one_utility_result sc t ig ev ev' vs fs query u : created n (ev_ign ig ev) vs fs -> complete n -> known u -> v_type (vv u) = Utility -> v_outcomes (vv u) = 1%nat ->
  Permutation ev ev' -> valid_observations n ev ->
  exists s' f, ve_solve_utility sc (ve_new t vs fs (net_deps n) (finite_weights (weights n))) (map (obs n) ev') (map vv query) (Some (vv u)) = Ok (s', f) /\
    vs_vars (ve_vs s') = V /\
    solver_result ev' query [u] (fun v => exists g, In g (factors_without_other_utilities (vv u) fs) /\ In v (f_vars g)) (weight_of (factors_without_other_utilities (vv u) fs)) f.
Proof.
  intros Hcr Hco Hk Hu Hone Hp Hv. pose proof (perm_observations n _ _ Hp Hv) as Hv'.
  destruct (problem_V n ig ev vs fs Hcr) as [Hpb HV].
  assert (Hfi : forall g, In g fs -> incl (f_vars g) V) by (intros g Hg; rewrite <- HV; apply (vp_factors _ _ _ Hpb g Hg)).
  assert (Hcov : forall h, In h (hidden_in V (net_deps n) (map (obs n) ev') (map vv query)) -> exists f, In f (factors_without_other_utilities (vv u) fs) /\ In h (f_vars f)).
  { intros h Hh. destruct (evidence_hidden ig ev ev' (map vv query) vs fs Hcr Hco Hv Hp h Hh) as (f & Hf & Hin). exists f. split; auto.
    apply filter_In in Hf. destruct Hf as [Hf Hn]. apply negb_true_iff in Hn. apply in_prob_without; auto. }
  destruct (solve_one_utility_exact sc t vs fs (net_deps n) (finite_weights (weights n)) (map (obs n) ev') (map vv query) (vv u)) as (s' & f & E & Hw & Hi & Hsc & Hfr & _ & Hval); auto.
  - rewrite HV. apply (obs_valid n Hwf). auto.
  - rewrite HV. auto.
  - rewrite HV in *. exists s', f. split; auto. split; [rewrite (fr_vars _ _ Hfr); auto|]. split; auto.
    + intros v Hin Ht. pose proof (Hi v Hin) as HvV. apply Hsc in Hin; auto. destruct Hin as ((g & Hg & Hgv) & _).
      assert (v = vv u).
      { pose proof Hg as Hg'. apply filter_In in Hg'. destruct Hg' as [Hg' _]. apply (without_other fs (vv u) g Hg' (Hfi g Hg') (vv_in n Hwf u Hk) Hu) in Hg. destruct Hg as [Hg|Hg]; auto.
        exfalso. apply not_true_iff_false in Hg. apply Hg. apply existsb_exists. exists v. split; auto. rewrite Ht. reflexivity. }
      subst v. split; auto. split; eauto. exists u. simpl. auto.
    + apply weight_proper.
    + intros v Hin Hty Hn. apply weight_ignores. intros g Hg Hc. apply Hn. exists g. split; auto. apply in_map_iff in Hc. destruct Hc as (w & E1 & Hw1).
      replace v with w; auto. apply (wf_vars_inj V); auto; [apply net_vars_wf|]. apply filter_In in Hg. apply (Hfi g); tauto.
Qed.

Lemma one_matches ig ev vs fs u : created n (ev_ign ig ev) vs fs -> known u -> v_type (vv u) = Utility ->
  matches (weight_of (factors_without_other_utilities (vv u) fs)) (fun s => joint n (ignored_by ig ev) s * one_utility n u s)%Qc.
Proof.
  intros Hcr Hk Hu a Ha Hz. destruct (problem_V n ig ev vs fs Hcr) as [Hpb HV].
  assert (Hfi : forall g, In g fs -> incl (f_vars g) V) by (intros g Hg; rewrite <- HV; apply (vp_factors _ _ _ Hpb g Hg)).
  rewrite without_split; auto; [|apply vv_in; auto]. rewrite (weight_joint n Hwf ig ev vs fs Hcr) by auto. f_equal.
  unfold one_utility, weight_of. symmetry.
  pose proof (own_filter u _ _ Hk Hu (incl_refl _) (created_util ig ev vs fs Hcr)) as HF2.
  assert (G : forall L M, incl L (utility_tables n) -> incl M fs -> Forall2 (became n) L M ->
    qprod (map (fun f => entry vars f (by_name a)) L) = qprod (map (fun f => value f a) M)).
  { intros L M HL HM HLM. induction HLM as [|f g L M Hfg HLM IH]; auto. simpl.
    change (fold_right Qcmult 1%Qc) with qprod. rewrite IH; [|intros z Hz0; apply HL; simpl; auto|intros z Hz0; apply HM; simpl; auto]. f_equal.
    destruct Hfg as (Hw & Hvs & Hd). rewrite (denotes_value g _ a Hd).
    - unfold table_value. destruct (utility_table_in f) as (_ & _ & -> & _); [apply HL; simpl; auto|]. auto.
    - eapply in_range_incl; [|apply Ha]. apply Hfi. apply HM. simpl; auto. }
  apply G; auto.
  - intros f Hf. apply filter_In in Hf. tauto.
  - intros f Hf. apply filter_In in Hf. destruct Hf as [Hf _]. apply filter_In in Hf. tauto.
Qed.

Lemma one_occurs ig ev vs fs u x : created n (ev_ign ig ev) vs fs -> known u -> v_type (vv u) = Utility -> known x ->
  ((exists g, In g (factors_without_other_utilities (vv u) fs) /\ In (vv x) (f_vars g)) <-> relevant_to n (ignored_by ig ev) u x).
Proof.
  intros Hcr Hku Hu Hk. unfold relevant_to. rewrite <- (scope_mentioned n Hwf ig ev vs fs Hcr x Hk).
  pose proof (own_filter u _ _ Hku Hu (incl_refl _) (created_util ig ev vs fs Hcr)) as HF2. split.
  - intros (g & Hg & Hx). destruct (is_utility_factor g) eqn:Eu.
    + right. assert (Hgu : In g (factors_without_other_utilities (vv u) (utility_factors fs))).
      { apply filter_In in Hg. destruct Hg as [Hg Hc]. apply filter_In. split; auto. apply filter_In. auto. }
      destruct (Forall2_in_r _ _ _ _ HF2 Hgu) as (f & Hf & _ & Hvs & _). apply filter_In in Hf. destruct Hf as [Hf Hfu]. apply String.eqb_eq in Hfu.
      exists f. split; auto. split; auto.
      rewrite Hvs in Hx. unfold tvars in Hx. apply in_map_iff in Hx. destruct Hx as (y & E & Hy). replace x with y; auto. apply (vv_inj n Hwf); auto; [|congruence].
      destruct (utility_table_in f Hf) as (_ & Ht & _ & Hwt). apply (table_names n f); auto.
    + left. exists g. split; auto. apply filter_In. rewrite Eu. apply filter_In in Hg. tauto.
  - intros [(g & Hg & Hx)|(f & Hf & Hfu & Hx)].
    + exists g. split; auto. apply filter_In in Hg. destruct Hg as [Hg Hn]. apply negb_true_iff in Hn. apply in_prob_without; auto.
    + destruct (Forall2_in_l _ _ _ f HF2) as (g & Hg & _ & Hvs & _); [apply filter_In; split; auto; apply String.eqb_eq; auto|].
      exists g. split; [|rewrite Hvs; unfold tvars; apply in_map; auto]. apply filter_In in Hg. destruct Hg as [Hg Hc]. apply filter_In. split; auto. apply filter_In in Hg. tauto.
Qed.

(** ** Any order of the evidence *)
Lemma plug_perm e1 e2 a : NoDup (map (fun e => v_id (ev_var e)) e1) -> Permutation e1 e2 -> asg_eq (plug e1 a) (plug e2 a).
Proof.
  intros Hd Hp y. assert (Hd2 : NoDup (map (fun e => v_id (ev_var e)) e2)) by (eapply Permutation_NoDup; [apply Permutation_map|]; eauto).
  destruct (existsb (fun e => v_id (ev_var e) =? y) e1) eqn:E.
  - apply existsb_exists in E. destruct E as (e & He & Ey). apply Z.eqb_eq in Ey. subst y. rewrite !plug_in; auto. eapply Permutation_in; eauto.
  - assert (Hno : forall e, In e e1 -> v_id (ev_var e) <> y).
    { intros e He Ey. apply not_true_iff_false in E. apply E. apply existsb_exists. exists e. split; auto. apply Z.eqb_eq. auto. }
    rewrite !plug_other; auto. intros e He. apply Hno. apply (Permutation_in _ (Permutation_sym Hp)). auto.
Qed.

Lemma is_evidence_perm e1 e2 v : Permutation e1 e2 -> is_evidence e1 v = is_evidence e2 v.
Proof.
  intros Hp. unfold is_evidence. apply eq_true_iff_eq. rewrite !existsb_exists. split; intros (e & He & E); exists e; split; auto.
  - eapply Permutation_in; eauto.
  - eapply Permutation_in; [apply Permutation_sym|]; eauto.
Qed.

Lemma solver_result_perm ev ev' query uts occurs Fa f : Permutation ev ev' -> valid_observations n ev -> solver_result ev' query uts occurs Fa f -> solver_result ev query uts occurs Fa f.
Proof.
  intros Hp Hv Hr. assert (Hp' : Permutation (map (obs n) ev) (map (obs n) ev')) by (apply Permutation_map; auto).
  assert (EH : hidden_in V (net_deps n) (map (obs n) ev) (map vv query) = hidden_in V (net_deps n) (map (obs n) ev') (map vv query)).
  { unfold hidden_in. apply filter_ext. intros v. rewrite (is_evidence_perm _ _ v Hp'). auto. }
  split; try apply Hr; rewrite ?EH.
  - intros v H1 H2. rewrite (is_evidence_perm _ _ v Hp'). apply (sr_scope _ _ _ _ _ _ Hr); auto.
  - apply (sr_covered _ _ _ _ _ _ Hr).
  - intros a Ha. rewrite (sr_value _ _ _ _ _ _ Hr a Ha). do 2 f_equal. apply total_proper; [apply Hr|].
    intros y. symmetry. apply plug_perm; auto. apply (obs_nodup n Hwf). auto.
Qed.

(** ** The calls *)
Definition with_state (s : vestate xnum) : network xnum := with_solver n (Some s) (name_map (entries n)).

Theorem solve_query_raw sc ig ev query : complete n -> valid_observations n ev -> valid_query n query ->
  exists s f vs fs, net_solve sc n ev query false "" ig = (with_state s, Ok f) /\ vs_vars (ve_vs s) = V /\ created n (ev_ign ig ev) vs fs /\
    solver_result ev query [] (fun v => exists g, In g (prob_factors fs) /\ In v (f_vars g)) (weight_of (prob_factors fs)) f.
Proof.
  intros Hco Hv Hq. unfold net_solve, assign_ve. fold (ev_ign ig ev).
  destruct (to_ve_ok n Hwf sc 0 (ev_ign ig ev)) as (vs & fs & E & Hcr). rewrite E.
  unfold solve_names. cbn [ve_tick ve_new].
  set (ev' := shuffle sc 1 ev). assert (Hp : Permutation ev ev') by apply shuffle_perm.
  rewrite (evidence_ok n Hwf) by (eapply perm_observations; eauto). cbn [gbind].
  rewrite (query_ok n Hwf) by (intros q Hin; apply (query_known query Hq q Hin)). cbn [gbind].
  change (with_tick (ve_new 1 vs fs (net_deps n) (finite_weights (weights n))) 2) with (ve_new 2 vs fs (net_deps n) (finite_weights (weights n))).
  destruct (query_result sc 2 ig ev ev' vs fs query Hcr Hco Hp Hv) as (s' & f & Es & HV & Hr). rewrite Es.
  exists s', f, vs, fs. split; [reflexivity|]. split; auto. split; auto. eapply solver_result_perm; eauto.
Qed.

Theorem solve_utility_raw sc ig ev query : complete n -> plain_utilities n -> some_utility n -> valid_observations n ev -> valid_query n query ->
  exists s f vs fs, net_solve_utility sc n ev query "" ig = (with_state s, Ok f) /\ vs_vars (ve_vs s) = V /\ created n (ev_ign ig ev) vs fs /\
    solver_result ev query [] (fun v => exists g, In g fs /\ In v (f_vars g)) (util_integrand fs) f.
Proof.
  intros Hco Hpl Hsome Hv Hq. unfold net_solve_utility, net_solve, assign_ve. fold (ev_ign ig ev).
  destruct (to_ve_ok n Hwf sc 0 (ev_ign ig ev)) as (vs & fs & E & Hcr). rewrite E.
  unfold solve_names. cbn [ve_tick ve_new].
  set (ev' := shuffle sc 1 ev). assert (Hp : Permutation ev ev') by apply shuffle_perm.
  rewrite (evidence_ok n Hwf) by (eapply perm_observations; eauto). cbn [gbind].
  rewrite (query_ok n Hwf) by (intros q Hin; apply (query_known query Hq q Hin)). cbn [gbind].
  change (with_tick (ve_new 1 vs fs (net_deps n) (finite_weights (weights n))) 2) with (ve_new 2 vs fs (net_deps n) (finite_weights (weights n))).
  change (String.eqb "" "") with true. cbn [gbind].
  destruct (utility_result sc 2 ig ev ev' vs fs query Hcr Hco Hpl Hsome Hp Hv) as (s' & f & Es & HV & Hr). rewrite Es.
  exists s', f, vs, fs. split; [reflexivity|]. split; auto. split; auto. eapply solver_result_perm; eauto.
Qed.

Definition plain_utility (u : string) : Prop := exists v, var_named vars u = Some v /\ nv_type v = Utility /\ is_total n u = false /\ List.length (nv_outcomes v) = 1%nat.

Lemma plain_utility_vv u : plain_utility u -> known u /\ v_type (vv u) = Utility /\ v_outcomes (vv u) = 1%nat /\ u <> "".
Proof.
  intros (v & Hv & Ht & Hto & Ho). assert (Hk : known u) by (split; eauto). split; auto. split; [|split].
  - apply (vv_utility n Hwf); auto. unfold kind. rewrite Hv. simpl. congruence.
  - destruct (vv_outcomes n Hwf u Hk) as [-> _]. unfold num_outcomes. rewrite Hv. auto.
  - apply (var_named_in n Hwf) in Hv. destruct Hv as [Hin <-]. apply (wn_nonempty n Hwf); auto.
Qed.

Theorem solve_one_utility_raw sc ig ev query u : complete n -> plain_utility u -> valid_observations n ev -> valid_query n query ->
  exists s f vs fs, net_solve_utility sc n ev query u ig = (with_state s, Ok f) /\ vs_vars (ve_vs s) = V /\ created n (ev_ign ig ev) vs fs /\
    solver_result ev query [u] (fun v => exists g, In g (factors_without_other_utilities (vv u) fs) /\ In v (f_vars g)) (weight_of (factors_without_other_utilities (vv u) fs)) f.
Proof.
  intros Hco Hpl Hv Hq. destruct (plain_utility_vv u Hpl) as (Hk & Hu & H1 & Hne). unfold net_solve_utility, net_solve, assign_ve. fold (ev_ign ig ev).
  destruct (to_ve_ok n Hwf sc 0 (ev_ign ig ev)) as (vs & fs & E & Hcr). rewrite E.
  unfold solve_names. cbn [ve_tick ve_new].
  set (ev' := shuffle sc 1 ev). assert (Hp : Permutation ev ev') by apply shuffle_perm.
  rewrite (evidence_ok n Hwf) by (eapply perm_observations; eauto). cbn [gbind].
  rewrite (query_ok n Hwf) by (intros q Hin; apply (query_known query Hq q Hin)). cbn [gbind].
  change (with_tick (ve_new 1 vs fs (net_deps n) (finite_weights (weights n))) 2) with (ve_new 2 vs fs (net_deps n) (finite_weights (weights n))).
  replace (String.eqb u "") with false by (symmetry; apply String.eqb_neq; auto).
  destruct (lookup_known n Hwf u Hk) as (i & v & _ & _ & _ & _ & L).
  replace (sget_map (name_map (entries n)) u) with (Some (ve_entry n (Z.of_nat i, v))) by (symmetry; exact L).
  replace (en_ve (ve_entry n (Z.of_nat i, v))) with (vv u) by (unfold NetFactors.vv; rewrite L; auto). cbn [gbind].
  destruct (one_utility_result sc 2 ig ev ev' vs fs query u Hcr Hco Hk Hu H1 Hp Hv) as (s' & f & Es & HV & Hr). rewrite Es.
  exists s', f, vs, fs. split; [reflexivity|]. split; auto. split; auto. eapply solver_result_perm; eauto.
Qed.

Theorem solve_query_factor sc ig ev query : complete n -> valid_observations n ev -> valid_query n query ->
  exists n' f, net_solve sc n ev query false "" ig = (n', Ok f) /\
    result_factor n ev query [] (mentioned n (ignored_by ig ev)) (joint n (ignored_by ig ev)) f.
Proof.
  intros Hco Hv Hq. destruct (solve_query_raw sc ig ev query Hco Hv Hq) as (s & f & vs & fs & E & _ & Hcr & Hr). exists (with_state s), f. split; auto.
  eapply result_ok; eauto.
  - apply joint_proper.
  - intros a Ha _. apply (weight_joint n Hwf ig ev vs fs Hcr); auto.
  - intros x Hk. apply (scope_mentioned n Hwf ig ev vs fs Hcr x Hk).
Qed.

Theorem solve_utility_factor sc ig ev query : complete n -> plain_utilities n -> some_utility n -> valid_observations n ev -> valid_query n query ->
  exists n' f, net_solve_utility sc n ev query "" ig = (n', Ok f) /\
    result_factor n ev query [] (relevant n (ignored_by ig ev)) (fun s => joint n (ignored_by ig ev) s * utility_of n s)%Qc f.
Proof.
  intros Hco Hpl Hso Hv Hq. destruct (solve_utility_raw sc ig ev query Hco Hpl Hso Hv Hq) as (s & f & vs & fs & E & _ & Hcr & Hr). exists (with_state s), f. split; auto.
  eapply result_ok; eauto.
  - apply product_proper; [apply joint_proper|apply utility_of_proper].
  - eapply util_matches; eauto.
  - intros x Hk. eapply occurs_mentioned; eauto.
Qed.

Theorem solve_one_utility_factor sc ig ev query u : complete n -> plain_utility u -> valid_observations n ev -> valid_query n query ->
  exists n' f, net_solve_utility sc n ev query u ig = (n', Ok f) /\
    result_factor n ev query [u] (relevant_to n (ignored_by ig ev) u) (fun s => joint n (ignored_by ig ev) s * one_utility n u s)%Qc f.
Proof.
  intros Hco Hpl Hv Hq. destruct (solve_one_utility_raw sc ig ev query u Hco Hpl Hv Hq) as (s & f & vs & fs & E & _ & Hcr & Hr). exists (with_state s), f. split; auto.
  destruct (plain_utility_vv u Hpl) as (Hk & Hu & H1 & Hne).
  eapply result_ok; eauto.
  - apply product_proper; [apply joint_proper|]. intros s1 s2 E12. unfold one_utility. apply qprod_ext. intros g _. apply entry_proper. auto.
  - eapply one_matches; eauto.
  - intros x Hkx. eapply one_occurs; eauto.
Qed.

(** ** NormalizeUtility *)
Theorem normalize_utility_raw ig ev query uts fu fp vs1 fs1 occ Ga G s1 : valid_observations n ev -> vs_vars (ve_vs s1) = V ->
  created n (ev_ign ig ev) vs1 fs1 -> solver_result ev query [] (fun v => exists g, In g (prob_factors fs1) /\ In v (f_vars g)) (weight_of (prob_factors fs1)) fp ->
  solver_result ev query uts occ Ga fu -> nproper G -> matches Ga (fun s => joint n (ignored_by ig ev) s * G s)%Qc ->
  (forall x, known x -> mentioned n (ignored_by ig ev) x -> occ (vv x)) ->
  exists n2 g, net_normalize_utility (with_state s1) fu fp = Ok (n2, g) /\ wf_factor g /\
    (forall x, In x (factor_names n g) <-> In x (factor_names n fu)) /\
    forall s, proper_state n s ->
      let event := fun s' => agrees vars ev s' && same_on (factor_names n g) s s' in
      let m := mass n (ignored_by ig ev) event in
      (m <> 0%Qc -> get_at g (positions vars s) = Ok (Fin (sum_over n (fun s => joint n (ignored_by ig ev) s * G s)%Qc event / m))) /\
      (nonnegative n -> m = 0%Qc -> get_at g (positions vars s) = Ok NaN).
Proof.
  intros Hv HV Hcr Hrp Hru HG Hmu Hocc. unfold net_normalize_utility, with_state, on_variables. cbn [n_ve with_solver].
  pose proof (sr_incl _ _ _ _ _ _ Hrp) as Hip. pose proof (sr_incl _ _ _ _ _ _ Hru) as Hiu.
  assert (Hfin : finite_factor fp). { apply (finite_of_range n Hwf); auto. intros a Ha. eexists. apply (sr_value _ _ _ _ _ _ Hrp). auto. }
  assert (Hfinu : finite_factor fu). { apply (finite_of_range n Hwf); auto. intros a Ha. eexists. apply (sr_value _ _ _ _ _ _ Hru). auto. }
  destruct (denotes_invert (ve_vs s1) fp (value fp)) as (fi & Ei & _ & Hwi & Hvi & Hati); [apply Hrp|apply finite_denotes; auto|].
  rewrite Ei. cbn [gbind n_ve with_solver with_vs ve_vs].
  destruct (product_at (bump (ve_vs s1)) [fu; fi]) as (g & Eg & _ & Hwg & Hvg & _ & Hatg).
  { constructor; [apply Hru|constructor; auto]. }
  { intros f1 f2 v1 v2 H1 H2 Hv1 Hv2 E. assert (Hall : forall f v, In f [fu; fi] -> In v (f_vars f) -> In v V).
    { intros f v [<-|[<-|[]]] Hin; auto. rewrite Hvi in Hin. auto. }
    apply (wf_vars_inj V); eauto. apply net_vars_wf. }
  rewrite Eg. cbn [gbind]. eexists. exists g. split; [reflexivity|]. split; auto.
  assert (Hig : incl (f_vars g) V).
  { intros v Hin. apply Hvg in Hin. destruct Hin as (f & [<-|[<-|[]]] & Hin); auto. rewrite Hvi in Hin. auto. }
  assert (Hoc2 : forall v, In v V -> (exists g, In g (prob_factors fs1) /\ In v (f_vars g)) -> occ v).
  { intros v Hin Ho. destruct (vv_surj n Hwf v Hin) as (x & Hk & ->). apply Hocc; auto. apply (scope_mentioned n Hwf ig ev vs1 fs1 Hcr); auto. }
  assert (Hsub : incl (f_vars fp) (f_vars fu)).
  { intros v Hin. pose proof (Hip v Hin) as HvV. destruct (nodeType_eqb (v_type v) Utility) eqn:Eu.
    - exfalso. apply nodeType_eqb_spec in Eu. destruct (sr_utility _ _ _ _ _ _ Hrp v Hin Eu) as (_ & _ & x & [] & _).
    - assert (Hu : v_type v <> Utility) by (intros E; rewrite E in Eu; discriminate).
      apply (sr_scope _ _ _ _ _ _ Hrp) in Hin; auto. destruct Hin as (H1 & H2 & H3). apply (sr_scope _ _ _ _ _ _ Hru); auto. }
  assert (Hnames : forall x, In x (factor_names n g) <-> In x (factor_names n fu)).
  { intros x. rewrite !in_factor_names by auto. split; intros [Hk Hin]; split; auto.
    - apply Hvg in Hin. destruct Hin as (f & [<-|[<-|[]]] & Hin); auto. rewrite Hvi in Hin. auto.
    - apply Hvg. exists fu. simpl. auto. }
  split; auto. intros s Hs.
  set (event := fun s' => agrees vars ev s' && same_on (factor_names n g) s s'). set (m := mass n (ignored_by ig ev) event).
  assert (Eev : forall s', event s' = agrees vars ev s' && same_on (factor_names n fu) s s').
  { intros s'. unfold event. f_equal. unfold same_on. apply eq_true_iff_eq. rewrite !forallb_forall. split; intros H x Hx; apply H; apply Hnames; auto. }
  set (rs := volume (rest n ev (inner fu) (hidden_in V (net_deps n) (map (obs n) ev) (map vv query)))).
  assert (Em : m = (rs * factor_value n fp s)%Qc).
  { unfold m, mass. erewrite filter_ext by apply Eev.
    eapply (result_value ev ev query [] uts _ occ _ Ga fp fu (joint n (ignored_by ig ev)) s); eauto.
    - apply joint_proper.
    - intros a Ha _. apply (weight_joint n Hwf ig ev vs1 fs1 Hcr); auto. }
  assert (Eu : sum_over n (fun s => joint n (ignored_by ig ev) s * G s)%Qc event = (rs * factor_value n fu s)%Qc).
  { unfold sum_over. erewrite filter_ext by apply Eev.
    apply (result_value ev ev query uts uts occ occ Ga Ga fu fu _ s); auto. apply product_proper; auto. apply joint_proper. }
  assert (Hrs : rs <> 0%Qc).
  { intros E0. assert (0 < rs)%Qc; [|rewrite E0 in H; discriminate]. apply volume_pos. intros v Hin. unfold rest in Hin. apply filter_In in Hin. destruct Hin as [Hin _].
    apply in_loose, proj1, in_worldly in Hin. apply (V_pos n Hwf). tauto. }
  assert (Hr : in_range V (positions vars s)).
  { intros v Hin. destruct (vv_surj n Hwf v Hin) as (x & Hk & ->). rewrite (positions_vv n Hwf) by auto. destruct (vv_outcomes n Hwf x Hk) as [-> _].
    destruct Hk as [_ (w & Hw0)]. unfold num_outcomes. rewrite Hw0. apply (var_named_in n Hwf) in Hw0. destruct Hw0 as [Hin' <-]. apply Hs. auto. }
  assert (Hrg : forall f : factor xnum, incl (f_vars f) V -> in_range (f_vars f) (positions vars s)) by (intros f Hf; eapply in_range_incl; eauto).
  rewrite Hatg by (apply Hrg; auto). cbn [map]. rewrite Hati by (apply Hrg; auto).
  rewrite (finite_denotes fu Hfinu) by (apply Hrg; auto).
  fold (factor_value n fp s). fold (factor_value n fu s). split.
  - intros Hm. assert (Hp0 : factor_value n fp s <> 0%Qc) by (intros E0; apply Hm; rewrite Em, E0; ring).
    destruct (qeq (factor_value n fp s) 0%Qc) eqn:Eq; [apply qeq_spec in Eq; congruence|].
    rewrite Eu, Em. unfold prod_of. simpl. do 2 f_equal. field. auto.
  - intros Hnn Hm. rewrite Em in Hm. destruct (Qcmult_integral _ _ Hm) as [H|H]; [congruence|]. rewrite H. simpl qeq.
    assert (Hu0 : factor_value n fu s = 0%Qc).
    { assert (Es : sum_over n (fun s => joint n (ignored_by ig ev) s * G s)%Qc event = 0%Qc).
      { unfold sum_over. apply qsum_zero. intros s' Hs'. assert (Hm0 : m = 0%Qc) by (rewrite Em, H; ring).
        unfold m, mass in Hm0. assert (Hnn' : forall x, In x (map (joint n (ignored_by ig ev)) (filter event (worlds_of n))) -> (0 <= x)%Qc)
          by (intros x Hx; apply in_map_iff in Hx; destruct Hx as (z & <- & _); apply (joint_nonneg n); auto).
        rewrite (qsum_zero_all _ Hnn' Hm0 (joint n (ignored_by ig ev) s') (in_map _ _ _ Hs')). ring. }
      rewrite Eu in Es. destruct (Qcmult_integral _ _ Es); congruence. }
    rewrite Hu0. reflexivity.
Qed.

End NU.
