(** Consequences of the exactness theorems for variable elimination. *)
From Coq Require Import ZArith List Bool Lia Permutation QArith Qcanon.
From Verif Require Import Num GoBase VarModel GoFacts SpecFactor Tuples FactorFacts FactorSum FactorAt XnumFacts ExactFactor
  FactorThms VEModel SpecVE VEWorlds VEFacts VETopo VEHidden VESolve VEThms VEUtil.
Import ListNotations.
Open Scope Z_scope.

(** ** Independence of the map iteration order *)
Definition same_function (V : list variable) (f g : factor xnum) : Prop :=
  (forall v, In v (f_vars f) <-> In v (f_vars g)) /\ forall a, in_range V a -> get_at f a = get_at g a.

Theorem query_schedule sc1 sc2 t1 t2 vs fs deps w evs query :
  ve_problem vs fs deps -> valid_evidence (vs_vars vs) evs ->
  (forall h, In h (hidden_in (vs_vars vs) deps evs query) -> exists f, In f (prob_factors fs) /\ In h (f_vars f)) ->
  exists s1 f1 s2 f2,
    ve_solve_query sc1 (ve_new t1 vs fs deps w) evs query = Ok (s1, f1) /\
    ve_solve_query sc2 (ve_new t2 vs fs deps w) evs query = Ok (s2, f2) /\
    same_function (vs_vars vs) f1 f2.
Proof.
  intros Hp He Hc.
  destruct (solve_query_exact sc1 t1 vs fs deps w evs query Hp He Hc) as (s1 & f1 & E1 & _ & Hi1 & Hv1 & _ & _ & G1).
  destruct (solve_query_exact sc2 t2 vs fs deps w evs query Hp He Hc) as (s2 & f2 & E2 & _ & Hi2 & Hv2 & _ & _ & G2).
  exists s1, f1, s2, f2. do 2 (split; auto). split.
  - intros v. split; intros Hv.
    + apply Hv2; auto. apply Hv1; auto.
    + apply Hv1; auto. apply Hv2; auto.
  - intros a Ha. rewrite G1, G2; auto.
Qed.

Theorem utility_schedule sc1 sc2 t1 t2 vs fs deps w evs query :
  ve_problem vs fs deps -> valid_evidence (vs_vars vs) evs ->
  utilities_of (vs_vars vs) <> [] -> match w with None => True | Some l => length l = length (utilities_of (vs_vars vs)) end ->
  (forall h, In h (utilities_of (vs_vars vs) ++ hidden_in (vs_vars vs) deps evs query) -> exists f, In f fs /\ In h (f_vars f)) ->
  exists s1 f1 s2 f2,
    ve_solve_utility sc1 (ve_new t1 vs fs deps (finite_weights w)) evs query None = Ok (s1, f1) /\
    ve_solve_utility sc2 (ve_new t2 vs fs deps (finite_weights w)) evs query None = Ok (s2, f2) /\
    same_function (vs_vars vs) f1 f2.
Proof.
  intros Hp He Hu Hw Hc.
  destruct (solve_utility_exact sc1 t1 vs fs deps w evs query Hp He Hu Hw Hc) as (s1 & f1 & E1 & _ & Hi1 & Hv1 & _ & _ & G1).
  destruct (solve_utility_exact sc2 t2 vs fs deps w evs query Hp He Hu Hw Hc) as (s2 & f2 & E2 & _ & Hi2 & Hv2 & _ & _ & G2).
  exists s1, f1, s2, f2. do 2 (split; auto). split.
  - intros v. split; intros Hv.
    + apply Hv2; auto. apply Hv1; auto.
    + apply Hv1; auto. apply Hv2; auto.
  - intros a Ha. rewrite G1, G2; auto.
Qed.

Theorem one_utility_schedule sc1 sc2 t1 t2 vs fs deps w evs query u :
  ve_problem vs fs deps -> valid_evidence (vs_vars vs) evs ->
  (forall h, In h (hidden_in (vs_vars vs) deps evs query) ->
     exists f, In f (factors_without_other_utilities u fs) /\ In h (f_vars f)) ->
  exists s1 f1 s2 f2,
    ve_solve_utility sc1 (ve_new t1 vs fs deps w) evs query (Some u) = Ok (s1, f1) /\
    ve_solve_utility sc2 (ve_new t2 vs fs deps w) evs query (Some u) = Ok (s2, f2) /\
    same_function (vs_vars vs) f1 f2.
Proof.
  intros Hp He Hc.
  destruct (solve_one_utility_exact sc1 t1 vs fs deps w evs query u Hp He Hc) as (s1 & f1 & E1 & _ & Hi1 & Hv1 & _ & _ & G1).
  destruct (solve_one_utility_exact sc2 t2 vs fs deps w evs query u Hp He Hc) as (s2 & f2 & E2 & _ & Hi2 & Hv2 & _ & _ & G2).
  exists s1, f1, s2, f2. do 2 (split; auto). split.
  - intros v. split; intros Hv.
    + apply Hv2; auto. apply Hv1; auto.
    + apply Hv1; auto. apply Hv2; auto.
  - intros a Ha. rewrite G1, G2; auto.
Qed.

(** ** Utility variables with one outcome *)
Lemma total_single F V us : proper F -> incl us V -> (forall u, In u us -> v_outcomes u = 1%nat) ->
  forall a, in_range V a -> total F us a = F a.
Proof.
  intros HF. induction us as [|u us IH]; intros Hi H1 a Ha; [apply total_nil|].
  rewrite total_cons, (H1 u) by (simpl; auto). cbn [seq map qsum fold_right].
  assert (E0 : a (v_id u) = 0%nat). { specialize (Ha u (Hi u (or_introl eq_refl))). rewrite (H1 u) in Ha by (simpl; auto). lia. }
  rewrite (total_proper F us HF _ a).
  - rewrite IH; auto. ring. intros x Hx; apply Hi; simpl; auto. intros; apply H1; simpl; auto.
  - intros x. rewrite <- E0. apply upd_self.
Qed.

Definition single_outcome_utilities (V : list variable) : Prop := forall u, In u (utilities_of V) -> v_outcomes u = 1%nat.

Lemma utilities_incl V : incl (utilities_of V) V.
Proof. intros u Hu. apply filter_In in Hu. tauto. Qed.

Lemma hidden_incl V deps evs query : incl (hidden_in V deps evs query) V.
Proof. intros u Hu. apply filter_In in Hu. tauto. Qed.

Theorem expected_utility_exact sc t vs fs deps w evs query :
  ve_problem vs fs deps -> valid_evidence (vs_vars vs) evs ->
  let V := vs_vars vs in
  let H := hidden_in V deps evs query in
  utilities_of V <> [] -> single_outcome_utilities V ->
  match w with None => True | Some l => length l = length (utilities_of V) end ->
  (forall h, In h (utilities_of V ++ H) -> exists f, In f fs /\ In h (f_vars f)) ->
  exists s' f, ve_solve_utility sc (ve_new t vs fs deps (finite_weights w)) evs query None = Ok (s', f) /\
    wf_factor f /\
    (forall v, In v (f_vars f) <-> In v V /\
       (exists g, In g fs /\ In v (f_vars g)) /\ v_type v <> Utility /\ is_evidence evs v = false /\ ~ In v H) /\
    (forall a, in_range V a -> get_at f a = Ok (Fin (qsum (map (fun x =>
        weight_of (prob_factors fs) x * total_utility V w fs x)%Qc (worlds H (plug evs a)))))).
Proof.
  intros Hp He V H HU H1 Hw Hc.
  destruct (solve_utility_exact sc t vs fs deps w evs query Hp He HU Hw Hc) as (s' & f & E & Hwf & Hi & Hv & _ & _ & G).
  exists s', f. do 2 (split; auto). split.
  - intros v. split; intros Hin.
    + split; auto. apply Hv; auto.
    + destruct Hin as [Hin Hr]. apply Hv; auto.
  - intros a Ha. rewrite G by auto. do 2 f_equal. apply qsum_ext. intros x Hx. f_equal.
    apply (total_single (total_utility V w fs) V).
    + apply total_utility_proper.
    + apply utilities_incl.
    + apply H1.
    + apply (worlds_range V H (vp_vars _ _ _ Hp) (hidden_incl _ _ _ _) (plug evs a)); auto. apply plug_range; auto. apply Hp.
Qed.

(** ** Total utility as the sum of the separate ones *)
(** Every utility variable has exactly one factor, which mentions no other utility variable. *)
Definition own_utility_factors (V : list variable) (fs : list (factor xnum)) (own : variable -> factor xnum) : Prop :=
  Permutation (map own (utilities_of V)) (utility_factors fs) /\
  forall u u', In u (utilities_of V) -> In u' (utilities_of V) -> (In u' (f_vars (own u)) <-> u' = u).

Definition weight_list (V : list variable) (w : option (list Qc)) : list Qc :=
  match w with None => repeat 1%Qc (length (utilities_of V)) | Some l => l end.

Lemma index_func_from_spec {X} (p : X -> bool) l1 x l2 : (forall y, In y l1 -> p y = false) -> p x = true ->
  forall i, index_func_from p (l1 ++ x :: l2) i = i + Z.of_nat (length l1).
Proof.
  intros H1 H2. induction l1 as [|y l1 IH]; intros i; simpl.
  - rewrite H2. lia.
  - rewrite (H1 y) by (simpl; auto). rewrite IH by (intros; apply H1; simpl; auto). lia.
Qed.

Lemma weights_in_order V fs own w (G : variable -> Qc) : wf_vars V -> own_utility_factors V fs own ->
  match w with None => True | Some l => length l = length (utilities_of V) end ->
  map (fun u => (utility_weight V w (own u) * G u)%Qc) (utilities_of V) =
  map (fun p => (fst p * snd p)%Qc) (combine (weight_list V w) (map G (utilities_of V))).
Proof.
  intros HV [_ Hown] Hw. unfold weight_list, utility_weight.
  set (U := utilities_of V) in *. destruct w as [l|].
  - assert (Hn : NoDup U) by (apply NoDup_filter, wf_NoDup; auto).
    assert (K : forall U1 U2 l1 l2, U = U1 ++ U2 -> l = l1 ++ l2 -> length l1 = length U1 ->
      map (fun u => (nth (Z.to_nat (index_func (fun u0 => contains_var (f_vars (own u)) u0) U)) l 0 * G u)%Qc) U2 =
      map (fun p => (fst p * snd p)%Qc) (combine l2 (map G U2))).
    { intros U1 U2. revert U1. induction U2 as [|u U2 IH]; intros U1 l1 l2 EU El Hl.
      - destruct l2; auto.
      - destruct l2 as [|q l2].
        { rewrite app_nil_r in El. subst l1. exfalso. rewrite Hl, EU, app_length in Hw. simpl in Hw. lia. }
        simpl. f_equal.
        + f_equal. unfold index_func. rewrite EU at 1.
          rewrite index_func_from_spec.
          * replace (Z.to_nat (0 + Z.of_nat (length U1))) with (length l1) by lia. rewrite El, app_nth2 by lia.
            rewrite Nat.sub_diag. auto.
          * intros y Hy. apply not_true_iff_false. rewrite contains_var_spec. intros Hc. apply Hown in Hc.
            -- subst y. rewrite EU in Hn. apply NoDup_remove_2 in Hn. apply Hn. apply in_app_iff. auto.
            -- rewrite EU. apply in_app_iff. simpl; auto.
            -- rewrite EU. apply in_app_iff. auto.
          * apply contains_var_spec. apply Hown; auto; rewrite EU; apply in_app_iff; simpl; auto.
        + apply (IH (U1 ++ [u]) (l1 ++ [q]) l2).
          * rewrite <- app_assoc. auto.
          * rewrite <- app_assoc. auto.
          * rewrite !app_length. simpl. lia. }
    apply (K [] U [] l); auto.
  - clear Hown. induction U; simpl; auto. f_equal; auto.
Qed.

Lemma own_factors V fs own u : own_utility_factors V fs own -> wf_vars V -> (forall f, In f fs -> incl (f_vars f) V) -> In u (utilities_of V) ->
  Permutation (factors_without_other_utilities u fs) (own u :: prob_factors fs).
Proof.
  intros [Hp Hown] HV Hi Hu. unfold factors_without_other_utilities.
  set (p := fun f : factor xnum => forallb (fun v => negb (nodeType_eqb (v_type v) Utility) || (v_id v =? v_id u)) (f_vars f)).
  transitivity (filter p (utility_factors fs ++ prob_factors fs)).
  { apply Permutation_filter. apply filter_split. }
  rewrite filter_app. change (own u :: prob_factors fs) with ([own u] ++ prob_factors fs). apply Permutation_app.
  - transitivity (filter p (map own (utilities_of V))).
    { apply Permutation_filter, Permutation_sym, Hp. }
    assert (Hpo : forall u', In u' (utilities_of V) -> p (own u') = var_eqb u' u).
    { intros u' Hu'. apply eq_true_iff_eq. unfold p. rewrite forallb_forall, var_eqb_spec. split.
      - intros H. specialize (H u' (proj2 (Hown u' u' Hu' Hu') eq_refl)). unfold utilities_of in Hu'. apply filter_In in Hu'. destruct Hu' as [Hu' Ht].
        rewrite Ht in H. simpl in H. apply (wf_vars_inj V); auto. apply utilities_incl in Hu. auto. lia.
      - intros -> v Hv. destruct (nodeType_eqb (v_type v) Utility) eqn:Et; auto. simpl.
        assert (v = u). { apply (Hown u v); auto. apply filter_In. split; auto.
          assert (Hin : In (own u) fs). { assert (In (own u) (utility_factors fs)) by (eapply Permutation_in; [apply Hp|apply in_map; auto]). apply filter_In in H. tauto. }
          apply (Hi _ Hin); auto. }
        subst. lia. }
    assert (Hn : NoDup (utilities_of V)) by (apply NoDup_filter, wf_NoDup; auto).
    rewrite filter_map_comm. rewrite (filter_ext_in _ (fun u' => var_eqb u' u)) by auto.
    clear - Hn Hu. set (U := utilities_of V) in *. clearbody U. induction U as [|x U IH]; [destruct Hu|].
    inversion Hn; subst. simpl. destruct (var_eqb x u) eqn:E.
    + apply var_eqb_spec in E. subst. simpl. rewrite (filter_ext_in _ (fun _ => false)).
      * clear. induction U; simpl; auto.
      * intros y Hy. apply not_true_iff_false. rewrite var_eqb_spec. intros ->. auto.
    + apply IH; auto. destruct Hu as [->|Hu]; auto. exfalso. apply not_true_iff_false in E. apply E. apply var_eqb_spec. auto.
  - rewrite filter_all_true; auto. intros f Hf. apply filter_In in Hf. destruct Hf as [_ Hf]. apply negb_true_iff in Hf.
    unfold p. apply forallb_forall. intros v Hv. apply orb_true_iff. left. apply negb_true_iff.
    apply not_true_iff_false. intros Ht. apply not_true_iff_false in Hf. apply Hf. apply existsb_exists. exists v. auto.
Qed.

Theorem total_is_weighted_sum sc t vs fs deps w evs query own (scu : variable -> sched) (tu : variable -> nat) :
  ve_problem vs fs deps -> valid_evidence (vs_vars vs) evs ->
  let V := vs_vars vs in
  let H := hidden_in V deps evs query in
  utilities_of V <> [] -> single_outcome_utilities V -> own_utility_factors V fs own ->
  match w with None => True | Some l => length l = length (utilities_of V) end ->
  (forall h, In h H -> exists f, In f (prob_factors fs) /\ In h (f_vars f)) ->
  exists s' f, ve_solve_utility sc (ve_new t vs fs deps (finite_weights w)) evs query None = Ok (s', f) /\
    forall a, in_range V a -> exists vals,
      Forall2 (fun u x => exists s'' g, ve_solve_utility (scu u) (ve_new (tu u) vs fs deps (finite_weights w)) evs query (Some u) = Ok (s'', g) /\
         get_at g a = Ok (Fin x)) (utilities_of V) vals /\
      get_at f a = Ok (Fin (qsum (map (fun p => fst p * snd p)%Qc (combine (weight_list V w) vals)))).
Proof.
  intros Hp He V H HU H1 Hown Hw Hc.
  assert (HV : wf_vars V) by apply Hp.
  assert (Hfi : forall f, In f fs -> incl (f_vars f) V) by (intros f Hf; apply (vp_factors _ _ _ Hp f Hf)).
  destruct (expected_utility_exact sc t vs fs deps w evs query Hp He HU H1 Hw) as (s' & f & E & _ & _ & G).
  { intros h Hh. apply in_app_iff in Hh. destruct Hh as [Hh|Hh].
    - exists (own h). split; [|apply Hown; auto].
      assert (In (own h) (utility_factors fs)) by (eapply Permutation_in; [apply Hown|apply in_map; auto]). apply filter_In in H0. tauto.
    - destruct (Hc h Hh) as (f & Hf & Hv). apply filter_In in Hf. exists f. tauto. }
  exists s', f. split; auto. intros a Ha.
  set (val := fun u => qsum (map (weight_of (factors_without_other_utilities u fs)) (worlds H (plug evs a)))).
  exists (map val (utilities_of V)). split.
  - assert (K : forall l, incl l (utilities_of V) -> Forall2 (fun u x => exists s'' g,
       ve_solve_utility (scu u) (ve_new (tu u) vs fs deps (finite_weights w)) evs query (Some u) = Ok (s'', g) /\ get_at g a = Ok (Fin x)) l (map val l)).
    { induction l as [|u l IH]; simpl; intros Hl; constructor.
      - destruct (solve_one_utility_exact (scu u) (tu u) vs fs deps (finite_weights w) evs query u Hp He) as (s2 & g & E2 & _ & _ & _ & _ & _ & G2).
        + intros h Hh. destruct (Hc h Hh) as (f0 & Hf0 & Hv0). exists f0. split; auto.
          eapply Permutation_in; [apply Permutation_sym, (own_factors V fs own u); auto; apply Hl; simpl; auto|]. simpl; auto.
        + exists s2, g. split; auto. apply G2. auto.
      - apply IH. intros x Hx; apply Hl; simpl; auto. }
    apply K. apply incl_refl.
  - rewrite G by auto. do 2 f_equal. rewrite <- (weights_in_order V fs own w) by auto.
    fold H. 
    assert (EU : forall x, total_utility V w fs x = qsum (map (fun u => (utility_weight V w (own u) * value (own u) x)%Qc) (utilities_of V))).
    { intros x. unfold total_utility. rewrite <- (qsum_perm _ _ (Permutation_map _ (proj1 Hown))). rewrite map_map. auto. }
    rewrite (qsum_ext _ (fun x => qsum (map (fun u => (utility_weight V w (own u) * (weight_of (prob_factors fs) x * value (own u) x))%Qc) (utilities_of V)))).
    2: { intros x _. rewrite EU, <- qsum_scale. apply qsum_ext. intros; ring. }
    rewrite qsum_swap. apply qsum_ext. intros u Hu. rewrite qsum_scale. f_equal. apply qsum_ext. intros x _.
    rewrite (weight_perm _ _ _ (own_factors V fs own u Hown HV Hfi Hu)). unfold weight_of. simpl. ring.
Qed.

(** ** Concrete factors *)
Lemma literal_finite (f : factor xnum) : wf_factor f -> Forall (fun x => exists q, x = Fin q) (f_data f) -> finite_factor f.
Proof.
  intros Hw H a Ha. destruct f as [id vs d]. destruct Hw as [Hw Hl]. simpl in *.
  rewrite num_cells_prod in Hl.
  destruct (nth_error d (flat (outs vs) (tof vs a))) as [x|] eqn:E.
  - rewrite (mk_get_at id vs d a x) by auto. rewrite Forall_forall in H. apply nth_error_In in E. destruct (H x E) as (q & ->). eauto.
  - exfalso. apply nth_error_None in E. rewrite Hl in E.
    assert (flat (outs vs) (tof vs a) < prod (outs vs))%nat by (apply flat_lt; apply in_range_inb; auto). lia.
Qed.
