(** The total utility for utility variables with any number of outcomes. *)
From Coq Require Import ZArith List Bool Lia Permutation QArith Qcanon.
From Verif Require Import Num GoBase VarModel GoFacts SpecFactor Tuples FactorFacts FactorSum FactorAt XnumFacts ExactFactor
  FactorThms VEModel SpecVE VEWorlds VEFacts VETopo VEHidden VESolve VEThms VEUtil VECor SpecRepeat.
Import ListNotations.
Open Scope Z_scope.

Definition cells (vs : list variable) : Qc := Q2Qc (inject_Z (Z.of_nat (num_cells vs))).
Lemma cells_cons v vs : cells (v :: vs) = (Q2Qc (inject_Z (Z.of_nat (v_outcomes v))) * cells vs)%Qc.
Proof. unfold cells. simpl num_cells. rewrite Nat2Z.inj_mul. apply Qc_is_canon. unfold Qcmult, Q2Qc, this. rewrite !Qred_correct. rewrite inject_Z_mult. reflexivity. Qed.
Lemma qsum_const {X} (c : Qc) (l : list X) : qsum (map (fun _ => c) l) = (Q2Qc (inject_Z (Z.of_nat (length l))) * c)%Qc.
Proof.
  induction l as [|x l IH]; [change (0 = 0 * c)%Qc; ring|]. cbn [map length]. change (qsum (c :: ?r)) with (c + qsum r)%Qc. rewrite IH. 
  replace (Q2Qc (inject_Z (Z.of_nat (S (length l))))) with (1 + Q2Qc (inject_Z (Z.of_nat (length l))))%Qc; [ring|].
  apply Qc_is_canon. unfold Qcplus, Q2Qc, this. rewrite !Qred_correct. rewrite Nat2Z.inj_succ. unfold Z.succ. rewrite inject_Z_plus. ring.
Qed.
Lemma total_const F vs a : (forall v, In v vs -> ignores F (v_id v)) -> total F vs a = (cells vs * F a)%Qc.
Proof.
  revert a. induction vs as [|v vs IH]; intros a H; [rewrite total_nil; replace (cells []) with 1%Qc by reflexivity; ring|].
  rewrite total_cons, cells_cons. rewrite (qsum_ext _ (fun _ => cells vs * F a)%Qc).
  - rewrite qsum_const, seq_length. ring.
  - intros k _. rewrite IH by (intros; apply H; simpl; auto). rewrite (H v) by (simpl; auto). auto.
Qed.

Lemma split_out u (U : list variable) : wf_vars U -> In u U -> Permutation U (u :: filter (fun u' => negb (v_id u' =? v_id u)) U).
Proof.
  unfold wf_vars. induction U as [|x U IH]; intros Hn Hu; [destruct Hu|]. simpl in Hn. inversion Hn; subst. simpl. destruct (Z.eqb_spec (v_id x) (v_id u)) as [E|E]; simpl.
  - destruct Hu as [->|Hu]; [|exfalso; apply H1; rewrite E; apply in_map; auto]. constructor. rewrite filter_all_true; auto. intros y Hy. apply negb_true_iff. apply Z.eqb_neq. intros E'. apply H1. rewrite <- E'. apply in_map; auto.
  - destruct Hu as [->|Hu]; [exfalso; auto|]. eapply Permutation_trans; [apply perm_skip; apply IH; auto|apply perm_swap].
Qed.

Theorem total_any_outcomes sc t vs fs deps w evs query own (scu : variable -> sched) (tu : variable -> nat) :
  ve_problem vs fs deps -> valid_evidence (vs_vars vs) evs ->
  let V := vs_vars vs in
  let H := hidden_in V deps evs query in
  utilities_of V <> [] -> own_utility_factors V fs own ->
  match w with None => True | Some l => length l = length (utilities_of V) end ->
  (forall h, In h H -> exists f, In f (prob_factors fs) /\ In h (f_vars f)) ->
  exists s' f, ve_solve_utility sc (ve_new t vs fs deps (finite_weights w)) evs query None = Ok (s', f) /\
    forall a, in_range V a -> exists vals,
      Forall2 (fun u x => exists s'' g ys, ve_solve_utility (scu u) (ve_new (tu u) vs fs deps (finite_weights w)) evs query (Some u) = Ok (s'', g) /\
         length ys = v_outcomes u /\ (forall k, (k < v_outcomes u)%nat -> get_at g (upd a (v_id u) k) = Ok (Fin (nth k ys 0%Qc))) /\
         x = (other_combinations V u * qsum ys)%Qc) (utilities_of V) vals /\
      get_at f a = Ok (Fin (qsum (map (fun p => fst p * snd p)%Qc (combine (weight_list V w) vals)))).
Proof.
  intros Hp He V H HU Hown Hw Hc.
  assert (HV : wf_vars V) by apply Hp.
  assert (Hfi : forall f, In f fs -> incl (f_vars f) V) by (intros f Hf; apply (vp_factors _ _ _ Hp f Hf)).
  assert (HUw : wf_vars (utilities_of V)) by (clear -HV; unfold wf_vars, utilities_of in *; induction V as [|v V IH]; simpl in *; auto; inversion HV; subst;
    destruct (nodeType_eqb (v_type v) Utility); simpl; auto; constructor; auto; intros Hi; apply H1; apply in_map_iff in Hi; destruct Hi as (y & <- & Hy); apply filter_In in Hy; apply in_map; tauto).
  assert (Hut : forall u, In u (utilities_of V) -> v_type u = Utility) by (intros u Hu; apply filter_In in Hu; destruct Hu as [_ Hu]; destruct (v_type u); auto; discriminate).
  assert (Hue : forall u, In u (utilities_of V) -> is_evidence evs u = false).
  { intros u Hu. apply not_true_iff_false. intros Hx. apply existsb_exists in Hx. destruct Hx as (ev & Hev & Ei). apply Z.eqb_eq in Ei. destruct (He ev Hev) as (H1 & H2 & _).
    apply H2. replace (ev_var ev) with u; auto. apply (wf_vars_inj V); auto. apply utilities_incl; auto. }
  assert (HuH : forall u, In u (utilities_of V) -> ~ In (v_id u) (map v_id H)).
  { intros u Hu Hi. apply in_map_iff in Hi. destruct Hi as (h & Ei & Hh). assert (h = u) by (apply (wf_vars_inj V); auto; [eapply hidden_incl; exact Hh|apply utilities_incl; auto]). subst h.
    apply filter_In in Hh. destruct Hh as [_ Hh]. rewrite (Hut u Hu) in Hh. simpl in Hh. discriminate Hh || (rewrite ?andb_false_r in Hh; discriminate Hh). }
  assert (Hpu : forall u f, In u (utilities_of V) -> In f (prob_factors fs) -> ~ In (v_id u) (map v_id (f_vars f))).
  { intros u f Hu Hf Hi. apply filter_In in Hf. destruct Hf as [Hf Hn]. apply in_map_iff in Hi. destruct Hi as (y & Ei & Hy). assert (y = u) by (apply (wf_vars_inj V); auto; [apply (Hfi f Hf); auto|apply utilities_incl; auto]). subst y.
    apply negb_true_iff in Hn. apply not_true_iff_false in Hn. apply Hn. apply existsb_exists. exists u. split; auto. rewrite (Hut u Hu). reflexivity. }
  destruct (solve_utility_exact sc t vs fs deps w evs query Hp He HU Hw) as (s' & f & E & _ & _ & _ & _ & _ & G).
  { intros h Hh. apply in_app_iff in Hh. destruct Hh as [Hh|Hh].
    - exists (own h). split; [|apply Hown; auto].
      assert (In (own h) (utility_factors fs)) by (eapply Permutation_in; [apply Hown|apply in_map; auto]). apply filter_In in H0. tauto.
    - destruct (Hc h Hh) as (f & Hf & Hv). apply filter_In in Hf. exists f. tauto. }
  exists s', f. split; auto. intros a Ha.
  set (K := fun u => factors_without_other_utilities u fs).
  set (val := fun u k => qsum (map (weight_of (K u)) (worlds H (plug evs (upd a (v_id u) k))))).
  set (all := fun u => map (val u) (seq 0 (v_outcomes u))).
  exists (map (fun u => other_combinations V u * qsum (all u))%Qc (utilities_of V)). split.
  - assert (L : forall l, incl l (utilities_of V) -> Forall2 (fun u x => exists s'' g ys, ve_solve_utility (scu u) (ve_new (tu u) vs fs deps (finite_weights w)) evs query (Some u) = Ok (s'', g) /\
         length ys = v_outcomes u /\ (forall k, (k < v_outcomes u)%nat -> get_at g (upd a (v_id u) k) = Ok (Fin (nth k ys 0%Qc))) /\
         x = (other_combinations V u * qsum ys)%Qc) l (map (fun u => other_combinations V u * qsum (all u))%Qc l)).
    { induction l as [|u l IH]; simpl; intros Hl; constructor.
      - assert (Hu : In u (utilities_of V)) by (apply Hl; simpl; auto).
        destruct (solve_one_utility_exact (scu u) (tu u) vs fs deps (finite_weights w) evs query u Hp He) as (s2 & g & E2 & _ & _ & _ & _ & _ & G2).
        + intros h Hh. destruct (Hc h Hh) as (f0 & Hf0 & Hv0). exists f0. split; auto.
          eapply Permutation_in; [apply Permutation_sym, (own_factors V fs own u); auto|]. simpl; auto.
        + exists s2, g, (all u). split; auto. split; [unfold all; rewrite map_length, seq_length; auto|]. split; auto. intros k Hk. rewrite G2.
          * do 2 f_equal. unfold all. rewrite (nth_indep _ 0%Qc (val u 0%nat)) by (rewrite map_length, seq_length; auto). rewrite map_nth, seq_nth by auto. reflexivity.
          * apply in_range_upd'; auto. apply utilities_incl; auto.
      - apply IH. intros x Hx; apply Hl; simpl; auto. }
    apply L. apply incl_refl.
  - rewrite G by auto. do 2 f_equal. rewrite <- (weights_in_order V fs own w) by auto. fold H.
    assert (EU : forall x, total_utility V w fs x = qsum (map (fun u => (utility_weight V w (own u) * value (own u) x)%Qc) (utilities_of V))).
    { intros x. unfold total_utility. rewrite <- (qsum_perm _ _ (Permutation_map _ (proj1 Hown))). rewrite map_map. auto. }
    assert (EV : forall u x, In u (utilities_of V) -> total (value (own u)) (utilities_of V) x = (other_combinations V u * qsum (map (fun k => value (own u) (upd x (v_id u) k)) (seq 0 (v_outcomes u))))%Qc).
    { intros u x Hu. rewrite (total_perm _ _ _ (value_proper (own u)) HUw (split_out u _ HUw Hu)), total_cons, <- qsum_scale. apply qsum_ext. intros k _.
      apply total_const. intros u' Hu'. apply filter_In in Hu'. destruct Hu' as [Hu' Hne]. apply value_ignores. intros Hi. apply in_map_iff in Hi. destruct Hi as (y & Ei & Hy).
      assert (Ho : In (own u) fs). { assert (Hx : In (own u) (utility_factors fs)) by (eapply Permutation_in; [apply Hown|apply in_map; auto]). apply filter_In in Hx. tauto. }
      assert (y = u') by (apply (wf_vars_inj V); auto; [apply (Hfi (own u) Ho); auto|apply utilities_incl; auto]). subst y. apply (proj2 Hown) in Hy; auto. subst u'. rewrite Z.eqb_refl in Hne. discriminate. }
    rewrite (qsum_ext _ (fun x => qsum (map (fun u => (utility_weight V w (own u) * (other_combinations V u * qsum (map (fun k => weight_of (prob_factors fs) x * value (own u) (upd x (v_id u) k)) (seq 0 (v_outcomes u)))))%Qc) (utilities_of V)))).
    2: { intros x _. rewrite (qsum_ext (total_utility V w fs) (fun x => qsum (map (fun u => (utility_weight V w (own u) * value (own u) x)%Qc) (utilities_of V)))) by (intros; apply EU).
         rewrite qsum_swap, <- qsum_scale. apply qsum_ext. intros u Hu. rewrite qsum_scale. match goal with |- (_ * (_ * ?t))%Qc = _ => replace t with (total (value (own u)) (utilities_of V) x) by reflexivity end.
         rewrite EV by auto. rewrite qsum_scale. ring. }
    rewrite qsum_swap. apply qsum_ext. intros u Hu. rewrite qsum_scale. f_equal. rewrite qsum_scale. f_equal. unfold all. rewrite qsum_swap. apply qsum_ext. intros k _. unfold val.
    change (qsum (map (weight_of (K u)) (worlds H (plug evs (upd a (v_id u) k))))) with (total (weight_of (K u)) H (plug evs (upd a (v_id u) k))).
    rewrite (total_proper _ H (weight_proper (K u)) _ _ (plug_upd evs u a k (Hue u Hu))). rewrite (total_upd _ H u k (weight_proper (K u)) (HuH u Hu)). apply qsum_ext. intros x _.
    unfold K. rewrite (weight_perm _ _ _ (own_factors V fs own u Hown HV Hfi Hu)). unfold weight_of at 2. simpl. fold (weight_of (prob_factors fs)).
    change (qprod (map (fun f0 => value f0 (upd x (v_id u) k)) (prob_factors fs))) with (weight_of (prob_factors fs) (upd x (v_id u) k)).
    rewrite (weight_ignores (prob_factors fs) (v_id u)) by (intros g Hg; apply Hpu; auto). ring.
Qed.
