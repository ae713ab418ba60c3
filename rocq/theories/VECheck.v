(** Decision procedures for concrete problems, used to show that the hypotheses of the
    theorems are met by concrete networks. Not part of the model or the specification. *)
From Coq Require Import ZArith List Bool Lia Permutation QArith Qcanon.
From Verif Require Import Num GoBase VarModel GoFacts SpecFactor Tuples FactorFacts FactorSum FactorAt XnumFacts ExactFactor
  FactorThms VEModel SpecVE VEWorlds VEFacts VEHidden VEThms SpecPolicy VECor.
Import ListNotations.
Open Scope Z_scope.

Fixpoint nodup_b {X} (eqb : X -> X -> bool) (l : list X) : bool :=
  match l with [] => true | x :: r => negb (existsb (eqb x) r) && nodup_b eqb r end.

Lemma nodup_b_sound {X} (eqb : X -> X -> bool) l : (forall x y, eqb x y = true <-> x = y) -> nodup_b eqb l = true -> NoDup l.
Proof.
  intros He. induction l; simpl; intros H; constructor; apply andb_prop in H; destruct H as [H1 H2]; auto.
  intros Hin. apply negb_true_iff in H1. apply not_true_iff_false in H1. apply H1. apply existsb_exists. exists a. split; auto. apply He. auto.
Qed.

Definition wf_vars_b (vs : list variable) : bool := nodup_b Z.eqb (map v_id vs).
Definition incl_b (l l' : list variable) : bool := forallb (contains_var l') l.
Definition fin_b (x : xnum) : bool := match x with Fin _ => true | _ => false end.
Definition factor_b (V : list variable) (c : Z) (f : factor xnum) : bool :=
  wf_vars_b (f_vars f) && (length (f_data f) =? num_cells (f_vars f))%nat && forallb fin_b (f_data f) &&
  incl_b (f_vars f) V && (f_id f <? c).
Definition index_b (V : list variable) : bool := forallb (fun '(i, v) => (v_index v =? i)%nat) (combine (seq 0 (length V)) V).
Definition problem_b (vs : vstate) (fs : list (factor xnum)) (deps : depmap) : bool :=
  wf_vars_b (vs_vars vs) && index_b (vs_vars vs) && forallb (factor_b (vs_vars vs) (vs_counter vs)) fs &&
  nodup_b Z.eqb (map f_id fs) && nodup_b var_eqb (map fst deps) &&
  forallb (fun '(d, ps) => contains_var (vs_vars vs) d && incl_b ps (vs_vars vs)) deps.

Lemma wf_vars_b_sound vs : wf_vars_b vs = true -> wf_vars vs.
Proof. intros H. apply (nodup_b_sound Z.eqb); auto. intros; apply Z.eqb_eq. Qed.

Lemma incl_b_sound l l' : incl_b l l' = true -> incl l l'.
Proof. intros H v Hv. unfold incl_b in H. rewrite forallb_forall in H. apply contains_var_spec. auto. Qed.

Lemma index_b_sound V : index_b V = true -> forall i v, nth_error V i = Some v -> v_index v = i.
Proof.
  unfold index_b. intros H i v Hi. rewrite forallb_forall in H. apply Nat.eqb_eq. apply (H (i, v)).
  assert (G : forall V k i, nth_error V i = Some v -> In ((k + i)%nat, v) (combine (seq k (length V)) V)).
  { clear. induction V; intros k i Hi; destruct i; simpl in *; try discriminate.
    - inversion Hi; subst. left. f_equal. lia.
    - right. replace (k + S i)%nat with (S k + i)%nat by lia. auto. }
  apply (G V 0%nat). auto.
Qed.

Lemma problem_b_sound vs fs deps : problem_b vs fs deps = true -> ve_problem vs fs deps.
Proof.
  unfold problem_b. rewrite !andb_true_iff. intros [[[[[H1 H2] H3] H4] H5] H6]. constructor.
  - apply wf_vars_b_sound; auto.
  - apply index_b_sound; auto.
  - intros f Hf. rewrite forallb_forall in H3. specialize (H3 f Hf). unfold factor_b in H3. rewrite !andb_true_iff in H3.
    destruct H3 as [[[[h1 h2] h3] h4] h5]. assert (Hw : wf_factor f). { split. apply wf_vars_b_sound; auto. apply Nat.eqb_eq; auto. }
    split; auto. split. { apply literal_finite; auto. apply Forall_forall. rewrite forallb_forall in h3. intros x Hx. specialize (h3 x Hx). destruct x; try discriminate. eauto. }
    split. apply incl_b_sound; auto. lia.
  - apply (nodup_b_sound Z.eqb); auto. intros; apply Z.eqb_eq.
  - apply (nodup_b_sound var_eqb); auto. intros; apply var_eqb_spec.
  - intros d ps Hd. rewrite forallb_forall in H6. specialize (H6 _ Hd). simpl in H6. apply andb_prop in H6. destruct H6.
    split. apply contains_var_spec; auto. apply incl_b_sound; auto.
Qed.

(** Every assignment in range agrees on [V] with an enumerated one. *)
Lemma worlds_cover V : wf_vars V -> forall a b, in_range V a -> exists w, In w (worlds V b) /\ forall v, In v V -> w (v_id v) = a (v_id v).
Proof.
  induction V as [|v V IH]; intros Hw a b Ha.
  - exists b. split; simpl; auto. tauto.
  - inversion Hw; subst. destruct (IH H2 a (upd b (v_id v) (a (v_id v)))) as (w & Hin & Hag).
    { intros x Hx. apply Ha. simpl; auto. }
    exists w. split.
    + simpl. apply in_flat_map. exists (a (v_id v)). split; auto. apply in_seq. specialize (Ha v (or_introl eq_refl)). lia.
    + intros x [<-|Hx]; auto. rewrite (worlds_keep V _ w _ Hin) by auto. apply upd_same.
Qed.

Definition diagram_b (vs : vstate) (fs : list (factor xnum)) (deps : depmap) (cpt : variable -> factor xnum) (rank : Z -> nat) : bool :=
  let V := vs_vars vs in
  problem_b vs fs deps &&
  forallb (fun c => contains_var (f_vars (cpt c)) c &&
    forallb (fun w => Qc_eq_bool (qsum (map (fun k => value (cpt c) (upd w (v_id c) k)) (seq 0 (v_outcomes c)))) 1 &&
       Qle_bool 0 (value (cpt c) w)) (worlds V (fun _ => 0%nat)) &&
    forallb (fun u => (v_id u =? v_id c) || (rank (v_id u) <? rank (v_id c))%nat) (f_vars (cpt c))) (chance_vars V) &&
  forallb (fun '(d, ps) => negb (nodeType_eqb (v_type d) Decision) || forallb (fun p => (rank (v_id p) <? rank (v_id d))%nat) ps) deps.

Lemma diagram_b_sound vs fs deps cpt rank : map cpt (chance_vars (vs_vars vs)) = prob_factors fs ->
  diagram_b vs fs deps cpt rank = true -> influence_diagram vs fs deps cpt rank.
Proof.
  intros Hc. unfold diagram_b. rewrite !andb_true_iff. intros [[H1 H2] H3].
  assert (Hpb : ve_problem vs fs deps) by (apply problem_b_sound; auto).
  assert (HV : wf_vars (vs_vars vs)) by apply Hpb.
  rewrite forallb_forall in H2.
  assert (Hcv : forall c v, In c (chance_vars (vs_vars vs)) -> In v (f_vars (cpt c)) -> In v (vs_vars vs)).
  { intros c v Hin Hv. assert (Hf : In (cpt c) (prob_factors fs)) by (rewrite <- Hc; apply in_map; auto).
    apply filter_In in Hf. apply (vp_factors _ _ _ Hpb (cpt c)); tauto. }
  constructor; auto.
  - rewrite Hc. apply Permutation_refl.
  - intros c Hin. specialize (H2 c Hin). rewrite !andb_true_iff in H2. apply contains_var_spec. tauto.
  - intros c a Hin Ha. specialize (H2 c Hin). rewrite !andb_true_iff in H2. destruct H2 as [[_ H2] _]. rewrite forallb_forall in H2.
    destruct (worlds_cover _ HV a (fun _ => 0%nat) Ha) as (w & Hw & Hag). specialize (H2 w Hw). apply andb_prop in H2. destruct H2 as [H2 _].
    apply Qc_eq_bool_correct in H2. rewrite <- H2. apply qsum_ext. intros k _. apply value_agree. intros v Hv.
    unfold upd. destruct (v_id v =? v_id c); auto. symmetry. apply Hag. eauto.
  - intros c a Hin Ha. specialize (H2 c Hin). rewrite !andb_true_iff in H2. destruct H2 as [[_ H2] _]. rewrite forallb_forall in H2.
    destruct (worlds_cover _ HV a (fun _ => 0%nat) Ha) as (w & Hw & Hag). specialize (H2 w Hw). apply andb_prop in H2. destruct H2 as [_ H2].
    apply Qle_bool_iff in H2. rewrite (value_agree (cpt c) a w). exact H2. intros v Hv. symmetry. apply Hag. eauto.
  - intros c u Hin Hu Hne. specialize (H2 c Hin). rewrite !andb_true_iff in H2. destruct H2 as [_ H2]. rewrite forallb_forall in H2.
    specialize (H2 u Hu). apply orb_true_iff in H2. destruct H2 as [H2|H2]; [lia|]. apply Nat.ltb_lt. auto.
  - intros d ps p Hd Ht Hp. rewrite forallb_forall in H3. specialize (H3 _ Hd). simpl in H3.
    rewrite (proj2 (nodeType_eqb_spec _ _) Ht) in H3. simpl in H3. rewrite forallb_forall in H3. apply Nat.ltb_lt. apply H3. auto.
Qed.
