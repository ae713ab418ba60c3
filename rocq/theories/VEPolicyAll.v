(** SolvePolicies over all decisions in one pass: with decisions that forget nothing, every
    policy is optimal given the policies of the later decisions. *)
From Coq Require Import String ZArith List Bool Lia Permutation QArith Qcanon.
From Verif Require Import Num GoBase VarModel GoFacts SpecFactor Tuples FactorFacts FactorSum FactorAt XnumFacts ExactFactor
  FactorThms VEModel SpecVE SpecPolicy VEWorlds VEFacts VETopo VEHidden VESolve VEThms VEUtil VEShadow VEOrder VEPolicy.
Import ListNotations.
Open Scope list_scope.
Open Scope Z_scope.

Lemma flag_split deps todo i : parent_flag deps todo i = existsb (fun d => parent_flag deps [d] i) todo.
Proof. unfold parent_flag. induction todo as [|d todo IH]; simpl; auto. rewrite IH, orb_false_r. auto. Qed.

Lemma existsb_same {X} (p : X -> bool) l l' : (forall x, In x l <-> In x l') -> existsb p l = existsb p l'.
Proof.
  intros H. apply eq_true_iff_eq. rewrite !existsb_exists. split; intros (x & Hx & E); exists x; split; auto; apply H; auto.
Qed.

Lemma NoDup_app_disjoint {X} (a b : list X) x : NoDup (a ++ b) -> In x a -> In x b -> False.
Proof.
  induction a as [|y a IH]; simpl; intros Hn Ha Hb; auto. inversion Hn; subst. destruct Ha as [->|Ha]; auto.
  apply H1. apply in_app_iff. auto.
Qed.

Lemma contains_var_false vs v : contains_var vs v = false <-> ~ In v vs.
Proof. rewrite <- contains_var_spec. destruct (contains_var vs v); split; intros; auto; try discriminate. exfalso. auto. Qed.

Section A.
Variables (sc : sched) (vs : vstate) (fs : list fac) (deps : depmap) (cpt : variable -> fac) (rank : Z -> nat).
Hypothesis Hid : influence_diagram vs fs deps cpt rank.
Variable util : asg -> Qc.
Hypothesis Hutil : proper util.

Notation V := (vs_vars vs).

Let Hpb : ve_problem vs fs deps := di_problem _ _ _ _ _ Hid.
Let HV : wf_vars V := vp_vars _ _ _ Hpb.
Let Hix : forall i v, nth_error V i = Some v -> v_index v = i := vp_index _ _ _ Hpb.

(** The chance variables and the decisions already made. *)
Definition settled (done : list variable) : list variable :=
  filter (fun v => nodeType_eqb (v_type v) Chance || contains_var done v) V.

(** What no remaining decision observes, and the decisions already made. *)
Definition gone (rem done : list variable) : list variable :=
  filter (fun v => nodeType_eqb (v_type v) Chance && negb (existsb (fun e => observes deps e v) rem) || contains_var done v) V.

Record plan (rem done : list variable) : Prop := {
  pl_dec : forall v, In v V -> (v_type v = Decision <-> In v (rem ++ done));
  pl_nodup : NoDup (rem ++ done);
  pl_in : incl (rem ++ done) V;
  pl_closed : forall e p, In e rem -> observes deps e p = true -> In p V -> v_type p = Decision -> In p rem;
  pl_chain : forall l1 d l2, rem = l1 ++ d :: l2 -> forall e, In e l1 ->
    observes deps d e = true /\ forall v, observes deps e v = true -> observes deps d v = true
}.

(** The state after the variables [E] have been summed out. *)
Record inv (E rem done : list variable) (q : variable -> fac) (s : state) : Prop := {
  iv_wf : wf_vars (vs_vars (ve_vs s));
  iv_index : forall i v, nth_error (vs_vars (ve_vs s)) i = Some v -> v_index v = i;
  iv_len : length (vs_vars (ve_vs s)) = length V;
  iv_in : forall x, In x (vs_vars (ve_vs s)) <-> (In x V /\ ~ In x done) \/ exists e, In e done /\ x = withNodeType e Chance;
  iv_deps : ve_deps s = deps;
  iv_elen : length (ve_elim s) = length V;
  iv_good : good V s;
  iv_scope : forall v, In v V -> (in_scope s v <-> v_type v <> Utility /\ ~ In v E);
  iv_elim : forall v, In v V -> v_type v <> Utility -> nth (v_index v) (ve_elim s) false = contains_var E v;
  iv_weight : forall a, in_range V a -> weight_of (live s) a = total (fun x => weight_of (map q (settled done)) x * util x)%Qc E a;
  iv_shadow : exists tf oth sh, shadow V s tf oth sh /\
    forall a, in_range V a -> (weight_of oth a * sh a)%Qc = total (weight_of (map q (settled done))) E a
}.

Lemma observes_parent e v : In v V -> observes deps e v = true -> exists ps, In (e, ps) deps /\ In v ps.
Proof.
  intros Hv H. apply existsb_exists in H. destruct H as ([k ps] & Hk & H). apply andb_prop in H. destruct H as [H1 H2].
  apply var_eqb_spec in H1. subst k. exists ps. split; auto. apply contains_id_spec in H2. apply in_map_iff in H2. destruct H2 as (p & Ep & Hp).
  replace v with p; auto. apply (wf_vars_inj V); auto. apply (vp_deps _ _ _ Hpb e ps Hk). auto.
Qed.

Lemma parent_observes e ps v : In (e, ps) deps -> In v ps -> observes deps e v = true.
Proof.
  intros H Hv. apply existsb_exists. exists (e, ps). split; auto. rewrite (proj2 (var_eqb_spec e e) eq_refl). apply contains_id_spec. apply in_map. auto.
Qed.

Lemma in_gone rem done v : In v (gone rem done) <-> In v V /\ ((v_type v = Chance /\ forall e, In e rem -> observes deps e v = false) \/ In v done).
Proof.
  unfold gone. rewrite filter_In, orb_true_iff, andb_true_iff, nodeType_eqb_spec, negb_true_iff, contains_var_spec.
  assert (H : existsb (fun e => observes deps e v) rem = false <-> forall e, In e rem -> observes deps e v = false).
  { split.
    - intros H e He. destruct (observes deps e v) eqn:E; auto. assert (existsb (fun e => observes deps e v) rem = true) by (apply existsb_exists; eauto). congruence.
    - intros H. apply not_true_iff_false. intros Hc. apply existsb_exists in Hc. destruct Hc as (e & He & Hc). rewrite H in Hc by auto. discriminate. }
  rewrite H. tauto.
Qed.

Lemma gone_wf rem done : wf_vars (gone rem done).
Proof. apply NoDup_filter_map. auto. Qed.

Lemma gone_in rem done : incl (gone rem done) V.
Proof. intros v Hv. apply in_gone in Hv. tauto. Qed.

Definition back (x : variable) : variable := nth (v_index x) V x.

Lemma back_self v : In v V -> back v = v.
Proof. intros H. apply In_nth_error in H. destruct H as (i & Hi). pose proof (Hix _ _ Hi). subst i. apply nth_error_nth. auto. Qed.

Lemma back_chance e : In e V -> back (withNodeType e Chance) = e.
Proof.
  intros H. unfold back. change (v_index (withNodeType e Chance)) with (v_index e). apply In_nth_error in H. destruct H as (i & Hi). pose proof (Hix _ _ Hi). subst i.
  apply nth_error_nth. auto.
Qed.

Lemma inv_ready E rem done q s : plan rem done -> inv E rem done q s -> ready s.
Proof.
  intros Hp Hi. constructor.
  - apply Hi.
  - apply Hi.
  - rewrite (iv_elen _ _ _ _ _ Hi), (iv_len _ _ _ _ _ Hi). auto.
  - intros d p Hd (k & ps & Hk & Ek & Hps & Ht). rewrite (iv_deps _ _ _ _ _ Hi) in Hk. apply in_decisions in Hd. destruct Hd as [Hd Hdt].
    apply (iv_in _ _ _ _ _ Hi) in Hd. destruct Hd as [[Hd Hnd]|(e & _ & ->)]; [|discriminate].
    destruct (vp_deps _ _ _ Hpb k ps Hk) as [Hk1 Hk2]. assert (k = d) by (apply (wf_vars_inj V); auto). subst k.
    assert (Hdr : In d rem). { apply (pl_dec _ _ Hp) in Hdt; auto. apply in_app_iff in Hdt. tauto. }
    assert (Hpr : In p rem). { eapply (pl_closed _ _ Hp); eauto. eapply parent_observes; eauto. }
    apply (iv_in _ _ _ _ _ Hi). left. split; auto. intros Hc. eapply NoDup_app_disjoint; [apply (pl_nodup _ _ Hp)| |]; eauto.
  - intros d ps p Hk Hps. rewrite (iv_deps _ _ _ _ _ Hi) in Hk. destruct (vp_deps _ _ _ Hpb d ps Hk) as [Hk1 Hk2]. rewrite (iv_len _ _ _ _ _ Hi). apply index_lt; auto.
Qed.

Theorem elim_all E rem done q s : plan rem done -> inv E rem done q s -> wf_vars E -> incl E (gone rem done) ->
  exists s', eliminate_hidden sc s [] [] false = Ok s' /\ inv (gone rem done) rem done q s' /\ frame s s'.
Proof.
  intros Hp Hi HwE HE. pose proof (inv_ready _ _ _ _ _ Hp Hi) as Hr.
  destruct (eliminate_hidden_list sc s [] [] false Hr) as (t1 & r & t2 & hl4 & E1 & E2 & Hp2). rewrite E2.
  destruct (get_decisions_spec sc s (r_wf _ Hr) (r_closed _ Hr)) as (t0 & r' & E0 & Hpr & _). rewrite E1 in E0. injection E0 as <- <-.
  rewrite (iv_deps _ _ _ _ _ Hi) in Hp2. set (W := vs_vars (ve_vs s)) in *.
  assert (HEV : incl E V) by (intros v Hv; apply (gone_in rem done); auto).
  assert (Hdone : forall e, In e done -> In e V /\ v_type e = Decision).
  { intros e He. assert (In e V) by (apply (pl_in _ _ Hp), in_app_iff; auto). split; auto. apply (pl_dec _ _ Hp); auto. apply in_app_iff. auto. }
  assert (Hrem : forall e, In e (rev r) <-> In e rem).
  { intros e. rewrite <- in_rev. split.
    - intros He. eapply Permutation_in in He; [|apply Permutation_sym, Hpr]. apply in_decisions in He. destruct He as [He Ht].
      apply (iv_in _ _ _ _ _ Hi) in He. destruct He as [[He Hn]|(x & _ & ->)]; [|discriminate]. apply (pl_dec _ _ Hp) in Ht; auto. apply in_app_iff in Ht. tauto.
    - intros He. eapply Permutation_in; [apply Hpr|]. apply in_decisions. assert (HeV : In e V) by (apply (pl_in _ _ Hp), in_app_iff; auto). split.
      + apply (iv_in _ _ _ _ _ Hi). left. split; auto. intros Hc. eapply NoDup_app_disjoint; [apply (pl_nodup _ _ Hp)| |]; eauto.
      + apply (pl_dec _ _ Hp); auto. apply in_app_iff. auto. }
  assert (Hflag : forall v, In v V -> parent_flag deps (todo_of false r) (v_index v) = existsb (fun e => observes deps e v) rem).
  { intros v Hv. unfold todo_of. rewrite flag_split, (existsb_same _ _ _ Hrem). 
    assert (G : forall l, existsb (fun d => parent_flag deps [d] (v_index v)) l = existsb (fun e => observes deps e v) l).
    { induction l as [|d l IH]; simpl; auto. rewrite <- IH. f_equal. rewrite <- (observes_flag vs fs deps d v Hpb Hv). simpl. rewrite !orb_false_r. auto. }
    apply G. }
  set (hl5 := map back hl4).
  assert (HinW : forall x, In x W -> In (back x) V /\ v_id x = v_id (back x) /\ v_index x = v_index (back x) /\
     ((x = back x /\ ~ In x done) \/ (In (back x) done /\ x = withNodeType (back x) Chance))).
  { intros x Hx. apply (iv_in _ _ _ _ _ Hi) in Hx. destruct Hx as [[Hx Hn]|(e & He & ->)].
    - rewrite (back_self x Hx). auto 6.
    - destruct (Hdone e He) as [HeV _]. rewrite (back_chance e HeV). auto 6. }
  assert (Hhid : forall x, In x hl4 <-> In x W /\ is_hidden (ve_elim s) deps (todo_of false r) [] [] x = true).
  { intros x. rewrite <- filter_In. split; apply Permutation_in; auto. apply Permutation_sym; auto. }
  assert (Hh : forall x, is_hidden (ve_elim s) deps (todo_of false r) [] [] x = true <->
     v_type x = Chance /\ nth (v_index x) (ve_elim s) false = false /\ parent_flag deps (todo_of false r) (v_index x) = false).
  { intros x. unfold is_hidden. simpl. rewrite !andb_true_r, !andb_true_iff, !negb_true_iff, nodeType_eqb_spec. tauto. }
  assert (Hset : forall v, In v hl5 <-> In v (gone rem done) /\ ~ In v E).
  { intros v. unfold hl5. rewrite in_map_iff. split.
    - intros (x & Ex & Hx). apply Hhid in Hx. destruct Hx as [Hx Hy]. apply Hh in Hy. destruct Hy as (Ht & Hel & Hfl).
      destruct (HinW x Hx) as (HvV & _ & Eix & Hor). rewrite Ex in *. rewrite Eix in Hel, Hfl. rewrite Hflag in Hfl by auto.
      rewrite in_gone, <- contains_var_false. destruct Hor as [[E' Hn]|[Hd E']].
      + subst x. rewrite <- (iv_elim _ _ _ _ _ Hi) by (auto; rewrite Ht; discriminate). split; auto. split; auto. left. split; auto.
        intros e He. destruct (observes deps e v) eqn:Eo; auto. assert (existsb (fun e => observes deps e v) rem = true) by (apply existsb_exists; eauto). congruence.
      + destruct (Hdone v Hd) as [_ Hdt]. rewrite <- (iv_elim _ _ _ _ _ Hi) by (auto; rewrite Hdt; discriminate). auto.
    - rewrite in_gone, <- contains_var_false. intros [[HvV Hor] HnE]. destruct Hor as [[Ht Ho]|Hd].
      + exists v. split; [apply back_self; auto|]. apply Hhid. split.
        * apply (iv_in _ _ _ _ _ Hi). left. split; auto. intros Hc. apply Hdone in Hc. destruct Hc. congruence.
        * apply Hh. split; auto. rewrite (iv_elim _ _ _ _ _ Hi) by (auto; rewrite Ht; discriminate). split; auto. rewrite Hflag by auto.
          apply not_true_iff_false. intros Hc. apply existsb_exists in Hc. destruct Hc as (e & He & Hc). rewrite Ho in Hc by auto. discriminate.
      + destruct (Hdone v Hd) as [_ Hdt]. exists (withNodeType v Chance). split; [apply back_chance; auto|]. apply Hhid. split.
        * apply (iv_in _ _ _ _ _ Hi). right. eauto.
        * apply Hh. split; auto. change (v_index (withNodeType v Chance)) with (v_index v).
          rewrite (iv_elim _ _ _ _ _ Hi) by (auto; rewrite Hdt; discriminate). split; auto. rewrite Hflag by auto.
          apply not_true_iff_false. intros Hc. apply existsb_exists in Hc. destruct Hc as (e & He & Hc).
          assert (In v rem) by (apply (pl_closed _ _ Hp e v); auto). eapply NoDup_app_disjoint; [apply (pl_nodup _ _ Hp)| |]; eauto. }
  assert (Hhl4W : forall x, In x hl4 -> In x W) by (intros x Hx; apply Hhid in Hx; tauto).
  assert (Hids : map v_id hl5 = map v_id hl4).
  { unfold hl5. rewrite map_map. apply map_ext_in. intros x Hx. symmetry. apply HinW. auto. }
  assert (Hw4 : wf_vars hl4). { eapply wf_perm; [apply Hp2|]. apply NoDup_filter_map. apply (iv_wf _ _ _ _ _ Hi). }
  assert (Hw5 : wf_vars hl5) by (unfold wf_vars; rewrite Hids; exact Hw4).
  assert (Hi5 : incl hl5 V) by (intros v Hv; apply Hset in Hv; apply (gone_in rem done); tauto).
  assert (HF5 : Forall2 (fun v v' => v_id v' = v_id v /\ (v_index v' < length (ve_elim (with_tick s t2)))%nat) hl5 hl4).
  { assert (G : forall x, In x hl4 -> v_id x = v_id (back x) /\ (v_index x < length (ve_elim (with_tick s t2)))%nat).
    { intros x Hx. destruct (HinW x (Hhl4W x Hx)) as (Hb & H1 & H2 & _). split; auto. change (ve_elim (with_tick s t2)) with (ve_elim s).
      rewrite (iv_elen _ _ _ _ _ Hi), H2. apply index_lt; auto. }
    unfold hl5. clear - G. induction hl4 as [|x l IH]; simpl; constructor. apply G; simpl; auto. apply IH. intros; apply G; simpl; auto. }
  assert (Hperm : Permutation (gone rem done) (hl5 ++ E)).
  { apply NoDup_Permutation.
    - apply wf_NoDup, gone_wf.
    - apply NoDup_app'; try (apply wf_NoDup; auto). intros v Hv Hc. apply Hset in Hv. tauto.
    - intros v. rewrite in_app_iff, Hset. destruct (contains_var E v) eqn:Ec.
      + apply contains_var_spec in Ec. split; auto.
      + apply contains_var_false in Ec. tauto. }
  assert (Hsch : forall v, In v hl5 -> in_scope (with_tick s t2) v).
  { intros v Hv. apply Hset in Hv. destruct Hv as [Hv HnE]. pose proof (gone_in _ _ v Hv) as HvV. apply (iv_scope _ _ _ _ _ Hi v HvV). split; auto.
    apply in_gone in Hv. destruct Hv as [_ [[Ht _]|Hd]]; [rewrite Ht; discriminate|]. destruct (Hdone v Hd) as [_ Ht]. rewrite Ht. discriminate. }
  assert (Hgt : good V (with_tick s t2)) by (apply good_tick, Hi).
  destruct (remove_list sc V hl5 HV hl4 (with_tick s t2)) as (s2 & E4 & Hg2 & Hf2 & Hle2 & Hel2 & Hsc2 & Hw2); auto.
  destruct (iv_shadow _ _ _ _ _ Hi) as (tf & oth & sh & Hsh & Hshw).
  destruct (shadow_list sc V HV hl5 hl4 (with_tick s t2) tf oth sh s2) as (tf' & oth' & sh' & Hsh' & Hshw'); auto.
  { destruct Hsh. constructor; auto. }
  exists s2. split; auto.
  assert (Hfr : frame s s2) by (destruct Hf2 as [b1 b2 b3 b4]; constructor; auto).
  split; auto. constructor; rewrite ?(fr_vars _ _ Hfr); try apply Hi.
  - rewrite (fr_deps _ _ Hfr). apply Hi.
  - rewrite Hle2. apply (iv_elen _ _ _ _ _ Hi).
  - auto.
  - intros v Hv. rewrite Hsc2 by auto. change (in_scope (with_tick s t2) v) with (in_scope s v). rewrite (iv_scope _ _ _ _ _ Hi v Hv).
    assert (G : In v (gone rem done) <-> In v E \/ In (v_id v) (map v_id hl5)).
    { assert (Gi : In (v_id v) (map v_id hl5) <-> In v hl5).
      { split; [|apply in_map]. intros Hc. apply in_map_iff in Hc. destruct Hc as (x & Ex & Hx). replace v with x; auto. apply (wf_vars_inj V); auto. }
      rewrite Gi. split.
      - intros H. eapply Permutation_in in H; [|apply Hperm]. apply in_app_iff in H. tauto.
      - intros H. eapply Permutation_in; [apply Permutation_sym, Hperm|]. apply in_app_iff. tauto. }
    rewrite G. tauto.
  - intros v Hv Ht. assert (Hn : (v_index v < length (ve_elim s2))%nat) by (rewrite Hle2; change (ve_elim (with_tick s t2)) with (ve_elim s); rewrite (iv_elen _ _ _ _ _ Hi); apply index_lt; auto).
    pose proof (Hel2 (v_index v)) as He. 
    assert (Hex : existsb (fun x => (v_index x =? v_index v)%nat) hl4 = contains_var hl5 v).
    { apply eq_true_iff_eq. rewrite existsb_exists, contains_var_spec. unfold hl5. rewrite in_map_iff. split.
      - intros (x & Hx & Ei). apply Nat.eqb_eq in Ei. exists x. split; auto. destruct (HinW x (Hhl4W x Hx)) as (Hb & _ & H2 & _). apply (index_inj V); auto. congruence.
      - intros (x & Eb & Hx). exists x. split; auto. apply Nat.eqb_eq. destruct (HinW x (Hhl4W x Hx)) as (Hb & _ & H2 & _). congruence. }
    rewrite Hex in He. assert (Eg : contains_var (gone rem done) v = contains_var hl5 v || contains_var E v).
    { apply eq_true_iff_eq. rewrite orb_true_iff, !contains_var_spec. rewrite <- in_app_iff. split; apply Permutation_in; auto. apply Permutation_sym; auto. }
    rewrite Eg. destruct (contains_var hl5 v) eqn:Ec.
    + rewrite (nth_error_nth _ _ _ He). auto.
    + simpl. rewrite <- (iv_elim _ _ _ _ _ Hi v Hv Ht). destruct (nth_error (ve_elim s) (v_index v)) as [b|] eqn:Eb.
      * change (ve_elim (with_tick s t2)) with (ve_elim s) in He. rewrite Eb in He. rewrite (nth_error_nth _ _ _ He), (nth_error_nth _ _ _ Eb). auto.
      * apply nth_error_None in Eb. rewrite Hle2 in Hn. change (ve_elim (with_tick s t2)) with (ve_elim s) in Hn. lia.
  - intros a Ha. rewrite Hw2 by auto. change (live (with_tick s t2)) with (live s).
    rewrite (total_perm _ (gone rem done) (hl5 ++ E)); auto; [|intros x y Hxy; rewrite (Hutil x y Hxy), (weight_proper _ x y Hxy); auto|apply gone_wf].
    rewrite total_app. apply (total_ext_range _ _ V); auto. apply Hi.
  - exists tf', oth', sh'. split; auto. intros a Ha. rewrite Hshw' by auto.
    rewrite (total_perm _ (gone rem done) (hl5 ++ E)); auto; [|apply weight_proper|apply gone_wf].
    rewrite total_app. apply (total_ext_range _ _ V); auto.
Qed.

Lemma in_settled done v : In v (settled done) <-> In v V /\ (v_type v = Chance \/ In v done).
Proof. unfold settled. rewrite filter_In, orb_true_iff, nodeType_eqb_spec, contains_var_spec. tauto. Qed.

(** One conditional distribution per settled variable. *)
Definition dists (done : list variable) (q : variable -> fac) : Prop :=
  forall c, In c (settled done) -> is_cpt V q rank c /\ nonneg V (q c).

Definition extend (q : variable -> fac) (d : variable) (pol : fac) : variable -> fac := fun v => if var_eqb v d then pol else q v.

Lemma extend_same q d pol : extend q d pol d = pol.
Proof. unfold extend. rewrite (proj2 (var_eqb_spec d d) eq_refl). auto. Qed.

Lemma extend_other q d pol v : v <> d -> extend q d pol v = q v.
Proof. intros H. unfold extend. destruct (var_eqb v d) eqn:E; auto. apply var_eqb_spec in E. congruence. Qed.

Lemma settled_extend q d pol done : In d V -> v_type d = Decision -> ~ In d done ->
  Permutation (map (extend q d pol) (settled (d :: done))) (pol :: map q (settled done)).
Proof.
  intros Hd Ht Hn. assert (Hns : ~ In d (settled done)). { rewrite in_settled. intros [_ [H|H]]; auto. congruence. }
  assert (Hp : Permutation (settled (d :: done)) (d :: settled done)).
  { apply NoDup_Permutation.
    - apply NoDup_filter, wf_NoDup; auto.
    - constructor; auto. apply NoDup_filter, wf_NoDup; auto.
    - intros v. simpl. rewrite !in_settled. simpl. split; [intros [H1 [H2|[->|H2]]]|intros [->|[H1 [H2|H2]]]]; auto 6. }
  eapply Permutation_trans; [apply Permutation_map, Hp|]. simpl. rewrite extend_same. 
  rewrite (map_ext_in (extend q d pol) q); auto. intros v Hv. apply extend_other. intros ->. auto.
Qed.

(** The policy [pol] of [d] is the best one given the distributions [later]. *)
Record choice (E : list variable) (later : list fac) (d : variable) (pol : fac) : Prop := {
  ch_wf : wf_factor pol;
  ch_finite : finite_factor pol;
  ch_in : incl (f_vars pol) V;
  ch_own : In d (f_vars pol);
  ch_vars : forall v, In v (f_vars pol) -> v = d \/ observes deps d v = true;
  ch_pos : forall a, in_range V a -> (0 <= value pol a)%Qc;
  ch_rows : forall a, in_range V a -> qsum (map (fun k => value pol (upd a (v_id d) k)) (seq 0 (v_outcomes d))) = 1%Qc;
  ch_best : let R := total (fun x => weight_of later x * util x)%Qc E in
    forall a k, in_range V a -> (k < v_outcomes d)%nat ->
      (R (upd a (v_id d) k) <= qsum (map (fun j => value pol (upd a (v_id d) j) * R (upd a (v_id d) j))%Qc (seq 0 (v_outcomes d))))%Qc
}.

(** One round of the loop of SolvePolicies. *)
Definition round : state * list (variable * (fac * fac)) -> variable -> gores (state * list (variable * (fac * fac))) :=
  fun '(s, policies) dec =>
    let '(s, factors) := find_decision_factors sc s dec in
    match factors with
    | [] => Panic (PMsg "found no factors containing variable and its parents"%string)
    | _ =>
      let! (vs, fac) := match factors with
                        | [f] => Ok (ve_vs s, f)
                        | _ => product (ve_vs s) factors
                        end in
      let! (vs, pol) := policy vs fac dec in
      let policies' := mset var_eqb policies dec (fac, pol) in
      let s := with_factors s (mset Z.eqb (ve_factors s) (f_id pol) pol) in
      let! vs := set_chance vs (Z.of_nat (v_index dec)) in
      let! s := eliminate_hidden sc (with_vs s vs) [] [] false in
      Ok (s, policies')
    end.

Lemma loop_rounds s l : solve_policies_loop sc s l false = foldM round (s, []) (rev l).
Proof. reflexivity. Qed.

Lemma plan_next r0 d done : plan (r0 ++ [d]) done -> plan r0 (d :: done).
Proof.
  intros Hp. assert (Hperm : Permutation ((r0 ++ [d]) ++ done) (r0 ++ d :: done)) by (rewrite <- app_assoc; apply Permutation_refl).
  constructor.
  - intros v Hv. rewrite (pl_dec _ _ Hp v Hv). split; apply Permutation_in; auto. apply Permutation_sym; auto.
  - eapply Permutation_NoDup; [apply Hperm|apply Hp].
  - intros v Hv. apply (pl_in _ _ Hp). eapply Permutation_in; [apply Permutation_sym, Hperm|]. auto.
  - intros e p He Ho HpV Ht. assert (H : In p (r0 ++ [d])) by (apply (pl_closed _ _ Hp e p); auto; apply in_app_iff; auto).
    apply in_app_iff in H. destruct H as [H|[<-|[]]]; auto. exfalso.
    assert (Hde : observes deps d e = true) by (apply (proj1 (pl_chain _ _ Hp r0 d [] eq_refl e He))).
    assert (Hin : forall x, In x (r0 ++ [d]) -> In x V /\ v_type x = Decision).
    { intros x Hx. assert (In x V) by (apply (pl_in _ _ Hp), in_app_iff; auto). split; auto. apply (pl_dec _ _ Hp); auto. apply in_app_iff; auto. }
    destruct (Hin e) as [HeV Het]; [apply in_app_iff; auto|].
    destruct (observes_parent e d HpV Ho) as (ps & Hps & H1). destruct (observes_parent d e HeV Hde) as (ps' & Hps' & H2).
    pose proof (di_info _ _ _ _ _ Hid e ps d Hps Het H1). pose proof (di_info _ _ _ _ _ Hid d ps' e Hps' Ht H2). lia.
  - intros l1 x l2 El e He. apply (pl_chain _ _ Hp l1 x (l2 ++ [d])); auto. rewrite El, <- app_assoc. auto.
Qed.

Theorem choose r0 d done q s policies : (0 < v_outcomes d)%nat -> plan (r0 ++ [d]) done -> dists done q ->
  inv (gone (r0 ++ [d]) done) (r0 ++ [d]) done q s -> ~ In d (map fst policies) ->
  exists s' fac pol, round (s, policies) d = Ok (s', policies ++ [(d, (fac, pol))]) /\
    choice (gone (r0 ++ [d]) done) (map q (settled done)) d pol /\
    dists (d :: done) (extend q d pol) /\ inv (gone r0 (d :: done)) r0 (d :: done) (extend q d pol) s'.
Proof.
  intros Hdo Hp Hq Hi Hnk. set (rem := r0 ++ [d]) in *. set (E := gone rem done) in *.
  assert (Hdrem : In d rem) by (apply in_app_iff; simpl; auto).
  assert (HdV : In d V) by (apply (pl_in _ _ Hp), in_app_iff; auto).
  assert (Hdt : v_type d = Decision) by (apply (pl_dec _ _ Hp); auto; apply in_app_iff; auto).
  assert (Hnd : ~ In d done) by (intros Hc; eapply NoDup_app_disjoint; [apply (pl_nodup _ _ Hp)| |]; eauto).
  assert (HnE : ~ In d E). { unfold E. rewrite in_gone. intros [_ [[H _]|H]]; auto. congruence. }
  assert (Hg2 : good V s) by apply Hi. assert (HdE : forall e, In e done -> In e E) by (intros e He; apply in_gone; split; auto; apply (pl_in _ _ Hp), in_app_iff; auto).
  assert (Hobs : forall v, In v V -> v_type v <> Utility -> ~ In v E -> v = d \/ observes deps d v = true).
  { intros v Hv Hvt HvE. destruct (v_type v) eqn:Et; try congruence.
    - right. unfold E in HvE. rewrite in_gone in HvE. destruct (observes deps d v) eqn:Eo; auto. exfalso. apply HvE. split; auto. left. split; auto.
      intros e He. apply in_app_iff in He. destruct He as [He|[<-|[]]]; auto. destruct (observes deps e v) eqn:Ee; auto.
      apply (pl_chain _ _ Hp r0 d [] eq_refl e He) in Ee. congruence.
    - apply (pl_dec _ _ Hp) in Et; auto. apply in_app_iff in Et. destruct Et as [Et|Et]; [|exfalso; auto].
      apply in_app_iff in Et. destruct Et as [Et|[<-|[]]]; auto. right. apply (proj1 (pl_chain _ _ Hp r0 d [] eq_refl v Et)). }
  assert (Hd2 : in_scope s d). { apply (iv_scope _ _ _ _ _ Hi d HdV). split; auto. congruence. }
  unfold round.
  destruct (find_decision_factors_step sc V s d HV Hg2 Hd2) as (t3 & fl & rest & E5 & Hp5 & Hne5 & Hfl & Hrest).
  rewrite E5. cbv iota beta.
  destruct fl as [|fl0 fl1] eqn:Efl; [congruence|]. rewrite <- Efl in *.
  set (W := vs_vars (ve_vs s)) in *.
  assert (Hfac : exists vs1 fac, match fl with [f] => Ok (ve_vs (with_tick s t3), f) | _ => product (ve_vs (with_tick s t3)) fl end = Ok (vs1, fac) /\
     vs_vars vs1 = W /\ vs_counter (ve_vs s) <= vs_counter vs1 /\ wf_factor fac /\ finite_factor fac /\ incl (f_vars fac) V /\
     (forall v, In v (f_vars fac) <-> exists f, In f fl /\ In v (f_vars f)) /\
     forall a, in_range V a -> value fac a = weight_of fl a).
  { assert (Hgf : forall f, In f fl -> good_factor V (vs_counter (ve_vs s)) f).
    { intros f Hf. apply (g_fac _ _ Hg2). eapply Permutation_in; [apply Permutation_sym, Hp5|]. apply in_app_iff; auto. }
    assert (G : exists vs1 fac, product (ve_vs (with_tick s t3)) fl = Ok (vs1, fac) /\
     vs_vars vs1 = W /\ vs_counter (ve_vs s) <= vs_counter vs1 /\ wf_factor fac /\ finite_factor fac /\ incl (f_vars fac) V /\
     (forall v, In v (f_vars fac) <-> exists f, In f fl /\ In v (f_vars f)) /\
     forall a, in_range V a -> value fac a = weight_of fl a).
    { destruct (good_product V (vs_counter (ve_vs s)) (ve_vs s) fl) as (f & Ef & Hidf & Hwf & Hff & Hif & Hvf & Hvalf); auto.
      exists (bump (ve_vs s)), f. simpl. split; auto. split; auto. split; [lia|]. do 4 (split; auto).
      intros a Ha. apply Hvalf. eapply in_range_incl; eauto. }
    rewrite Efl in *. destruct fl1 as [|fl2 fl3]; [|exact G]. destruct (Hgf fl0) as (h1 & h2 & h3 & h4); [simpl; auto|].
    exists (ve_vs s), fl0. split; auto. split; auto. split; [lia|]. do 3 (split; auto). split.
    - intros v. split; [intros Hv; exists fl0; simpl; auto|]. intros (f & [<-|[]] & Hv). auto.
    - intros a Ha. unfold weight_of. simpl. ring. }
  destruct Hfac as (vs1 & fac & E6 & Hv6 & Hc6 & Hw6 & Hfin6 & Hi6 & Hvs6 & Hval6).
  rewrite Efl. rewrite <- Efl.
  match goal with |- context [gbind ?m _] => replace m with (@Ok _ (vs1, fac)) by (rewrite <- E6, Efl; reflexivity) end.
  cbn [gbind].
  assert (Hdfac : In d (f_vars fac)). { apply Hvs6. exists fl0. rewrite Efl in *. split; simpl; auto. apply Hfl. simpl; auto. }
  destruct (denotes_policy vs1 fac d (value fac)) as (pol & E7 & Hid7 & Hw7 & Hvs7 & Hd7); auto.
  { apply finite_denotes. auto. }
  rewrite E7. cbn [gbind].
  assert (Hfin7 : finite_factor pol) by (eapply denotes_finite; eauto).
  assert (Hi7 : incl (f_vars pol) V).
  { rewrite Hvs7. intros v Hv. apply in_app_iff in Hv. destruct Hv as [Hv|[<-|[]]]; auto. apply in_others in Hv. apply Hi6. tauto. }
  assert (Hdpol : In d (f_vars pol)) by (rewrite Hvs7; apply in_app_iff; simpl; auto).
  assert (Hscp : forall v, In v (f_vars pol) -> in_scope s v).
  { intros v Hv. rewrite Hvs7 in Hv. apply in_app_iff in Hv. destruct Hv as [Hv|[<-|[]]]; auto. apply in_others in Hv. destruct Hv as [Hv _].
    apply Hvs6 in Hv. destruct Hv as (f & Hf & Hvf). exists f. split; auto. eapply Permutation_in; [apply Permutation_sym, Hp5|]; apply in_app_iff; auto. }
  assert (Hval7 : forall a, in_range V a -> value pol a = 
     let u k := value fac (upd a (v_id d) k) in let n := v_outcomes d in
     if is_max u n (a (v_id d)) then (1 / Q2Qc (inject_Z (Z.of_nat (num_max u n))))%Qc else 0%Qc).
  { intros a Ha. apply (denotes_value _ _ _ Hd7). eapply in_range_incl; eauto. }
  assert (Hupd : forall a k, in_range V a -> (k < v_outcomes d)%nat -> in_range V (upd a (v_id d) k)).
  { intros a k Ha Hk. apply in_range_upd'; auto. }
  assert (Hpos7 : forall a, in_range V a -> (0 <= value pol a)%Qc).
  { intros a Ha. rewrite Hval7 by auto. cbv zeta. destruct (is_max _ _ _) eqn:Em; [|apply Qcle_refl].
    pose proof (num_max_pos (fun k => value fac (upd a (v_id d) k)) (v_outcomes d) Hdo) as Hn.
    unfold Qcdiv. rewrite Qcmult_1_l. apply qinv_nonneg. auto. }
  assert (Hsum7 : forall a, in_range V a -> qsum (map (fun k => value pol (upd a (v_id d) k)) (seq 0 (v_outcomes d))) = 1%Qc).
  { intros a Ha. destruct (policy_exact_spec vs1 fac d (value fac)) as (pol' & p & E7' & _ & _ & Hdp & _ & _ & Hs); auto.
    { apply finite_denotes. auto. }
    rewrite E7 in E7'. inversion E7'; subst pol'. rewrite <- (Hs a) by (eapply in_range_incl; eauto).
    apply qsum_ext. intros k Hk. apply in_seq in Hk. apply (denotes_value _ _ _ Hdp). eapply in_range_incl; [eauto|]. apply Hupd; auto. lia. }
  assert (Hpv : forall v, In v (f_vars pol) -> v = d \/ observes deps d v = true).
  { intros v Hv. pose proof (Hscp v Hv) as H. apply (iv_scope _ _ _ _ _ Hi) in H; auto. destruct H. apply Hobs; auto. }
  assert (Hdi : dists (d :: done) (extend q d pol)).
  { intros c Hc. apply in_settled in Hc. destruct Hc as [HcV Hc].
    destruct (var_eqb c d) eqn:Ecd.
    - apply var_eqb_spec in Ecd. subst c. unfold is_cpt, nonneg. rewrite extend_same. split; auto. split; auto. split; auto.
      intros u Hu Hne. destruct (Hpv u Hu) as [->|Ho]; [congruence|]. destruct (observes_parent d u (Hi7 u Hu) Ho) as (ps & Hps & Hin).
      eapply (di_info _ _ _ _ _ Hid); eauto.
    - assert (Hne : c <> d) by (intros ->; rewrite (proj2 (var_eqb_spec d d) eq_refl) in Ecd; discriminate).
      unfold is_cpt, nonneg. rewrite extend_other by auto. apply Hq. apply in_settled. split; auto. destruct Hc as [Hc|[Hc|Hc]]; auto. congruence. }
  (* the state with the policy added *)
  assert (HWd : In d W). { apply (iv_in _ _ _ _ _ Hi). auto. }
  assert (HndW : nth_error W (v_index d) = Some d).
  { apply In_nth_error in HWd. destruct HWd as (i & Hin). rewrite (iv_index _ _ _ _ _ Hi _ _ Hin). auto. }
  destruct (good_add V s (ve_factors s) pol (mkVS (vs_counter (bump vs1)) (upd_nth W (v_index d) (withNodeType d Chance)) (vs_ids (bump vs1)))) as [Hset Hgood]; auto.
  { apply Hg2. }
  { rewrite Hid7. simpl. lia. }
  rewrite set_chance_ok by (simpl; rewrite Hv6; auto). cbn [gbind].
  simpl vs_vars. rewrite Hv6. cbn [with_factors with_tick ve_factors]. rewrite Hset.
  match goal with |- context [eliminate_hidden sc ?s [] [] false] => set (s3 := s) end.
  assert (Hg3 : good V s3) by apply Hgood.
  destruct (after_set_chance W d (iv_wf _ _ _ _ _ Hi) HWd (iv_index _ _ _ _ _ Hi)) as (HW & HWix & HWl & HWin & HVin).
  set (W' := upd_nth W (v_index d) (withNodeType d Chance)) in *.
  assert (Hlv3 : live s3 = live s ++ [pol]). { unfold live. simpl. rewrite map_app. auto. }
  assert (Hign : forall v, In v E -> ignores (value pol) (v_id v)).
  { intros v Hv a k. apply value_ignores. intros Hc. apply in_map_iff in Hc. destruct Hc as (x & Ex & Hx).
    assert (x = v) by (apply (wf_vars_inj V); auto; apply (gone_in rem done); auto). subst x.
    apply Hscp in Hx. apply (iv_scope _ _ _ _ _ Hi) in Hx; [tauto|]. apply (gone_in rem done); auto. }
  assert (Hse : forall x, weight_of (map (extend q d pol) (settled (d :: done))) x = (value pol x * weight_of (map q (settled done)) x)%Qc).
  { intros x. rewrite (weight_perm _ _ x (settled_extend q d pol done HdV Hdt Hnd)). unfold weight_of. simpl. ring. }
  assert (Hi3 : inv E r0 (d :: done) (extend q d pol) s3).
  { constructor; try (change (vs_vars (ve_vs s3)) with W'); auto.
    - rewrite HWl. apply Hi.
    - intros x. split.
      + intros Hx. destruct (HWin x Hx) as [->|[Hx1 Hx2]]; [right; exists d; simpl; auto|].
        apply (iv_in _ _ _ _ _ Hi) in Hx1. destruct Hx1 as [[H1 H2]|(e & He & ->)].
        * left. split; auto. intros [Hc|Hc]; auto.
        * right. exists e. simpl. auto.
      + intros [[H1 H2]|(e & [<-|He] & ->)].
        * apply HVin. { apply (iv_in _ _ _ _ _ Hi). left. split; auto. intros Hc. apply H2. simpl. auto. } intros ->. apply H2. simpl. auto.
        * assert (Hl : (v_index d < length W)%nat) by (apply nth_error_Some; rewrite HndW; discriminate).
          apply (nth_error_In W' (v_index d)). unfold W'. rewrite upd_nth_spec, Nat.eqb_refl. destruct (Nat.ltb_spec (v_index d) (length W)); simpl; auto. lia.
        * apply HVin. { apply (iv_in _ _ _ _ _ Hi). right. eauto. } intros Hc. rewrite <- Hc in Hdt. discriminate.
    - apply Hi.
    - apply Hi.
    - intros v Hv. rewrite <- (iv_scope _ _ _ _ _ Hi v Hv). unfold in_scope. rewrite Hlv3. split.
      + intros (f & Hf & Hvf). apply in_app_iff in Hf. destruct Hf as [Hf|[<-|[]]]; [eauto|]. apply (Hscp v Hvf).
      + intros (f & Hf & Hvf). exists f. split; auto. apply in_app_iff. auto.
    - apply Hi.
    - intros a Ha. rewrite Hlv3, weight_app, (iv_weight _ _ _ _ _ Hi a Ha). unfold weight_of at 2. simpl. rewrite Qcmult_1_r, Qcmult_comm.
      rewrite <- (total_factor (value pol) _ E a) by auto. apply total_ext. intros x _. rewrite Hse. ring.
    - destruct (iv_shadow _ _ _ _ _ Hi) as (tf & oth & sh & Hsh & Hshw). exists tf, (oth ++ [pol]), sh. split.
      + destruct Hsh as [S1 S2 S3 S4 S5 S6]. constructor; auto.
        * rewrite Hlv3. change (tf :: oth ++ [pol]) with ((tf :: oth) ++ [pol]). apply Permutation_app_tail. auto.
        * intros f Hf. apply in_app_iff in Hf. destruct Hf as [Hf|[<-|[]]]; auto.
      + intros a Ha. rewrite weight_app. unfold weight_of at 2. simpl. rewrite Qcmult_1_r.
        replace (weight_of oth a * value pol a * sh a)%Qc with (value pol a * (weight_of oth a * sh a))%Qc by ring. rewrite Hshw by auto.
        rewrite <- (total_factor (value pol) _ E a) by auto. apply total_ext. intros x _. rewrite Hse. auto. }
  destruct (elim_all E r0 (d :: done) (extend q d pol) s3 (plan_next _ _ _ Hp) Hi3) as (s4 & E10 & Hi4 & _).
  { apply gone_wf. }
  { intros v Hv. apply in_gone in Hv. apply in_gone. destruct Hv as [HvV [[H1 H2]|H1]]; split; auto; [left|right; simpl; auto].
    split; auto. intros e He. apply H2. apply in_app_iff. auto. }
  rewrite E10. cbn [gbind]. exists s4, fac, pol. rewrite (mset_new _ var_eqb_spec) by auto.
  split; auto. split; [|split; auto]. constructor; auto.
  (* optimality *)
  cbv zeta. set (R := total (fun x => weight_of (map q (settled done)) x * util x)%Qc E). intros a k Ha Hk.
  assert (HR : forall b, in_range V b -> R b = (weight_of fl b * weight_of rest b)%Qc).
  { intros b Hb. rewrite <- weight_app, <- (weight_perm _ _ _ Hp5). symmetry. apply (iv_weight _ _ _ _ _ Hi b Hb). }
  assert (Hrd : forall f, In f rest -> ~ In (v_id d) (map v_id (f_vars f))).
  { intros f Hf Hc. apply in_map_iff in Hc. destruct Hc as (x & Ex & Hx). apply (Hrest f Hf).
    replace d with x; auto. apply (wf_vars_inj V); auto.
    assert (Hfs2 : In f (live s)) by (eapply Permutation_in; [apply Permutation_sym, Hp5|]; apply in_app_iff; auto).
    apply (g_fac _ _ Hg2 f Hfs2). auto. }
  set (F := fun j => weight_of fl (upd a (v_id d) j)). set (G := weight_of rest a).
  assert (HRj : forall j, (j < v_outcomes d)%nat -> R (upd a (v_id d) j) = (F j * G)%Qc).
  { intros j Hj. rewrite HR by (apply Hupd; auto). unfold F, G. rewrite (weight_ignores rest) by auto. auto. }
  assert (Hcmp : forall j, (j < v_outcomes d)%nat -> (forall i, (i < v_outcomes d)%nat -> (F i <= F j)%Qc) ->
      (R (upd a (v_id d) k) <= R (upd a (v_id d) j))%Qc).
  { intros j Hj Hmax. rewrite !HRj by auto. destruct (iv_shadow _ _ _ _ _ Hi) as (tf & oth & sh & Hsh & Hshw).
    destruct Hsh as [Hlv Hpos Hprop Htpos Hzero Higs].
    assert (Hptf : Permutation (tf :: oth) (fl ++ rest)) by (rewrite <- Hlv; auto).
    assert (Htf : In tf (fl ++ rest)) by (eapply Permutation_in; [apply Hptf|simpl; auto]).
    apply in_app_iff in Htf. destruct Htf as [Htf|Htf]; apply in_split in Htf; destruct Htf as (l1 & l2 & El).
    - apply Qcmult_le_compat_r; auto. apply (weight_nonneg V); auto. intros f Hf. apply Hpos.
      rewrite El, <- app_assoc in Hptf. simpl in Hptf. apply Permutation_cons_app_inv in Hptf.
      eapply Permutation_in; [apply Permutation_sym, Hptf|]. apply in_app_iff. right. apply in_app_iff. auto.
    - assert (Ho : Permutation oth (fl ++ l1 ++ l2)).
      { rewrite El, app_assoc in Hptf. apply Permutation_cons_app_inv in Hptf. rewrite <- app_assoc in Hptf. auto. }
      set (G' := (weight_of (l1 ++ l2) a * sh a)%Qc).
      assert (EG : G = (value tf a * weight_of (l1 ++ l2) a)%Qc).
      { unfold G. rewrite El, !weight_app. unfold weight_of. simpl. ring. }
      assert (Hntf : ~ In (v_id d) (map v_id (f_vars tf))) by (apply Hrd; rewrite El; apply in_app_iff; simpl; auto).
      assert (Hn12 : forall f, In f (l1 ++ l2) -> ~ In (v_id d) (map v_id (f_vars f))).
      { intros f Hf. apply Hrd. rewrite El. apply in_app_iff. simpl. apply in_app_iff in Hf. tauto. }
      assert (HM : forall i, (i < v_outcomes d)%nat -> (F i * G' = total (weight_of (map q (settled done))) E a)%Qc).
      { intros i Hi'. rewrite <- (observed_independent V q rank (settled done) E (v_id d)) with (k := i); auto.
        - rewrite <- Hshw by auto. rewrite (weight_perm _ _ _ Ho), weight_app, Higs by auto.
          rewrite (weight_ignores (l1 ++ l2)) by auto. unfold F, G'. ring.
        - apply NoDup_filter_map. auto.
        - intros c Hc. apply Hq. auto.
        - apply gone_wf.
        - intros c Hc. apply in_gone in Hc. apply in_settled. tauto.
        - intros c Hc Ec. apply in_settled in Hc. destruct Hc as [Hc Ht].
          assert (Ecd : c = d) by (apply (wf_vars_inj V); auto). subst c. destruct Ht; auto. congruence.
        - intros c Hc Hnh. apply in_settled in Hc. destruct Hc as [Hc Ht].
          destruct (Hobs c Hc) as [->|Eo]; auto.
          + destruct Ht as [Ht|Ht]; [rewrite Ht; discriminate|]. exfalso. auto.
          + destruct (observes_parent d c Hc Eo) as (ps & Hps & Hin). apply Nat.lt_le_incl. eapply (di_info _ _ _ _ _ Hid); eauto. }
      destruct (Qc_eq_dec G' 0%Qc) as [Ez|Ez].
      + assert (H0 : G = 0%Qc).
        { unfold G' in Ez. apply Qcmult_integral in Ez. rewrite EG. destruct Ez as [Ez|Ez]. rewrite Ez; ring. rewrite (Hzero a Ha Ez). ring. }
        rewrite H0. rewrite !Qcmult_0_r. apply Qcle_refl.
      + assert (H0 : F k = F j).
        { pose proof (HM k Hk) as H1. rewrite <- (HM j Hj) in H1.
          apply (f_equal (fun x => (x / G')%Qc)) in H1. unfold Qcdiv in H1. rewrite <- !Qcmult_assoc, Qcmult_inv_r, !Qcmult_1_r in H1; auto. }
        rewrite H0. apply Qcle_refl. }
  apply (qsum_weighted_max (fun j => value pol (upd a (v_id d) j)) (fun j => R (upd a (v_id d) j))).
  - intros j Hj. apply Hpos7. apply Hupd; auto.
  - apply Hsum7. auto.
  - intros j Hj Hnz. apply Hcmp; auto. rewrite Hval7 in Hnz by (apply Hupd; auto). cbv zeta in Hnz. rewrite upd_same in Hnz.
    destruct (is_max _ _ _) eqn:Em; [|congruence]. intros i Hi'. pose proof (is_max_value _ _ _ Em i Hi') as Hle. cbv beta in Hle.
    rewrite !(value_proper fac _ _ (upd_upd _ _ _ _)) in Hle. rewrite !Hval6 in Hle by (apply Hupd; auto). exact Hle.
Qed.

Lemma choice_perm E E' later later' d pol : wf_vars E -> Permutation E E' -> Permutation later later' ->
  choice E later d pol -> choice E' later' d pol.
Proof.
  intros Hw HE Hl [c1 c2 c3 c4 c5 c6 c7 c8]. constructor; auto. cbv zeta in *. intros a k Ha Hk.
  assert (G : forall b, total (fun x => weight_of later' x * util x)%Qc E' b = total (fun x => weight_of later x * util x)%Qc E b).
  { intros b. rewrite (total_perm _ E E'); auto. apply total_ext. intros x _. rewrite (weight_perm _ _ x Hl). auto.
    intros x y Hxy. rewrite (Hutil x y Hxy), (weight_proper _ x y Hxy). auto. }
  rewrite G. rewrite (qsum_ext _ (fun j => value pol (upd a (v_id d) j) * total (fun x => weight_of later x * util x)%Qc E (upd a (v_id d) j))%Qc). apply c8; auto.
  intros j _. rewrite G. auto.
Qed.

Definition pol_of (e : variable * (fac * fac)) : fac := snd (snd e).

Theorem rounds rem : forall done q s policies, (forall d, In d rem -> (0 < v_outcomes d)%nat /\ ~ In d (map fst policies)) ->
  plan rem done -> dists done q -> inv (gone rem done) rem done q s ->
  exists s' L, foldM round (s, policies) (rev rem) = Ok (s', policies ++ L) /\ map fst L = rev rem /\
    forall l1 d fac pol l2, L = l1 ++ (d, (fac, pol)) :: l2 ->
      choice (gone (rev (map fst l2) ++ [d]) (rev (map fst l1) ++ done)) (map pol_of (rev l1) ++ map q (settled done)) d pol.
Proof.
  induction rem as [|d r0 IH] using rev_ind; intros done q s policies Hd Hp Hq Hi.
  - exists s, []. rewrite app_nil_r. split; auto. split; auto. intros l1 d fac pol l2 E. destruct l1; discriminate.
  - rewrite rev_app_distr. cbn [rev List.app foldM].
    destruct (Hd d) as [Hdo Hnk]; [apply in_app_iff; simpl; auto|].
    destruct (choose r0 d done q s policies Hdo Hp Hq Hi Hnk) as (s1 & fac & pol & E1 & Hc & Hq1 & Hi1).
    rewrite E1. cbn [gbind].
    assert (Hnd : ~ In d r0 /\ ~ In d done).
    { pose proof (pl_nodup _ _ Hp) as Hn. rewrite <- app_assoc in Hn. simpl in Hn. apply NoDup_remove_2 in Hn. rewrite in_app_iff in Hn. tauto. }
    destruct Hnd as [Hnr Hnd].
    assert (HdV : In d V /\ v_type d = Decision).
    { assert (In d V) by (apply (pl_in _ _ Hp), in_app_iff; left; apply in_app_iff; simpl; auto). split; auto. apply (pl_dec _ _ Hp); auto.
      apply in_app_iff; left; apply in_app_iff; simpl; auto. }
    destruct HdV as [HdV Hdt].
    destruct (IH (d :: done) (extend q d pol) s1 (policies ++ [(d, (fac, pol))])) as (s2 & L & E2 & EL & HL); auto.
    { intros e He. destruct (Hd e) as [H1 H2]; [apply in_app_iff; auto|]. split; auto. rewrite map_app, in_app_iff. intros [H|[H|[]]]; auto.
      simpl in H. subst e. auto. }
    { apply plan_next. auto. }
    exists s2, ((d, (fac, pol)) :: L). split. { rewrite E2. rewrite <- app_assoc. auto. } split. { simpl. f_equal. auto. }
    intros l1 d' fac' pol' l2 El. destruct l1 as [|x l1].
    + simpl in El. injection El as <- <- <- <-. simpl. rewrite EL, rev_involutive. auto.
    + simpl in El. injection El as <- El. specialize (HL l1 d' fac' pol' l2 El). simpl. rewrite <- app_assoc. simpl.
      eapply choice_perm; [apply gone_wf|apply Permutation_refl| |apply HL].
      rewrite map_app, <- app_assoc. simpl. apply Permutation_app_head. apply settled_extend; auto.
Qed.
End A.

(** No decision forgets: of two decisions, the later one observes the earlier one and all it observes. *)
Definition forgets_nothing (V : list variable) (deps : depmap) : Prop :=
  forall d e, In d (decision_vars V) -> In e (decision_vars V) -> d <> e ->
    (observes deps d e = true /\ forall v, observes deps e v = true -> observes deps d v = true) \/
    (observes deps e d = true /\ forall v, observes deps d v = true -> observes deps e v = true).

Theorem policies_all sc t vs fs deps w cpt rank :
  influence_diagram vs fs deps cpt rank ->
  let V := vs_vars vs in let U := utilities_of V in
  U <> [] -> match w with None => True | Some l => length l = length U end ->
  (forall u, In u (U ++ decision_vars V) -> exists f, In f fs /\ In u (f_vars f)) ->
  decision_vars V <> [] -> (forall d, In d (decision_vars V) -> (0 < v_outcomes d)%nat) ->
  forgets_nothing V deps ->
  exists s' L, ve_solve_policies sc (ve_new t vs fs deps (finite_weights w)) false = Ok (s', Some L) /\
    Permutation (decision_vars V) (map fst L) /\
    forall l1 d fac pol l2, L = l1 ++ (d, (fac, pol)) :: l2 ->
      (forall k, In k (map fst l2) -> observes deps k d = false) /\
      choice vs deps (utility_in V w fs) (unobserved V deps d ++ map fst l1) (map pol_of l1 ++ prob_factors fs) d pol.
Proof.
  intros Hid V U HU Hwl Hcov Hdne Hdo Hnf.
  pose proof (di_problem _ _ _ _ _ Hid) as Hpb.
  destruct (problem_good vs fs deps t (finite_weights w) Hpb) as [Hg0 Hl0].
  assert (HV : wf_vars V) by apply Hpb.
  assert (Hix : forall i v, nth_error V i = Some v -> v_index v = i) by apply Hpb.
  unfold ve_solve_policies. set (s0 := ve_new t vs fs deps (finite_weights w)) in *.
  assert (Hr0 : ready s0). { apply (problem_ready vs fs deps); auto. apply repeat_length. }
  destruct (get_decisions_spec sc s0 (r_wf _ Hr0) (r_closed _ Hr0)) as (t0 & r & E0 & Hpr & Hpf).
  rewrite E0. cbn [gbind]. change (vs_vars (ve_vs s0)) with V in *. change (ve_deps s0) with deps in *.
  change (decisions_of V) with (decision_vars V) in *.
  assert (Hrne : r <> []). { intros ->. apply Permutation_sym, Permutation_nil in Hpr. auto. }
  assert (Hdec : forall v, In v r <-> In v V /\ v_type v = Decision).
  { intros v. rewrite <- in_decisions. split; apply Permutation_in; auto. apply Permutation_sym; auto. }
  assert (Hnr : NoDup r). { eapply Permutation_NoDup; [apply Hpr|]. apply NoDup_filter, wf_NoDup; auto. }
  assert (Hfirst : parents_first deps r).
  { apply (Hpf (fun v => rank (v_id v))). intros x p Hx (k' & ps' & Hin & Ek & Hp & Ht).
    destruct (vp_deps _ _ _ Hpb k' ps' Hin) as [Hk1 _]. apply in_decisions in Hx. destruct Hx as [Hx1 Hx2].
    assert (k' = x) by (apply (wf_vars_inj V); auto). subst k'. eapply (di_info _ _ _ _ _ Hid); eauto. }
  assert (Hbefore : forall l1 d l2 e, r = l1 ++ d :: l2 -> In e V -> v_type e = Decision -> observes deps d e = true -> In e l1).
  { intros l1 d l2 e El He Ht Ho. apply (Hfirst l1 d l2 El). destruct (observes_parent vs fs deps cpt rank Hid d e He Ho) as (ps & Hps & Hin). exists d, ps. auto. }
  assert (Hplan : plan vs deps r []).
  { constructor; rewrite ?app_nil_r; auto.
    - intros v Hv. rewrite Hdec. tauto.
    - intros v Hv. apply Hdec in Hv. tauto.
    - intros e p He Ho Hp Ht. apply Hdec. auto.
    - intros l1 d l2 El e He. assert (Hd : In d r) by (rewrite El; apply in_app_iff; simpl; auto). assert (Her : In e r) by (rewrite El; apply in_app_iff; auto).
      assert (Hne : d <> e). { intros ->. rewrite El in Hnr. apply NoDup_remove_2 in Hnr. apply Hnr. apply in_app_iff. auto. }
      destruct (Hnf d e) as [H|[H _]]; auto.
      { eapply Permutation_in; [apply Permutation_sym, Hpr|]. auto. }
      { eapply Permutation_in; [apply Permutation_sym, Hpr|]. auto. }
      exfalso. apply in_split in He. destruct He as (m1 & m2 & ->). rewrite <- app_assoc in El. simpl in El.
      apply Hdec in Hd. assert (Hd1 : In d m1) by (eapply Hbefore; eauto; tauto).
      rewrite El in Hnr. apply in_split in Hd1. destruct Hd1 as (n1 & n2 & ->). rewrite <- app_assoc in Hnr. simpl in Hnr. apply NoDup_remove_2 in Hnr.
      apply Hnr. apply in_app_iff. right. apply in_app_iff. right. simpl. right. apply in_app_iff. simpl. auto. }
  assert (EL : exists x r1, r = x :: r1) by (destruct r as [|x r1]; [congruence|eauto]). destruct EL as (x & r1 & EL). rewrite EL. rewrite <- EL. clear EL x r1.
  (* utilities *)
  assert (HUV : incl U V) by (intros u Hu; apply filter_In in Hu; tauto).
  assert (HUt : forall u, In u U -> v_type u = Utility) by (intros u Hu; apply filter_In in Hu; apply nodeType_eqb_spec; tauto).
  assert (Hsc0 : forall u, in_scope (with_tick s0 t0) u <-> exists f, In f fs /\ In u (f_vars f)).
  { intros u. unfold in_scope. change (live (with_tick s0 t0)) with (live s0). rewrite Hl0. tauto. }
  destruct (sum_utilities_step sc V (with_tick s0 t0) w) as (s1 & tot & E1 & Hg1 & Hf1 & Hle1 & Hel1 & Hl1 & Htv1 & Hval1); auto.
  { apply good_tick. auto. }
  { apply repeat_length. }
  { intros u Hu. apply Hsc0. apply Hcov, in_app_iff; auto. }
  change (live (with_tick s0 t0)) with (live s0) in *. rewrite Hl0 in Hl1, Htv1, Hval1.
  rewrite E1. cbn [gbind].
  assert (Hchance : forall c, In c V -> v_type c = Chance -> exists f, In f fs /\ In c (f_vars f)).
  { intros c Hc Ht. assert (Hcc : In c (chance_vars V)) by (apply filter_In; split; auto; apply nodeType_eqb_spec; auto).
    exists (cpt c). split; [|apply (di_own _ _ _ _ _ Hid); auto].
    assert (H : In (cpt c) (prob_factors fs)) by (eapply Permutation_in; [apply (di_cpts _ _ _ _ _ Hid)|apply in_map; auto]).
    apply filter_In in H. tauto. }
  assert (Hsettled : settled vs [] = chance_vars V).
  { unfold settled, chance_vars. apply filter_ext. intros v. simpl. apply orb_false_r. }
  assert (Hcp : Permutation (map cpt (chance_vars V)) (prob_factors fs)) by apply (di_cpts _ _ _ _ _ Hid).
  assert (Hup : proper (utility_in V w fs)) by (apply (total_proper (total_utility V w fs)); apply total_utility_proper).
  assert (Hdists : dists vs rank [] cpt).
  { intros c Hc. rewrite Hsettled in Hc. split.
    - split; [apply filter_In in Hc; tauto|]. split.
      + intros b Hb. apply (di_rows _ _ _ _ _ Hid); auto.
      + intros u Hu Hne. apply (di_order _ _ _ _ _ Hid); auto.
    - intros a Ha. apply (di_nonneg _ _ _ _ _ Hid); auto. }
  assert (Hi1 : inv vs deps (utility_in V w fs) [] r [] cpt s1).
  { assert (EW : vs_vars (ve_vs s1) = V) by apply (fr_vars _ _ Hf1).
    constructor; rewrite ?EW; auto.
    - intros v. split; [intros Hv; left; split; auto|]. intros [[Hv _]|(e & [] & _)]. auto.
    - apply (fr_deps _ _ Hf1).
    - intros v Hv. split.
      + intros (f & Hf & Hvf). split; auto. rewrite Hl1 in Hf. apply in_app_iff in Hf. destruct Hf as [Hf|[<-|[]]].
        * intros Ht. apply filter_In in Hf. destruct Hf as [_ Hf]. apply negb_true_iff in Hf.
          assert (is_utility_factor f = true) by (apply is_utility_spec; eauto). congruence.
        * apply Htv1 in Hvf; tauto.
      + intros [Ht _]. assert (Hex : exists f, In f fs /\ In v (f_vars f)).
        { destruct (v_type v) eqn:Et; auto; [|congruence]. apply Hcov. apply in_app_iff. right. apply in_decisions. auto. }
        destruct Hex as (f & Hf & Hvf). destruct (utility_or_prob _ _ Hf) as [Hp|Hp].
        * exists f. split; auto. rewrite Hl1. apply in_app_iff. auto.
        * exists tot. split. { rewrite Hl1. apply in_app_iff. simpl; auto. } apply Htv1; auto. split; auto. exists f. auto.
    - intros v Hv Ht. rewrite Hel1. simpl ve_elim. rewrite nth_repeat. simpl. apply not_true_iff_false. intros Hc.
      apply existsb_exists in Hc. destruct Hc as (u & Hu & Ei). apply Nat.eqb_eq in Ei.
      assert (u = v) by (apply (index_inj V); auto; apply HUV; auto). subst u. apply Ht. apply HUt. auto.
    - intros a Ha. rewrite total_nil; cbv beta; rewrite Hsettled, Hl1, weight_app, (weight_perm _ _ a Hcp). f_equal. unfold weight_of. simpl. rewrite Hval1 by auto.
      rewrite Qcmult_1_r. reflexivity.
    - exists tot, (prob_factors fs), (fun _ => 1%Qc). split.
      + constructor.
        * rewrite Hl1. apply Permutation_sym, Permutation_cons_append.
        * intros f Hf a Ha. eapply Permutation_in in Hf; [|apply Permutation_sym, (di_cpts _ _ _ _ _ Hid)].
          apply in_map_iff in Hf. destruct Hf as (c & <- & Hc). apply (di_nonneg _ _ _ _ _ Hid); auto.
        * intros a b _. auto.
        * intros; discriminate.
        * intros a _ E. discriminate.
        * intros y _ a k. auto.
      + intros a Ha. rewrite total_nil, Hsettled, (weight_perm _ _ a Hcp). ring. }
  destruct (elim_all sc vs fs deps cpt rank Hid (utility_in V w fs) Hup [] r [] cpt s1 Hplan Hi1) as (s2 & E2 & Hi2 & _).
  { constructor. }
  { intros v []. }
  rewrite E2. cbn [gbind]. rewrite loop_rounds.
  destruct (rounds sc vs fs deps cpt rank Hid (utility_in V w fs) Hup r [] cpt s2 []) as (s3 & L & E3 & EL & HL); auto.
  { intros d Hd. split; [|intros []]. apply Hdo. eapply Permutation_in; [apply Permutation_sym, Hpr|]. auto. }
  rewrite E3. cbn [gbind]. exists s3, L. split; auto. split.
  { rewrite EL. eapply Permutation_trans; [apply Hpr|apply Permutation_rev]. }
  intros l1 d fac pol l2 El.
  assert (Er : r = rev (map fst l2) ++ d :: rev (map fst l1)).
  { rewrite <- (rev_involutive r), <- EL, El, map_app, rev_app_distr. simpl. rewrite <- app_assoc. auto. }
  assert (Hd : In d V /\ v_type d = Decision) by (apply Hdec; rewrite Er; apply in_app_iff; simpl; auto).
  assert (Hk : forall k, In k (map fst l2) -> observes deps k d = false).
  { intros k Hk. apply in_rev in Hk. apply in_split in Hk. destruct Hk as (m1 & m2 & Ek). rewrite Ek, <- app_assoc in Er. simpl in Er.
    apply not_true_iff_false. intros Ho. assert (Hd1 : In d m1) by (eapply Hbefore; eauto; tauto).
    rewrite Er in Hnr. apply in_split in Hd1. destruct Hd1 as (n1 & n2 & ->). rewrite <- app_assoc in Hnr. simpl in Hnr. apply NoDup_remove_2 in Hnr.
    apply Hnr. apply in_app_iff. right. apply in_app_iff. right. simpl. right. apply in_app_iff. simpl. auto. }
  split; auto. specialize (HL l1 d fac pol l2 El). rewrite app_nil_r in HL.
  assert (Hdn : forall e, In e (map fst l1) -> In e V /\ v_type e = Decision).
  { intros e He. apply Hdec. rewrite Er. apply in_app_iff. simpl. right. right. apply in_rev in He. auto. }
  eapply choice_perm; [exact Hup|apply (gone_wf vs fs deps cpt rank Hid)| | |apply HL].
  - apply NoDup_Permutation.
    + apply wf_NoDup, (gone_wf vs fs deps cpt rank Hid).
    + apply NoDup_app'.
      * apply NoDup_filter, wf_NoDup. auto.
      * rewrite Er in Hnr. apply NoDup_remove_1 in Hnr. eapply Permutation_NoDup; [apply Permutation_sym, Permutation_rev|]. 
        clear - Hnr. induction (rev (map fst l2)); simpl in *; auto. inversion Hnr; auto.
      * intros v Hv Hc. apply Hdn in Hc. apply filter_In in Hv. destruct Hv as [_ Hv]. apply andb_prop in Hv. destruct Hv as [Hv _].
        apply nodeType_eqb_spec in Hv. destruct Hc. congruence.
    + intros v. rewrite in_gone, in_app_iff, <- in_rev. unfold unobserved. rewrite filter_In, andb_true_iff, nodeType_eqb_spec, negb_true_iff.
      split.
      * intros [Hv [[Ht Ho]|Hin]]; auto. left. split; auto. split; auto. apply Ho. apply in_app_iff. simpl. auto.
      * intros [(Hv & Ht & Ho)|Hin]; [|split; auto; apply Hdn; auto]. split; auto. left. split; auto. intros e He. apply in_app_iff in He.
        destruct He as [He|[<-|[]]]; auto. apply not_true_iff_false. intros Hc.
        apply (pl_chain _ _ _ _ Hplan _ _ _ Er e He) in Hc. congruence.
  - apply Permutation_app; [apply Permutation_map, Permutation_sym, Permutation_rev|]. rewrite Hsettled. apply (di_cpts _ _ _ _ _ Hid).
Qed.
