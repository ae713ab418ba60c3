(** Which variables eliminateHidden removes. *)
From Coq Require Import ZArith List Bool Lia Permutation QArith Qcanon.
From Verif Require Import Num GoBase VarModel GoFacts SpecFactor Tuples FactorFacts FactorAt XnumFacts ExactFactor
  FactorThms VEModel SpecVE VEWorlds VEFacts VETopo.
Import ListNotations.
Open Scope Z_scope.

Lemma insert_by_perm {X} (key : X -> Z) x l : Permutation (x :: l) (insert_by key x l).
Proof.
  induction l; simpl; auto. destruct (key x <? key a); auto.
  etransitivity; [apply perm_swap|]. constructor. auto.
Qed.

Lemma sort_by_perm {X} (key : X -> Z) l : Permutation l (sort_by key l).
Proof.
  unfold sort_by. assert (G : forall acc, Permutation (acc ++ l) (fold_left (fun acc x => insert_by key x acc) l acc)).
  { induction l; intros acc; simpl; [rewrite app_nil_r; auto|]. rewrite <- IHl.
    etransitivity; [apply Permutation_sym, Permutation_middle|]. rewrite app_comm_cons. apply Permutation_app_tail.
    apply insert_by_perm. }
  apply (G []).
Qed.

(** The decisions among the variables. *)
Definition decisions_of (W : list variable) : list variable := filter (fun v => nodeType_eqb (v_type v) Decision) W.

Lemma nodeType_eqb_spec a b : nodeType_eqb a b = true <-> a = b.
Proof. destruct a, b; simpl; split; intros; auto; discriminate. Qed.

Lemma in_decisions W v : In v (decisions_of W) <-> In v W /\ v_type v = Decision.
Proof. unfold decisions_of. rewrite filter_In, nodeType_eqb_spec. tauto. Qed.

Lemma wf_NoDup vs : wf_vars vs -> NoDup vs.
Proof. apply NoDup_map_inv. Qed.

Section H.
Context {A : Type} {N : NumOps A}.
Variable sc : sched.

(** Parents of decisions are themselves among the variables. *)
Definition deps_closed (W : list variable) (deps : depmap) : Prop :=
  forall d p, In d (decisions_of W) -> dec_parent deps p d -> In p W.

Lemma get_decisions_spec (s : vestate A) : wf_vars (vs_vars (ve_vs s)) -> deps_closed (vs_vars (ve_vs s)) (ve_deps s) ->
  exists t r, get_decisions sc s = Ok (with_tick s t, r) /\ Permutation (decisions_of (vs_vars (ve_vs s))) r /\
    (forall rank : variable -> nat,
       (forall d p, In d (decisions_of (vs_vars (ve_vs s))) -> dec_parent (ve_deps s) p d -> (rank p < rank d)%nat) ->
       parents_first (ve_deps s) r).
Proof.
  intros Hw Hc. unfold get_decisions. fold (decisions_of (vs_vars (ve_vs s))).
  set (dec := decisions_of (vs_vars (ve_vs s))) in *.
  assert (Hnd : NoDup dec) by (apply NoDup_filter, wf_NoDup; auto).
  assert (Hcl : forall v p, In v dec -> dec_parent (ve_deps s) p v -> In p dec).
  { intros v p Hv Hp. apply in_decisions. split; [eapply Hc; eauto|]. destruct Hp as (k & ps & _ & _ & _ & Ht). auto. }
  destruct (sort_topological_spec sc dec (ve_deps s) Hnd Hcl (mkVar 0 0 0 Chance) (fun _ => 0%nat) (ve_tick s))
    as (t & r & E & Hp & _).
  rewrite E. cbn [gbind]. exists t, r. split; auto. split; auto.
  intros rank Hr.
  destruct (sort_topological_spec sc dec (ve_deps s) Hnd Hcl (mkVar 0 0 0 Chance) rank (ve_tick s))
    as (t' & r' & E' & _ & Hpf).
  rewrite E in E'. inversion E'; subst. apply Hpf. exact Hr.
Qed.

(** Whether position i is the index of a parent of one of the listed decisions. *)
Definition parent_flag (deps : depmap) (todo : list variable) (i : nat) : bool :=
  existsb (fun d => match mget var_eqb deps d with
                    | None => false
                    | Some ps => existsb (fun p => (v_index p =? i)%nat) ps
                    end) todo.

Lemma mark_parents n ps : (forall p, In p ps -> (v_index p < n)%nat) -> forall acc, length acc = n ->
  exists acc', foldM (fun acc v => sset acc (Z.of_nat (v_index v)) true) acc ps = Ok acc' /\ length acc' = n /\
    forall i, (i < n)%nat -> nth i acc' false = nth i acc false || existsb (fun p => (v_index p =? i)%nat) ps.
Proof.
  induction ps; intros H acc Hl; simpl.
  - exists acc. repeat split; auto. intros. rewrite orb_false_r. auto.
  - rewrite sset_ok by (rewrite Hl; apply H; simpl; auto). cbn [gbind].
    destruct (IHps (fun p Hp => H p (or_intror Hp)) (upd_nth acc (v_index a) true)) as (acc' & E & Hl' & Hn).
    { rewrite upd_nth_length. auto. }
    exists acc'. repeat split; auto. intros i Hi. rewrite Hn by auto. rewrite orb_assoc. f_equal.
    assert (Ha : (v_index a < n)%nat) by (apply H; simpl; auto).
    destruct (Nat.eqb_spec (v_index a) i).
    + subst i. rewrite orb_true_r. apply nth_error_nth. apply upd_nth_same. lia.
    + rewrite orb_false_r. destruct (nth_error acc i) eqn:Ei; [|apply nth_error_None in Ei; lia].
      rewrite (nth_error_nth acc _ _ Ei). apply nth_error_nth. rewrite upd_nth_other; auto.
Qed.

Definition todo_of (single : bool) (decisions : list variable) : list variable :=
  if single then firstn 1 (rev decisions) else rev decisions.

Lemma get_decision_parents_spec (s : vestate A) single : wf_vars (vs_vars (ve_vs s)) ->
  deps_closed (vs_vars (ve_vs s)) (ve_deps s) ->
  (forall d ps p, In (d, ps) (ve_deps s) -> In p ps -> (v_index p < length (vs_vars (ve_vs s)))%nat) ->
  exists t t0 r isdp, get_decision_parents sc s single = Ok (with_tick s t, isdp) /\
    get_decisions sc s = Ok (with_tick s t0, r) /\
    length isdp = length (vs_vars (ve_vs s)) /\
    forall i, (i < length (vs_vars (ve_vs s)))%nat -> nth i isdp false = parent_flag (ve_deps s) (todo_of single r) i.
Proof.
  intros Hw Hc Hix. destruct (get_decisions_spec s Hw Hc) as (t & r & E & Hp & _).
  unfold get_decision_parents. rewrite E. cbn [gbind]. fold (todo_of single r).
  set (n := length (vs_vars (ve_vs s))) in *.
  set (step := fun acc dec => match mget var_eqb (ve_deps s) dec with
      | None => Ok acc
      | Some vars => foldM (fun acc v => sset acc (Z.of_nat (v_index v)) true) acc vars end).
  assert (G : forall todo acc, length acc = n -> exists acc', foldM step acc todo = Ok acc' /\ length acc' = n /\
     forall i, (i < n)%nat -> nth i acc' false = nth i acc false || parent_flag (ve_deps s) todo i).
  { induction todo as [|d todo IH]; intros acc Hl; simpl.
    - exists acc. repeat split; auto. intros. rewrite orb_false_r. auto.
    - assert (Es : step acc d = match mget var_eqb (ve_deps s) d with None => Ok acc
         | Some vars => foldM (fun acc v => sset acc (Z.of_nat (v_index v)) true) acc vars end) by reflexivity.
      rewrite Es. clear Es. destruct (mget var_eqb (ve_deps s) d) as [ps|] eqn:Em.
      + destruct (mark_parents n ps) with (acc := acc) as (acc1 & E1 & Hl1 & Hn1); auto.
        { intros p Hpp. apply mget_In in Em; [|apply var_eqb_spec]. eapply Hix; eauto. }
        rewrite E1. cbn [gbind]. destruct (IH acc1 Hl1) as (acc2 & E2 & Hl2 & Hn2). exists acc2.
        repeat split; auto. intros i Hi. rewrite Hn2, Hn1 by auto. rewrite orb_assoc. auto.
      + cbn [gbind]. destruct (IH acc Hl) as (acc2 & E2 & Hl2 & Hn2). exists acc2. auto. }
  destruct (G (todo_of single r) (repeat false n)) as (isdp & E2 & Hl2 & Hn2); [apply repeat_length|].
  rewrite E2. cbn [gbind]. exists t, t, r, isdp. repeat split; auto. intros i Hi. rewrite Hn2 by auto.
  rewrite nth_repeat. auto.
Qed.

(** The test of ve/ve.go:148-160 for one variable. *)
Definition is_hidden (elim : list bool) (deps : depmap) (todo : list variable) (evs : list evidence)
  (query : list variable) (v : variable) : bool :=
  nodeType_eqb (v_type v) Chance && negb (nth (v_index v) elim false) && negb (parent_flag deps todo (v_index v))
  && negb (is_evidence evs v) && negb (contains_id query (v_id v)).

Definition idmap (l : list variable) : list (Z * variable) := map (fun v => (v_id v, v)) l.

Lemma mdel_idmap l x : mdel Z.eqb (idmap l) x = idmap (filter (fun v => negb (x =? v_id v)) l).
Proof. unfold mdel, idmap. rewrite filter_map_comm. auto. Qed.

Lemma filter_filter {X} (p q : X -> bool) l : filter p (filter q l) = filter (fun x => q x && p x) l.
Proof. induction l; simpl; auto. destruct (q a); simpl; auto. destruct (p a); simpl; auto. f_equal; auto. Qed.

Lemma existsb_map {X Y} (g : X -> Y) p l : existsb p (map g l) = existsb (fun x => p (g x)) l.
Proof. induction l; simpl; auto. rewrite IHl. auto. Qed.

Lemma hidden_vars_spec (s : vestate A) isdp evs query :
  let W := vs_vars (ve_vs s) in
  wf_vars W -> (forall i v, nth_error W i = Some v -> v_index v = i) -> length (ve_elim s) = length W ->
  length isdp = length W ->
  hidden_vars s isdp evs query =
    Ok (idmap (filter (fun v => nodeType_eqb (v_type v) Chance && negb (nth (v_index v) (ve_elim s) false)
                 && negb (nth (v_index v) isdp false) && negb (is_evidence evs v) && negb (contains_id query (v_id v))) W)).
Proof.
  intros W Hw Hix Hle Hli. unfold hidden_vars. fold W.
  set (p0 := fun v => nodeType_eqb (v_type v) Chance && negb (nth (v_index v) (ve_elim s) false)
                 && negb (nth (v_index v) isdp false)).
  match goal with |- context [foldM ?f [] ?l] => set (step := f) end.
  assert (G : forall k pre post, W = pre ++ post -> length pre = k -> foldM step (idmap (filter p0 pre))
      (combine (map (fun j => 0 + Z.of_nat j) (seq k (length post))) post) = Ok (idmap (filter p0 W))).
  { intros k pre post. revert k pre. induction post as [|v post IH]; intros k pre E Hk; cbn [length seq map combine foldM].
    - rewrite app_nil_r in E. rewrite E. auto.
    - assert (Hv : nth_error W k = Some v). { rewrite E, nth_error_app2 by lia. rewrite Hk, Nat.sub_diag. auto. }
      assert (Hk' : (k < length W)%nat) by (apply nth_error_Some; congruence).
      assert (Es : step (idmap (filter p0 pre)) (0 + Z.of_nat k, v) = Ok (idmap (filter p0 (pre ++ [v])))).
      { unfold step. rewrite Z.add_0_l, filter_app. cbn [filter].
        assert (Hsub : incl (filter p0 pre) pre) by (intros x Hx; apply filter_In in Hx; tauto).
        revert Hsub. generalize (filter p0 pre). intros M Hsub. unfold p0. rewrite (Hix _ _ Hv).
        destruct (nodeType_eqb (v_type v) Chance); cbn [negb andb]; [|rewrite app_nil_r; auto].
        destruct (nth_error (ve_elim s) k) as [b|] eqn:Eb; [|apply nth_error_None in Eb; lia].
        rewrite (sget_ok _ _ _ Eb), (nth_error_nth _ _ _ Eb). cbn [gbind]. destruct b; cbn [negb andb].
        - rewrite app_nil_r. auto.
        - destruct (nth_error isdp k) as [b|] eqn:Ed; [|apply nth_error_None in Ed; lia].
          rewrite (sget_ok _ _ _ Ed), (nth_error_nth _ _ _ Ed). cbn [gbind]. destruct b; cbn [negb].
          + rewrite app_nil_r. auto.
          + f_equal. unfold idmap. rewrite map_app. apply mset_new; [intros; apply Z.eqb_eq|].
            rewrite map_map. simpl. unfold wf_vars in Hw. rewrite E, map_app in Hw. simpl in Hw. apply NoDup_remove_2 in Hw.
            intros Hin. apply Hw. apply in_app_iff. left. apply in_map_iff in Hin. destruct Hin as (x & Hx & Hxi).
            apply in_map_iff. exists x. split; auto. }
      rewrite Es. cbn [gbind]. apply IH. rewrite <- app_assoc. auto. rewrite app_length. simpl. lia. }
  assert (E0 : zrange 0 (zlen W) = map (fun j => 0 + Z.of_nat j) (seq 0 (length W))).
  { unfold zrange, zlen. rewrite Z.sub_0_r, Nat2Z.id. auto. }
  rewrite E0. pose proof (G 0%nat [] W eq_refl eq_refl) as G0. cbn [filter idmap map] in G0. rewrite G0. cbn [gbind]. f_equal.
  assert (Gq : forall (ids : list Z) l, fold_left (fun m x => mdel Z.eqb m x) ids (idmap l) =
     idmap (filter (fun v => negb (existsb (fun x => x =? v_id v) ids)) l)).
  { induction ids; intros l; simpl.
    - f_equal. induction l; simpl; auto. f_equal; auto.
    - rewrite mdel_idmap, IHids. f_equal. rewrite filter_filter. apply filter_ext. intros v.
      destruct (a =? v_id v); simpl; auto. }
  assert (E1 : forall (es : list evidence) (m : list (Z * variable)), fold_left (fun m ev => mdel Z.eqb m (v_id (ev_var ev))) es m =
     fold_left (fun m x => mdel Z.eqb m x) (map (fun ev => v_id (ev_var ev)) es) m).
  { induction es; intros m; simpl; auto. }
  assert (E2 : forall (qs : list variable) (m : list (Z * variable)), fold_left (fun m v => mdel Z.eqb m (v_id v)) qs m =
     fold_left (fun m x => mdel Z.eqb m x) (map v_id qs) m).
  { induction qs; intros m; simpl; auto. }
  rewrite E1, E2, !Gq, !filter_filter. f_equal. apply filter_ext. intros v. rewrite !existsb_map. rewrite <- andb_assoc. auto.
Qed.

Lemma hidden_degrees_spec (s : vestate A) hidden : exists t, fst (hidden_degrees sc s hidden) = with_tick s t /\
  Permutation (map snd hidden) (map fst (snd (hidden_degrees sc s hidden))).
Proof.
  unfold hidden_degrees.
  match goal with |- context [fold_left ?f _ _] => set (step := f) end.
  assert (G : forall l s0 acc, exists t, let r := fold_left step l (s0, acc) in
      fst r = with_tick s0 t /\ map fst (snd r) = map fst acc ++ map (@snd Z variable) l).
  { induction l as [|[k v] l]; intros s0 acc; simpl.
    - exists (ve_tick s0). rewrite app_nil_r. destruct s0; auto.
    - destruct (IHl (with_tick s0 (S (ve_tick s0))) (acc ++ [(v, degree (shuffle sc (ve_tick s0) (ve_factors s0)) v)]))
        as (t & E1 & E2).
      exists t. simpl in E1, E2. split; [apply E1|]. rewrite E2, map_app, <- app_assoc. auto. }
  destruct (G (shuffle sc (ve_tick s) hidden) (with_tick s (S (ve_tick s))) []) as (t & E1 & E2).
  exists t. split; auto. rewrite E2. simpl. apply Permutation_map, shuffle_perm.
Qed.

(** What the state needs for eliminateHidden to find its way. *)
Record ready (s : vestate A) : Prop := {
  r_wf : wf_vars (vs_vars (ve_vs s));
  r_index : forall i v, nth_error (vs_vars (ve_vs s)) i = Some v -> v_index v = i;
  r_elim : length (ve_elim s) = length (vs_vars (ve_vs s));
  r_closed : deps_closed (vs_vars (ve_vs s)) (ve_deps s);
  r_pindex : forall d ps p, In (d, ps) (ve_deps s) -> In p ps -> (v_index p < length (vs_vars (ve_vs s)))%nat
}.

Lemma foldM_map {S X Y} (f : S -> Y -> gores S) (g : X -> Y) l : forall s,
  foldM (fun s x => f s (g x)) s l = foldM f s (map g l).
Proof. induction l; intros s; simpl; auto. destruct (f s (g a)); simpl; auto. Qed.

Lemma eliminate_hidden_list (s : vestate A) evs query single : ready s ->
  exists t0 r t hl, get_decisions sc s = Ok (with_tick s t0, r) /\
    eliminate_hidden sc s evs query single = foldM (remove_hidden sc) (with_tick s t) hl /\
    Permutation (filter (is_hidden (ve_elim s) (ve_deps s) (todo_of single r) evs query) (vs_vars (ve_vs s))) hl.
Proof.
  intros [Hw Hix Hel Hcl Hpi]. destruct (get_decision_parents_spec s single Hw Hcl Hpi) as (t1 & t0 & r & isdp & E1 & E0 & Hl & Hn).
  unfold eliminate_hidden. rewrite E1. cbn [gbind].
  rewrite (hidden_vars_spec (with_tick s t1)) by auto. cbn [gbind].
  match goal with |- context [hidden_degrees sc ?s ?h] => pose proof (hidden_degrees_spec s h) as (t & Et & Hp);
    destruct (hidden_degrees sc s h) as [s2 degs] end.
  simpl in Et, Hp. subst s2. exists t0, r, t, (map fst (sort_by snd (sort_by (fun p => v_id (fst p)) degs))).
  split; auto. split.
  - rewrite <- (foldM_map (remove_hidden sc) (@fst variable Z)). auto.
  - rewrite <- !sort_by_perm. rewrite <- Hp. unfold idmap. rewrite map_map. simpl. rewrite map_id.
    match goal with |- Permutation ?x ?y => replace y with x; auto end. apply filter_ext_in.
    intros v Hv. unfold is_hidden. apply In_nth_error in Hv. destruct Hv as (i & Hi). rewrite (Hix _ _ Hi).
    rewrite Hn; auto. apply nth_error_Some. congruence.
Qed.

End H.
