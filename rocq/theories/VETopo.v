(** The order in which decisions are solved: sortTopological. *)
From Coq Require Import ZArith List Bool Lia Permutation.
From Verif Require Import Num GoBase VarModel GoFacts FactorFacts VEModel SpecVE.
Import ListNotations.
Open Scope Z_scope.

(** [p] is listed as a decision parent of [v]. *)
Definition dec_parent (deps : depmap) (p v : variable) : Prop :=
  exists k vars, In (k, vars) deps /\ v_id k = v_id v /\ In p vars /\ v_type p = Decision.

(** In [l], every decision parent of an element comes before it. *)
Definition parents_first (deps : depmap) (l : list variable) : Prop :=
  forall l1 v l2, l = l1 ++ v :: l2 -> forall p, dec_parent deps p v -> In p l1.

Definition vis_true (vis : list bool) (i : nat) : Prop := nth_error vis i = Some true.
Definition unvisited (vis : list bool) : nat := length (filter negb vis).

Lemma unvisited_mono vis : forall vis', length vis = length vis' ->
  (forall i, vis_true vis i -> vis_true vis' i) -> (unvisited vis' <= unvisited vis)%nat.
Proof.
  unfold unvisited, vis_true. induction vis; intros [|b vis'] Hl H; simpl in *; try discriminate; auto.
  assert (IH : (length (filter negb vis') <= length (filter negb vis))%nat).
  { apply IHvis. lia. intros i Hi. apply (H (S i)). auto. }
  specialize (H 0%nat). simpl in H. destruct a, b; simpl; try lia; try (specialize (H eq_refl); discriminate).
Qed.

Lemma unvisited_upd vis i : nth_error vis i = Some false -> (S (unvisited (upd_nth vis i true)) = unvisited vis)%nat.
Proof.
  unfold unvisited. revert i. induction vis; intros [|i] H; simpl in *; try discriminate.
  - inversion H; subst. simpl. auto.
  - destruct a; simpl; rewrite <- (IHvis i H); auto.
Qed.

Lemma foldM_nested {S X Y} (g : S -> Y -> gores S) (h : X -> list Y) l : forall s,
  foldM (fun s x => foldM g s (h x)) s l = foldM g s (flat_map h l).
Proof.
  induction l; intros s; simpl; auto. rewrite foldM_app. destruct (foldM g s (h a)); simpl; auto.
Qed.

Lemma foldM_filter {S X} (g : S -> X -> gores S) (p : X -> bool) l : forall s,
  foldM (fun s x => if p x then g s x else Ok s) s l = foldM g s (filter p l).
Proof.
  induction l; intros s; simpl; auto. destruct (p a); simpl; auto. destruct (g s a); simpl; auto.
Qed.

Lemma NoDup_app' {X} (a b : list X) : NoDup a -> NoDup b -> (forall x, In x a -> ~ In x b) -> NoDup (a ++ b).
Proof.
  induction a; simpl; intros Ha Hb H; auto. inversion Ha; subst. constructor.
  - rewrite in_app_iff. intros [Hc|Hc]; auto. apply (H a); auto.
  - apply IHa; auto.
Qed.

Section Topo.
Variable sc : sched.
Variable dec : list variable.
Variable deps : depmap.
Hypothesis dec_nodup : NoDup dec.
Hypothesis closed : forall v p, In v dec -> dec_parent deps p v -> In p dec.
Variable d0 : variable.

Notation at_ i := (nth i dec d0).

Definition pick (l : list nat) : list variable := map (fun i => at_ i) l.

Variable rank : variable -> nat.
Definition acyc : Prop := forall v p, In v dec -> dec_parent deps p v -> (rank p < rank v)%nat.

Definition stack_above (vis : list bool) (res : list variable) (r : nat) : Prop :=
  forall i, (i < length dec)%nat -> vis_true vis i -> In (at_ i) res \/ (r < rank (at_ i))%nat.

Lemma nth_at i : (i < length dec)%nat -> nth_error dec i = Some (at_ i).
Proof. intros. apply nth_error_nth'. auto. Qed.

Lemma at_in i : (i < length dec)%nat -> In (at_ i) dec.
Proof. intros. apply nth_In. auto. Qed.

Lemma index_of v : In v dec -> exists i, (i < length dec)%nat /\ at_ i = v /\ index_func (var_eqb v) dec = Z.of_nat i.
Proof.
  intros Hin. destruct (index_func_spec (var_eqb v) dec) as [[_ H]|(k & x & E & Hn & Hx & _)].
  - specialize (H v Hin). assert (var_eqb v v = true) by (apply var_eqb_spec; auto). congruence.
  - exists k. apply var_eqb_spec in Hx. subst x. split; [apply nth_error_Some; congruence|].
    split; auto. apply nth_error_nth. auto.
Qed.

Lemma parents_first_app l v : parents_first deps l -> (forall p, dec_parent deps p v -> In p l) ->
  parents_first deps (l ++ [v]).
Proof.
  intros H Hv l1 x l2 E p Hp. destruct l2 as [|y l2] using rev_ind.
  - apply app_inj_tail in E. destruct E as [-> ->]. auto.
  - clear IHl2. rewrite app_comm_cons, app_assoc in E. apply app_inj_tail in E. destruct E as [-> ->].
    eapply H; eauto.
Qed.

(** What a traversal from a visited set does. *)
Definition post (st : nat * list bool * list variable) (r : gores (nat * list bool * list variable))
  (P : list bool -> list variable -> Prop) : Prop :=
  let '(tick, vis, res) := st in
  exists tick' vis' new, r = Ok (tick', vis', res ++ pick new) /\ length vis' = length dec /\ NoDup new /\
    (forall i, In i new -> (i < length dec)%nat) /\
    (forall i, (i < length dec)%nat -> (vis_true vis' i <-> vis_true vis i \/ In i new)) /\
    (forall i, In i new -> ~ vis_true vis i) /\
    P vis' (res ++ pick new).

Lemma nil_post tick vis res (P : list bool -> list variable -> Prop) : length vis = length dec -> P vis res -> post (tick, vis, res) (Ok (tick, vis, res)) P.
Proof.
  intros Hl HP. exists tick, vis, []. unfold pick. simpl. rewrite app_nil_r. split; auto. split; auto.
  split; [constructor|]. split; [intros i []|]. split; [intros; tauto|]. split; auto.
Qed.

Definition rec_ok (fuel : nat) : Prop := forall i tick vis res, (i < length dec)%nat -> length vis = length dec ->
  (unvisited vis < fuel)%nat ->
  post (tick, vis, res) (sort_topological_rec sc fuel dec (Z.of_nat i) deps (tick, vis, res))
    (fun vis' res' => vis_true vis' i /\
      (acyc -> parents_first deps res -> stack_above vis res (rank (at_ i)) ->
       parents_first deps res' /\ In (at_ i) res')).

Lemma pick_app l l' : pick (l ++ l') = pick l ++ pick l'.
Proof. apply map_app. Qed.

Lemma loop_ok fuel v : rec_ok fuel -> forall ps tick vis res,
  (forall p, In p ps -> In p dec /\ dec_parent deps p v) -> length vis = length dec -> (unvisited vis < fuel)%nat ->
  post (tick, vis, res) (foldM (fun st p => sort_topological_rec sc fuel dec (index_func (var_eqb p) dec) deps st) (tick, vis, res) ps)
    (fun vis' res' =>
      (acyc -> In v dec -> parents_first deps res ->
       (forall i, (i < length dec)%nat -> vis_true vis i -> In (at_ i) res \/ (rank v <= rank (at_ i))%nat) ->
       parents_first deps res' /\ forall p, In p ps -> In p res')).
Proof.
  intros Hrec. induction ps as [|p ps]; intros tick vis res Hps Hl Hf.
  - simpl foldM. apply nil_post; auto. intros. split; auto. intros p [].
  - cbn [foldM]. destruct (Hps p) as [Hpd Hpp]; [simpl; auto|].
    destruct (index_of p Hpd) as (i & Hi & Ei & Eidx). rewrite Eidx.
    pose proof (Hrec i tick vis res Hi Hl Hf) as H1. unfold post in H1.
    destruct H1 as (t1 & vis1 & n1 & E1 & Hl1 & Hn1 & Hb1 & Hv1 & Hd1 & Ht1 & Hord1).
    rewrite E1. cbn [gbind].
    assert (Hf1 : (unvisited vis1 < fuel)%nat).
    { apply Nat.le_lt_trans with (unvisited vis); auto. apply unvisited_mono. congruence.
      intros j Hj. apply Hv1; auto. rewrite <- Hl. apply nth_error_Some. unfold vis_true in Hj. congruence. }
    pose proof (IHps t1 vis1 (res ++ pick n1) (fun q Hq => Hps q (or_intror Hq)) Hl1 Hf1) as H2. unfold post in H2.
    destruct H2 as (t2 & vis2 & n2 & E2 & Hl2 & Hn2 & Hb2 & Hv2 & Hd2 & Hord2).
    exists t2, vis2, (n1 ++ n2). rewrite pick_app, app_assoc. rewrite E2. split; auto. split; auto.
    split. { apply NoDup_app'; auto. intros x Hx1 Hx2. apply (Hd2 x Hx2). apply Hv1; auto. }
    split. { intros x Hx. apply in_app_iff in Hx. destruct Hx; auto. }
    split. { intros x Hx. rewrite Hv2, Hv1, in_app_iff by auto. tauto. }
    split. { intros x Hx. apply in_app_iff in Hx. destruct Hx as [Hx|Hx]; auto.
      intros Hc. apply (Hd2 x Hx). apply Hv1; auto. }
    intros Hac Hvd Hpf Hst.
    assert (Hrk : (rank p < rank v)%nat) by (apply Hac; auto).
    destruct (Hord1 Hac Hpf) as [Hpf1 Hin1].
    { intros j Hj Hvj. destruct (Hst j Hj Hvj); auto. right. rewrite Ei. lia. }
    destruct (Hord2 Hac Hvd Hpf1) as [Hpf2 Hin2].
    { intros j Hj Hvj. apply Hv1 in Hvj; auto. destruct Hvj as [Hvj|Hvj].
      - destruct (Hst j Hj Hvj); auto. left. apply in_app_iff; auto.
      - left. apply in_app_iff. right. apply in_map_iff. eauto. }
    split; auto. intros q [<-|Hq]; auto. rewrite Ei in Hin1. apply in_app_iff. auto.
Qed.

Lemma rec_all fuel : rec_ok fuel.
Proof.
  induction fuel; intros i tick vis res Hi Hl Hf; [lia|].
  cbn [sort_topological_rec].
  destruct (nth_error vis i) as [b|] eqn:Evis; [|apply nth_error_None in Evis; lia].
  rewrite (sget_ok _ _ _ Evis). cbn [gbind]. destruct b.
  - apply nil_post; auto. split; auto. intros _ Hpf Hst. split; auto. destruct (Hst i Hi Evis); auto. lia.
  - rewrite sset_ok by lia. cbn [gbind]. rewrite (sget_ok _ _ _ (nth_at i Hi)). cbn [gbind].
    set (v := at_ i). set (sh := shuffle sc tick deps).
    set (h := fun kv : variable * list variable => filter (fun p => nodeType_eqb (v_type p) Decision)
                (if v_id (fst kv) =? v_id v then snd kv else [])).
    rewrite (foldM_ext _ (fun st kv => foldM (fun st p => sort_topological_rec sc fuel dec (index_func (var_eqb p) dec) deps st) st (h kv))).
    2: { intros st [k vars] _. unfold h. simpl. destruct (v_id k =? v_id v); auto. apply foldM_filter. }
    rewrite foldM_nested.
    assert (Hps : forall p, In p (flat_map h sh) <-> dec_parent deps p v).
    { intros p. rewrite in_flat_map. unfold h, dec_parent. split.
      - intros ([k vars] & Hin & Hp). simpl in Hp. apply filter_In in Hp. destruct Hp as [Hp Ht].
        destruct (v_id k =? v_id v) eqn:Ek; [|destruct Hp]. exists k, vars. split.
        + eapply Permutation_in; [apply Permutation_sym, shuffle_perm|]. eauto.
        + repeat split; auto. lia. destruct (v_type p); auto; discriminate.
      - intros (k & vars & Hin & Ek & Hp & Ht). exists (k, vars). split.
        + eapply Permutation_in; [apply shuffle_perm|]. auto.
        + simpl. rewrite (proj2 (Z.eqb_eq _ _) Ek). apply filter_In. split; auto. rewrite Ht. auto. }
    pose proof (loop_ok fuel v IHfuel (flat_map h sh) (S tick) (upd_nth vis i true) res) as H. unfold post in H.
    destruct H as (t1 & vis1 & n1 & E1 & Hl1 & Hn1 & Hb1 & Hv1 & Hd1 & Hord1).
    { intros p Hp. apply Hps in Hp. split; auto. apply (closed v); auto. apply at_in; auto. }
    { rewrite upd_nth_length. auto. }
    { pose proof (unvisited_upd vis i Evis). lia. }
    rewrite E1. cbn [gbind].
    assert (Hvi : forall j, (j < length dec)%nat -> (vis_true (upd_nth vis i true) j <-> vis_true vis j \/ j = i)).
    { intros j Hj. unfold vis_true. rewrite upd_nth_spec. destruct (Nat.eqb_spec i j); simpl.
      - subst. destruct (Nat.ltb_spec j (length vis)); [|lia]. tauto.
      - split; auto. intros [H|H]; auto. congruence. }
    exists t1, vis1, (n1 ++ [i]). rewrite pick_app, app_assoc. split; auto. split; auto.
    split. { apply NoDup_app'; auto. repeat constructor; simpl; auto. intros x Hx [<-|[]]. apply (Hd1 i Hx). apply Hvi; auto. }
    split. { intros x Hx. apply in_app_iff in Hx. destruct Hx as [Hx|[<-|[]]]; auto. }
    split. { intros x Hx. rewrite Hv1, Hvi, in_app_iff by auto. simpl. intuition. }
    split. { intros x Hx. apply in_app_iff in Hx. destruct Hx as [Hx|[<-|[]]].
      - intros Hc. apply (Hd1 x Hx). apply Hvi; auto. - unfold vis_true. congruence. }
    split. { apply Hv1; auto. left. apply Hvi; auto. }
    intros Hac Hpf Hst. destruct (Hord1 Hac) as [Hpf1 Hin1]; auto.
    { apply at_in; auto. }
    { intros j Hj Hvj. apply Hvi in Hvj; auto. destruct Hvj as [Hvj| ->]; [|right; unfold v; lia].
      destruct (Hst j Hj Hvj); auto. right. lia. }
    split.
    + apply parents_first_app; auto. intros p Hp. apply Hin1. apply Hps. auto.
    + apply in_app_iff. right. simpl. auto.
Qed.

Lemma sort_loop l : forall tick vis res, (forall i, In i l -> (i < length dec)%nat) -> length vis = length dec ->
  post (tick, vis, res) (foldM (fun st i => sort_topological_rec sc (S (length dec)) dec i deps st) (tick, vis, res) (Zs l))
    (fun vis' res' => (forall i, In i l -> vis_true vis' i) /\
      (acyc -> parents_first deps res -> (forall i, (i < length dec)%nat -> vis_true vis i -> In (at_ i) res) ->
       parents_first deps res')).
Proof.
  induction l as [|i l]; intros tick vis res Hb Hl; cbn [foldM Zs map].
  - apply nil_post; auto. split; auto. intros i [].
  - assert (Hu : (unvisited vis < S (length dec))%nat).
    { rewrite <- Hl. unfold unvisited. clear. induction vis; simpl; auto. destruct a; simpl; lia. }
    pose proof (rec_all (S (length dec)) i tick vis res (Hb i (or_introl eq_refl)) Hl Hu) as H1. unfold post in H1.
    destruct H1 as (t1 & vis1 & n1 & E1 & Hl1 & Hn1 & Hb1 & Hv1 & Hd1 & Ht1 & Hord1).
    rewrite E1. cbn [gbind].
    pose proof (IHl t1 vis1 (res ++ pick n1) (fun q Hq => Hb q (or_intror Hq)) Hl1) as H2. unfold post in H2.
    destruct H2 as (t2 & vis2 & n2 & E2 & Hl2 & Hn2 & Hb2 & Hv2 & Hd2 & Ht2 & Hord2).
    exists t2, vis2, (n1 ++ n2). rewrite pick_app, app_assoc. fold (Zs l). rewrite E2. split; auto. split; auto.
    split. { apply NoDup_app'; auto. intros x Hx1 Hx2. apply (Hd2 x Hx2). apply Hv1; auto. }
    split. { intros x Hx. apply in_app_iff in Hx. destruct Hx; auto. }
    split. { intros x Hx. rewrite Hv2, Hv1, in_app_iff by auto. tauto. }
    split. { intros x Hx. apply in_app_iff in Hx. destruct Hx as [Hx|Hx]; auto.
      intros Hc. apply (Hd2 x Hx). apply Hv1; auto. }
    split. { intros j [<-|Hj]; auto. apply Hv2; auto. apply Hb; simpl; auto. }
    intros Hac Hpf Hst. apply Hord2; auto.
    + apply Hord1; auto. intros j Hj Hvj. auto.
    + intros j Hj Hvj. apply Hv1 in Hvj; auto. apply in_app_iff. destruct Hvj as [Hvj|Hvj]; auto.
      right. apply in_map_iff. eauto.
Qed.

Theorem sort_topological_spec tick :
  exists tick' r, sort_topological sc dec deps tick = Ok (tick', r) /\ Permutation dec r /\
    (acyc -> parents_first deps r).
Proof.
  unfold sort_topological. unfold zlen. rewrite zrange_0.
  pose proof (sort_loop (seq 0 (length dec)) tick (repeat false (length dec)) []) as H. unfold post in H.
  destruct H as (t1 & vis1 & n1 & E1 & Hl1 & Hn1 & Hb1 & Hv1 & Hd1 & Ht1 & Hord1).
  { intros i Hi. apply in_seq in Hi. lia. } { apply repeat_length. }
  rewrite E1. cbn [gbind]. exists t1, (pick n1). split; auto.
  assert (Hf : forall i, ~ vis_true (repeat false (length dec)) i).
  { intros i. unfold vis_true. rewrite nth_error_repeat'. destruct (_ <? _)%nat; discriminate. }
  split.
  - apply NoDup_Permutation; auto.
    + unfold pick. clear - Hn1 Hb1 dec_nodup. induction n1; simpl; constructor; inversion Hn1; subst.
      * intros Hin. apply in_map_iff in Hin. destruct Hin as (j & Ej & Hj). apply H1.
        assert (j = a); [|subst; auto]. eapply (NoDup_nth dec d0); auto; apply Hb1; simpl; auto.
      * apply IHn1; auto. intros; apply Hb1; simpl; auto.
    + intros v. split; intros Hin.
      * destruct (index_of v Hin) as (i & Hi & Ei & _). apply in_map_iff. exists i. split; auto.
        assert (vis_true vis1 i) by (apply Ht1; apply in_seq; lia). apply Hv1 in H; auto. destruct H as [H|H]; auto.
        exfalso. apply (Hf i H).
      * apply in_map_iff in Hin. destruct Hin as (i & <- & Hi). apply at_in. auto.
  - intros Hac. apply Hord1; auto.
    + intros l1 v l2 E. destruct l1; discriminate.
    + intros i Hi Hc. exfalso. apply (Hf i Hc).
Qed.

End Topo.
