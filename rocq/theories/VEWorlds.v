(** Sums over joint assignments; factors as functions. *)
From Coq Require Import ZArith List Bool Lia Permutation QArith Qcanon.
From Verif Require Import Num GoBase VarModel GoFacts SpecFactor Tuples FactorFacts FactorAt XnumFacts ExactFactor VEModel SpecVE.
Import ListNotations.
Open Scope Z_scope.

(** ** Functions of assignments that only look at the variables' values *)
Definition asg_eq (a b : asg) : Prop := forall x, a x = b x.
Definition proper (F : asg -> Qc) : Prop := forall a b, asg_eq a b -> F a = F b.

Lemma asg_eq_upd a b x k : asg_eq a b -> asg_eq (upd a x k) (upd b x k).
Proof. intros H y. unfold upd. destruct (y =? x); auto. Qed.

Lemma upd_comm a x y k j : x <> y -> asg_eq (upd (upd a x k) y j) (upd (upd a y j) x k).
Proof.
  intros H z. unfold upd. destruct (Z.eqb_spec z y); destruct (Z.eqb_spec z x); auto. lia.
Qed.

Lemma upd_upd a x k j : asg_eq (upd (upd a x k) x j) (upd a x j).
Proof. intros z. unfold upd. destruct (z =? x); auto. Qed.

Lemma upd_self a x : asg_eq (upd a x (a x)) a.
Proof. intros z. unfold upd. destruct (Z.eqb_spec z x); subst; auto. Qed.

Definition total (F : asg -> Qc) (vs : list variable) (a : asg) : Qc := qsum (map F (worlds vs a)).

Lemma total_nil F a : total F [] a = F a.
Proof. unfold total. simpl. ring. Qed.

Lemma total_cons F v vs a :
  total F (v :: vs) a = qsum (map (fun k => total F vs (upd a (v_id v) k)) (seq 0 (v_outcomes v))).
Proof. unfold total. cbn [worlds]. rewrite qsum_flat_map. auto. Qed.

Lemma total_proper F vs : proper F -> proper (total F vs).
Proof.
  intros HF. induction vs; intros a0 b H.
  - rewrite !total_nil. auto.
  - rewrite !total_cons. apply qsum_ext. intros k _. apply IHvs. apply asg_eq_upd. auto.
Qed.

Lemma total_app F vs ws : forall a, total F (vs ++ ws) a = total (total F ws) vs a.
Proof.
  induction vs; intros b; simpl app.
  - rewrite total_nil. auto.
  - rewrite !total_cons. apply qsum_ext. intros k _. apply IHvs.
Qed.

Lemma total_swap F u v vs a : proper F -> v_id u <> v_id v ->
  total F (u :: v :: vs) a = total F (v :: u :: vs) a.
Proof.
  intros HF Hne. rewrite !total_cons.
  erewrite qsum_ext; [|intros k _; rewrite total_cons; reflexivity].
  erewrite (qsum_ext (fun k => total F (u :: vs) _)); [|intros k _; rewrite total_cons; reflexivity].
  rewrite qsum_swap. apply qsum_ext. intros j _. apply qsum_ext. intros k _.
  apply total_proper; auto. apply upd_comm. auto.
Qed.

Lemma total_perm F vs ws : proper F -> wf_vars vs -> Permutation vs ws -> forall a, total F vs a = total F ws a.
Proof.
  intros HF Hw Hp. induction Hp; intros b; auto.
  - rewrite !total_cons. apply qsum_ext. intros k _. apply IHHp. inversion Hw; auto.
  - apply total_swap; auto. inversion Hw; subst. simpl in H1. intros E. apply H1. auto.
  - rewrite IHHp1; auto. apply IHHp2. eapply wf_perm; eauto.
Qed.

Lemma total_ext F G vs a : (forall w, In w (worlds vs a) -> F w = G w) -> total F vs a = total G vs a.
Proof. intros. apply qsum_ext. auto. Qed.

Lemma worlds_range V vs : wf_vars V -> incl vs V -> forall a w, in_range V a -> In w (worlds vs a) -> in_range V w.
Proof.
  intros HV. induction vs; simpl; intros Hi a0 w Ha Hw.
  - destruct Hw as [<-|[]]. auto.
  - apply in_flat_map in Hw. destruct Hw as (k & Hk & Hw). apply in_seq in Hk.
    apply (IHvs (fun x Hx => Hi x (or_intror Hx)) (upd a0 (v_id a) k)); auto.
    apply in_range_upd'; auto. apply Hi; simpl; auto. lia.
Qed.

Lemma total_ext_range F G V vs a : wf_vars V -> incl vs V -> in_range V a ->
  (forall w, in_range V w -> F w = G w) -> total F vs a = total G vs a.
Proof. intros. apply total_ext. intros w Hw. apply H2. eapply worlds_range; eauto. Qed.

Lemma total_scale c F vs a : total (fun w => (c * F w)%Qc) vs a = (c * total F vs a)%Qc.
Proof. unfold total. apply qsum_scale. Qed.

Lemma total_add F G vs a : total (fun w => (F w + G w)%Qc) vs a = (total F vs a + total G vs a)%Qc.
Proof. unfold total. apply qsum_add. Qed.

Lemma total_upd F vs v k : proper F -> ~ In (v_id v) (map v_id vs) -> forall a,
  total F vs (upd a (v_id v) k) = total (fun w => F (upd w (v_id v) k)) vs a.
Proof.
  intros HF. induction vs; intros Hni b.
  - rewrite !total_nil. auto.
  - rewrite !total_cons. apply qsum_ext. intros j _. simpl in Hni. rewrite <- IHvs by tauto.
    apply total_proper; auto. apply upd_comm. intros E. apply Hni. auto.
Qed.

(** A function that does not look at the variables of [vs] factors out. *)
Definition ignores (F : asg -> Qc) (x : Z) : Prop := forall a k, F (upd a x k) = F a.

Lemma worlds_ignore F vs : (forall v, In v vs -> ignores F (v_id v)) -> forall a w, In w (worlds vs a) -> F w = F a.
Proof.
  induction vs; simpl; intros H b w Hw.
  - destruct Hw as [<-|[]]. auto.
  - apply in_flat_map in Hw. destruct Hw as (k & _ & Hw). rewrite (IHvs (fun v Hv => H v (or_intror Hv)) _ _ Hw).
    apply H. auto.
Qed.

Lemma total_factor F G vs a : (forall v, In v vs -> ignores F (v_id v)) ->
  total (fun w => (F w * G w)%Qc) vs a = (F a * total G vs a)%Qc.
Proof.
  intros H. rewrite <- total_scale. apply total_ext. intros w Hw. rewrite (worlds_ignore F vs H a w Hw). auto.
Qed.

(** ** Values of factors *)
Lemma value_agree f a b : (forall v, In v (f_vars f) -> a (v_id v) = b (v_id v)) -> value f a = value f b.
Proof.
  intros H. unfold value, get_at. replace (tuple_of (f_vars f) b) with (tuple_of (f_vars f) a); auto.
  apply map_ext_in. intros v Hv. rewrite H; auto.
Qed.

Lemma value_proper f : proper (value f).
Proof. intros a b H. apply value_agree. auto. Qed.

Lemma value_ignores f x : ~ In x (map v_id (f_vars f)) -> ignores (value f) x.
Proof.
  intros H a k. apply value_agree. intros v Hv. apply upd_other. intros E. apply H. rewrite <- E. apply in_map. auto.
Qed.

Lemma denotes_value f q a : denotes f q -> in_range (f_vars f) a -> value f a = q a.
Proof. intros Hd Ha. unfold value. rewrite Hd; auto. Qed.

Lemma finite_denotes f : finite_factor f -> denotes f (value f).
Proof. intros H a Ha. unfold value. destruct (H a Ha) as (q & E). rewrite E. auto. Qed.

Lemma denotes_finite f q : denotes f q -> finite_factor f.
Proof. intros H a Ha. eauto. Qed.

Lemma weight_proper fs : proper (weight_of fs).
Proof. intros a b H. apply qprod_ext. intros f _. apply value_proper. auto. Qed.

Lemma weight_perm fs gs a : Permutation fs gs -> weight_of fs a = weight_of gs a.
Proof. intros. apply qprod_perm. apply Permutation_map. auto. Qed.

Lemma weight_app fs gs a : weight_of (fs ++ gs) a = (weight_of fs a * weight_of gs a)%Qc.
Proof. unfold weight_of. rewrite map_app. apply qprod_app. Qed.

Lemma weight_ignores fs x : (forall f, In f fs -> ~ In x (map v_id (f_vars f))) -> ignores (weight_of fs) x.
Proof. intros H a k. apply qprod_ext. intros f Hf. apply value_ignores. auto. Qed.

(** ** Evidence *)
Lemma plug_range V evs a : wf_vars V -> valid_evidence V evs -> in_range V a -> in_range V (plug evs a).
Proof.
  intros HV. induction evs; simpl; intros He Ha; auto.
  destruct (He a0) as (H1 & _ & H2); [simpl; auto|]. apply in_range_upd'; auto.
  - apply IHevs; auto. intros ev Hev. apply He. simpl; auto.
  - unfold v_out in H2. lia.
Qed.

Lemma plug_proper evs a b : asg_eq a b -> asg_eq (plug evs a) (plug evs b).
Proof. intros. induction evs; simpl; auto. apply asg_eq_upd. auto. Qed.

Lemma plug_upd evs v a k : is_evidence evs v = false ->
  asg_eq (plug evs (upd a (v_id v) k)) (upd (plug evs a) (v_id v) k).
Proof.
  induction evs; simpl; intros H; [intros x; auto|]. apply orb_false_iff in H. destruct H as [H1 H2].
  intros x. specialize (IHevs H2 x).
  destruct (Z.eq_dec x (v_id (ev_var a0))) as [->|E1].
  - rewrite upd_same, upd_other by lia. rewrite upd_same. auto.
  - rewrite upd_other by auto. rewrite IHevs. unfold upd. destruct (Z.eqb_spec x (v_id v)); auto.
    destruct (Z.eqb_spec x (v_id (ev_var a0))); auto. lia.
Qed.

Lemma plug_other evs a x : (forall ev, In ev evs -> v_id (ev_var ev) <> x) -> plug evs a x = a x.
Proof.
  induction evs; simpl; intros H; auto. rewrite upd_other. apply IHevs. intros; apply H; auto.
  intros E. apply (H a0); auto.
Qed.
