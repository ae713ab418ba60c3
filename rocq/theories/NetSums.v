(** Sums over states of names and sums over assignments of ids. *)
From Coq Require Import ZArith List Bool String Lia Permutation QArith Qcanon.
From Verif Require Import Num GoBase VarModel GoFacts Tuples SpecFactor FactorFacts FactorAt XnumFacts ExactFactor FactorThms
  VEModel SpecVE VEWorlds VEFacts NetModel SpecNet NetVars NetFactors NetVE.
Import ListNotations.
Open Scope string_scope.
Open Scope list_scope.
Open Scope Z_scope.

Lemma perm_others vs v : wf_vars vs -> In v vs -> Permutation vs (v :: others vs v).
Proof.
  intros Hw Hin. apply NoDup_Permutation.
  - eapply NoDup_map_inv. apply Hw.
  - constructor.
    + unfold others. intros H. apply filter_In in H. rewrite Z.eqb_refl in H. destruct H; discriminate.
    + unfold others. apply NoDup_filter. eapply NoDup_map_inv. apply Hw.
  - intros x. simpl. unfold others. rewrite filter_In. split.
    + intros Hx. destruct (v_id x =? v_id v) eqn:E; simpl; auto. left. apply Z.eqb_eq in E.
      apply (wf_vars_inj vs); auto.
    + intros [<-|[H _]]; auto.
Qed.

Lemma qsum_pick (g : nat -> Qc) k m : (k < m)%nat ->
  qsum (map (fun j => if (j =? k)%nat then g j else 0%Qc) (seq 0 m)) = g k.
Proof.
  intros H. assert (G : forall s m, (s <= k < s + m)%nat ->
    qsum (map (fun j => if (j =? k)%nat then g j else 0%Qc) (seq s m)) = g k).
  { intros s m0. revert s. induction m0; intros s Hs; [lia|]. simpl. destruct (Nat.eqb_spec s k).
    - subst. rewrite qsum_zero; [ring|]. intros x Hx. apply in_seq in Hx. destruct (Nat.eqb_spec x k); auto. lia.
    - rewrite IHm0 by lia. ring. }
  apply G. lia.
Qed.

Lemma total_fix G vs v k a : proper G -> wf_vars vs -> In v vs -> (k < v_outcomes v)%nat ->
  total (fun w => if (w (v_id v) =? k)%nat then G w else 0%Qc) vs a = total (fun w => G (upd w (v_id v) k)) (others vs v) a.
Proof.
  intros HG Hw Hin Hk.
  assert (HP : proper (fun w => if (w (v_id v) =? k)%nat then G w else 0%Qc)).
  { intros x y E. rewrite (E (v_id v)), (HG x y E). auto. }
  rewrite (total_perm _ _ _ HP Hw (perm_others vs v Hw Hin)). rewrite total_cons.
  assert (Hni : ~ In (v_id v) (map v_id (others vs v))).
  { unfold others. intros H. apply in_map_iff in H. destruct H as (u & E & Hu). apply filter_In in Hu. rewrite E, Z.eqb_refl in Hu. destruct Hu; discriminate. }
  rewrite <- (qsum_pick (fun j => total (fun w => G (upd w (v_id v) j)) (others vs v) a) k (v_outcomes v) Hk).
  apply qsum_ext. intros j _. rewrite (total_upd _ _ _ _ HP Hni).
  destruct (Nat.eqb_spec j k).
  - apply total_ext. intros w _. rewrite upd_same. subst. rewrite Nat.eqb_refl. auto.
  - unfold total. apply qsum_zero. intros w _. rewrite upd_same. destruct (Nat.eqb_spec j k); auto. lia.
Qed.

Definition ind (evs : list evidence) (a : asg) : bool :=
  forallb (fun e => (a (v_id (ev_var e)) =? Z.to_nat (ev_value e))%nat) evs.

Lemma ind_proper evs a b : asg_eq a b -> ind evs a = ind evs b.
Proof. intros H. induction evs; simpl; auto. rewrite IHevs, H. auto. Qed.

Lemma total_ind evs : forall vs F a, proper F -> wf_vars vs -> NoDup (map (fun e => v_id (ev_var e)) evs) ->
  (forall e, In e evs -> In (ev_var e) vs /\ 0 <= ev_value e < v_out (ev_var e)) ->
  total (fun w => if ind evs w then F w else 0%Qc) vs a =
  total (fun w => F (plug evs w)) (filter (fun v => negb (is_evidence evs v)) vs) a.
Proof.
  induction evs as [|e r IH]; intros vs F a HF Hw Hnd He.
  - simpl. replace (filter (fun _ => true) vs) with vs; auto. induction vs; simpl; auto. rewrite <- IHvs; auto.
    inversion Hw; auto. intros e [].
  - inversion Hnd as [|? ? Hni Hnd']; subst.
    destruct (He e (or_introl eq_refl)) as [Hin Hv]. unfold v_out in Hv.
    rewrite (total_ext _ (fun w => if (w (v_id (ev_var e)) =? Z.to_nat (ev_value e))%nat then (if ind r w then F w else 0%Qc) else 0%Qc)).
    2:{ intros w _. simpl. destruct (w (v_id (ev_var e)) =? Z.to_nat (ev_value e))%nat; auto. }
    rewrite total_fix; auto.
    + rewrite (total_ext _ (fun w => if ind r w then F (upd w (v_id (ev_var e)) (Z.to_nat (ev_value e))) else 0%Qc)).
      2:{ intros w _. replace (ind r (upd w (v_id (ev_var e)) (Z.to_nat (ev_value e)))) with (ind r w); auto.
          unfold ind. revert Hni. clear. induction r; simpl; auto. intros H. rewrite IHr by tauto. rewrite upd_other; auto. }
      rewrite (IH (others vs (ev_var e)) (fun w => F (upd w (v_id (ev_var e)) (Z.to_nat (ev_value e))))); auto.
      * unfold others. rewrite filter_filter. simpl. f_equal. apply filter_ext. intros v. rewrite negb_orb, Z.eqb_sym. auto.
      * intros x y E. apply HF. apply asg_eq_upd. auto.
      * apply wf_others. auto.
      * intros e' He'. destruct (He e' (or_intror He')) as [H1 H2]. split; auto.
        unfold others. apply filter_In. split; auto. apply negb_true_iff. apply Z.eqb_neq. intros E. apply Hni. rewrite <- E.
        apply (in_map (fun e => v_id (ev_var e))). auto.
    + intros x y E. rewrite (ind_proper r x y E), (HF x y E). auto.
    + lia.
Qed.

Lemma forallb_perm {X} (p : X -> bool) l l' : Permutation l l' -> forallb p l = forallb p l'.
Proof. induction 1; simpl; auto; [congruence| |congruence]. rewrite !andb_assoc, (andb_comm (p y)). auto. Qed.

Lemma qsum_filter {X} (g : X -> Qc) p l : qsum (map g (filter p l)) = qsum (map (fun x => if p x then g x else 0%Qc) l).
Proof. induction l; simpl; auto. destruct (p a); simpl; rewrite IHl; auto. ring. Qed.

(** The product of the numbers of outcomes. *)
Definition volume (vs : list variable) : Qc := qprod (map (fun v => Q2Qc (inject_Z (v_out v))) vs).

Lemma inject_S n : Q2Qc (inject_Z (Z.of_nat (S n))) = (Q2Qc (inject_Z (Z.of_nat n)) + 1)%Qc.
Proof. apply Qc_is_canon. unfold Qcplus, Q2Qc. cbn [this]. rewrite !Qred_correct, Nat2Z.inj_succ. unfold Z.succ. rewrite inject_Z_plus. reflexivity. Qed.

Lemma qsum_const {X} c (l : list X) : qsum (map (fun _ => c) l) = (Q2Qc (inject_Z (Z.of_nat (List.length l))) * c)%Qc.
Proof.
  induction l.
  - cbn [map qsum fold_right List.length]. replace (Q2Qc (inject_Z (Z.of_nat 0))) with 0%Qc by (apply Qc_is_canon; reflexivity). ring.
  - cbn [map qsum fold_right List.length]. rewrite inject_S. change (fold_right Qcplus 0%Qc) with qsum. rewrite IHl. ring.
Qed.

Lemma total_volume F vs : (forall v, In v vs -> ignores F (v_id v)) -> forall a, total F vs a = (volume vs * F a)%Qc.
Proof.
  induction vs; intros H b.
  - rewrite total_nil. unfold volume. simpl. ring.
  - rewrite total_cons. rewrite (qsum_ext _ (fun _ => (volume vs * F b)%Qc)).
    + rewrite qsum_const, seq_length. unfold volume. simpl. unfold v_out. ring.
    + intros k _. rewrite IHvs by (intros; apply H; simpl; auto). rewrite (H a); simpl; auto.
Qed.

Lemma inject_pos n : (0 < n)%nat -> (0 < Q2Qc (inject_Z (Z.of_nat n)))%Qc.
Proof. intros H. unfold Qclt, Q2Qc. cbn [this]. rewrite !Qred_correct. change (0#1)%Q with (inject_Z 0). rewrite <- Zlt_Qlt. lia. Qed.

Lemma volume_pos vs : (forall v, In v vs -> (0 < v_outcomes v)%nat) -> (0 < volume vs)%Qc.
Proof.
  unfold volume. induction vs; intros H; cbn [map qprod fold_right].
  - reflexivity.
  - assert (H1 : (0 < Q2Qc (inject_Z (v_out a)))%Qc) by (apply inject_pos; apply H; simpl; auto).
    assert (H2 : (0 < volume vs)%Qc) by (apply IHvs; intros; apply H; simpl; auto).
    change (0 < Q2Qc (inject_Z (v_out a)) * volume vs)%Qc. 
    replace 0%Qc with (0 * volume vs)%Qc by ring. apply Qcmult_lt_compat_r; auto.
Qed.

Section NS.
Variable n : network xnum.
Hypothesis Hwf : wf_network n.
Notation vars := (n_vars n).
Notation vv := (vv n).
Notation by_name := (by_name n).
Notation known := (known n).

Definition nproper (F : nstate -> Qc) : Prop := forall s s', (forall y, s y = s' y) -> F s = F s'.

Lemma joint_states_total L : (forall v, In v L -> In v vars /\ is_total n (nv_name v) = false) -> forall F s a, nproper F -> (forall y, by_name a y = s y) ->
  qsum (map F (joint_states L s)) = total (fun a => F (by_name a)) (map (fun v => vv (nv_name v)) L) a.
Proof.
  induction L as [|v L IH]; intros HL F s a HF E.
  - simpl. rewrite total_nil. rewrite (HF s (by_name a)); [ring|]. intros; symmetry; auto.
  - destruct (HL v (or_introl eq_refl)) as [Hin Ht].
    assert (Hk : known (nv_name v)) by (split; auto; exists v; apply (var_named_in n Hwf); auto).
    simpl map. rewrite total_cons. cbn [joint_states]. rewrite qsum_flat_map.
    destruct (vv_outcomes n Hwf _ Hk) as [Ho _]. rewrite Ho. unfold num_outcomes. rewrite (proj2 (var_named_in n Hwf _ v)) by auto.
    apply qsum_ext. intros k _. apply IH; auto.
    + intros u Hu. apply HL. simpl; auto.
    + intros y. rewrite (by_name_upd n Hwf) by auto. unfold nupd. destruct (String.eqb y (nv_name v)); auto.
Qed.

Lemma non_utility_not_total v : In v (non_utility n) -> In v vars /\ is_total n (nv_name v) = false.
Proof.
  intros H. apply filter_In in H. destruct H as [Hin Hu]. split; auto. apply In_nth_error in Hin. destruct Hin as (i & Hi).
  rewrite (is_total_spec n Hwf i v Hi). pose proof (tui_utility n Hwf i v Hi) as Ht. unfold is_kind in Hu.
  assert (nv_type v <> Utility) by (intros E; rewrite E in Hu; discriminate). specialize (Ht H). lia.
Qed.

Definition zero_asg : asg := fun _ => 0%nat.

Lemma mass_total ign event : nproper (joint n ign) -> (forall s s', (forall y, s y = s' y) -> event s = event s') ->
  mass n ign event = total (fun a => if event (by_name a) then joint n ign (by_name a) else 0%Qc) (worldly n) zero_asg.
Proof.
  intros Hj He. unfold mass. rewrite qsum_filter. unfold worlds_of. fold (non_utility n).
  rewrite (worldly_net n Hwf).
  rewrite (joint_states_total (non_utility n) non_utility_not_total (fun s => if event s then joint n ign s else 0%Qc) nowhere zero_asg); auto.
  - intros s s' E. rewrite (He s s' E), (Hj s s' E). auto.
  - intros y. unfold by_name, NetFactors.by_name. destruct (lookup n y); auto.
Qed.

Lemma joint_proper ign : nproper (joint n ign).
Proof.
  intros s s' E. unfold joint. f_equal.
  - apply qprod_ext. intros f _. apply cond_prob_proper. auto.
  - apply qprod_ext. intros [d p] _. simpl. unfold policy_prob. apply value_agree. intros v _. unfold positions.
    destruct (nth_error vars _); auto.
Qed.

Lemma agrees_proper ev s s' : (forall y, s y = s' y) -> agrees vars ev s = agrees vars ev s'.
Proof. intros E. unfold agrees. induction ev as [|[x o] ev IH]; simpl; auto. rewrite IH, E. auto. Qed.

(** Evidence by id. *)
Definition obs (xo : string * string) : evidence :=
  mkEv (vv (fst xo)) (match var_named vars (fst xo) with Some v => str_index (nv_outcomes v) (snd xo) | None => -1 end).

Lemma str_index_spec l o : NoDup l -> In o l -> exists k, str_index l o = Z.of_nat k /\ forall j, nth_error l j = Some o <-> j = k.
Proof.
  intros Hd Hin. unfold str_index. destruct (index_func_spec (String.eqb o) l) as [[_ H]|(k & x & E & Hk & Hx & _)].
  - specialize (H o Hin). rewrite String.eqb_refl in H. discriminate.
  - exists k. split; auto. apply String.eqb_eq in Hx. subst x. intros j. split; [|intros ->; auto].
    intros Hj. rewrite NoDup_nth_error in Hd. apply Hd; [|congruence]. apply nth_error_Some. congruence.
Qed.

Lemma obs_known ev : valid_observations n ev -> forall x o, In (x, o) ev -> exists v, var_named vars x = Some v /\ known x /\
  v_type (vv x) <> Utility /\ In (vv x) (worldly n) /\
  exists k, ev_value (obs (x, o)) = Z.of_nat k /\ (k < v_outcomes (vv x))%nat /\
    forall j, nth_error (nv_outcomes v) j = Some o <-> j = k.
Proof.
  intros [_ H] x o Hin. destruct (H x o Hin) as (v & Hv & Hu & Ho). exists v. split; auto.
  pose proof Hv as Hv'. apply (var_named_in n Hwf) in Hv'. destruct Hv' as [Hvin Hn].
  assert (Ht : is_total n x = false).
  { destruct (is_total n x) eqn:E; auto. apply (total_kind n Hwf) in E. unfold kind in E. rewrite Hv in E. simpl in E. congruence. }
  assert (Hk : known x) by (split; eauto).
  assert (Hty : v_type (vv x) <> Utility).
  { intros E. apply (vv_utility n Hwf) in E; auto. unfold kind in E. rewrite Hv in E. simpl in E. congruence. }
  split; auto. split; auto. split.
  { unfold worldly. apply filter_In. split; [apply vv_in; auto|]. destruct (v_type (vv x)); auto; congruence. }
  destruct (str_index_spec (nv_outcomes v) o) as (k & E & Hkk); auto. { apply Hwf; auto. }
  exists k. unfold obs. cbn [ev_value fst snd]. rewrite Hv. split; auto. split; auto.
  destruct (vv_outcomes n Hwf x Hk) as [-> _]. unfold num_outcomes. rewrite Hv. apply nth_error_Some. rewrite (proj2 (Hkk k) eq_refl). discriminate.
Qed.

Lemma agrees_ind ev a : valid_observations n ev -> agrees vars ev (by_name a) = ind (map obs ev) a.
Proof.
  intros Hv. assert (G : forall l, (forall x o, In (x, o) l -> In (x, o) ev) -> agrees vars l (by_name a) = ind (map obs l) a).
  { induction l as [|[x o] l IH]; intros Hl; auto. cbn [map]. unfold agrees, ind in *. cbn [forallb]. rewrite IH by (intros; apply Hl; simpl; auto). f_equal.
    destruct (obs_known ev Hv x o) as (v & Hvn & Hk & _ & _ & k & Ek & _ & Hj); [apply Hl; simpl; auto|].
    rewrite Hvn, Ek, Nat2Z.id. rewrite (by_name_vv n Hwf) by auto. unfold obs. cbn [ev_var fst].
    destruct (nth_error (nv_outcomes v) (a (v_id (vv x)))) as [o'|] eqn:E.
    - destruct (String.eqb_spec o' o).
      + subst o'. apply Hj in E. rewrite E. symmetry. apply Nat.eqb_refl.
      + symmetry. apply Nat.eqb_neq. intros E'. apply Hj in E'. congruence.
    - symmetry. apply Nat.eqb_neq. intros E'. apply Hj in E'. congruence. }
  apply G. auto.
Qed.

Lemma obs_nodup ev : valid_observations n ev -> NoDup (map (fun e => v_id (ev_var e)) (map obs ev)).
Proof.
  intros Hv. rewrite map_map. simpl. assert (Hd := proj1 Hv).
  assert (G : forall l, incl l ev -> NoDup (map fst l) -> NoDup (map (fun xo => v_id (vv (fst xo))) l)).
  { induction l as [|[x o] l IH]; intros Hi Hn; simpl; constructor.
    - intros H. apply in_map_iff in H. destruct H as ([y o'] & E & Hin). simpl in E. inversion Hn; subst. apply H1.
      destruct (obs_known ev Hv x o) as (v & _ & Hk & _); [apply Hi; simpl; auto|].
      destruct (obs_known ev Hv y o') as (v' & _ & Hk' & _); [apply Hi; simpl; auto|].
      rewrite (vv_inj n Hwf x y); auto. apply (in_map fst) in Hin. auto.
    - apply IH; [intros z Hz; apply Hi; simpl; auto|]. inversion Hn; auto. }
  apply G; auto. apply incl_refl.
Qed.

Lemma obs_valid ev : valid_observations n ev -> valid_evidence (net_vars n) (map obs ev) /\
  forall e, In e (map obs ev) -> In (ev_var e) (worldly n) /\ 0 <= ev_value e < v_out (ev_var e).
Proof.
  intros Hv. split; intros e He; apply in_map_iff in He; destruct He as ([x o] & <- & Hin);
    destruct (obs_known ev Hv x o Hin) as (v & _ & Hk & Hty & Hw & k & Ek & Hk' & _); rewrite Ek; unfold obs, v_out; cbn [ev_var fst].
  - split; [apply vv_in; auto|]. split; auto. lia.
  - split; auto. lia.
Qed.

Lemma perm_observations ev ev' : Permutation ev ev' -> valid_observations n ev -> valid_observations n ev'.
Proof.
  intros Hp [Hd Hv]. split.
  - eapply Permutation_NoDup; [|apply Hd]. apply Permutation_map. auto.
  - intros x o Hin. apply Hv. eapply Permutation_in; [apply Permutation_sym|]; eauto.
Qed.

Lemma worldly_wf : wf_vars (worldly n).
Proof. unfold worldly, wf_vars. apply NoDup_filter_map. apply net_vars_wf. Qed.

(** The mass of evidence as a sum over the unobserved variables. *)
Lemma mass_evidence ign ev ev' : Permutation ev ev' -> valid_observations n ev ->
  mass n ign (agrees vars ev) = total (fun w => joint n ign (by_name (plug (map obs ev') w)))
    (filter (fun v => negb (is_evidence (map obs ev') v)) (worldly n)) zero_asg.
Proof.
  intros Hp Hv. pose proof (perm_observations _ _ Hp Hv) as Hv'.
  rewrite (mass_total ign (agrees vars ev)); [|apply joint_proper|apply agrees_proper].
  rewrite (total_ext _ (fun a => if ind (map obs ev') a then joint n ign (by_name a) else 0%Qc)).
  - apply (total_ind (map obs ev') (worldly n) (fun a => joint n ign (by_name a))).
    + intros a b E. apply joint_proper. apply by_name_proper. auto.
    + apply worldly_wf.
    + apply obs_nodup. auto.
    + apply obs_valid. auto.
  - intros w _. rewrite <- (agrees_ind ev') by auto. unfold agrees. rewrite (forallb_perm _ ev ev'); auto.
Qed.

Lemma mass_evidence_value ign ev ev' x k : Permutation ev ev' -> valid_observations n ev -> known x -> v_type (vv x) <> Utility ->
  is_evidence (map obs ev') (vv x) = false -> (k < v_outcomes (vv x))%nat ->
  mass n ign (fun s => agrees vars ev s && (s x =? k)%nat) = total (fun w => joint n ign (by_name (plug (map obs ev') w)))
    (others (filter (fun v => negb (is_evidence (map obs ev') v)) (worldly n)) (vv x)) (upd zero_asg (v_id (vv x)) k).
Proof.
  intros Hp Hv Hk Hty Hne Hlt. pose proof (perm_observations _ _ Hp Hv) as Hv'.
  rewrite mass_total; [|apply joint_proper|].
  2:{ intros s s' E. rewrite (agrees_proper ev s s' E), E. auto. }
  set (e0 := mkEv (vv x) (Z.of_nat k)).
  assert (Hpj : proper (fun a => joint n ign (by_name a))) by (intros a b E; apply joint_proper; apply by_name_proper; auto).
  assert (HW : In (vv x) (worldly n)).
  { unfold worldly. apply filter_In. split; [apply vv_in; auto|]. destruct (v_type (vv x)); auto; congruence. }
  rewrite (total_ext _ (fun a => if ind (e0 :: map obs ev') a then joint n ign (by_name a) else 0%Qc)).
  - rewrite (total_ind (e0 :: map obs ev') (worldly n) (fun a => joint n ign (by_name a))); auto.
    + rewrite total_upd.
      * unfold others. rewrite filter_filter. simpl is_evidence. erewrite filter_ext with (g := fun v => negb (is_evidence (map obs ev') v) && negb (v_id v =? v_id (vv x))).
        -- apply total_ext. intros w _. simpl. rewrite Nat2Z.id. apply Hpj. intros y. symmetry. apply plug_upd. auto.
        -- intros v. rewrite negb_orb, Z.eqb_sym, andb_comm. auto.
      * intros a b E. apply Hpj. apply plug_proper. auto.
      * unfold others. intros H. apply in_map_iff in H. destruct H as (u & E & Hu). apply filter_In in Hu. rewrite E, Z.eqb_refl in Hu. destruct Hu; discriminate.
    + apply worldly_wf.
    + simpl. constructor; [|apply obs_nodup; auto]. intros H. apply in_map_iff in H. destruct H as (e & E & He).
      apply not_true_iff_false in Hne. apply Hne. apply existsb_exists. exists e. split; auto. apply Z.eqb_eq. auto.
    + intros e [<-|He]; [|apply (obs_valid ev'); auto]. unfold e0, v_out. cbn [ev_var ev_value]. split; auto. lia.
  - intros w _. simpl. rewrite Nat2Z.id, <- (agrees_ind ev') by auto. unfold agrees. rewrite (forallb_perm _ ev ev') by auto.
    rewrite (by_name_vv n Hwf) by auto. rewrite andb_comm. auto.
Qed.

End NS.
