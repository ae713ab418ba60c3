(** Factor operations in exact arithmetic. *)
From Coq Require Import ZArith List Bool Lia Arith PeanoNat ZifyBool ZifyNat Permutation QArith Qcanon Field.
From Coq Require String.
Import (notations) String.
From Verif Require Import Num GoBase VarModel Tuples GoFacts SpecFactor FactorFacts FactorSum FactorProd FactorPolicy FactorAt XnumFacts.
Import ListNotations.
Open Scope Z_scope.

Lemma sum_of_exact {X} (g : X -> gores xnum) (h : X -> Qc) l : (forall x, In x l -> g x = Ok (Fin (h x))) ->
  sum_of (map g l) = Ok (Fin (qsum (map h l))).
Proof.
  intros H. rewrite (sum_of_ok _ (fun x => Fin (h x))) by auto.
  rewrite <- (map_map h Fin), fold_xadd0. auto.
Qed.

Lemma prod_of_exact {X} (g : X -> gores xnum) (h : X -> Qc) l : (forall x, In x l -> g x = Ok (Fin (h x))) ->
  prod_of (map g l) = Ok (Fin (qprod (map h l))).
Proof.
  intros H. rewrite (prod_of_ok _ (fun x => Fin (h x))) by auto.
  rewrite <- (map_map h Fin), fold_xmul1. auto.
Qed.

Lemma denotes_fv f q a : wf_factor f -> denotes f q -> in_range (f_vars f) a -> fv f a = Fin (q a).
Proof. intros Hw Hd Ha. eapply fv_get_at; eauto using wf_fits. Qed.

Lemma denotes_restrict s f v o q : wf_factor f -> In v (f_vars f) -> (o < v_outcomes v)%nat -> denotes f q ->
  exists f', restrict s f v (Z.of_nat o) = Ok (bump s, f') /\ f_id f' = vs_counter s /\
    wf_factor f' /\ f_vars f' = others (f_vars f) v /\ denotes f' (fun a => q (upd a (v_id v) o)).
Proof.
  intros Hw Hin Ho Hd. destruct (restrict_at s f v o) as (f' & E & Hid & Hw' & Hvs & Hat); auto.
  exists f'. do 4 (split; auto). intros a Ha. rewrite Hat by auto. apply Hd.
  apply in_range_upd; auto. apply Hw. rewrite <- Hvs. auto.
Qed.

Lemma denotes_sum_out s f v q : wf_factor f -> In v (f_vars f) -> denotes f q ->
  exists f', sum_out s f v = Ok (bump s, f') /\ f_id f' = vs_counter s /\
    wf_factor f' /\ f_vars f' = others (f_vars f) v /\
    denotes f' (fun a => qsum (map (fun k => q (upd a (v_id v) k)) (seq 0 (v_outcomes v)))).
Proof.
  intros Hw Hin Hd. destruct (sum_out_at s f v) as (f' & E & Hid & Hw' & Hvs & Hat); auto.
  exists f'. do 4 (split; auto). intros a Ha. rewrite Hat by auto. apply sum_of_exact.
  intros k Hk. apply in_seq in Hk. apply Hd. apply in_range_upd; auto. apply Hw. rewrite <- Hvs. auto. lia.
Qed.

Lemma denotes_product s fs qs : Forall wf_factor fs -> consistent fs -> Forall2 denotes fs qs ->
  exists f', product s fs = Ok (bump s, f') /\ f_id f' = vs_counter s /\ wf_factor f' /\
    (forall v, In v (f_vars f') <-> exists f, In f fs /\ In v (f_vars f)) /\
    denotes f' (fun a => qprod (map (fun q => q a) qs)).
Proof.
  intros Hw Hc Hd. destruct (product_at s fs) as (f' & E & Hid & Hw' & Hvs & _ & Hat); auto.
  exists f'. do 4 (split; auto). intros a Ha. rewrite Hat by auto.
  assert (Hr : forall f, In f fs -> in_range (f_vars f) a).
  { intros f Hf v Hv. apply Ha. apply Hvs. eauto. }
  assert (G : forall acc, foldM (fun acc r => let! x := r in Ok (nmul acc x)) (Fin acc) (map (fun f => get_at f a) fs)
      = Ok (Fin (acc * qprod (map (fun q => q a) qs))%Qc)).
  { clear - Hd Hr. induction Hd; intros acc; simpl.
    - do 2 f_equal. ring.
    - rewrite H by (apply Hr; simpl; auto). simpl. rewrite IHHd.
      + do 2 f_equal. ring.
      + intros; apply Hr; simpl; auto. }
  assert (G1 : prod_of (map (fun f => get_at f a) fs) = Ok (Fin (qprod (map (fun q => q a) qs)))).
  { unfold prod_of. change n1 with (Fin 1%Qc). rewrite G. do 2 f_equal. ring. }
  destruct fs as [|f [|f2 r]]; auto.
  inversion Hd; subst. inversion H3; subst. rewrite H1 by (apply Hr; simpl; auto). simpl. do 2 f_equal. ring.
Qed.

Lemma denotes_sum s fs qs : Forall wf_factor fs -> consistent fs -> Forall2 denotes fs qs ->
  exists f', sum s fs = Ok (bump s, f') /\ f_id f' = vs_counter s /\ wf_factor f' /\
    (forall v, In v (f_vars f') <-> exists f, In f fs /\ In v (f_vars f)) /\
    denotes f' (fun a => qsum (map (fun q => q a) qs)).
Proof.
  intros Hw Hc Hd. destruct (sum_at s fs) as (f' & E & Hid & Hw' & Hvs & _ & Hat); auto.
  exists f'. do 4 (split; auto). intros a Ha. rewrite Hat by auto.
  assert (Hr : forall f, In f fs -> in_range (f_vars f) a).
  { intros f Hf v Hv. apply Ha. apply Hvs. eauto. }
  assert (G : forall acc, foldM (fun acc r => let! x := r in Ok (nadd acc x)) (Fin acc) (map (fun f => get_at f a) fs)
      = Ok (Fin (acc + qsum (map (fun q => q a) qs))%Qc)).
  { clear - Hd Hr. induction Hd; intros acc; simpl.
    - do 2 f_equal. ring.
    - rewrite H by (apply Hr; simpl; auto). simpl. rewrite IHHd.
      + do 2 f_equal. ring.
      + intros; apply Hr; simpl; auto. }
  assert (G1 : sum_of (map (fun f => get_at f a) fs) = Ok (Fin (qsum (map (fun q => q a) qs)))).
  { unfold sum_of. change n0 with (Fin 0%Qc). rewrite G. do 2 f_equal. ring. }
  destruct fs as [|f [|f2 r]]; auto.
  inversion Hd; subst. inversion H3; subst. rewrite H1 by (apply Hr; simpl; auto). simpl. do 2 f_equal. ring.
Qed.

Lemma denotes_rearrange s f vars q : wf_factor f -> Permutation vars (f_vars f) -> denotes f q ->
  exists f', rearrange s f vars = Ok (bump s, f') /\ f_id f' = vs_counter s /\
    wf_factor f' /\ f_vars f' = vars /\ denotes f' q.
Proof.
  intros Hw Hp Hd. destruct (rearrange_at s f vars) as (f' & E & Hid & Hw' & Hvs & Hat); auto.
  exists f'. do 4 (split; auto). intros a Ha. rewrite Hvs in Ha. rewrite Hat by auto. apply Hd.
  eapply in_range_incl; [|apply Ha]. intros v Hv.
  eapply Permutation_in; [apply Permutation_sym; eauto|]. auto.
Qed.

Lemma in_range_worlds_others vs v a w : wf_vars vs -> In v vs -> in_range [v] a ->
  In w (worlds (others vs v) a) -> in_range vs w.
Proof.
  intros Hw Hin Ha Hinw u Hu. destruct (Z.eq_dec (v_id u) (v_id v)) as [E|E].
  - assert (u = v).
    { apply in_split in Hin. destruct Hin as (x & y & ->). unfold wf_vars in Hw. rewrite map_app in Hw. simpl in Hw.
      apply NoDup_remove_2 in Hw. rewrite in_app_iff in Hw. apply in_app_iff in Hu. simpl in Hu.
      destruct Hu as [Hu|[Hu|Hu]]; auto; exfalso; apply Hw; rewrite <- E; [left|right]; apply in_map; auto. }
    subst u. erewrite worlds_keep; eauto. apply Ha; simpl; auto.
    rewrite in_map_iff. intros (x & Hx & Hx2). apply in_others in Hx2. lia.
  - eapply worlds_in_range; [apply wf_others|eauto|]; auto. apply in_others. auto.
Qed.

Lemma denotes_marginal s f v q : wf_factor f -> In v (f_vars f) -> denotes f q ->
  exists f', marginal s f v = Ok (bump s, f') /\ f_id f' = vs_counter s /\
    wf_factor f' /\ f_vars f' = [v] /\
    denotes f' (fun a => qsum (map q (worlds (others (f_vars f) v) a))).
Proof.
  intros Hw Hin Hd. destruct (marginal_at s f v) as (f' & E & Hid & Hw' & Hvs & Hat); auto.
  exists f'. do 4 (split; auto). intros a Ha. rewrite Hvs in Ha. rewrite Hat by auto. apply sum_of_exact.
  intros w Hinw. apply Hd. eapply in_range_worlds_others; eauto. apply Hw.
Qed.

Lemma nth_error_seq' n : forall s i, (i < n)%nat -> nth_error (seq s n) i = Some (s + i)%nat.
Proof.
  induction n; intros s i Hi; [lia|]. destruct i; simpl; [f_equal; lia|]. rewrite IHn by lia. f_equal. lia.
Qed.

(** The values of a factor, in storage order, are its values under all assignments. *)
Lemma data_worlds {A} {N : NumOps A} (f : factor A) g : wf_factor f -> f_data f = map (fv f) (worlds (f_vars f) g).
Proof.
  intros Hw. unfold fv. rewrite <- (map_map (tof (f_vars f)) (ft f)), (worlds_tups _ (proj1 Hw)).
  unfold all_tups. rewrite map_map. apply nth_error_ext. intros i. rewrite nth_error_map.
  destruct (Nat.lt_ge_cases i (prod (outs (f_vars f)))) as [Hi|Hi].
  - rewrite nth_error_seq' by auto. simpl. unfold ft. rewrite flat_tup_lt by auto.
    apply nth_error_nth'. rewrite (wf_fits f Hw). auto.
  - rewrite !(proj2 (nth_error_None _ _)); auto.
    + rewrite seq_length. auto.
    + rewrite (wf_fits f Hw). auto.
Qed.

Lemma denotes_data f q g : wf_factor f -> denotes f q -> f_data f = map Fin (map q (worlds (f_vars f) g)).
Proof.
  intros Hw Hd. rewrite (data_worlds f g Hw), map_map. apply map_ext_in. intros w Hin.
  apply denotes_fv; auto. eapply worlds_in_range; eauto. apply Hw.
Qed.

Lemma denotes_normalize s f q g : wf_factor f -> denotes f q ->
  let total := qsum (map q (worlds (f_vars f) g)) in
  exists f', normalize s f = Ok (bump s, f') /\ f_id f' = vs_counter s /\
    wf_factor f' /\ f_vars f' = f_vars f /\
    (total <> 0%Qc -> denotes f' (fun a => (q a / total)%Qc)) /\
    (total = 0%Qc -> forall a, in_range (f_vars f) a -> get_at f' a = Ok (ndiv (Fin (q a)) n0)).
Proof.
  intros Hw Hd total. destruct (normalize_at s f) as (f' & E & Hid & Hw' & Hvs & Hdata & Hat); auto.
  exists f'. do 4 (split; auto). rewrite (denotes_data f q g) in Hat by auto. rewrite fold_xadd0 in Hat. fold total in Hat.
  split.
  - intros Ht a Ha. rewrite Hvs in Ha. rewrite Hat by auto. rewrite (denotes_fv f q) by auto. rewrite xdiv_fin by auto. auto.
  - intros Ht a Ha. rewrite Hat by auto. rewrite (denotes_fv f q) by auto. rewrite Ht. auto.
Qed.

Lemma row_at_exact f v q a : wf_factor f -> In v (f_vars f) -> denotes f q -> in_range (others (f_vars f) v) a ->
  row_at f v a = map (fun k => Fin (q (upd a (v_id v) k))) (seq 0 (v_outcomes v)).
Proof.
  intros Hw Hin Hd Ha. unfold row_at. apply map_ext_in. intros k Hk. apply in_seq in Hk.
  apply denotes_fv; auto. apply in_range_upd; auto. apply Hw. lia.
Qed.

Lemma upd_id_in a id x : upd a id (a id) x = a x.
Proof. unfold upd. destruct (x =? id) eqn:E; auto. f_equal. lia. Qed.

Lemma in_range_last vs v a : In v vs -> in_range (others vs v ++ [v]) a -> wf_vars vs ->
  in_range vs a /\ in_range (others vs v) a /\ (a (v_id v) < v_outcomes v)%nat.
Proof.
  intros Hin Hr Hw. split; [|split].
  - intros u Hu. destruct (wf_split _ _ Hw Hin) as (x & y & Hvs & Hx & Hy & Hoth). rewrite Hoth in Hr. rewrite Hvs in Hu.
    apply Hr. rewrite !in_app_iff in *. simpl in *. tauto.
  - intros u Hu. apply Hr. apply in_or_app. auto.
  - apply Hr. apply in_or_app. simpl. auto.
Qed.

Lemma denotes_normalize_for s f v q : wf_factor f -> In v (f_vars f) -> (0 < v_outcomes v)%nat -> denotes f q ->
  exists f', normalize_for s f v = Ok (bump s, f') /\ f_id f' = vs_counter s /\
    wf_factor f' /\ f_vars f' = others (f_vars f) v ++ [v] /\
    denotes f' (fun a => let total := qsum (map (fun k => q (upd a (v_id v) k)) (seq 0 (v_outcomes v))) in
                         if qeq total 0%Qc then q a else (q a / total)%Qc).
Proof.
  intros Hw Hin Hpos Hd. destruct (normalize_for_at s f v) as (f' & E & Hid & Hw' & Hvs & Hat); auto.
  exists f'. do 4 (split; auto). intros a Ha. rewrite Hat by auto. rewrite Hvs in Ha.
  destruct (in_range_last _ _ _ Hin Ha (proj1 Hw)) as (H1 & H2 & H3).
  rewrite (row_at_exact f v q) by auto. rewrite (denotes_fv f q) by auto. unfold row_norm.
  rewrite <- (map_map (fun k => q (upd a (v_id v) k)) Fin), fold_xadd0.
  cbn [neqb xnum_ops xeqb n0]. destruct (qeq _ _) eqn:Eq.
  - auto.
  - rewrite xdiv_fin; auto. intros H. rewrite H, qeq_refl in Eq. discriminate.
Qed.

Lemma denotes_policy s f v q : wf_factor f -> In v (f_vars f) -> (0 < v_outcomes v)%nat -> denotes f q ->
  exists f', policy s f v = Ok (bump s, f') /\ f_id f' = vs_counter s /\
    wf_factor f' /\ f_vars f' = others (f_vars f) v ++ [v] /\
    denotes f' (fun a => let u k := q (upd a (v_id v) k) in let n := v_outcomes v in
                         if is_max u n (a (v_id v)) then (1 / Q2Qc (inject_Z (Z.of_nat (num_max u n))))%Qc else 0%Qc).
Proof.
  intros Hw Hin Hpos Hd. destruct (policy_at s f v) as (f' & E & Hid & Hw' & Hvs & Hat); auto.
  { intros a Ha. rewrite (row_at_exact f v q); auto.
    - rewrite max_indices_exact. pose proof (num_max_pos (fun k => q (upd a (v_id v) k)) (v_outcomes v) Hpos) as H.
      unfold num_max in H. destruct (filter _ _); simpl in *; [lia|discriminate].
    - eapply in_range_incl; [|apply Ha]. intros u Hu. apply in_others in Hu. tauto. }
  exists f'. do 4 (split; auto). intros a Ha. rewrite Hat by auto. rewrite Hvs in Ha.
  destruct (in_range_last _ _ _ Hin Ha (proj1 Hw)) as (H1 & H2 & H3).
  rewrite (row_at_exact f v q) by auto. unfold policy_entry. rewrite max_indices_exact. cbn zeta.
  set (u := fun k => q (upd a (v_id v) k)). set (n := v_outcomes v) in *.
  assert (Hz : zmem (a (v_id v)) (map Z.of_nat (filter (is_max u n) (seq 0 n))) = is_max u n (a (v_id v))).
  { apply eq_true_iff_eq. unfold zmem. rewrite existsb_exists. split.
    - intros (z & Hz & Ez). apply in_map_iff in Hz. destruct Hz as (k & <- & Hk). apply filter_In in Hk.
      assert (a (v_id v) = k) by lia. subst k. tauto.
    - intros Hm. exists (Z.of_nat (a (v_id v))). split; [|apply Z.eqb_refl]. apply in_map. apply filter_In.
      split; auto. apply in_seq. lia. }
  rewrite Hz. destruct (is_max u n (a (v_id v))); auto.
  unfold zlen. rewrite map_length. fold (num_max u n). cbn [n1 nofint xnum_ops].
  rewrite xdiv_fin; auto. intros Hq.
  pose proof (num_max_pos u n Hpos).
  assert (Hq2 : (inject_Z (Z.of_nat (num_max u n)) == 0)%Q).
  { assert (this (Q2Qc (inject_Z (Z.of_nat (num_max u n)))) == this 0%Qc)%Q by (rewrite Hq; reflexivity).
    unfold Q2Qc, this at 1 in H0. rewrite Qred_correct in H0. auto. }
  unfold Qeq in Hq2. simpl in Hq2. lia.
Qed.

Lemma denotes_invert s f q : wf_factor f -> denotes f q ->
  exists f', invert s f = Ok (bump s, f') /\ f_id f' = vs_counter s /\ wf_factor f' /\ f_vars f' = f_vars f /\
    forall a, in_range (f_vars f) a ->
      get_at f' a = Ok (if qeq (q a) 0%Qc then PInf else Fin (1 / q a)%Qc).
Proof.
  intros Hw Hd. destruct (invert_at s f) as (f' & E & Hid & Hw' & Hvs & Hdata & Hat); auto.
  exists f'. do 4 (split; auto). intros a Ha. rewrite Hat by auto. rewrite (denotes_fv f q) by auto.
  simpl. destruct (qeq (q a) 0%Qc); auto.
Qed.

Lemma denotes_ext f q a b : denotes f q -> in_range (f_vars f) a ->
  (forall v, In v (f_vars f) -> a (v_id v) = b (v_id v)) -> q a = q b.
Proof.
  intros Hd Ha He. assert (Hb : in_range (f_vars f) b).
  { intros v Hv. rewrite <- He by auto. auto. }
  pose proof (Hd a Ha) as H1. pose proof (Hd b Hb) as H2. unfold get_at in *.
  assert (tuple_of (f_vars f) a = tuple_of (f_vars f) b) as E.
  { apply map_ext_in. intros v Hv. rewrite He; auto. }
  rewrite E in H1. congruence.
Qed.

Lemma in_range_upd' vs v a k : wf_vars vs -> In v vs -> in_range vs a -> (k < v_outcomes v)%nat ->
  in_range vs (upd a (v_id v) k).
Proof.
  intros. apply in_range_upd; auto. eapply in_range_incl; [|eauto]. intros u Hu. apply in_others in Hu. tauto.
Qed.

Lemma denotes_upd2 f q v a k j : wf_factor f -> In v (f_vars f) -> denotes f q -> in_range (f_vars f) a ->
  (j < v_outcomes v)%nat -> q (upd (upd a (v_id v) k) (v_id v) j) = q (upd a (v_id v) j).
Proof.
  intros Hw Hin Hd Ha Hj. symmetry. apply (denotes_ext f); auto.
  - apply in_range_upd'; auto. apply Hw.
  - intros u Hu. unfold upd. destruct (v_id u =? v_id v); auto.
Qed.

Lemma qc_nat_nonzero n : (0 < n)%nat -> Q2Qc (inject_Z (Z.of_nat n)) <> 0%Qc.
Proof.
  intros H Hq.
  assert (Hq2 : (inject_Z (Z.of_nat n) == 0)%Q).
  { assert (this (Q2Qc (inject_Z (Z.of_nat n))) == this 0%Qc)%Q by (rewrite Hq; reflexivity).
    unfold Q2Qc, this at 1 in H0. rewrite Qred_correct in H0. auto. }
  unfold Qeq in Hq2. simpl in Hq2. lia.
Qed.

Lemma Qc_of_S n : Q2Qc (inject_Z (Z.of_nat (S n))) = (1 + Q2Qc (inject_Z (Z.of_nat n)))%Qc.
Proof.
  apply Qc_is_canon. unfold Qcplus, Q2Qc. cbn [this]. rewrite !Qred_correct. rewrite Nat2Z.inj_succ.
  unfold Z.succ. rewrite inject_Z_plus. unfold Qeq. simpl. lia.
Qed.

Lemma qsum_indicator {X} (p : X -> bool) c l :
  qsum (map (fun x => if p x then c else 0%Qc) l) = (Q2Qc (inject_Z (Z.of_nat (length (filter p l)))) * c)%Qc.
Proof.
  induction l; cbn [map qsum fold_right filter].
  - change (Q2Qc (inject_Z (Z.of_nat (length (@nil X))))) with 0%Qc. ring.
  - fold (qsum (map (fun x => if p x then c else 0%Qc) l)). rewrite IHl. destruct (p a).
    + simpl length. rewrite Qc_of_S. ring.
    + ring.
Qed.

Lemma policy_exact_spec : forall s (f : factor xnum) v q,
  wf_factor f -> In v (f_vars f) -> (0 < v_outcomes v)%nat -> denotes f q ->
  let u a k := q (upd a (v_id v) k) in
  let n := v_outcomes v in
  exists f' p, policy s f v = Ok (bump s, f') /\ wf_factor f' /\ f_vars f' = others (f_vars f) v ++ [v] /\
    denotes f' p /\
    (forall a, (forall k, (k < n)%nat -> (u a k <= u a (a (v_id v)))%Qc) ->
       p a = (1 / qc (inject_Z (Z.of_nat (num_max (u a) n))))%Qc) /\
    (forall a k, (k < n)%nat -> (u a (a (v_id v)) < u a k)%Qc -> p a = 0%Qc) /\
    (forall a, in_range (f_vars f) a -> qsum (map (fun k => p (upd a (v_id v) k)) (seq 0 n)) = 1%Qc).
Proof.
  intros s f v q Hw Hin Hp Hd u n. destruct (denotes_policy s f v q Hw Hin Hp Hd) as (f' & E & _ & Hw' & Hvs & Hd').
  exists f'. eexists. do 3 (split; [eassumption|]). split; [exact Hd'|]. cbn zeta.
  split; [|split].
  - intros a Ha. fold (u a). fold n. rewrite (proj2 (is_max_spec _ _ _)); auto.
  - intros a k Hk Ha. fold (u a). fold n. destruct (is_max (u a) n (a (v_id v))) eqn:Em; auto.
    exfalso. apply (Qclt_not_le _ _ Ha). apply (proj1 (is_max_spec _ _ _) Em). auto.
  - intros a Ha.
    rewrite (qsum_ext _ (fun k => if is_max (u a) n k then (1 / Q2Qc (inject_Z (Z.of_nat (num_max (u a) n))))%Qc else 0%Qc)).
    + rewrite qsum_indicator. fold (num_max (u a) n). pose proof (num_max_pos (u a) n Hp).
      field. apply qc_nat_nonzero. auto.
    + intros k Hk. apply in_seq in Hk. rewrite upd_same.
      assert (Eu : forall j, (j < n)%nat -> q (upd (upd a (v_id v) k) (v_id v) j) = u a j).
      { intros j Hj. apply (denotes_upd2 f); auto. }
      assert (Em : forall i, (i < n)%nat -> is_max (fun j => q (upd (upd a (v_id v) k) (v_id v) j)) n i = is_max (u a) n i).
      { intros i Hi. apply eq_true_iff_eq. rewrite !is_max_spec. split; intros H j Hj; specialize (H j Hj).
        - rewrite !Eu in H; auto.
        - rewrite !Eu; auto. }
      fold n. rewrite Em by lia.
      replace (num_max (fun k0 => q (upd (upd a (v_id v) k) (v_id v) k0)) n) with (num_max (u a) n); auto.
      unfold num_max. f_equal. apply filter_ext_in. intros i Hi. apply in_seq in Hi. symmetry. apply Em. lia.
Qed.

Lemma first_occ_union {A} (fs : list (factor A)) : consistent fs -> first_occurrences (concat (map f_vars fs)) = union_vars fs.
Proof.
  intros Hc. unfold first_occurrences, union_vars.
  assert (Hall : forall v, In v (concat (map f_vars fs)) -> exists f, In f fs /\ In v (f_vars f)).
  { intros v Hv. apply in_concat in Hv. destruct Hv as (l & Hl & Hv). apply in_map_iff in Hl. destruct Hl as (f & <- & Hf). eauto. }
  assert (G : forall vs acc, (forall v, In v vs \/ In v acc -> exists f, In f fs /\ In v (f_vars f)) ->
    fold_left (fun acc v => if existsb (fun u => v_id u =? v_id v) acc then acc else acc ++ [v]) vs acc =
    fold_left add_var vs acc).
  { induction vs; simpl; intros acc H; auto.
    assert (E : existsb (fun u => v_id u =? v_id a) acc = existsb (var_eqb a) acc).
    { apply eq_true_iff_eq. rewrite !existsb_exists. split; intros (x & Hx & Ex); exists x; split; auto.
      - destruct (H x) as (f & Hf & Hxf); [auto|]. destruct (H a) as (g & Hg & Hag); [auto|].
        apply var_eqb_spec. symmetry. apply (Hc f g x a); auto. lia.
      - apply var_eqb_spec in Ex. subst. lia. }
    unfold add_var at 2. rewrite E. destruct (existsb (var_eqb a) acc); apply IHvs; intros v Hv; apply H.
    - tauto.
    - rewrite in_app_iff in Hv. simpl in Hv. tauto. }
  apply G. intros v [Hv|[]]. auto.
Qed.

Lemma first_occ_nodup vs : NoDup (map v_id vs) -> first_occurrences vs = vs.
Proof.
  intros H. unfold first_occurrences.
  assert (G : forall acc, NoDup (map v_id (acc ++ vs)) ->
    fold_left (fun acc v => if existsb (fun u => v_id u =? v_id v) acc then acc else acc ++ [v]) vs acc = acc ++ vs).
  { clear H. induction vs; intros acc H; simpl; [rewrite app_nil_r; auto|].
    destruct (existsb (fun u => v_id u =? v_id a) acc) eqn:E.
    - exfalso. apply existsb_exists in E. destruct E as (x & Hx & Ex). rewrite map_app in H. simpl in H.
      apply NoDup_remove_2 in H. apply H. apply in_app_iff. left. replace (v_id a) with (v_id x) by lia. apply in_map. auto.
    - rewrite IHvs. rewrite <- app_assoc. auto. rewrite <- app_assoc. auto. }
  apply G. auto.
Qed.

Lemma product_order {A} {N : NumOps A} s (fs : list (factor A)) f' :
  Forall wf_factor fs -> consistent fs -> product s fs = Ok (bump s, f') ->
  f_vars f' = first_occurrences (concat (map f_vars fs)).
Proof.
  intros Hw Hc E. destruct (product_at s fs Hw Hc) as (f1 & E1 & _ & _ & _ & Hvs & _).
  rewrite E1 in E. inversion E; subst f1. rewrite Hvs.
  destruct fs as [|f [|f2 r]]; try (symmetry; apply first_occ_union; auto).
  simpl. rewrite app_nil_r. symmetry. apply first_occ_nodup. inversion Hw; subst. apply H1.
Qed.
