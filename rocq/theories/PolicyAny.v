(** Policy for factors with arbitrary values. *)
From Coq Require Import ZArith List Bool Lia Arith PeanoNat ZifyBool ZifyNat Permutation QArith Qcanon.
From Coq Require String.
Import (notations) String.
From Verif Require Import Num GoBase VarModel Tuples GoFacts SpecFactor FactorFacts FactorSum FactorProd FactorPolicy FactorAt
  XnumFacts ExactFactor SpecOrder.
Import ListNotations.
Open Scope Z_scope.

Lemma xlt_below x y : xlt x y = true <-> below x y.
Proof.
  destruct x, y; simpl; split; intros H; try discriminate; try constructor; try (inversion H; fail); auto.
  - apply qlt_spec; auto.
  - inversion H; subst. apply qlt_spec. auto.
Qed.

Lemma below_trans x y z : below x y -> below y z -> below x z.
Proof.
  intros H1 H2. inversion H1; subst; inversion H2; subst; constructor. eapply Qclt_trans; eauto.
Qed.

Lemma below_irrefl x : ~ below x x.
Proof. intros H. inversion H; subst. apply (Qclt_not_eq _ _ H2). auto. Qed.

Lemma below_cases x y : x <> NaN -> y <> NaN -> below x y \/ x = y \/ below y x.
Proof.
  intros Hx Hy. destruct x as [p| | |], y as [q| | |]; try congruence; auto using below.
  destruct (Qclt_le_dec p q) as [H|H]; auto using below.
  destruct (Qclt_le_dec q p) as [H'|H']; auto using below.
  right. left. f_equal. apply Qcle_antisym; auto.
Qed.

Lemma below_number x y : below x y -> x <> NaN /\ y <> NaN.
Proof. intros H. inversion H; subst; split; discriminate. Qed.

Lemma xeqb_same x y : xeqb x y = true <-> x = y /\ x <> NaN.
Proof.
  destruct x, y; simpl; split; intros H; try discriminate; try (destruct H; congruence); auto;
    try (split; congruence).
  - apply qeq_spec in H. subst. split; congruence.
  - destruct H. apply qeq_spec. congruence.
Qed.

(** A boolean form of the best options. *)
Definition xbest (u : nat -> xnum) (n k : nat) : bool :=
  negb (xisnan (u k)) && forallb (fun j => negb (xlt (u k) (u j))) (seq 0 n).

Lemma xbest_spec u n k : xbest u n k = true <-> best_option u n k.
Proof.
  unfold xbest, best_option. rewrite andb_true_iff, forallb_forall. split; intros [H1 H2]; split.
  - intros E. rewrite E in H1. discriminate.
  - intros j Hj Hb. apply xlt_below in Hb. specialize (H2 j). rewrite Hb in H2.
    assert (In j (seq 0 n)) by (apply in_seq; lia). apply H2 in H. discriminate.
  - destruct (u k); auto.
  - intros j Hj. apply in_seq in Hj. apply negb_true_iff, not_true_is_false. intros Hb. apply xlt_below in Hb.
    apply (H2 j); auto. lia.
Qed.

Lemma filter_none {X} (p : X -> bool) l : (forall x, In x l -> p x = false) -> filter p l = [].
Proof. induction l; simpl; intros H; auto. rewrite H by auto. auto. Qed.

Lemma max_indices_any u n :
  max_indices (map u (seq 0 n)) = map Z.of_nat (filter (xbest u n) (seq 0 n)).
Proof.
  assert (G : exists mx,
    fold_left (fun '(c, mx, mi) x => if nlt mx x then (c + 1, x, [c])
                 else if neqb x mx then (c + 1, mx, mi ++ [c]) else (c + 1, mx, mi))
      (map u (seq 0 n)) (0, nninf, []) =
    (Z.of_nat n, mx, map Z.of_nat (filter (xbest u n) (seq 0 n))) /\ mx <> NaN /\
    (forall j, (j < n)%nat -> ~ below mx (u j)) /\ (mx = NInf \/ exists m, (m < n)%nat /\ u m = mx)).
  { induction n.
    - exists NInf. split; auto. split; [discriminate|]. split; [lia|auto].
    - destruct IHn as (mx & E & Hnum & Htop & Hat).
      rewrite seq_S, map_app, fold_left_app, E. clear E. cbn [map fold_left].
      rewrite filter_app, map_app. cbn [Nat.add filter nlt neqb xnum_ops].
      replace (Z.of_nat n + 1) with (Z.of_nat (S n)) by lia.
      assert (Hold : forall k, (k < n)%nat -> u k <> NaN -> u k = mx \/ below (u k) mx).
      { intros k Hk Hu. destruct (below_cases (u k) mx Hu Hnum) as [H|[H|H]]; auto. destruct (Htop k); auto. }
      destruct (xlt mx (u n)) eqn:El.
      + apply xlt_below in El. exists (u n).
        assert (Hn : xbest u (S n) n = true).
        { apply xbest_spec. split; [apply (below_number _ _ El)|]. intros j Hj Hb.
          destruct (Nat.eq_dec j n) as [->|]; [eapply below_irrefl; eauto|].
          apply (Htop j); [lia|]. eapply below_trans; eauto. }
        rewrite Hn. split; [|split; [apply (below_number _ _ El)|]; split].
        * f_equal. rewrite filter_none; auto. intros k Hk. apply in_seq in Hk. apply not_true_is_false. intros Hb.
          apply xbest_spec in Hb. destruct Hb as [Hu Hb]. apply (Hb n); [lia|].
          destruct (Hold k) as [->|H]; auto; [lia|]. eapply below_trans; eauto.
        * intros j Hj. apply xbest_spec in Hn. apply Hn. auto.
        * right. exists n. split; auto.
      + assert (Hnb : ~ below mx (u n)) by (intros H; apply xlt_below in H; congruence).
        assert (Hf : filter (xbest u (S n)) (seq 0 n) = filter (xbest u n) (seq 0 n)).
        { apply filter_ext_in. intros k Hk. apply in_seq in Hk. apply eq_true_iff_eq. rewrite !xbest_spec.
          split; intros [Hu H]; split; auto. intros j Hj Hb. destruct (Nat.eq_dec j n) as [->|]; [|apply (H j); auto; lia].
          assert (Hk' : u k = mx).
          { destruct (Hold k) as [|Hlt]; [lia|auto|auto|]. exfalso. destruct Hat as [->|(m & Hm & Em)].
            - inversion Hlt.
            - apply (H m); auto. rewrite Em. auto. }
          rewrite Hk' in Hb. auto. }
        assert (Htop' : forall j, (j < S n)%nat -> ~ below mx (u j)).
        { intros j Hj. destruct (Nat.eq_dec j n) as [->|]; auto. apply Htop. lia. }
        assert (Hat' : mx = NInf \/ exists m, (m < S n)%nat /\ u m = mx).
        { destruct Hat as [|(m & Hm & Em)]; auto. right. exists m. split; auto. }
        rewrite Hf. exists mx. destruct (xeqb (u n) mx) eqn:Eq.
        * apply xeqb_same in Eq. destruct Eq as [Eq Hu].
          replace (xbest u (S n) n) with true; auto. symmetry. apply xbest_spec. split; auto. rewrite Eq. auto.
        * replace (xbest u (S n) n) with false. rewrite app_nil_r. auto.
          symmetry. apply not_true_is_false. intros Hb. apply xbest_spec in Hb. destruct Hb as [Hu Hb].
          assert (He : u n = mx).
          { destruct (below_cases (u n) mx Hu Hnum) as [H|[H|H]]; auto; [|contradiction].
            destruct Hat as [->|(m & Hm & Em)]; [inversion H|]. exfalso. apply (Hb m); [lia|]. rewrite Em. auto. }
          assert (xeqb (u n) mx = true) by (apply xeqb_same; auto). congruence. }
  destruct G as (mx & E & _). unfold max_indices. rewrite E. auto.
Qed.

Lemma xbest_some u n : (exists k, (k < n)%nat /\ u k <> NaN) -> exists k, (k < n)%nat /\ best_option u n k.
Proof.
  induction n; intros (k & Hk & Hu); [lia|].
  assert (D : (exists k, (k < n)%nat /\ u k <> NaN) \/ forall k, (k < n)%nat -> u k = NaN).
  { clear. induction n; [right; lia|]. destruct IHn as [(k & Hk & Hu)|H]; [left; exists k; auto|].
    destruct (u n) eqn:E; [left; exists n; rewrite E; split; [lia|discriminate]..|].
    right. intros k Hk. destruct (Nat.eq_dec k n) as [->|]; auto. apply H. lia. }
  destruct D as [D|D].
  - destruct (IHn D) as (m & Hm & Hb & Htop).
    destruct (xlt (u m) (u n)) eqn:E.
    + apply xlt_below in E. exists n. split; auto. split; [apply (below_number _ _ E)|]. intros j Hj H.
      destruct (Nat.eq_dec j n) as [->|]; [eapply below_irrefl; eauto|]. apply (Htop j); [lia|]. eapply below_trans; eauto.
    + exists m. split; [lia|]. split; auto. intros j Hj H. destruct (Nat.eq_dec j n) as [->|]; [|apply (Htop j); auto; lia].
      apply xlt_below in H. congruence.
  - exists n. split; auto. assert (k = n) by (destruct (Nat.eq_dec k n); auto; exfalso; apply Hu, D; lia). subst k.
    split; auto. intros j Hj H. destruct (Nat.eq_dec j n) as [->|]; [eapply below_irrefl; eauto|].
    rewrite (D j) in H by lia. inversion H.
Qed.

Lemma inv_len m : (0 < m)%nat -> ndiv n1 (nofint (Z.of_nat m)) = Fin (1 / qc (inject_Z (Z.of_nat m)))%Qc.
Proof.
  intros Hm. cbn [n1 nofint xnum_ops]. rewrite xdiv_fin; auto. intros Hq.
  assert (Hq2 : (inject_Z (Z.of_nat m) == 0)%Q).
  { assert (H : (this (Q2Qc (inject_Z (Z.of_nat m))) == this 0%Qc)%Q) by (rewrite Hq; reflexivity).
    unfold Q2Qc, this at 1 in H. rewrite Qred_correct in H. auto. }
  unfold Qeq in Hq2. simpl in Hq2. lia.
Qed.

Lemma best_option_ext u w n k : (k < n)%nat -> (forall j, (j < n)%nat -> u j = w j) -> best_option u n k -> best_option w n k.
Proof.
  intros Hk He [H1 H2]. split; [rewrite <- He; auto|]. intros j Hj. rewrite <- !He by auto. auto.
Qed.

Theorem policy_any s (f : factor xnum) v x :
  wf_factor f -> In v (f_vars f) -> (0 < v_outcomes v)%nat ->
  (forall a, in_range (f_vars f) a -> get_at f a = Ok (x a)) ->
  let u a k := x (upd a (v_id v) k) in
  let n := v_outcomes v in
  (forall a, in_range (f_vars f) a -> exists k, (k < n)%nat /\ u a k <> NaN) ->
  exists f', policy s f v = Ok (bump s, f') /\ wf_factor f' /\ f_vars f' = others (f_vars f) v ++ [v] /\
    forall a, in_range (f_vars f) a ->
      exists best, best <> [] /\ NoDup best /\ (forall k, In k best <-> (k < n)%nat /\ best_option (u a) n k) /\
        forall k, (k < n)%nat -> get_at f' (upd a (v_id v) k) =
          Ok (Fin (if in_dec Nat.eq_dec k best then 1 / qc (inject_Z (Z.of_nat (length best))) else 0)%Qc).
Proof.
  intros Hw Hin Hpos Hx u n Hnum. pose proof (wf_fits _ Hw) as Hfit.
  set (w := fun a k => fv f (upd a (v_id v) k)).
  assert (Hr : forall a k, in_range (f_vars f) a -> (k < n)%nat -> in_range (f_vars f) (upd a (v_id v) k)).
  { intros a k Ha Hk. apply in_range_upd; auto. apply Hw. intros y Hy. apply in_others in Hy. apply Ha. tauto. }
  assert (Huw : forall a k, in_range (f_vars f) a -> (k < n)%nat -> u a k = w a k).
  { intros a k Ha Hk. pose proof (Hx _ (Hr a k Ha Hk)) as H. rewrite get_at_fv in H by auto. unfold u, w. congruence. }
  assert (Hbest : forall a, in_range (f_vars f) a -> filter (xbest (w a) n) (seq 0 n) <> []).
  { intros a Ha. destruct (Hnum a Ha) as (k0 & Hk0 & Hu0). rewrite Huw in Hu0 by auto.
    destruct (xbest_some (w a) n) as (k & Hk & Hb); eauto. apply xbest_spec in Hb.
    assert (Hi : In k (filter (xbest (w a) n) (seq 0 n))) by (apply filter_In; split; auto; apply in_seq; lia).
    intros E. rewrite E in Hi. destruct Hi. }
  destruct (policy_at s f v) as (f' & E & Hid & Hw' & Hvs & Hat); auto.
  { intros a Ha. unfold row_at. fold n. rewrite (max_indices_any (w a)). intros H. apply map_eq_nil in H. apply (Hbest a); auto. }
  exists f'. do 3 (split; auto). intros a Ha. exists (filter (xbest (w a) n) (seq 0 n)).
  split; [auto|]. split; [apply NoDup_filter, seq_NoDup|]. split.
  { intros k. rewrite filter_In, in_seq, xbest_spec. split.
    - intros [Hk Hb]. assert (k < n)%nat by lia. split; auto. eapply best_option_ext; [auto| |exact Hb]. intros. symmetry. auto.
    - intros [Hk Hb]. split; [lia|]. eapply best_option_ext; [auto| |exact Hb]. auto. }
  intros k Hk. rewrite Hat.
  2:{ rewrite Hvs. eapply in_range_incl; [|apply (Hr a k); auto]. intros y Hy. apply in_app_iff in Hy.
      destruct Hy as [Hy|[<-|[]]]; auto. apply in_others in Hy. tauto. }
  assert (Hrow : row_at f v (upd a (v_id v) k) = map (w a) (seq 0 n)).
  { apply map_ext. intros j. apply fv_ext. intros y Hy. unfold upd. destruct (v_id y =? v_id v); auto. }
  rewrite Hrow. unfold policy_entry. rewrite max_indices_any. replace (upd a (v_id v) k (v_id v)) with k.
  2:{ unfold upd. rewrite Z.eqb_refl. auto. }
  set (best := filter (xbest (w a) n) (seq 0 n)). unfold zlen. rewrite map_length.
  assert (Hlen : (0 < length best)%nat).
  { pose proof (Hbest a Ha) as H. fold best in H. destruct best; [congruence|simpl; lia]. }
  rewrite inv_len by auto. unfold zmem. destruct (in_dec Nat.eq_dec k best) as [Hi|Hi].
  - replace (existsb _ _) with true; auto. symmetry. apply existsb_exists. exists (Z.of_nat k).
    split; [apply in_map; auto|apply Z.eqb_refl].
  - replace (existsb _ _) with false; auto. symmetry. apply not_true_is_false. intros H. apply existsb_exists in H.
    destruct H as (z & Hz & Ez). apply in_map_iff in Hz. destruct Hz as (j & <- & Hj). assert (k = j) by lia. subst. auto.
Qed.

(** ** A row without any number *)

Lemma foldM_stop {S X} (I : S -> Prop) (good : nat -> bool) p (f : S -> X -> gores S) l : forall s0,
  I s0 ->
  (forall i s x, nth_error l i = Some x -> I s -> if good i then exists s', f s x = Ok s' /\ I s' else f s x = Panic p) ->
  (exists i, (i < length l)%nat /\ good i = false) -> foldM f s0 l = Panic p.
Proof.
  revert good. induction l; intros good s0 H0 Hs (i & Hi & Hg); simpl in *; [lia|].
  pose proof (Hs 0%nat s0 a eq_refl H0) as H. destruct (good 0%nat) eqn:E0.
  - destruct H as (s1 & E & H1). rewrite E. simpl. destruct i as [|i]; [congruence|].
    apply (IHl (fun i => good (Datatypes.S i)) s1 H1).
    + intros j s x Hj HI. apply (Hs (Datatypes.S j)); auto.
    + exists i. split; auto. lia.
  - rewrite H. auto.
Qed.

Section Stop.
Context {A : Type} {N : NumOps A}.

Lemma policy_stops s (f : factor A) a v b t1' t2' :
  fits f -> f_vars f = a ++ v :: b -> wf_vars (f_vars f) -> (0 < v_outcomes v)%nat ->
  inb (outs a) t1' -> inb (outs b) t2' ->
  max_indices (map (fun j => ft f (t1' ++ j :: t2')) (seq 0 (v_outcomes v))) = [] ->
  exists p, policy s f v = Panic p.
Proof.
  intros Hfit Hvs Hwf Hpos H1' H2' Hbad. unfold policy.
  assert (Hnd : ~ In (v_id v) (map v_id a) /\ ~ In (v_id v) (map v_id b)).
  { unfold wf_vars in Hwf. rewrite Hvs, map_app in Hwf. simpl in Hwf. apply NoDup_remove_2 in Hwf.
    rewrite in_app_iff in Hwf. tauto. }
  destruct Hnd as [Ha Hb].
  rewrite !Hvs. rewrite scan_vars_in by auto.
  destruct (Z.of_nat (length a) <? 0) eqn:E; [lia|]. clear E.
  rewrite (sget_ok _ _ v) by (rewrite nth_error_app2, Nat.sub_diag by lia; auto). cbn [gbind].
  rewrite <- app_assoc. rewrite create_factor_none. cbn [gbind].
  unfold v_out. destruct (Z.of_nat (v_outcomes v) =? 0) eqn:E; [lia|]. clear E.
  set (n := v_outcomes v) in *. set (nsab := outs (a ++ b)). set (m := prod nsab).
  set (nv := a ++ b ++ [v]). set (ns := outs nv).
  assert (Hns : ns = nsab ++ [n]) by (unfold ns, nsab, nv; rewrite app_assoc, outs_app; auto).
  assert (Hpns : prod ns = (m * n)%nat) by (rewrite Hns, prod_app; simpl; fold m; lia).
  assert (Hd : length (f_data f) = (m * n)%nat).
  { rewrite Hfit, Hvs. unfold m, nsab. rewrite !outs_app, !prod_app. simpl. fold n. lia. }
  replace (zlen (f_data f)) with (Z.of_nat (m * n)) by (unfold zlen; rewrite Hd; auto).
  replace (Z.quot (Z.of_nat (m * n)) (Z.of_nat n)) with (Z.of_nat m).
  2:{ rewrite Nat2Z.inj_mul, Z.quot_mul by lia. auto. }
  assert (Hidx : zlen nv - 1 = Z.of_nat (length (a ++ b))).
  { unfold zlen, nv. rewrite !app_length. simpl. lia. }
  rewrite Hidx.
  set (rowof := fun t1 t2 => map (fun j => ft f (t1 ++ j :: t2)) (seq 0 n)).
  assert (Hsetlast : forall (t : list nat) x c, length t = length (a ++ b) ->
     sset (Zs (t ++ [x])) (Z.of_nat (length (a ++ b))) (Z.of_nat c) = Ok (Zs (t ++ [c]))).
  { intros t x c Ht. rewrite <- Ht. rewrite sset_ok by (rewrite Zs_length, app_length; simpl; lia). f_equal.
     rewrite !Zs_app. rewrite <- (Zs_length t). generalize (Zs t). clear.
    induction l; simpl; auto. f_equal; auto. }
  set (good := fun r => let t := tup nsab r in
     negb (zlen (max_indices (rowof (firstn (length a) t) (skipn (length a) t))) =? 0)).
  eexists. rewrite (foldM_stop (fun '((od, nw, fn) : list Z * list Z * factor A) =>
     length od = length (f_vars f) /\ length nw = length nv /\ f_vars fn = nv /\ length (f_data fn) = prod ns)
     good (PMsg "no utility values to derive policy")); [cbn [gbind]; reflexivity| | |].
  - split; [rewrite Hvs; apply repeat_length|]. split; [apply repeat_length|]. split; [auto|].
    simpl; apply repeat_length.
  - intros r [[od nw] fn] z Hz (Hlod & Hlnw & Hfv & Hfd).
    apply zrange_nth_inv in Hz. destruct Hz as [-> Hr]. rewrite Z.add_0_l.
    assert (Hr' : (r < m)%nat) by lia. clear Hr.
    assert (Hinr : inb nsab (tup nsab r)) by (apply tup_inb; unfold m in *; lia).
    unfold nsab in Hinr at 1. rewrite outs_app in Hinr. apply inb_app_inv in Hinr.
    destruct Hinr as (t1 & t2 & Ht & H1 & H2).
    pose proof (inb_length _ _ H1) as L1. pose proof (inb_length _ _ H2) as L2. rewrite outs_length in *.
    unfold f_outcomes. rewrite Hfv.
    replace (Z.of_nat r * Z.of_nat n) with (Z.of_nat (r * n + 0)) by lia.
    rewrite vars_outcomes_tup by (auto; fold ns; rewrite Hpns; nia).
    fold ns. rewrite Hns, tup_snoc by auto. unfold good. rewrite Ht. cbn [gbind].
    rewrite L1, firstn_app, skipn_app, firstn_all, skipn_all, Nat.sub_diag, app_nil_r. cbn [skipn app].
    destruct (foldM_inv (fun c '(od, nw, rd) =>
        length od = length (f_vars f) /\ (exists x, nw = Zs ((t1 ++ t2) ++ [x])) /\
        rd = map (fun j => ft f (t1 ++ j :: t2)) (seq 0 c))
      (fun '(od, nw, rd) c =>
          let! nw' := sset nw (Z.of_nat (length (a ++ b))) c in
          let! od' := copy_insert (Z.of_nat (length a)) nw' od in
          let! x := f_get f od' in
          Ok (od', nw', rd ++ [x]))
      (zrange 0 (Z.of_nat n)) (od, Zs ((t1 ++ t2) ++ [0%nat]), []))
      as ([[od1 nw1] rd] & E1 & Hlod1 & (x1 & Hnw1) & Hrd).
    { split; auto. split; [exists 0%nat; auto|]. auto. }
    { intros c [[od1 nw1] rd] z Hz (Hlod1 & (x1 & ->) & ->). apply zrange_nth_inv in Hz. destruct Hz as [-> Hc].
      rewrite Z.add_0_l. rewrite Hsetlast by (rewrite !app_length; lia). cbn [gbind].
      rewrite <- app_assoc. rewrite copy_insert_app.
      2: auto.
      2:{ rewrite Hlod1, Hvs, app_length. simpl. lia. }
      cbn [gbind]. rewrite f_get_ft; auto.
      2:{ rewrite Hvs, outs_app. simpl. apply inb_mid; auto. fold n. lia. }
      cbn [gbind]. eexists; split; [reflexivity|]. split.
      - rewrite Zs_length, Hvs, !app_length. simpl. lia.
      - split; [exists c; rewrite <- app_assoc; auto|]. rewrite seq_S, map_app. auto. }
    rewrite zrange_length in Hrd. replace (Z.to_nat (Z.of_nat n - 0)) with n in Hrd by lia.
    rewrite L1 in E1. rewrite E1. cbn [gbind]. clear E1.
    assert (Hrow : rd = rowof t1 t2) by auto. rewrite Hrow.
    destruct (zlen (max_indices (rowof t1 t2)) =? 0) eqn:Ez; cbn [negb]; [reflexivity|].
    set (mi := max_indices (rowof t1 t2)) in *. set (p := ndiv n1 (nofint (zlen mi))).
    assert (Hmir : forall i, In i mi -> 0 <= i < Z.of_nat n).
    { intros i Hi. apply max_indices_range in Hi. unfold zlen, rowof in Hi. rewrite map_length, seq_length in Hi. auto. }
    destruct (foldM_inv (fun c '(nw, fn') =>
        (exists x, nw = Zs ((t1 ++ t2) ++ [x])) /\ f_vars fn' = nv /\ length (f_data fn') = prod ns)
      (fun '(nw, fn) i =>
          let! nw' := sset nw (Z.of_nat (length (a ++ b))) i in
          let! fn' := f_set fn nw' p in
          Ok (nw', fn'))
      mi (nw1, fn)) as ([nw2 fn2] & E2 & (x2 & Hnw2) & Hv2 & Hl2).
    { split; [eauto|]. auto. }
    { intros c [nw2 fn2] i Hi ((x2 & ->) & Hv2 & Hl2).
      assert (Hir : 0 <= i < Z.of_nat n) by (apply Hmir; eapply nth_error_In; eauto).
      destruct (Z_of_nat_complete i) as (j & ->); [lia|]. assert (Hj : (j < n)%nat) by lia.
      rewrite Hsetlast by (rewrite !app_length; lia). cbn [gbind].
      unfold f_set, f_index. rewrite Hv2. rewrite vars_index_flat.
      2:{ unfold nv. rewrite !app_length. simpl. lia. }
      fold ns. cbn [gbind].
      assert (Hltj : inb ns ((t1 ++ t2) ++ [j])).
      { intros. rewrite Hns. apply inb_app. unfold nsab. rewrite outs_app. apply inb_app; auto.
        constructor; auto. }
      rewrite sset_ok by (rewrite Hl2; apply flat_lt; auto). cbn [gbind].
      eexists; split; [reflexivity|]. cbn [f_id f_vars f_data].
      split; [eauto|]. split; [auto|]. rewrite upd_nth_length; auto. }
    rewrite E2. cbn [gbind]. eexists; split; [reflexivity|]. cbv beta iota.
    split; [auto|]. split. { rewrite Hnw2, Zs_length. unfold nv. rewrite !app_length. simpl. lia. }
    rewrite <- Hns. auto.
  - assert (Hin : inb nsab (t1' ++ t2')) by (unfold nsab; rewrite outs_app; apply inb_app; auto).
    exists (flat nsab (t1' ++ t2')). rewrite zrange_length. pose proof (flat_lt _ _ Hin) as Hlt. fold m in Hlt.
    split; [lia|]. unfold good. rewrite tup_flat by auto.
    apply inb_length in H1'. rewrite outs_length in H1'. rewrite H1'.
    rewrite firstn_app, skipn_app, firstn_all, skipn_all, Nat.sub_diag, app_nil_r. cbn [skipn app].
    unfold rowof. rewrite Hbad. auto.
Qed.

End Stop.

Theorem policy_nothing s (f : factor xnum) v a :
  wf_factor f -> In v (f_vars f) -> (0 < v_outcomes v)%nat -> in_range (f_vars f) a ->
  (forall k, (k < v_outcomes v)%nat -> get_at f (upd a (v_id v) k) = Ok NaN) ->
  exists p, policy s f v = Panic p.
Proof.
  intros Hw Hin Hpos Ha Hnan. destruct (wf_split _ _ (proj1 Hw) Hin) as (x & y & Hvs & Hx & Hy & Hoth).
  assert (Hr := Ha). rewrite Hvs in Hr.
  apply (policy_stops s f x v y (tof x a) (tof y a)); auto using wf_fits; try apply Hw.
  - apply in_range_inb. eapply in_range_incl; [|exact Hr]. apply incl_appl, incl_refl.
  - apply in_range_inb. eapply in_range_incl; [|exact Hr]. apply incl_appr, incl_tl, incl_refl.
  - rewrite rowset_at by auto. unfold row_at. rewrite max_indices_any. rewrite filter_none; auto.
    intros k Hk. apply in_seq in Hk. apply not_true_is_false. intros Hb. apply xbest_spec in Hb. apply (proj1 Hb).
    apply fv_get_at; [apply wf_fits; auto| |apply Hnan; lia].
    apply in_range_upd; auto; [apply Hw| |lia]. intros z Hz. apply in_others in Hz. apply Ha. tauto.
Qed.
