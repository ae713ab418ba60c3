(** SumOut and Marginal. *)
From Coq Require Import ZArith List Bool Lia Arith PeanoNat ZifyBool ZifyNat.
From Verif Require Import Num GoBase VarModel Tuples GoFacts SpecFactor FactorFacts.
Import ListNotations.
Open Scope Z_scope.

Lemma filter_seq_ext {T} (p q : T -> bool) l : (forall x, In x l -> p x = q x) -> filter p l = filter q l.
Proof. apply filter_ext_in. Qed.

(** Adding one more position to the processed prefix. *)
Lemma filter_step (g : nat -> nat) n i :
  (forall j k, (j < k < n)%nat -> (g j < g k)%nat) ->
  (forall k, (k < n)%nat -> g k = i ->
     filter (fun k => g k <? S i)%nat (seq 0 n) = filter (fun k => g k <? i)%nat (seq 0 n) ++ [k]) /\
  ((forall k, (k < n)%nat -> g k <> i) ->
     filter (fun k => g k <? S i)%nat (seq 0 n) = filter (fun k => g k <? i)%nat (seq 0 n)).
Proof.
  induction n; intros Hm; split.
  - lia.
  - auto.
  - intros k Hk Hg. rewrite seq_S. rewrite !filter_app. simpl.
    destruct (Nat.eq_dec k n) as [->|Hne].
    + rewrite Hg. destruct (Nat.ltb_spec i (S i)), (Nat.ltb_spec i i); try lia. rewrite app_nil_r. f_equal.
      apply filter_ext_in. intros x Hx. apply in_seq in Hx.
      assert (g x < g n)%nat by (apply Hm; lia).
      destruct (Nat.ltb_spec (g x) (S i)), (Nat.ltb_spec (g x) i); auto; lia.
    + destruct IHn as [IH _]; [intros; apply Hm; lia|].
      rewrite (IH k) by (auto; lia).
      assert (g k < g n)%nat by (apply Hm; lia).
      destruct (Nat.ltb_spec (g n) (S i)), (Nat.ltb_spec (g n) i); try lia. rewrite !app_nil_r. auto.
  - intros H. rewrite seq_S. rewrite !filter_app. simpl.
    destruct IHn as [_ IH]; [intros; apply Hm; lia|].
    rewrite IH by (intros; apply H; lia).
    assert (g n <> i) by (apply H; lia).
    destruct (Nat.ltb_spec (g n) (S i)), (Nat.ltb_spec (g n) i); auto; lia.
Qed.

Lemma filter_all_true {T} (p : T -> bool) l : (forall x, In x l -> p x = true) -> filter p l = l.
Proof.
  induction l; simpl; intros H; auto. rewrite H by auto. f_equal. apply IHl. auto.
Qed.

Lemma filter_all_false {T} (p : T -> bool) l : (forall x, In x l -> p x = false) -> filter p l = [].
Proof.
  induction l; simpl; intros H; auto. rewrite H by auto. auto.
Qed.

Lemma flat_mid na n nb t1 k t2 : length na = length t1 ->
  flat (na ++ n :: nb) (t1 ++ k :: t2) = (flat na t1 * (n * prod nb) + k * prod nb + flat nb t2)%nat.
Proof. intros. rewrite flat_app by auto. simpl. lia. Qed.

Section F.
Context {A : Type} {N : NumOps A}.

Lemma sum_out_spec s f a u b v :
  fits f -> f_vars f = a ++ u :: b -> v_id u = v_id v ->
  ~ In (v_id v) (map v_id a) -> ~ In (v_id v) (map v_id b) ->
  exists d, sum_out s f v = Ok (bump s, mkFactor (vs_counter s) (a ++ b) d) /\
    length d = prod (outs (a ++ b)) /\
    forall t1 t2, inb (outs a) t1 -> inb (outs b) t2 ->
      nth_error d (flat (outs (a ++ b)) (t1 ++ t2)) =
      Some (fold_left nadd (map (fun k => ft f (t1 ++ k :: t2)) (seq 0 (v_outcomes u))) n0).
Proof.
  intros Hfit Hvs Hid Ha Hb. unfold sum_out.
  unfold smake. destruct (zlen (f_vars f) - 1 <? 0) eqn:E.
  { rewrite Hvs in E. unfold zlen in E. rewrite app_length in E. simpl in E. lia. }
  clear E. simpl. rewrite Hvs, scan_vars_in by auto.
  destruct (Z.of_nat (length a) <? 0) eqn:E; [lia|]. clear E.
  rewrite create_factor_none. simpl.
  set (ns := outs (a ++ u :: b)). set (d0 := repeat n0 (prod (outs (a ++ b)))).
  assert (Hns : ns = outs a ++ v_outcomes u :: outs b) by (unfold ns; rewrite outs_app; auto).
  assert (Hd : length (f_data f) = prod ns) by (rewrite Hfit, Hvs; auto).
  assert (Hinb : forall t1 k t2, inb (outs a) t1 -> (k < v_outcomes u)%nat -> inb (outs b) t2 -> inb ns (t1 ++ k :: t2)).
  { intros. rewrite Hns. apply inb_mid; auto. }
  set (part := fun i t1 t2 => fold_left nadd (map (fun k => ft f (t1 ++ k :: t2))
      (filter (fun k => flat ns (t1 ++ k :: t2) <? i)%nat (seq 0 (v_outcomes u)))) n0).
  destruct (foldM_inv (fun i '(od, nw, fn) =>
       od = (if (0 <? prod ns)%nat then Zs (tup ns i) else repeat 0 (length (a ++ u :: b))) /\
       length nw = length (a ++ b) /\
       f_id fn = vs_counter s /\ f_vars fn = a ++ b /\ length (f_data fn) = prod (outs (a ++ b)) /\
       forall t1 t2, inb (outs a) t1 -> inb (outs b) t2 ->
         nth_error (f_data fn) (flat (outs (a ++ b)) (t1 ++ t2)) = Some (part i t1 t2))
    (fun '(oldIndex, newIndex, fNew) (x : A) =>
      let! nw := copy_skip (Z.of_nat (length a)) oldIndex newIndex in
      let! i := f_index fNew nw in
      let! old := sget (f_data fNew) i in
      let! d := sset (f_data fNew) i (nadd old x) in
      let! (oldIndex', _) := vars_increment (a ++ u :: b) oldIndex in
      Ok (oldIndex', nw, mkFactor (f_id fNew) (f_vars fNew) d))
    (f_data f)
    (repeat 0 (length (a ++ u :: b)), repeat 0 (length (a ++ b)), mkFactor (vs_counter s) (a ++ b) d0))
    as ([[od nw] fn] & E & HI).
  - split; [|split; [|split; [|split; [|split]]]]; auto.
    + destruct (Nat.ltb_spec 0 (prod ns)); auto. apply zeros_tup. auto.
    + apply repeat_length.
    + simpl. unfold d0. apply repeat_length.
    + intros t1 t2 H1 H2. unfold part. rewrite filter_all_false by (intros; apply Nat.ltb_ge; lia). simpl.
      unfold d0. rewrite nth_error_repeat'.
      assert (flat (outs (a ++ b)) (t1 ++ t2) < prod (outs (a ++ b)))%nat.
      { apply flat_lt. rewrite outs_app. apply inb_app; auto. }
      destruct (Nat.ltb_spec (flat (outs (a ++ b)) (t1 ++ t2)) (prod (outs (a ++ b)))); auto; lia.
  - intros i [[od nw] fn] x Hx (Hod & Hnw & Hfid & Hfv & Hfd & Hcell).
    assert (Hi : (i < prod ns)%nat) by (rewrite <- Hd; apply nth_error_Some; congruence).
    destruct (Nat.ltb_spec 0 (prod ns)) as [Hpos|]; [|lia].
    assert (Hin : inb ns (tup ns i)) by (apply tup_inb; auto).
    rewrite Hns in Hin at 1. apply inb_mid_inv in Hin.
    destruct Hin as (t1 & k & t2 & Ht & H1 & Hk & H2).
    pose proof (inb_length _ _ H1) as L1. pose proof (inb_length _ _ H2) as L2. rewrite !outs_length in *.
    assert (Hflat : flat ns (t1 ++ k :: t2) = i) by (rewrite <- Ht; apply flat_tup_lt; auto).
    assert (Hcase : forall t1' k' t2', inb (outs a) t1' -> (k' < v_outcomes u)%nat -> inb (outs b) t2' ->
       flat ns (t1' ++ k' :: t2') = i -> k' = k /\ t1' = t1 /\ t2' = t2).
    { intros t1' k' t2' H1' Hk' H2' He. rewrite <- Hflat in He. apply flat_inj in He; auto.
      apply app_inj_len in He. 2:{ apply inb_length in H1'. rewrite outs_length in H1'. lia. }
      destruct He as [-> He]. inversion He; auto. }
    subst od. rewrite Ht.
    assert (Hinc : vars_increment (a ++ u :: b) (Zs (t1 ++ k :: t2)) =
        Ok (Zs (tup ns (S i)), negb (S (i mod prod ns) =? prod ns)%nat)).
    { rewrite <- Ht. apply vars_increment_tup. auto. }
    rewrite copy_skip_app by (try lia; rewrite Hnw, app_length; lia). simpl.
    unfold f_index. rewrite Hfv.
    rewrite vars_index_flat by (rewrite !app_length; lia). simpl.
    assert (Hlt : (flat (outs (a ++ b)) (t1 ++ t2) < length (f_data fn))%nat).
    { rewrite Hfd. apply flat_lt. rewrite outs_app. apply inb_app; auto. }
    rewrite (sget_ok _ _ _ (Hcell t1 t2 H1 H2)). simpl.
    rewrite sset_ok by auto. simpl. rewrite Hinc. simpl.
    eexists; split; [reflexivity|]. simpl.
    split; [auto|]. split; [rewrite Zs_length, !app_length; lia|].
    split; [auto|]. split; [auto|]. split; [rewrite upd_nth_length; auto|].
    assert (Hmono : forall t1 t2 j k, inb (outs a) t1 -> (j < k < v_outcomes u)%nat -> inb (outs b) t2 ->
       (flat ns (t1 ++ j :: t2) < flat ns (t1 ++ k :: t2))%nat).
    { intros t1' t2' j k' H1' Hjk H2'. rewrite Hns. pose proof (inb_length _ _ H1').
      rewrite !flat_mid by auto. assert (0 < prod (outs b))%nat by (eapply prod_pos; eauto). nia. }
    intros t1' t2' H1' H2'. rewrite upd_nth_spec.
    destruct (filter_step (fun k => flat ns (t1' ++ k :: t2')) (v_outcomes u) i) as [Hs1 Hs2].
    { intros; apply Hmono; auto. }
    destruct (Nat.eqb_spec (flat (outs (a ++ b)) (t1 ++ t2)) (flat (outs (a ++ b)) (t1' ++ t2'))) as [Ef|Ef].
    + apply flat_inj in Ef; try (rewrite outs_app; apply inb_app; auto).
      apply app_inj_len in Ef. 2:{ apply inb_length in H1'. rewrite outs_length in H1'. lia. }
      destruct Ef as [<- <-].
      destruct (Nat.ltb_spec (flat (outs (a ++ b)) (t1 ++ t2)) (length (f_data fn))); [|lia]. simpl.
      f_equal. unfold part. rewrite (Hs1 k Hk Hflat). rewrite map_app, fold_left_app. simpl.
      f_equal. unfold ft. rewrite Hvs. fold ns. rewrite Hflat. symmetry. apply nth_error_nth. auto.
    + simpl. rewrite Hcell by auto. f_equal. unfold part. rewrite Hs2; auto.
      intros k' Hk' Ee. destruct (Hcase t1' k' t2' H1' Hk' H2' Ee) as (_ & -> & ->). congruence.
  - rewrite E. simpl. destruct HI as (_ & _ & Hfid & Hfv & Hfd & Hcell).
    exists (f_data fn). split; [|split; auto].
    + f_equal. f_equal. destruct fn; simpl in *; subst; auto.
    + intros t1 t2 H1 H2. rewrite Hcell by auto. f_equal. unfold part.
      rewrite filter_all_true; auto. intros k Hk. apply in_seq in Hk. apply Nat.ltb_lt. rewrite Hd.
      apply flat_lt. apply Hinb; auto; lia.
Qed.

(** Marginal: the sum over all tuples with the chosen digit. *)
Lemma marginal_spec s f a u b v :
  fits f -> f_vars f = a ++ u :: b -> v_id u = v_id v ->
  ~ In (v_id v) (map v_id a) -> v_outcomes u = v_outcomes v ->
  exists d, marginal s f v = Ok (bump s, mkFactor (vs_counter s) [v] d) /\
    length d = v_outcomes v /\
    forall k, (k < v_outcomes v)%nat ->
      nth_error d k =
      Some (fold_left nadd (map (ft f) (filter (fun t => nth (length a) t 0%nat =? k)%nat
              (all_tups (outs (f_vars f))))) n0).
Proof.
  intros Hfit Hvs Hid Ha Hout. unfold marginal.
  assert (Hidx : index_func (fun w => v_id w =? v_id v) (f_vars f) = Z.of_nat (length a)).
  { destruct (index_func_spec (fun w => v_id w =? v_id v) (f_vars f)) as [[H1 H2]|(p & x & H1 & H2 & H3 & H4)].
    - rewrite Hvs in H2. specialize (H2 u (in_elt _ _ _)). simpl in H2. lia.
    - rewrite H1. f_equal.
      destruct (lt_eq_lt_dec p (length a)) as [[Hl| ->]|Hg]; auto.
      + exfalso. apply Ha. apply in_map_iff. exists x. split; [lia|].
        rewrite Hvs, nth_error_app1 in H2 by auto. eapply nth_error_In; eauto.
      + exfalso. specialize (H4 (length a) u Hg). rewrite Hvs, nth_error_app2, Nat.sub_diag in H4 by lia.
        specialize (H4 eq_refl). lia. }
  rewrite Hidx. destruct (Z.of_nat (length a) <? 0) eqn:E; [lia|]. clear E.
  rewrite create_factor_none. simpl. rewrite Nat.mul_1_r.
  set (ns := outs (f_vars f)).
  assert (Hns : ns = outs a ++ v_outcomes u :: outs b) by (unfold ns; rewrite Hvs, outs_app; auto).
  assert (Hd : length (f_data f) = prod ns) by (rewrite Hfit; auto).
  set (part := fun i k => fold_left nadd (map (ft f) (filter (fun t => nth (length a) t 0%nat =? k)%nat
              (map (tup ns) (seq 0 i)))) n0).
  destruct (foldM_inv (fun i '(od, data) =>
       od = (if (0 <? prod ns)%nat then Zs (tup ns i) else repeat 0 (length (f_vars f))) /\
       length data = v_outcomes v /\
       forall k, (k < v_outcomes v)%nat -> nth_error data k = Some (part i k))
    (fun '(oldIndex, data) (x : A) =>
      let! k := sget oldIndex (Z.of_nat (length a)) in
      let! old := sget data k in
      let! data' := sset data k (nadd old x) in
      let! (oldIndex', _) := vars_increment (f_vars f) oldIndex in
      Ok (oldIndex', data'))
    (f_data f)
    (repeat 0 (length (f_vars f)), repeat n0 (v_outcomes v)))
    as ([od data] & E & HI).
  - split; [|split].
    + destruct (Nat.ltb_spec 0 (prod ns)); auto. apply zeros_tup. auto.
    + apply repeat_length.
    + intros k Hk. rewrite nth_error_repeat'. destruct (Nat.ltb_spec k (v_outcomes v)); auto; lia.
  - intros i [od data] x Hx (Hod & Hl & Hcell).
    assert (Hi : (i < prod ns)%nat) by (rewrite <- Hd; apply nth_error_Some; congruence).
    destruct (Nat.ltb_spec 0 (prod ns)) as [Hpos|]; [|lia].
    assert (Hin : inb ns (tup ns i)) by (apply tup_inb; auto).
    rewrite Hns in Hin at 1. apply inb_mid_inv in Hin.
    destruct Hin as (t1 & k & t2 & Ht & H1 & Hk & H2).
    pose proof (inb_length _ _ H1) as L1. rewrite !outs_length in *.
    assert (Hflat : flat ns (t1 ++ k :: t2) = i) by (rewrite <- Ht; apply flat_tup_lt; auto).
    subst od.
    assert (Hk1 : nth_error (Zs (tup ns i)) (length a) = Some (Z.of_nat k)).
    { rewrite Ht. unfold Zs. rewrite nth_error_map, L1, nth_error_app2, Nat.sub_diag by lia. auto. }
    rewrite (sget_ok _ _ _ Hk1). simpl. rewrite Hout in Hk.
    rewrite (sget_ok _ _ _ (Hcell k Hk)). simpl. rewrite sset_ok by lia. simpl.
    unfold ns. rewrite vars_increment_tup by auto. simpl. eexists; split; [reflexivity|]. simpl.
    split; auto. split; [rewrite upd_nth_length; auto|].
    intros k' Hk'. rewrite upd_nth_spec.
    assert (Hpart : part (S i) k' = if (k =? k')%nat then nadd (part i k') x else part i k').
    { unfold part. rewrite seq_S, map_app, filter_app. simpl.
      rewrite Ht. rewrite L1, app_nth2, Nat.sub_diag by lia. simpl nth.
      destruct (Nat.eqb_spec k k').
      - rewrite map_app, fold_left_app. simpl. f_equal. unfold ft. fold ns. rewrite Hflat.
        apply nth_error_nth. auto.
      - rewrite app_nil_r. auto. }
    rewrite Hpart. destruct (Nat.eqb_spec k k').
    + subst k'. destruct (Nat.ltb_spec k (length data)); [|lia]. simpl. auto.
    + simpl. apply Hcell; auto.
  - rewrite E. simpl. destruct HI as (_ & Hl & Hcell). exists data. split; auto. split; auto.
    intros k Hk. rewrite Hcell by auto. rewrite Hd. auto.
Qed.

End F.
