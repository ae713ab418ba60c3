(** Further facts on factor operations: tuples, panics, ids of results. *)
From Coq Require Import ZArith List Bool Lia Arith PeanoNat ZifyBool ZifyNat Permutation.
From Coq Require String.
Import (notations) String.
From Verif Require Import Num GoBase VarModel Tuples GoFacts SpecFactor FactorFacts FactorSum FactorProd FactorPolicy FactorAt.
Import ListNotations.
Open Scope Z_scope.

Lemma tuple_ok_nat vs t : tuple_ok vs t <-> exists u, t = Zs u /\ inb (outs vs) u.
Proof.
  split.
  - induction 1.
    + exists []. split; auto. constructor.
    + destruct IHForall2 as (u & -> & Hu). exists (Z.to_nat y :: u). split.
      * unfold Zs. simpl. f_equal. lia.
      * constructor; auto. lia.
  - intros (u & -> & Hu). unfold tuple_ok. revert u Hu. induction vs; simpl; intros u Hu; inversion Hu; subst; simpl; constructor; auto; try lia; try (apply IHvs; auto).
Qed.

Lemma Zs_inj a b : Zs a = Zs b -> a = b.
Proof. revert b. induction a; destruct b; unfold Zs; simpl; intros H; inversion H; auto. f_equal; auto. lia. Qed.

Lemma Zs_length a : length (Zs a) = length a.
Proof. apply map_length. Qed.

Lemma foldM_ok_inv {S X} (P : S -> Prop) (f : S -> X -> gores S) l : forall s s',
  (forall s x s', P s -> f s x = Ok s' -> P s') -> P s -> foldM f s l = Ok s' -> P s'.
Proof.
  induction l; simpl; intros s s' Hf Hs E; [congruence|].
  destruct (f s a) eqn:Ea; simpl in E; try discriminate. eapply IHl; [exact Hf| |exact E]. eauto.
Qed.

Lemma nth_error_combine' {S T} (l : list S) (m : list T) i :
  nth_error (combine l m) i =
  match nth_error l i, nth_error m i with Some x, Some y => Some (x, y) | _, _ => None end.
Proof. revert m i. induction l; destruct m, i; simpl; auto. destruct (nth_error l i); auto. Qed.

Section F.
Context {A : Type} {N : NumOps A}.

Lemma create_factor_inv s vs d s' (f : factor A) : create_factor s vs d = Ok (s', f) ->
  s' = bump s /\ f_id f = vs_counter s /\ f_vars f = vs /\ zlen (f_data f) = Z.of_nat (prod (outs vs)) /\
  (forall l, d = Some l -> f_data f = l).
Proof.
  unfold create_factor. rewrite vars_rows_prod. intros E. apply gbind_ok in E. destruct E as (l & E1 & E2).
  inversion E2; subst. simpl. do 3 (split; auto). destruct d.
  - destruct (zlen l0 =? Z.of_nat (prod (outs vs))) eqn:El; simpl in E1; [|discriminate]. inversion E1; subst.
    split; [lia|]. congruence.
  - unfold smake in E1. destruct (Z.of_nat (prod (outs vs)) <? 0) eqn:Es; [discriminate|]. inversion E1; subst.
    split; [|discriminate]. unfold zlen. rewrite repeat_length. lia.
Qed.

Lemma f_set_id (f f' : factor A) t x : f_set f t x = Ok f' -> f_id f' = f_id f /\ f_vars f' = f_vars f.
Proof.
  unfold f_set. intros E. apply gbind_ok in E. destruct E as (i & _ & E). apply gbind_ok in E.
  destruct E as (d & _ & E). inversion E; auto.
Qed.

Ltac binv E := let x := fresh "x" in let E1 := fresh "E1" in apply gbind_ok in E; destruct E as (x & E1 & E).

Lemma restrict_id s (f : factor A) v o s' f' : restrict s f v o = Ok (s', f') -> s' = bump s /\ f_id f' = vs_counter s.
Proof.
  unfold restrict. destruct (_ || _); [discriminate|]. intros E. binv E.
  destruct (scan_vars _ _) as [idx nv]. destruct (idx <? 0); [discriminate|]. binv E. destruct x0 as [s1 f1].
  apply create_factor_inv in E0. destruct E0 as (-> & Hid & _). binv E. destruct x0 as [[x1 x2] f2]. inversion E; subst.
  split; auto. rewrite <- Hid.
  apply (foldM_ok_inv (fun '(_, _, g) => f_id g = f_id f1)) in E0; auto.
  intros [[o1 n1'] g] z [[o2 n2] g'] Hg Es. binv Es. binv Es. destruct x3 as [nw g2]. binv Es. destruct x3 as [ox fl]. inversion Es; subst.
  destruct (x0 =? o) eqn:Eo.
  - binv E3. binv E3. inversion E3; subst. match goal with H : f_set _ _ _ = Ok _ |- _ => apply f_set_id in H; destruct H; congruence end.
  - inversion E3; subst. auto.
Qed.

Lemma sum_out_id s (f : factor A) v s' f' : sum_out s f v = Ok (s', f') -> s' = bump s /\ f_id f' = vs_counter s.
Proof.
  unfold sum_out. intros E. binv E.
  destruct (scan_vars _ _) as [idx nv]. destruct (idx <? 0); [discriminate|]. binv E. destruct x0 as [s1 f1].
  apply create_factor_inv in E0. destruct E0 as (-> & Hid & _). binv E. destruct x0 as [[x1 x2] f2]. inversion E; subst.
  split; auto. rewrite <- Hid.
  apply (foldM_ok_inv (fun '(_, _, g) => f_id g = f_id f1)) in E0; auto.
  intros [[o1 n1'] g] z [[o2 n2] g'] Hg Es. repeat binv Es. repeat match goal with p : (_ * _)%type |- _ => destruct p end. inversion Es; subst. auto.
Qed.


Lemma policy_id s (f : factor A) v s' f' : policy s f v = Ok (s', f') -> s' = bump s /\ f_id f' = vs_counter s.
Proof.
  unfold policy. intros E. destruct (scan_vars _ _) as [idx nv]. destruct (idx <? 0); [discriminate|].
  binv E. binv E. destruct x0 as [s1 f1]. match goal with H : create_factor _ _ _ = Ok _ |- _ => apply create_factor_inv in H; destruct H as (-> & Hid & _) end.
  destruct (_ =? 0); [discriminate|]. binv E. destruct x0 as [[x1 x2] f2]. inversion E; subst.
  split; auto. rewrite <- Hid.
  match goal with H : foldM _ _ _ = Ok _ |- _ => apply (foldM_ok_inv (fun '(_, _, g) => f_id g = f_id f1)) in H; auto end.
  intros [[o1 n1'] g] z [[o2 n2] g'] Hg Es. binv Es. binv Es. destruct x3 as [[od nw] rd].
  destruct (_ =? 0); [discriminate|]. binv Es. destruct x3 as [nw2 fn]. inversion Es; subst.
  match goal with H : foldM _ _ _ = Ok _ |- _ => apply (foldM_ok_inv (fun '(_, h) => f_id h = f_id f1)) in H; auto end.
  intros [nw3 h] y [nw4 h'] Hh Ey. binv Ey. binv Ey. inversion Ey; subst. match goal with H : f_set _ _ _ = Ok _ |- _ => apply f_set_id in H; destruct H; congruence end.
Qed.

Lemma rearrange_id s (f : factor A) vs s' f' : rearrange s f vs = Ok (s', f') -> s' = bump s /\ f_id f' = vs_counter s.
Proof.
  unfold rearrange. destruct (negb _); [discriminate|]. intros E. binv E. destruct x as [ind eq]. destruct eq.
  - apply create_factor_inv in E. tauto.
  - binv E. destruct x as [s1 f1]. match goal with H : create_factor _ _ _ = Ok _ |- _ => apply create_factor_inv in H; destruct H as (-> & Hid & _) end.
    binv E. destruct x as [[x1 x2] f2]. inversion E; subst. auto.
Qed.

Lemma combine_id op z s (fs : list (factor A)) s' f' : combine_factors op z s fs = Ok (s', f') -> s' = bump s /\ f_id f' = vs_counter s.
Proof.
  unfold combine_factors. destruct (union_maps fs). intros E. binv E. destruct x as [s1 f1].
  match goal with H : create_factor _ _ _ = Ok _ |- _ => apply create_factor_inv in H; destruct H as (-> & Hid & _) end. binv E. destruct x as [x2 f2]. inversion E; subst. auto.
Qed.

Lemma product_id s (fs : list (factor A)) s' f' : product s fs = Ok (s', f') -> s' = bump s /\ f_id f' = vs_counter s.
Proof.
  unfold product. intros E. destruct fs as [|? [|]]; try (apply combine_id in E; tauto). apply create_factor_inv in E. tauto.
Qed.

Lemma sum_id s (fs : list (factor A)) s' f' : sum s fs = Ok (s', f') -> s' = bump s /\ f_id f' = vs_counter s.
Proof.
  unfold sum. intros E. destruct fs as [|? [|]]; try (apply combine_id in E; tauto). apply create_factor_inv in E. tauto.
Qed.

Lemma marginal_id s (f : factor A) v s' f' : marginal s f v = Ok (s', f') -> s' = bump s /\ f_id f' = vs_counter s.
Proof.
  unfold marginal. destruct (_ <? 0); [discriminate|]. intros E. binv E. destruct x as [s1 f1].
  match goal with H : create_factor _ _ _ = Ok _ |- _ => apply create_factor_inv in H; destruct H as (-> & Hid & _) end. binv E. destruct x as [x2 f2]. inversion E; subst. auto.
Qed.

Lemma normalize_id s (f : factor A) s' f' : normalize s f = Ok (s', f') -> s' = bump s /\ f_id f' = vs_counter s.
Proof.
  unfold normalize. intros E. binv E. destruct x as [s1 f1].
  match goal with H : create_factor _ _ _ = Ok _ |- _ => apply create_factor_inv in H; destruct H as (-> & Hid & _) end. inversion E; subst. auto.
Qed.

Lemma invert_id s (f : factor A) s' f' : invert s f = Ok (s', f') -> s' = bump s /\ f_id f' = vs_counter s.
Proof.
  unfold invert. intros E. binv E. destruct x as [s1 f1].
  match goal with H : create_factor _ _ _ = Ok _ |- _ => apply create_factor_inv in H; destruct H as (-> & Hid & _) end. inversion E; subst. auto.
Qed.

Lemma normalize_for_id s (f : factor A) v s' f' : normalize_for s f v = Ok (s', f') -> s' = bump s /\ f_id f' = vs_counter s.
Proof.
  unfold normalize_for. destruct (_ <? 0); [discriminate|]. intros E. binv E. binv E. destruct x0 as [s1 f1].
  match goal with H : rearrange _ _ _ = Ok _ |- _ => apply rearrange_id in H; destruct H as (-> & Hid) end. 
  repeat match type of E with
  | gbind _ _ = _ => binv E
  | (if ?b then _ else _) = _ => destruct b; try discriminate
  end; inversion E; subst; auto.
Qed.


Lemma row_spec (f : factor A) vs v a :
  wf_factor f -> f_vars f = vs ++ [v] -> in_range vs a ->
  exists row, f_row f (tuple_of vs a) = Ok row /\ length row = v_outcomes v /\
    forall k x, nth_error row k = Some x -> get_at f (upd a (v_id v) k) = Ok x.
Proof.
  intros Hw Hvs Ha. pose proof (wf_fits f Hw) as Hf. unfold fits in Hf. rewrite Hvs, outs_app in Hf. simpl in Hf.
  unfold f_row, f_row_index. rewrite Hvs. rewrite tuple_of_tof.
  assert (Hl : zlen (Zs (tof vs a)) = zlen (vs ++ [v]) - 1).
  { unfold zlen. rewrite Zs_length, tof_length, app_length. simpl. lia. }
  rewrite Hl, Z.eqb_refl. cbn [negb].
  replace (zlen (vs ++ [v]) - 1) with (Z.of_nat (length vs)) by (unfold zlen; rewrite app_length; simpl; lia).
  rewrite (sget_ok (vs ++ [v]) (length vs) v).
  2:{ rewrite nth_error_app2, Nat.sub_diag by lia. auto. }
  cbn [gbind]. rewrite removelast_last.
  assert (G : forall t, length t = length vs -> forall st,
     fold_right (fun '(v0, i) '(idx, stride) => (idx + i * stride, stride * v_out v0)) (0, st) (combine vs (Zs t)) =
     (Z.of_nat (flat (outs vs) t) * st, Z.of_nat (prod (outs vs)) * st)).
  { clear. induction vs; destruct t; simpl; intros H st; try discriminate.
    - f_equal; lia.
    - rewrite IHvs by lia. unfold v_out. f_equal; lia. }
  rewrite G by (apply tof_length). cbn [fst gbind].
  assert (Hin : inb (outs vs) (tof vs a)) by (apply in_range_inb; auto).
  pose proof (flat_lt _ _ Hin) as Hlt. set (i := flat (outs vs) (tof vs a)) in *.
  rewrite prod_app in Hf. simpl in Hf. unfold sslice, v_out, zlen.
  set (n := v_outcomes v) in *.
  assert (Hb : (i * n + n <= prod (outs vs) * n)%nat) by nia.
  destruct ((_ <? 0) || _ || _) eqn:E; [exfalso; nia|]. clear E.
  eexists; split; [reflexivity|].
  replace (Z.to_nat (Z.of_nat i * Z.of_nat n + Z.of_nat n - Z.of_nat i * Z.of_nat n)) with n by lia.
  replace (Z.to_nat (Z.of_nat i * Z.of_nat n)) with (i * n)%nat by lia.
  split.
  - rewrite firstn_length, skipn_length. lia.
  - intros k x Hk.
    assert (Hkn : (k < n)%nat).
    { assert (k < length (firstn n (skipn (i * n) (f_data f))))%nat by (apply nth_error_Some; congruence).
      rewrite firstn_length in H. lia. }
    rewrite nth_error_firstn' in Hk by auto. rewrite nth_error_skipn' in Hk.
    assert (Hnv : ~ In (v_id v) (map v_id vs)).
    { destruct Hw as [Hw _]. rewrite Hvs in Hw. unfold wf_vars in Hw. rewrite map_app in Hw. simpl in Hw.
      apply NoDup_remove_2 in Hw. rewrite app_nil_r in Hw. auto. }
    unfold get_at, f_get, f_index. rewrite tuple_of_tof, Hvs, tof_app, tof_upd_notin by auto.
    rewrite vars_index_flat by (rewrite !app_length, tof_length; simpl; auto). cbn [gbind].
    apply sget_ok. rewrite outs_app. cbn [outs map tof]. rewrite upd_same.
    rewrite flat_snoc by (rewrite outs_length, tof_length; auto).
    destruct (Nat.ltb_spec k n); [auto|lia].
Qed.

Lemma set_get_spec (f : factor A) t x :
  wf_factor f -> tuple_ok (f_vars f) t ->
  exists f', f_set f t x = Ok f' /\ f_vars f' = f_vars f /\ wf_factor f' /\
    f_get f' t = Ok x /\
    forall t', tuple_ok (f_vars f) t' -> t' <> t -> f_get f' t' = f_get f t'.
Proof.
  intros Hw Ht. apply tuple_ok_nat in Ht. destruct Ht as (u & -> & Hu). pose proof (wf_fits f Hw) as Hf. unfold fits in Hf.
  pose proof (inb_length _ _ Hu) as L. rewrite outs_length in L.
  assert (Hlt : (flat (outs (f_vars f)) u < length (f_data f))%nat) by (rewrite Hf; apply flat_lt; auto).
  unfold f_set, f_index. rewrite vars_index_flat by auto. cbn [gbind]. rewrite sset_ok by auto. cbn [gbind].
  eexists; split; [reflexivity|]. cbn [f_vars]. split; auto. split; [|split].
  - split; [apply Hw|]. simpl. rewrite upd_nth_length. apply Hw.
  - unfold f_get, f_index. cbn [f_vars f_data]. rewrite vars_index_flat by auto. cbn [gbind]. apply sget_ok.
    rewrite upd_nth_same; auto.
  - intros t' Ht' Hne. apply tuple_ok_nat in Ht'. destruct Ht' as (u' & -> & Hu').
    pose proof (inb_length _ _ Hu') as L'. rewrite outs_length in L'.
    unfold f_get, f_index. cbn [f_vars f_data]. rewrite vars_index_flat by auto. cbn [gbind].
    rewrite !sget_nat. rewrite upd_nth_other; auto. intros E. apply Hne. f_equal. eapply flat_inj; eauto.
Qed.

Lemma no_data_spec (f : factor A) t :
  wf_factor f -> Forall2 (fun v k => k = -1 \/ 0 <= k < Z.of_nat (v_outcomes v)) (f_vars f) t ->
  (In (-1) t -> f_index_nodata f t = Ok (0, false)) /\
  (~ In (-1) t -> exists i, f_index_nodata f t = Ok (i, true) /\ f_index f t = Ok i).
Proof.
  intros _ H. unfold f_index_nodata, f_index, vars_index_nodata, vars_index.
  assert (Hl : zlen t = zlen (f_vars f)).
  { unfold zlen. f_equal. clear - H. induction H; simpl; auto. }
  rewrite Hl, Z.eqb_refl. cbn [negb].
  assert (Hlen : length t = length (f_vars f)) by (unfold zlen in Hl; lia). clear Hl H.
  set (F := fun '((v, i) : variable * Z) (st : option (Z * Z)) => match st with
            | None => None
            | Some (index, multiplier) =>
                if i =? -1 then None else Some (index + i * multiplier, multiplier * v_out v)
            end).
  assert (G1 : forall vs t, length t = length vs -> In (-1) t -> fold_right F (Some (0, 1)) (combine vs t) = None).
  { clear. induction vs; destruct t; simpl; intros H1 H2; try discriminate; try tauto.
    destruct (in_dec Z.eq_dec (-1) t) as [Hin|Hin].
    - rewrite IHvs; auto.
    - destruct H2 as [->|]; [|tauto]. destruct (fold_right F _ _) as [[]|]; auto. }
  assert (G2 : forall vs t, length t = length vs -> ~ In (-1) t -> fold_right F (Some (0, 1)) (combine vs t) =
      Some (fold_right (fun '(v, i) '(index, multiplier) => (index + i * multiplier, multiplier * v_out v)) (0, 1) (combine vs t))).
  { clear. induction vs; destruct t; simpl; intros H1 H2; try discriminate; auto.
    rewrite IHvs by (auto; lia). destruct (fold_right _ _ _) as [x y]. destruct (z =? -1) eqn:E; auto. exfalso. lia. }
  destruct (f_vars f) as [|v vs] eqn:Ev.
  - destruct t; [|discriminate]. split; [intros []|]. intros _. exists 0. auto.
  - rewrite <- Ev in *. clear Ev v vs. split; intros Hin.
    + rewrite G1 by auto. auto.
    + rewrite G2 by auto. destruct (fold_right _ _ _) as [x y]. exists x. auto.
Qed.

Lemma rearrange_rejects s (f : factor A) vars :
  length vars <> length (f_vars f) \/ (exists v, In v vars /\ ~ In v (f_vars f)) ->
  exists p, rearrange s f vars = Panic p.
Proof.
  intros H. unfold rearrange. destruct (zlen (f_vars f) =? zlen vars) eqn:E; simpl; [|eauto].
  assert (Hl : length vars = length (f_vars f)) by (unfold zlen in E; lia).
  destruct H as [H|(v & Hin & Hn)]; [tauto|].
  assert (G : exists p, rearrange_indices (f_vars f) vars = Panic p).
  { unfold rearrange_indices.
    assert (Hc : forall k w, In (k, w) (combine (zrange 0 (zlen vars)) vars) -> exists x, sget (f_vars f) k = Ok x).
    { intros k w Hk. apply in_combine_l in Hk. apply in_zrange in Hk. unfold zlen in Hk.
      destruct (nth_error (f_vars f) (Z.to_nat k)) eqn:En.
      - exists v0. rewrite <- (Z2Nat.id k) by lia. apply sget_ok. auto.
      - apply nth_error_None in En. lia. }
    assert (Hv : exists k, In (k, v) (combine (zrange 0 (zlen vars)) vars)).
    { apply In_nth_error in Hin. destruct Hin as (i & Hi).
      assert (i < length vars)%nat by (apply nth_error_Some; congruence).
      exists (Z.of_nat i). eapply nth_error_In with (n := i). rewrite nth_error_combine'.
      rewrite zrange_nth by (unfold zlen; lia). rewrite Hi. simpl. auto. }
    destruct Hv as (k & Hk). revert Hc Hk. generalize (@nil Z, true).
    generalize (combine (zrange 0 (zlen vars)) vars). clear - Hn.
    induction l as [|[k' w] l IH]; intros [ind eq] Hc Hk; [destruct Hk|].
    simpl foldM. destruct (Hc k' w) as (x & Hx); [simpl; auto|]. rewrite Hx. cbn [gbind].
    destruct (index_func (var_eqb w) (f_vars f) <? 0) eqn:Ei; cbn [gbind]; [eauto|].
    destruct Hk as [Hk|Hk].
    - inversion Hk; subst. exfalso. assert (index_func (var_eqb v) (f_vars f) < 0).
      { apply index_func_neg. intros y Hy. apply not_true_is_false. intros Hv. apply var_eqb_spec in Hv. subst. tauto. }
      lia.
    - apply IH; auto. intros; eapply Hc; simpl; eauto. }
  destruct G as (p & ->). simpl. eauto.
Qed.

Lemma rearrange_back s s' (f f' : factor A) vars :
  wf_factor f -> Permutation vars (f_vars f) -> rearrange s f vars = Ok (s', f') ->
  exists f'', rearrange s' f' (f_vars f) = Ok (bump s', f'') /\ f_vars f'' = f_vars f /\ f_data f'' = f_data f.
Proof.
  intros Hw Hp E. destruct (rearrange_at s f vars Hw Hp) as (f1 & E1 & _ & Hw1 & Hvs1 & Hat1).
  rewrite E1 in E. inversion E; subst s' f'.
  destruct (rearrange_at (bump s) f1 (f_vars f) Hw1) as (f2 & E2 & _ & Hw2 & Hvs2 & Hat2).
  { rewrite Hvs1. apply Permutation_sym. auto. }
  exists f2. split; auto. split; auto.
  apply nth_error_ext. intros i.
  pose proof (wf_fits f Hw) as Hf. pose proof (wf_fits f2 Hw2) as Hf2. unfold fits in *. rewrite Hvs2 in Hf2.
  destruct (Nat.lt_ge_cases i (prod (outs (f_vars f)))) as [Hi|Hi].
  - set (t := tup (outs (f_vars f)) i). assert (Ht : inb (outs (f_vars f)) t) by (apply tup_inb; lia).
    set (a := asg_of (f_vars f) t).
    assert (Hta : tof (f_vars f) a = t).
    { apply tof_asg_of. apply Hw. unfold t. rewrite tup_length, outs_length. auto. }
    assert (Ha : in_range (f_vars f) a) by (apply in_range_inb; rewrite Hta; auto).
    assert (Ha' : in_range vars a).
    { eapply in_range_incl; [|apply Ha]. intros v Hv. eapply Permutation_in; eauto. }
    assert (Heq : fv f2 a = fv f a).
    { assert (Ok (fv f2 a) = Ok (fv f a)); [|congruence].
      rewrite <- (get_at_fv f2); [|exact (wf_fits f2 Hw2)|rewrite Hvs2; auto].
      rewrite <- (get_at_fv f); [|exact (wf_fits f Hw)|auto]. rewrite Hat2 by auto. auto. }
    unfold fv in Heq. rewrite Hvs2, Hta in Heq. unfold ft in Heq. rewrite Hvs2 in Heq.
    unfold t in Heq. rewrite flat_tup_lt in Heq by auto.
    rewrite !(nth_error_nth' _ n0) by lia. congruence.
  - rewrite !(proj2 (nth_error_None _ _)); auto; lia.
Qed.

Lemma size_overflow_spec : exists vs,
  (forall v, In v vs -> Z.of_nat (v_outcomes v) <= 65535) /\
  fold_right (fun v n => Z.of_nat (v_outcomes v) * n) 1 vs = 2 ^ 64 /\
  exists s' (f : factor A), create_factor_int64 new_variables vs None = Ok (s', f) /\ f_data f = [].
Proof.
  exists (map (fun i => mkVar i 0 256 Chance) [0; 1; 2; 3; 4; 5; 6; 7]). split; [|split].
  - intros v Hv. apply in_map_iff in Hv. destruct Hv as (i & <- & _). simpl. vm_compute. discriminate.
  - vm_compute. reflexivity.
  - eexists; eexists. split.
    + unfold create_factor_int64. replace (fold_left _ _ 1) with 0 by (vm_compute; reflexivity). reflexivity.
    + reflexivity.
Qed.

Lemma no_overflow_spec s vs d :
  Forall (fun v => 0 < v_outcomes v)%nat vs -> Z.of_nat (num_cells vs) < 2 ^ 63 ->
  create_factor_int64 (A := A) s vs d = create_factor s vs d.
Proof.
  intros Hpos Hb. unfold create_factor_int64, create_factor.
  assert (G : fold_left (fun rows v => wrap64 (rows * v_out v)) vs 1 = vars_rows vs); [|rewrite G; auto].
  unfold vars_rows. rewrite num_cells_prod in Hb.
  assert (G : forall z, 0 <= z -> z * Z.of_nat (prod (outs vs)) < 2 ^ 63 ->
     fold_left (fun rows v => wrap64 (rows * v_out v)) vs z = fold_left (fun rows v => rows * v_out v) vs z); [|apply G; lia].
  clear Hb. induction Hpos; intros z Hz Hb; cbn [fold_left]; auto.
  cbn [outs map prod] in Hb. fold (outs l) in Hb.
  assert (P : (0 < prod (outs l))%nat).
  { apply forall_prod_pos. clear - Hpos. induction Hpos; simpl; constructor; auto. }
  assert (W : wrap64 (z * v_out x) = z * v_out x).
  { unfold wrap64, v_out. rewrite Z.mod_small; [lia|]. split; [nia|]. 
    assert (z * Z.of_nat (v_outcomes x) < 2 ^ 63) by nia. lia. }
  rewrite W. apply IHHpos; unfold v_out; nia.
Qed.

End F.
