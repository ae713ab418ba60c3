(** Factor operations at the level of joint assignments, for any arithmetic. *)
From Coq Require Import ZArith List Bool Lia Arith PeanoNat ZifyBool ZifyNat Permutation.
From Coq Require String.
Import (notations) String.
From Verif Require Import Num GoBase VarModel Tuples GoFacts SpecFactor FactorFacts FactorSum FactorProd FactorPolicy.
Import ListNotations.
Open Scope Z_scope.

Lemma others_split a v b : ~ In (v_id v) (map v_id a) -> ~ In (v_id v) (map v_id b) ->
  forall v', v_id v' = v_id v -> others (a ++ v :: b) v' = a ++ b.
Proof.
  intros Ha Hb v' Hv'. unfold others. rewrite filter_app. simpl. rewrite Hv', Z.eqb_refl. simpl.
  rewrite !filter_all_true; auto.
  - intros x Hx. apply negb_true_iff. apply Z.eqb_neq. intros E. apply Hb. rewrite <- E. apply in_map; auto.
  - intros x Hx. apply negb_true_iff. apply Z.eqb_neq. intros E. apply Ha. rewrite <- E. apply in_map; auto.
Qed.

Lemma wf_split vs v : wf_vars vs -> In v vs ->
  exists a b, vs = a ++ v :: b /\ ~ In (v_id v) (map v_id a) /\ ~ In (v_id v) (map v_id b) /\ others vs v = a ++ b.
Proof.
  intros Hw Hin. apply in_split in Hin. destruct Hin as (a & b & ->). exists a, b.
  unfold wf_vars in Hw. rewrite map_app in Hw. simpl in Hw. apply NoDup_remove_2 in Hw. rewrite in_app_iff in Hw.
  split; auto. split; [tauto|]. split; [tauto|]. apply others_split; tauto.
Qed.

Lemma wf_others vs v : wf_vars vs -> wf_vars (others vs v).
Proof. apply NoDup_filter_map. Qed.

Lemma in_others vs v u : In u (others vs v) <-> In u vs /\ v_id u <> v_id v.
Proof. unfold others. rewrite filter_In, negb_true_iff, Z.eqb_neq. tauto. Qed.

Lemma wf_perm vs vs' : Permutation vs vs' -> wf_vars vs -> wf_vars vs'.
Proof. intros. unfold wf_vars. eapply Permutation_NoDup; [|eauto]. apply Permutation_map. auto. Qed.

Lemma in_range_incl vs vs' a : incl vs vs' -> in_range vs' a -> in_range vs a.
Proof. intros H Hr v Hv. apply Hr. auto. Qed.

Lemma upd_same a id k : upd a id k id = k.
Proof. unfold upd. rewrite Z.eqb_refl. auto. Qed.

Lemma upd_other a id k x : x <> id -> upd a id k x = a x.
Proof. intros. unfold upd. destruct (x =? id) eqn:E; auto. lia. Qed.

Lemma in_range_upd vs v a k : wf_vars vs -> In v vs -> in_range (others vs v) a -> (k < v_outcomes v)%nat ->
  in_range vs (upd a (v_id v) k).
Proof.
  intros Hw Hin Hr Hk u Hu. unfold upd. destruct (v_id u =? v_id v) eqn:E.
  - assert (u = v); [|subst; auto].
    apply in_split in Hin. destruct Hin as (x & y & ->). unfold wf_vars in Hw. rewrite map_app in Hw. simpl in Hw.
    apply NoDup_remove_2 in Hw. rewrite in_app_iff in Hw. apply in_app_iff in Hu. simpl in Hu.
    assert (v_id u = v_id v) by lia.
    destruct Hu as [Hu|[Hu|Hu]]; auto; exfalso; apply Hw; rewrite <- H; [left|right]; apply in_map; auto.
  - apply Hr. apply in_others. split; auto. lia.
Qed.

Lemma worlds_keep vs : forall g w x, In w (worlds vs g) -> ~ In x (map v_id vs) -> w x = g x.
Proof.
  induction vs; simpl; intros g w x Hin Hx.
  - destruct Hin as [<-|[]]; auto.
  - apply in_flat_map in Hin. destruct Hin as (k & Hk & Hin). apply IHvs with (x := x) in Hin; [|tauto].
    rewrite Hin. apply upd_other. intros ->. tauto.
Qed.

Lemma map_flat_map {S T U} (h : T -> U) (g : S -> list T) l : map h (flat_map g l) = flat_map (fun x => map h (g x)) l.
Proof. induction l; simpl; auto. rewrite map_app. f_equal; auto. Qed.

Lemma flat_map_ext_in {S T} (g h : S -> list T) l : (forall x, In x l -> g x = h x) -> flat_map g l = flat_map h l.
Proof. induction l; simpl; intros H; auto. rewrite H, IHl; auto. Qed.

Lemma worlds_tups vs : wf_vars vs -> forall g, map (tof vs) (worlds vs g) = all_tups (outs vs).
Proof.
  induction vs; intros Hw g; [reflexivity|].
  unfold wf_vars in Hw. simpl in Hw. inversion Hw; subst.
  cbn [worlds outs map]. rewrite all_tups_cons. fold (outs vs). rewrite map_flat_map.
  apply flat_map_ext. intros k. rewrite <- (IHvs H2 (upd g (v_id a) k)). rewrite map_map.
  apply map_ext_in. intros w Hin. simpl. f_equal.
  apply worlds_keep with (x := v_id a) in Hin; auto. rewrite Hin. apply upd_same.
Qed.

Lemma worlds_in_range vs g w : wf_vars vs -> In w (worlds vs g) -> in_range vs w.
Proof.
  intros Hw Hin. apply in_range_inb. apply in_all_tups. rewrite <- (worlds_tups vs Hw g). apply in_map. auto.
Qed.

Section F.
Context {A : Type} {N : NumOps A}.

Lemma fits_wf (f : factor A) : fits f -> wf_vars (f_vars f) -> wf_factor f.
Proof. intros. split; auto. rewrite num_cells_prod. auto. Qed.

Lemma mk_get_at id vs (d : list A) a x :
  length d = prod (outs vs) -> in_range vs a ->
  nth_error d (flat (outs vs) (tof vs a)) = Some x -> get_at (mkFactor id vs d) a = Ok x.
Proof.
  intros Hl Hr Hn. rewrite get_at_fv; auto. unfold fv, ft. simpl. f_equal. apply nth_error_nth. auto.
Qed.

Lemma fv_get_at (f : factor A) a x : fits f -> in_range (f_vars f) a -> get_at f a = Ok x -> fv f a = x.
Proof. intros. rewrite get_at_fv in H1; auto. congruence. Qed.

Theorem restrict_at s (f : factor A) v o : wf_factor f -> In v (f_vars f) -> (o < v_outcomes v)%nat ->
  exists f', restrict s f v (Z.of_nat o) = Ok (bump s, f') /\ f_id f' = vs_counter s /\
    wf_factor f' /\ f_vars f' = others (f_vars f) v /\
    forall a, in_range (f_vars f') a -> get_at f' a = get_at f (upd a (v_id v) o).
Proof.
  intros Hwf Hin Ho. destruct (wf_split _ _ (proj1 Hwf) Hin) as (a & b & Hvs & Ha & Hb & Hoth).
  destruct (restrict_spec s f a v b v o) as (d & E & Hl & Hd); auto using wf_fits.
  eexists; split; [exact E|]. simpl. split; auto. split; [|split].
  - apply fits_wf; auto. simpl. rewrite <- Hoth. apply wf_others, Hwf.
  - auto.
  - intros g Hg. rewrite (get_at_fv f).
    + apply mk_get_at; auto. rewrite tof_app.
      assert (R : inb (outs a ++ outs b) (tof a g ++ tof b g)).
      { rewrite <- outs_app, <- tof_app. apply in_range_inb. auto. }
      rewrite Hd.
      * unfold fv. rewrite Hvs, tof_upd_mid by auto. auto.
      * apply in_range_inb. eapply in_range_incl; [|apply Hg]. apply incl_appl, incl_refl.
      * apply in_range_inb. eapply in_range_incl; [|apply Hg]. apply incl_appr, incl_refl.
    + apply wf_fits; auto.
    + apply in_range_upd; auto. apply Hwf. rewrite Hoth. auto.
Qed.

Lemma sum_of_ok {X} (g : X -> gores A) (h : X -> A) l : (forall x, In x l -> g x = Ok (h x)) ->
  sum_of (map g l) = Ok (fold_left nadd (map h l) n0).
Proof.
  intros H. unfold sum_of. generalize n0. induction l; intros z; simpl; auto.
  rewrite H by (simpl; auto). simpl. apply IHl. intros; apply H; simpl; auto.
Qed.

Lemma prod_of_ok {X} (g : X -> gores A) (h : X -> A) l : (forall x, In x l -> g x = Ok (h x)) ->
  prod_of (map g l) = Ok (fold_left nmul (map h l) n1).
Proof.
  intros H. unfold prod_of. generalize n1. induction l; intros z; simpl; auto.
  rewrite H by (simpl; auto). simpl. apply IHl. intros; apply H; simpl; auto.
Qed.

Theorem sum_out_at s (f : factor A) v : wf_factor f -> In v (f_vars f) ->
  exists f', sum_out s f v = Ok (bump s, f') /\ f_id f' = vs_counter s /\
    wf_factor f' /\ f_vars f' = others (f_vars f) v /\
    forall a, in_range (f_vars f') a ->
      get_at f' a = sum_of (map (fun k => get_at f (upd a (v_id v) k)) (seq 0 (v_outcomes v))).
Proof.
  intros Hwf Hin. destruct (wf_split _ _ (proj1 Hwf) Hin) as (a & b & Hvs & Ha & Hb & Hoth).
  destruct (sum_out_spec s f a v b v) as (d & E & Hl & Hd); auto using wf_fits.
  eexists; split; [exact E|]. simpl. split; auto. split; [|split].
  - apply fits_wf; auto. simpl. rewrite <- Hoth. apply wf_others, Hwf.
  - auto.
  - intros g Hg. rewrite (sum_of_ok _ (fun k => fv f (upd g (v_id v) k))).
    + apply mk_get_at; auto. rewrite tof_app. rewrite Hd.
      * f_equal. f_equal. apply map_ext. intros k. unfold fv. rewrite Hvs, tof_upd_mid by auto. auto.
      * apply in_range_inb. eapply in_range_incl; [|apply Hg]. apply incl_appl, incl_refl.
      * apply in_range_inb. eapply in_range_incl; [|apply Hg]. apply incl_appr, incl_refl.
    + intros k Hk. apply in_seq in Hk. apply get_at_fv. apply wf_fits; auto.
      apply in_range_upd; auto. apply Hwf. rewrite Hoth. auto. lia.
Qed.

Lemma consistent_wf_union (fs : list (factor A)) : consistent fs -> wf_vars (union_vars fs).
Proof. apply union_vars_wf. Qed.

Lemma in_range_union (fs : list (factor A)) f a : In f fs -> in_range (union_vars fs) a -> in_range (f_vars f) a.
Proof. intros Hf. apply in_range_incl. intros v Hv. apply union_vars_in. eauto. Qed.

Theorem product_at s (fs : list (factor A)) : Forall wf_factor fs -> consistent fs ->
  exists f', product s fs = Ok (bump s, f') /\ f_id f' = vs_counter s /\
    wf_factor f' /\ (forall v, In v (f_vars f') <-> exists f, In f fs /\ In v (f_vars f)) /\
    f_vars f' = match fs with [f] => f_vars f | _ => union_vars fs end /\
    forall a, in_range (f_vars f') a ->
      get_at f' a = match fs with [f] => get_at f a | _ => prod_of (map (fun f => get_at f a) fs) end.
Proof.
  intros Hwf Hc. unfold product.
  assert (G : exists f', combine_factors nmul n1 s fs = Ok (bump s, f') /\ f_id f' = vs_counter s /\
    wf_factor f' /\ (forall v, In v (f_vars f') <-> exists f, In f fs /\ In v (f_vars f)) /\
    f_vars f' = union_vars fs /\
    forall a, in_range (f_vars f') a -> get_at f' a = prod_of (map (fun f => get_at f a) fs)).
  { destruct (combine_factors_spec nmul n1 s fs) as (d & E & Hl & Hd); auto.
    { eapply Forall_impl; [|eauto]. intros; apply wf_fits; auto. }
    eexists; split; [exact E|]. simpl. split; auto. split; [|split; [|split]]; auto.
    - apply fits_wf; auto. apply union_vars_wf; auto.
    - intros v. apply union_vars_in.
    - intros a Ha. rewrite (prod_of_ok _ (fun f => fv f a)).
      + apply mk_get_at; auto.
      + intros f Hf. apply get_at_fv. apply wf_fits. rewrite Forall_forall in Hwf. auto.
        eapply in_range_union; eauto. }
  destruct fs as [|f [|f2 r]]; auto.
  inversion Hwf; subst. rewrite create_factor_some by (apply wf_fits; auto).
  eexists; split; [reflexivity|]. simpl. split; auto. split; [|split; [|split]]; auto.
  - intros v. split; [intros; exists f; auto|]. intros (g & [->|[]] & Hg); auto.
Qed.

Theorem sum_at s (fs : list (factor A)) : Forall wf_factor fs -> consistent fs ->
  exists f', sum s fs = Ok (bump s, f') /\ f_id f' = vs_counter s /\
    wf_factor f' /\ (forall v, In v (f_vars f') <-> exists f, In f fs /\ In v (f_vars f)) /\
    f_vars f' = match fs with [f] => f_vars f | _ => union_vars fs end /\
    forall a, in_range (f_vars f') a ->
      get_at f' a = match fs with [f] => get_at f a | _ => sum_of (map (fun f => get_at f a) fs) end.
Proof.
  intros Hwf Hc. unfold sum.
  assert (G : exists f', combine_factors nadd n0 s fs = Ok (bump s, f') /\ f_id f' = vs_counter s /\
    wf_factor f' /\ (forall v, In v (f_vars f') <-> exists f, In f fs /\ In v (f_vars f)) /\
    f_vars f' = union_vars fs /\
    forall a, in_range (f_vars f') a -> get_at f' a = sum_of (map (fun f => get_at f a) fs)).
  { destruct (combine_factors_spec nadd n0 s fs) as (d & E & Hl & Hd); auto.
    { eapply Forall_impl; [|eauto]. intros; apply wf_fits; auto. }
    eexists; split; [exact E|]. simpl. split; auto. split; [|split; [|split]]; auto.
    - apply fits_wf; auto. apply union_vars_wf; auto.
    - intros v. apply union_vars_in.
    - intros a Ha. rewrite (sum_of_ok _ (fun f => fv f a)).
      + apply mk_get_at; auto.
      + intros f Hf. apply get_at_fv. apply wf_fits. rewrite Forall_forall in Hwf. auto.
        eapply in_range_union; eauto. }
  destruct fs as [|f [|f2 r]]; auto.
  inversion Hwf; subst. rewrite create_factor_some by (apply wf_fits; auto).
  eexists; split; [reflexivity|]. simpl. split; auto. split; [|split; [|split]]; auto.
  - intros v. split; [intros; exists f; auto|]. intros (g & [->|[]] & Hg); auto.
Qed.

Theorem rearrange_at s (f : factor A) vars : wf_factor f -> Permutation vars (f_vars f) ->
  exists f', rearrange s f vars = Ok (bump s, f') /\ f_id f' = vs_counter s /\
    wf_factor f' /\ f_vars f' = vars /\
    forall a, in_range vars a -> get_at f' a = get_at f a.
Proof.
  intros Hwf Hp. destruct (rearrange_spec s f vars) as (d & E & Hl & Hd); auto using wf_fits.
  apply Hwf.
  eexists; split; [exact E|]. simpl. split; auto. split; [|split]; auto.
  - apply fits_wf; auto. eapply wf_perm; [apply Permutation_sym; eauto|]. apply Hwf.
  - intros a Ha. rewrite (get_at_fv f).
    + apply mk_get_at; auto.
    + apply wf_fits; auto.
    + eapply in_range_incl; [|apply Ha]. intros v Hv. eapply Permutation_in; [apply Permutation_sym; eauto|]. auto.
Qed.

(** The values of v's outcomes in the row of assignment a. *)
Definition row_at (f : factor A) (v : variable) (a : asg) : list A :=
  map (fun k => fv f (upd a (v_id v) k)) (seq 0 (v_outcomes v)).

Lemma rowset_at a v b g f : f_vars f = a ++ v :: b ->
  ~ In (v_id v) (map v_id a) -> ~ In (v_id v) (map v_id b) ->
  map (fun j => ft f (tof a g ++ j :: tof b g)) (seq 0 (v_outcomes v)) = row_at f v g.
Proof.
  intros Hvs Ha Hb. unfold row_at. apply map_ext. intros k. unfold fv. rewrite Hvs, tof_upd_mid by auto. auto.
Qed.

Theorem normalize_for_at s (f : factor A) v : wf_factor f -> In v (f_vars f) -> (0 < v_outcomes v)%nat ->
  exists f', normalize_for s f v = Ok (bump s, f') /\ f_id f' = vs_counter s /\
    wf_factor f' /\ f_vars f' = others (f_vars f) v ++ [v] /\
    forall a, in_range (f_vars f') a -> get_at f' a = Ok (row_norm (row_at f v a) (fv f a)).
Proof.
  intros Hwf Hin Hpos. destruct (wf_split _ _ (proj1 Hwf) Hin) as (a & b & Hvs & Ha & Hb & Hoth).
  destruct (normalize_for_spec s f a v b) as (d & E & Hl & Hd); auto using wf_fits.
  apply Hwf.
  assert (Hp : Permutation (f_vars f) (a ++ b ++ [v])).
  { rewrite Hvs. apply Permutation_app_head. apply Permutation_cons_append. }
  eexists; split; [exact E|]. simpl. split; auto. split; [|split].
  - apply fits_wf; auto. simpl. eapply wf_perm; [exact Hp|]. apply Hwf.
  - rewrite Hoth, app_assoc. auto.
  - intros g Hg. apply mk_get_at; auto. rewrite !tof_app. simpl. rewrite Hd.
    + f_equal. rewrite rowset_at by auto. f_equal. unfold fv. rewrite Hvs, tof_app. auto.
    + apply in_range_inb. eapply in_range_incl; [|apply Hg]. apply incl_appl, incl_refl.
    + apply in_range_inb. eapply in_range_incl; [|apply Hg]. apply incl_appr, incl_appl, incl_refl.
    + apply Hg. apply in_or_app. right. apply in_or_app. right. simpl; auto.
Qed.

Theorem policy_at s (f : factor A) v : wf_factor f -> In v (f_vars f) -> (0 < v_outcomes v)%nat ->
  (forall a, in_range (f_vars f) a -> max_indices (row_at f v a) <> []) ->
  exists f', policy s f v = Ok (bump s, f') /\ f_id f' = vs_counter s /\
    wf_factor f' /\ f_vars f' = others (f_vars f) v ++ [v] /\
    forall a, in_range (f_vars f') a -> get_at f' a = Ok (policy_entry (row_at f v a) (a (v_id v))).
Proof.
  intros Hwf Hin Hpos Hne. destruct (wf_split _ _ (proj1 Hwf) Hin) as (a & b & Hvs & Ha & Hb & Hoth).
  assert (Hp : Permutation (f_vars f) (a ++ b ++ [v])).
  { rewrite Hvs. apply Permutation_app_head. apply Permutation_cons_append. }
  assert (Hwf' : wf_vars (a ++ b ++ [v])) by (eapply wf_perm; [exact Hp|]; apply Hwf).
  destruct (policy_spec s f a v b) as (d & E & Hl & Hd); auto using wf_fits.
  apply Hwf.
  { intros t1 t2 H1 H2. set (vars := a ++ b ++ [v]) in *. set (g := asg_of vars (t1 ++ t2 ++ [0%nat])).
    assert (Hin' : inb (outs vars) (t1 ++ t2 ++ [0%nat])).
    { unfold vars. rewrite !outs_app. apply inb_app; auto. apply inb_app; auto. constructor; auto. }
    assert (Hg : tof vars g = t1 ++ t2 ++ [0%nat]).
    { apply tof_asg_of; auto. apply inb_length in Hin'. rewrite outs_length in Hin'. auto. }
    assert (Hrg : in_range vars g) by (apply in_range_inb; rewrite Hg; auto).
    unfold vars in Hg. rewrite !tof_app in Hg.
    pose proof (inb_length _ _ H1) as L1. pose proof (inb_length _ _ H2) as L2. rewrite outs_length in *.
    apply app_inj_len in Hg; [|rewrite tof_length; auto]. destruct Hg as [E1 Hg].
    apply app_inj_len in Hg; [|rewrite tof_length; auto]. destruct Hg as [E2 _].
    rewrite <- E1, <- E2. rewrite rowset_at by auto. apply Hne. eapply in_range_incl; [|apply Hrg].
    intros x Hx. eapply Permutation_in; eauto. }
  eexists; split; [exact E|]. simpl. split; auto. split; [|split].
  - apply fits_wf; auto.
  - rewrite Hoth, app_assoc. auto.
  - intros g Hg. apply mk_get_at; auto. rewrite !tof_app. simpl. rewrite Hd.
    + f_equal. rewrite rowset_at by auto. auto.
    + apply in_range_inb. eapply in_range_incl; [|apply Hg]. apply incl_appl, incl_refl.
    + apply in_range_inb. eapply in_range_incl; [|apply Hg]. apply incl_appr, incl_appl, incl_refl.
    + apply Hg. apply in_or_app. right. apply in_or_app. right. simpl; auto.
Qed.

(** ** Marginal *)

Lemma filter_map_comm {S T} (p : T -> bool) (g : S -> T) l : filter p (map g l) = map g (filter (fun x => p (g x)) l).
Proof. induction l; simpl; auto. destruct (p (g a)); simpl; f_equal; auto. Qed.

Lemma filter_flat_map {S T} (p : T -> bool) (g : S -> list T) l :
  filter p (flat_map g l) = flat_map (fun x => filter p (g x)) l.
Proof. induction l; simpl; auto. rewrite filter_app. f_equal; auto. Qed.

Lemma flat_map_empty {S T} (g : S -> list T) l : (forall x, In x l -> g x = []) -> flat_map g l = [].
Proof. induction l; simpl; intros H; auto. rewrite H, IHl; auto. Qed.

Lemma filter_tups na n nb k : (k < n)%nat ->
  filter (fun t => nth (length na) t 0 =? k)%nat (all_tups (na ++ n :: nb)) =
  map (ins_at (length na) k) (all_tups (na ++ nb)).
Proof.
  intros Hk. induction na; cbn [app length].
  - rewrite all_tups_cons. rewrite filter_flat_map.
    rewrite (flat_map_ext _ (fun k' => if (k' =? k)%nat then map (cons k) (all_tups nb) else [])).
    + assert (G : forall s m, (s <= k < s + m)%nat ->
         flat_map (fun k' => if (k' =? k)%nat then map (cons k) (all_tups nb) else []) (seq s m) = map (cons k) (all_tups nb)).
      { intros s m. revert s. induction m; intros s Hs; [lia|]. simpl.
        destruct (Nat.eqb_spec s k).
        - subst. rewrite flat_map_empty. rewrite app_nil_r. auto. intros x Hx. apply in_seq in Hx.
          destruct (Nat.eqb_spec x k); [lia|auto].
        - simpl. apply IHm. lia. }
      rewrite G by lia. apply map_ext. intros t. reflexivity.
    + intros k'. rewrite filter_map_comm. simpl. destruct (Nat.eqb_spec k' k).
      * subst. rewrite filter_all_true; auto.
      * rewrite filter_all_false; auto.
  - rewrite !all_tups_cons. rewrite filter_flat_map.
    rewrite !flat_map_concat_map, concat_map, map_map. f_equal. apply map_ext. intros j.
    rewrite filter_map_comm. simpl nth. rewrite IHna. rewrite !map_map. apply map_ext. reflexivity.
Qed.


Theorem marginal_at s (f : factor A) v : wf_factor f -> In v (f_vars f) ->
  exists f', marginal s f v = Ok (bump s, f') /\ f_id f' = vs_counter s /\
    wf_factor f' /\ f_vars f' = [v] /\
    forall a, in_range [v] a ->
      get_at f' a = sum_of (map (get_at f) (worlds (others (f_vars f) v) a)).
Proof.
  intros Hwf Hin. destruct (wf_split _ _ (proj1 Hwf) Hin) as (a & b & Hvs & Ha & Hb & Hoth).
  destruct (marginal_spec s f a v b v) as (d & E & Hl & Hd); auto using wf_fits.
  eexists; split; [exact E|]. simpl. split; auto. 
  assert (Hl' : length d = prod (outs [v])) by (simpl; lia).
  split; [|split]; auto.
  - apply fits_wf; auto. simpl. constructor; auto. constructor.
  - intros g Hg. rewrite Hoth.
    assert (Hk : (g (v_id v) < v_outcomes v)%nat) by (apply Hg; simpl; auto).
    assert (Hw : wf_vars (a ++ b)) by (rewrite <- Hoth; apply wf_others, Hwf).
    rewrite (sum_of_ok _ (fv f)).
    + apply mk_get_at; auto. simpl. rewrite Nat.mul_1_r, Nat.add_0_r. rewrite Hd by auto.
      f_equal. f_equal. rewrite Hvs. rewrite outs_app. simpl. fold (outs b).
      replace (length a) with (length (outs a)) by apply outs_length.
      rewrite filter_tups by auto. rewrite <- outs_app, <- (worlds_tups _ Hw g).
      rewrite !map_map. apply map_ext_in. intros w Hinw. unfold fv. f_equal.
      rewrite Hvs. rewrite !tof_app. rewrite outs_length, <- (tof_length a w), ins_at_app. f_equal. simpl. f_equal.
      symmetry. eapply worlds_keep; eauto. rewrite map_app, in_app_iff. tauto.
    + intros w Hinw. apply get_at_fv; [apply wf_fits; auto|].
      intros u Hu. rewrite Hvs in Hu. pose proof (worlds_in_range _ _ _ Hw Hinw) as R.
      apply in_app_iff in Hu. destruct Hu as [Hu|[<-|Hu]].
      * apply R. apply in_or_app; auto.
      * erewrite worlds_keep; eauto. rewrite map_app, in_app_iff. tauto.
      * apply R. apply in_or_app; auto.
Qed.

Theorem normalize_at s (f : factor A) : wf_factor f ->
  exists f', normalize s f = Ok (bump s, f') /\ f_id f' = vs_counter s /\
    wf_factor f' /\ f_vars f' = f_vars f /\
    f_data f' = map (fun x => ndiv x (fold_left nadd (f_data f) n0)) (f_data f) /\
    forall a, in_range (f_vars f) a -> get_at f' a = Ok (ndiv (fv f a) (fold_left nadd (f_data f) n0)).
Proof.
  intros Hwf. unfold normalize. rewrite create_factor_some by (apply wf_fits; auto). cbn [gbind f_data f_vars f_id].
  eexists; split; [reflexivity|]. simpl. split; auto.
  assert (L : length (map (fun x : A => ndiv x (fold_left nadd (f_data f) n0)) (f_data f)) = prod (outs (f_vars f))).
  { rewrite map_length. apply wf_fits. auto. }
  split; [|split; [|split]]; auto.
  - apply fits_wf; auto. apply Hwf.
  - intros a Ha. apply mk_get_at; auto. rewrite nth_error_map.
    rewrite (ft_nth f); auto using wf_fits. apply in_range_inb; auto.
Qed.

Theorem invert_at s (f : factor A) : wf_factor f ->
  exists f', invert s f = Ok (bump s, f') /\ f_id f' = vs_counter s /\
    wf_factor f' /\ f_vars f' = f_vars f /\
    f_data f' = map (fun x => ndiv n1 x) (f_data f) /\
    forall a, in_range (f_vars f) a -> get_at f' a = Ok (ndiv n1 (fv f a)).
Proof.
  intros Hwf. unfold invert. rewrite create_factor_some by (apply wf_fits; auto). cbn [gbind f_data f_vars f_id].
  eexists; split; [reflexivity|]. simpl. split; auto.
  assert (L : length (map (fun x : A => ndiv n1 x) (f_data f)) = prod (outs (f_vars f))).
  { rewrite map_length. apply wf_fits. auto. }
  split; [|split; [|split]]; auto.
  - apply fits_wf; auto. apply Hwf.
  - intros a Ha. apply mk_get_at; auto. rewrite nth_error_map.
    rewrite (ft_nth f); auto using wf_fits. apply in_range_inb; auto.
Qed.

End F.
