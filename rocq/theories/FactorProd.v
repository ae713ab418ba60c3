(** Product, Sum and Rearrange. *)
From Coq Require Import ZArith List Bool Lia Arith PeanoNat ZifyBool ZifyNat Permutation.
From Coq Require String.
Import (notations) String.
From Verif Require Import Num GoBase VarModel Tuples GoFacts SpecFactor FactorFacts.
Import ListNotations.
Open Scope Z_scope.

(** Assignment read off a tuple. *)
Fixpoint asg_of (vs : list variable) (t : list nat) : asg :=
  match vs, t with
  | v :: vs', k :: t' => upd (asg_of vs' t') (v_id v) k
  | _, _ => fun _ => 0%nat
  end.

Lemma tof_asg_of vs t : wf_vars vs -> length t = length vs -> tof vs (asg_of vs t) = t.
Proof.
  revert t; induction vs; destruct t; simpl; intros Hw Hl; try lia; auto.
  unfold wf_vars in Hw. simpl in Hw. inversion Hw; subst. f_equal.
  - unfold upd. rewrite Z.eqb_refl. auto.
  - rewrite tof_upd_notin by auto. apply IHvs; auto.
Qed.

Lemma tof_ext vs a b : (forall v, In v vs -> a (v_id v) = b (v_id v)) -> tof vs a = tof vs b.
Proof. intros. unfold tof. apply map_ext_in. auto. Qed.

Lemma tof_eq_inv vs a b v : tof vs a = tof vs b -> In v vs -> a (v_id v) = b (v_id v).
Proof.
  induction vs; simpl; intros H Hin; [tauto|]. inversion H. destruct Hin as [->|Hin]; auto.
Qed.

Section F.
Context {A : Type} {N : NumOps A}.

Lemma fv_ext (f : factor A) a b : (forall v, In v (f_vars f) -> a (v_id v) = b (v_id v)) -> fv f a = fv f b.
Proof. intros. unfold fv. rewrite (tof_ext _ a b); auto. Qed.

(** ** Union of variables *)

Definition u_step : list variable * list Z -> variable -> list variable * list Z :=
  fun '(nv, m) v =>
        let idx := index_func (var_eqb v) nv in
        if idx <? 0 then (nv ++ [v], m ++ [zlen nv]) else (nv, m ++ [idx]).

#[local] Arguments u_step : simpl never.

Definition add_var (nv : list variable) (v : variable) : list variable :=
  if existsb (var_eqb v) nv then nv else nv ++ [v].

Definition pos_of (nv : list variable) (v : variable) (k : Z) : Prop :=
  exists p, k = Z.of_nat p /\ nth_error nv p = Some v.

Lemma pos_of_app nv ext v k : pos_of nv v k -> pos_of (nv ++ ext) v k.
Proof.
  intros (p & -> & H). exists p. split; auto. rewrite nth_error_app1; auto.
  apply nth_error_Some. congruence.
Qed.

Lemma u_step_spec nv m v : exists ext k,
  u_step (nv, m) v = (nv ++ ext, m ++ [k]) /\ pos_of (nv ++ ext) v k /\ nv ++ ext = add_var nv v.
Proof.
  unfold u_step, add_var. destruct (index_func_spec (var_eqb v) nv) as [[H1 H2]|(p & x & H1 & H2 & H3 & H4)].
  - rewrite H1. simpl. exists [v], (zlen nv). repeat split; auto.
    + exists (length nv). split; auto. rewrite nth_error_app2, Nat.sub_diag by lia. auto.
    + destruct (existsb (var_eqb v) nv) eqn:E; auto.
      apply existsb_exists in E. destruct E as (x & Hx & E). rewrite H2 in E; auto. discriminate.
  - rewrite H1. destruct (Z.of_nat p <? 0) eqn:E; [lia|]. exists [], (Z.of_nat p). rewrite app_nil_r.
    apply var_eqb_spec in H3. subst x. repeat split; auto.
    + exists p; auto.
    + destruct (existsb (var_eqb v) nv) eqn:E2; auto.
      exfalso. assert (existsb (var_eqb v) nv = true); [|congruence].
      apply existsb_exists. exists v. split; [eapply nth_error_In; eauto|apply var_eqb_refl].
Qed.

Lemma u_fold_spec vs : forall nv m, exists ext ks,
  fold_left u_step vs (nv, m) = (nv ++ ext, m ++ ks) /\
  Forall2 (pos_of (nv ++ ext)) vs ks /\ nv ++ ext = fold_left add_var vs nv.
Proof.
  induction vs; intros nv m; simpl.
  - exists [], []. rewrite !app_nil_r. repeat split; auto.
  - destruct (u_step_spec nv m a) as (e1 & k & H1 & H2 & H3).
    rewrite H1. destruct (IHvs (nv ++ e1) (m ++ [k])) as (e2 & ks & H4 & H5 & H6).
    exists (e1 ++ e2), (k :: ks). rewrite H4. rewrite <- !app_assoc in *. simpl. repeat split; auto.
    + constructor; auto. rewrite app_assoc. apply pos_of_app; auto.
    + rewrite H6, H3. auto.
Qed.

(** Union of scopes in order of first occurrence. *)
Definition union_vars (fs : list (factor A)) : list variable :=
  fold_left add_var (concat (map f_vars fs)) [].

Lemma union_maps_spec (fs : list (factor A)) : exists maps,
  union_maps fs = (union_vars fs, maps) /\
  Forall2 (fun f m => Forall2 (pos_of (union_vars fs)) (f_vars f) m) fs maps.
Proof.
  unfold union_maps. fold u_step.
  assert (G : forall fs nv maps, exists ext ms,
    fold_left (fun '(newVars, maps) f =>
      let '(newVars', m) := fold_left u_step (f_vars f) (newVars, []) in
      (newVars', maps ++ [m])) fs (nv, maps) = (nv ++ ext, maps ++ ms) /\
    Forall2 (fun (f : factor A) m => Forall2 (pos_of (nv ++ ext)) (f_vars f) m) fs ms /\
    nv ++ ext = fold_left add_var (concat (map f_vars fs)) nv).
  { clear. induction fs; intros nv maps; simpl.
    - exists [], []. rewrite !app_nil_r. repeat split; auto.
    - destruct (u_fold_spec (f_vars a) nv []) as (e1 & k & H1 & H2 & H3).
      rewrite H1. destruct (IHfs (nv ++ e1) (maps ++ [[] ++ k])) as (e2 & ms & H4 & H5 & H6).
      exists (e1 ++ e2), (k :: ms). rewrite H4. rewrite <- !app_assoc in *. simpl. repeat split; auto.
      + constructor; auto. rewrite app_assoc. eapply Forall2_imp; [|eauto]. intros; apply pos_of_app; auto.
      + rewrite fold_left_app, <- H3. auto. }
  destruct (G fs [] []) as (ext & ms & H1 & H2 & H3). simpl in *.
  exists ms. unfold union_vars. rewrite <- H3. auto.
Qed.

Lemma fold_add_var_in vs : forall nv v, In v (fold_left add_var vs nv) <-> In v nv \/ In v vs.
Proof.
  induction vs; intros nv v; simpl; [tauto|].
  rewrite IHvs. unfold add_var. destruct (existsb (var_eqb a) nv) eqn:E.
  - apply existsb_exists in E. destruct E as (x & Hx & E). apply var_eqb_spec in E. subst x.
    split; intros [H|H]; auto. destruct H as [->|H]; auto.
  - rewrite in_app_iff. simpl. tauto.
Qed.

Lemma union_vars_in fs v : In v (union_vars fs) <-> exists f, In f fs /\ In v (f_vars f).
Proof.
  unfold union_vars. rewrite fold_add_var_in. simpl. rewrite in_concat. split.
  - intros [[]|(l & H1 & H2)]. apply in_map_iff in H1. destruct H1 as (f & <- & H1). eauto.
  - intros (f & H1 & H2). right. exists (f_vars f). split; auto. apply in_map; auto.
Qed.

End F.

Lemma NoDup_snoc {T} (l : list T) x : NoDup l -> ~ In x l -> NoDup (l ++ [x]).
Proof.
  induction l; simpl; intros H Hn.
  - constructor; auto.
  - inversion H; subst. constructor.
    + rewrite in_app_iff. simpl. intros [Hi|[->|[]]]; tauto.
    + apply IHl; auto.
Qed.

Section F2.
Context {A : Type} {N : NumOps A}.

Lemma fold_add_var_nodup vs : forall nv, NoDup nv -> NoDup (fold_left add_var vs nv).
Proof.
  induction vs; intros nv H; simpl; auto.
  apply IHvs. unfold add_var. destruct (existsb (var_eqb a) nv) eqn:E; auto.
  apply NoDup_snoc; auto.
  intros Hin. assert (existsb (var_eqb a) nv = true); [|congruence].
  apply existsb_exists. exists a. split; auto. apply var_eqb_refl.
Qed.

Lemma NoDup_map_inj {S T} (f : S -> T) (l : list S) :
  (forall x y, In x l -> In y l -> f x = f y -> x = y) -> NoDup l -> NoDup (map f l).
Proof.
  induction l; simpl; intros Hi Hn; [constructor|]. inversion Hn; subst. constructor.
  - intros Hin. apply in_map_iff in Hin. destruct Hin as (y & E & Hy).
    assert (y = a) by (apply Hi; auto). subst. auto.
  - apply IHl; auto.
Qed.

Lemma union_vars_wf (fs : list (factor A)) : consistent fs -> wf_vars (union_vars fs).
Proof.
  intros Hc. unfold wf_vars. apply NoDup_map_inj.
  - intros x y Hx Hy E. apply union_vars_in in Hx. apply union_vars_in in Hy.
    destruct Hx as (f & Hf & Hx), Hy as (g & Hg & Hy). apply (Hc f g x y); auto.
  - unfold union_vars. apply fold_add_var_nodup. constructor.
Qed.

(** ** Pointwise combination *)

Lemma combine_factors_spec op init s (fs : list (factor A)) :
  Forall fits fs -> consistent fs ->
  exists d, combine_factors op init s fs = Ok (bump s, mkFactor (vs_counter s) (union_vars fs) d) /\
    length d = prod (outs (union_vars fs)) /\
    forall a, in_range (union_vars fs) a ->
      nth_error d (flat (outs (union_vars fs)) (tof (union_vars fs) a)) =
      Some (fold_left op (map (fun f => fv f a) fs) init).
Proof.
  intros Hfit Hcons. unfold combine_factors.
  destruct (union_maps_spec fs) as (maps & -> & Hmaps).
  pose proof (union_vars_wf fs Hcons) as Hwf.
  set (nv := union_vars fs) in *. rewrite create_factor_none. simpl.
  set (ns := outs nv). set (d0 := repeat n0 (prod ns)).
  assert (Hd0 : length d0 = prod ns) by apply repeat_length.
  destruct (foldM_inv (fun i '(nw, data) =>
       nw = (if (0 <? prod ns)%nat then Zs (tup ns i) else repeat 0 (length nv)) /\
       length data = prod ns /\
       forall j, (j < i)%nat -> nth_error data j =
          Some (fold_left op (map (fun f => fv f (asg_of nv (tup ns j))) fs) init))
    (fun '(newIndex, data) (i : Z) =>
      let! acc := foldM (fun acc '(m, fOld) =>
          let! oldIdx := mapM (fun idx => sget newIndex idx) m in
          let! x := f_get fOld oldIdx in
          Ok (op acc x)) init (combine maps fs) in
      let! data' := sset data i acc in
      let! (newIndex', _) := vars_increment nv newIndex in
      Ok (newIndex', data'))
    (zrange 0 (zlen d0))
    (repeat 0 (length nv), d0))
    as ([nw data] & E & HI).
  - split; [|split]; auto.
    + destruct (Nat.ltb_spec 0 (prod ns)); auto. apply zeros_tup. auto.
    + lia.
  - intros i [nw data] z Hz (Hnw & Hl & Hcell). apply zrange_nth_inv in Hz.
    unfold zlen in Hz. rewrite Hd0 in Hz. destruct Hz as [-> Hi].
    rewrite Z.add_0_l.
    assert (Hi' : (i < prod ns)%nat) by lia. clear Hi.
    destruct (Nat.ltb_spec 0 (prod ns)) as [Hpos|]; [|lia].
    set (t := tup ns i) in *. assert (Hin : inb ns t) by (apply tup_inb; auto).
    assert (Hlt : length t = length nv) by (apply inb_length in Hin; unfold ns in Hin; rewrite outs_length in Hin; auto).
    set (a := asg_of nv t).
    assert (Hta : tof nv a = t) by (apply tof_asg_of; auto).
    assert (Hra : in_range nv a) by (apply in_range_inb; rewrite Hta; auto).
    assert (Hacc : foldM (fun acc '(m, fOld) =>
          let! oldIdx := mapM (fun idx => sget nw idx) m in
          let! x := f_get fOld oldIdx in
          Ok (op acc x)) init (combine maps fs) = Ok (fold_left op (map (fun f => fv f a) fs) init)).
    { assert (Hsub : forall f, In f fs -> forall v, In v (f_vars f) -> In v nv).
      { intros. apply union_vars_in. eauto. }
      subst nw. clear - Hfit Hmaps Hsub Hta Hra. clearbody a. clearbody t. clear ns. clearbody nv. rewrite <- Hta. clear Hta t.
      revert init.
      induction Hmaps as [|f m fs' maps' Hm Hmaps' IH]; intros init; simpl; auto.
      inversion Hfit; subst.
      assert (Hmm : mapM (fun idx => sget (Zs (tof nv a)) idx) m = Ok (Zs (tof (f_vars f) a))).
      { clear - Hm. induction Hm; simpl; auto.
        destruct H as (p & -> & Hp).
        rewrite (sget_ok _ _ (Z.of_nat (a (v_id x)))).
        2:{ unfold Zs, tof. rewrite !nth_error_map, Hp. auto. }
        simpl. rewrite IHHm. auto. }
      rewrite Hmm. simpl. rewrite f_get_ft; auto.
      2:{ apply in_range_inb. intros v Hv. apply Hra. apply (Hsub f); simpl; auto. }
      simpl. rewrite IH; auto. intros; eapply Hsub; simpl; eauto. }
    subst nw. rewrite Hacc. simpl. rewrite sset_ok by lia. simpl.
    unfold t, ns. rewrite vars_increment_tup by auto. simpl. eexists; split; [reflexivity|]. simpl.
    split; auto. split; [rewrite upd_nth_length; auto|].
    intros j Hj. rewrite upd_nth_spec. destruct (Nat.eqb_spec i j).
    + subst j. destruct (Nat.ltb_spec i (length data)); [|lia]. auto.
    + simpl. apply Hcell. lia.
  - rewrite E. simpl. destruct HI as (_ & Hl & Hcell). exists data. split; auto. split; auto.
    intros a Ha. rewrite Hcell.
    + f_equal. f_equal. apply map_ext_in. intros f Hf. apply fv_ext. intros v Hv.
      assert (Hv' : In v nv) by (apply union_vars_in; eauto).
      eapply tof_eq_inv; [|apply Hv']. rewrite tof_asg_of; auto.
      * unfold ns. rewrite tup_flat; auto. apply in_range_inb; auto.
      * rewrite tup_length. apply outs_length.
    + rewrite zrange_length. unfold zlen. rewrite Hd0, Z.sub_0_r, Nat2Z.id.
      apply flat_lt. apply in_range_inb; auto.
Qed.

(** ** Rearrange *)

#[local] Arguments firstn : simpl never.
Lemma rearrange_indices_spec (old new : list variable) :
  length new = length old -> (forall v, In v new -> In v old) ->
  exists idx eq, rearrange_indices old new = Ok (idx, eq) /\
    Forall2 (pos_of old) new idx /\
    (eq = true <-> map v_id new = map v_id old).
Proof.
  intros Hl Hsub. unfold rearrange_indices.
  destruct (foldM_inv (fun i '(indices, eq) =>
      Forall2 (pos_of old) (firstn i new) indices /\
      (eq = true <-> map v_id (firstn i new) = map v_id (firstn i old)))
    (fun '(indices, eq) '(i, vv) =>
      let! ov := sget old i in
      let eq' := eq && (v_id vv =? v_id ov) in
      let idx := index_func (var_eqb vv) old in
      if idx <? 0 then Panic (PMsg "variable not in original factor")
      else Ok (indices ++ [idx], eq'))
    (combine (zrange 0 (zlen new)) new) ([], true)) as ([indices eq] & E & H1 & H2).
  - simpl. split; [constructor|tauto].
  - intros i [indices eq] [z vv] Hz [H1 H2].
    assert (Hc : nth_error (zrange 0 (zlen new)) i = Some z /\ nth_error new i = Some vv).
    { clear - Hz. revert Hz. generalize (zrange 0 (zlen new)). intros l. revert i new.
      induction l; destruct i, new; simpl; intros; try discriminate; auto.
      inversion Hz; auto. }
    destruct Hc as [Hz1 Hz2]. apply zrange_nth_inv in Hz1. destruct Hz1 as [-> Hi]. rewrite Z.add_0_l.
    assert (Hi' : (i < length new)%nat) by (apply nth_error_Some; congruence).
    destruct (nth_error old i) as [ov|] eqn:Eo. 2:{ apply nth_error_None in Eo. lia. }
    rewrite (sget_ok _ _ _ Eo). simpl.
    assert (Hv : In vv old) by (apply Hsub; eapply nth_error_In; eauto).
    destruct (index_func_spec (var_eqb vv) old) as [[H3 H4]|(p & x & H3 & H4 & H5 & H6)].
    { apply H4 in Hv. rewrite var_eqb_refl in Hv. discriminate. }
    rewrite H3. destruct (Z.of_nat p <? 0) eqn:En; [lia|]. clear En.
    eexists; split; [reflexivity|]. cbv beta iota.
    assert (F : forall (l : list variable) x, nth_error l i = Some x -> firstn (S i) l = firstn i l ++ [x]).
    { clear. induction i; destruct l; intros; try discriminate.
      - inversion H; auto.
      - rewrite !firstn_cons. simpl. f_equal. apply IHi. auto. }
    rewrite (F new vv), (F old ov) by auto. split.
    + apply Forall2_app; auto. constructor; auto. exists p. apply var_eqb_spec in H5. subst. auto.
    + rewrite !map_app. simpl. rewrite andb_true_iff, H2, Z.eqb_eq. split.
      * intros [-> ->]. auto.
      * intros Hx. apply app_inj_tail in Hx. auto.
  - rewrite combine_length, zrange_length in *. unfold zlen in *.
    replace (Nat.min (Z.to_nat (Z.of_nat (length new) - 0)) (length new)) with (length new) in * by lia.
    rewrite Hl in H2 at 2. rewrite !firstn_all in *. eauto.
Qed.

Lemma forall2_nth {S T} (P : S -> T -> Prop) l1 l2 i x y :
  Forall2 P l1 l2 -> nth_error l1 i = Some x -> nth_error l2 i = Some y -> P x y.
Proof.
  intros H. revert i; induction H; destruct i; simpl; intros; try discriminate.
  - inversion H1; inversion H2; subst; auto.
  - eauto.
Qed.

Lemma rearrange_spec s (f : factor A) vars :
  fits f -> wf_vars (f_vars f) -> Permutation vars (f_vars f) ->
  exists d, rearrange s f vars = Ok (bump s, mkFactor (vs_counter s) vars d) /\
    length d = prod (outs vars) /\
    forall a, in_range vars a -> nth_error d (flat (outs vars) (tof vars a)) = Some (fv f a).
Proof.
  intros Hfit Hwf Hperm. unfold rearrange.
  pose proof (Permutation_length Hperm) as Hlen.
  assert (Hwf' : wf_vars vars).
  { unfold wf_vars. eapply Permutation_NoDup; [|apply Hwf]. apply Permutation_map. apply Permutation_sym. auto. }
  assert (Ez : (zlen (f_vars f) =? zlen vars) = true) by (unfold zlen; rewrite Hlen; apply Z.eqb_refl).
  rewrite Ez. simpl negb. cbv iota.
  destruct (rearrange_indices_spec (f_vars f) vars) as (indices & eq & E & Hpos & Heq); auto.
  { intros v Hv. eapply Permutation_in; eauto. }
  rewrite E. simpl. destruct eq.
  - assert (Hids : map v_id vars = map v_id (f_vars f)) by (apply Heq; auto).
    assert (vars = f_vars f).
    { assert (Hsub : forall v, In v vars -> In v (f_vars f)) by (intros; eapply Permutation_in; eauto).
      clear - Hids Hwf Hsub. revert vars Hids Hsub.
      assert (G : forall old vars full, incl old full -> NoDup (map v_id full) -> map v_id vars = map v_id old ->
         (forall v, In v vars -> In v full) -> vars = old).
      { induction old; destruct vars; simpl; intros full Hi Hnd Hm Hs; try discriminate; auto.
        inversion Hm. f_equal.
        - assert (Hv : In v full) by (apply Hs; auto). assert (Ha : In a full) by (apply Hi; simpl; auto).
          clear - Hv Ha Hnd H0. induction full; simpl in *; [tauto|]. inversion Hnd; subst.
          destruct Hv as [->|Hv], Ha as [->|Ha]; auto.
          + exfalso. apply H2. rewrite H0. apply in_map; auto.
          + exfalso. apply H2. rewrite <- H0. apply in_map; auto.
        - apply (IHold vars full); auto. intros x Hx. apply Hi. simpl; auto. }
      intros. eapply G; eauto. apply incl_refl. }
    subst vars. rewrite create_factor_some by auto. eexists; split; [reflexivity|]. split; auto.
    intros a Ha. apply ft_nth; auto. apply in_range_inb; auto.
  - clear Heq. rewrite create_factor_none. simpl.
    set (ns := outs vars). set (d0 := repeat n0 (prod ns)).
    assert (Hd0 : length d0 = prod ns) by apply repeat_length.
    assert (Hli : length indices = length vars) by (symmetry; clear - Hpos; induction Hpos; simpl; auto).
    destruct (foldM_inv (fun i '(od, nw, data) =>
       nw = (if (0 <? prod ns)%nat then Zs (tup ns i) else repeat 0 (length vars)) /\
       length od = length (f_vars f) /\
       length data = prod ns /\
       forall j, (j < i)%nat -> nth_error data j = Some (fv f (asg_of vars (tup ns j))))
     (fun '(oldIndex, newIndex, data) (i : Z) =>
      let! od := foldM (fun od '(ij, x) => sset od ij x) oldIndex (combine indices newIndex) in
      let! x := f_get f od in
      let! data' := sset data i x in
      let! (newIndex', _) := vars_increment vars newIndex in
      Ok (od, newIndex', data'))
     (zrange 0 (zlen d0))
     (repeat 0 (length (f_vars f)), repeat 0 (length vars), d0))
     as ([[od nw] data] & E' & HI).
    + split; [|split; [|split]]; auto.
      * destruct (Nat.ltb_spec 0 (prod ns)); auto. apply zeros_tup. auto.
      * apply repeat_length.
      * lia.
    + intros i [[od nw] data] z Hz (Hnw & Hlod & Hl & Hcell). apply zrange_nth_inv in Hz.
      unfold zlen in Hz. rewrite Hd0 in Hz. destruct Hz as [-> Hi].
      rewrite Z.add_0_l.
      assert (Hi' : (i < prod ns)%nat) by lia. clear Hi.
      destruct (Nat.ltb_spec 0 (prod ns)) as [Hposn|]; [|lia].
      set (t := tup ns i) in *. assert (Hin : inb ns t) by (apply tup_inb; auto).
      assert (Hlt : length t = length vars) by (apply inb_length in Hin; unfold ns in Hin; rewrite outs_length in Hin; auto).
      set (a := asg_of vars t).
      assert (Hta : tof vars a = t) by (apply tof_asg_of; auto).
      assert (Hra : in_range vars a) by (apply in_range_inb; rewrite Hta; auto).
      subst nw. rewrite <- Hta.
      (* writing the old index *)
      destruct (foldM_inv (fun n od' => length od' = length (f_vars f) /\
          forall j v, (j < n)%nat -> nth_error vars j = Some v ->
            forall p, nth_error (f_vars f) p = Some v -> nth_error od' p = Some (Z.of_nat (a (v_id v))))
        (fun od '(ij, x) => sset od ij x) (combine indices (Zs (tof vars a))) od) as (od' & Eod & Hlod' & Hod').
      { split; auto. lia. }
      { intros n od1 [ij x] Hc [H1 H2].
        assert (Hc' : nth_error indices n = Some ij /\ nth_error (Zs (tof vars a)) n = Some x).
        { clear - Hc. revert Hc. generalize (Zs (tof vars a)). intros l. revert n indices.
          induction l; destruct n, indices; simpl; intros; try discriminate; auto.
          inversion Hc; auto. }
        destruct Hc' as [Hc1 Hc2].
        unfold Zs, tof in Hc2. rewrite !nth_error_map in Hc2.
        destruct (nth_error vars n) as [v|] eqn:Ev; [|discriminate]. simpl in Hc2. inversion Hc2; subst x. clear Hc2.
        destruct (forall2_nth _ _ _ _ _ _ Hpos Ev Hc1) as (p & -> & Hp).
        assert (p < length od1)%nat by (rewrite H1; apply nth_error_Some; congruence).
        rewrite sset_ok by auto. eexists; split; [reflexivity|]. split; [rewrite upd_nth_length; auto|].
        intros j w Hj Hw q Hq. rewrite upd_nth_spec. destruct (Nat.eqb_spec p q).
        - subst q. assert (w = v) by congruence. subst w.
          destruct (Nat.ltb_spec p (length od1)); [|lia]. auto.
        - simpl. destruct (Nat.eq_dec j n) as [->|Hne].
          + exfalso. assert (w = v) by congruence. subst w.
            apply NoDup_map_inv in Hwf. rewrite NoDup_nth_error in Hwf. apply n0. apply Hwf; [|congruence].
            apply nth_error_Some. congruence.
          + apply (H2 j w); auto. lia. }
      rewrite Eod. simpl.
      assert (Hodeq : od' = Zs (tof (f_vars f) a)).
      { apply nth_error_ext. intros p. unfold Zs, tof. rewrite !nth_error_map.
        destruct (nth_error (f_vars f) p) as [v|] eqn:Ep; simpl.
        - assert (Hv : In v vars) by (eapply Permutation_in; [apply Permutation_sym; eauto|]; eapply nth_error_In; eauto).
          apply In_nth_error in Hv. destruct Hv as (j & Hj).
          apply (Hod' j v); auto.
          rewrite combine_length, Zs_length, tof_length, Hli.
          assert (j < length vars)%nat by (apply nth_error_Some; congruence). lia.
        - apply nth_error_None. rewrite Hlod'. apply nth_error_None. auto. }
      rewrite Hodeq. rewrite f_get_ft; auto.
      2:{ apply in_range_inb. intros v Hv. apply Hra. eapply Permutation_in; [apply Permutation_sym; eauto|]; auto. }
      simpl. rewrite sset_ok by lia. simpl. rewrite Hta.
      unfold t, ns. rewrite vars_increment_tup by auto. simpl. eexists; split; [reflexivity|]. simpl.
      split; auto. split; [rewrite Zs_length, tof_length; auto|]. split; [rewrite upd_nth_length; auto|].
      intros j Hj. rewrite upd_nth_spec. destruct (Nat.eqb_spec i j).
      * subst j. destruct (Nat.ltb_spec i (length data)); [|lia]. auto.
      * simpl. apply Hcell. lia.
    + rewrite E'. simpl. destruct HI as (_ & _ & Hl & Hcell). exists data. split; auto. split; auto.
      intros a Ha. rewrite Hcell.
      * f_equal. apply fv_ext. intros v Hv.
        assert (Hv' : In v vars) by (eapply Permutation_in; [apply Permutation_sym; eauto|]; auto).
        eapply tof_eq_inv; [|apply Hv']. rewrite tof_asg_of; auto.
        -- unfold ns. rewrite tup_flat; auto. apply in_range_inb; auto.
        -- rewrite tup_length. apply outs_length.
      * rewrite zrange_length. unfold zlen. rewrite Hd0, Z.sub_0_r, Nat2Z.id.
        apply flat_lt. apply in_range_inb; auto.
Qed.

End F2.
