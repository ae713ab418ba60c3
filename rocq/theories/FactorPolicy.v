(** NormalizeFor and Policy. *)
From Coq Require Import ZArith List Bool Lia Arith PeanoNat ZifyBool ZifyNat Permutation.
From Coq Require String.
Import (notations) String.
From Verif Require Import Num GoBase VarModel Tuples GoFacts SpecFactor FactorFacts FactorProd.
Import ListNotations.
Open Scope Z_scope.

Lemma flat_snoc ns n t k : length ns = length t -> flat (ns ++ [n]) (t ++ [k]) = (flat ns t * n + k)%nat.
Proof. intros. rewrite flat_app by auto. simpl. lia. Qed.

Lemma tup_snoc ns n r c : (r < prod ns)%nat -> (c < n)%nat -> tup (ns ++ [n]) (r * n + c) = tup ns r ++ [c].
Proof.
  intros Hr Hc. assert (Hin : inb (ns ++ [n]) (tup ns r ++ [c])).
  { apply inb_app. apply tup_inb. lia. constructor; auto. }
  rewrite <- (tup_flat _ _ Hin). f_equal. rewrite flat_snoc by (rewrite tup_length; auto).
  rewrite flat_tup_lt by auto. auto.
Qed.

Lemma index_func_mid a u b v : v_id u = v_id v -> ~ In (v_id v) (map v_id a) ->
  index_func (fun w => v_id w =? v_id v) (a ++ u :: b) = Z.of_nat (length a).
Proof.
  intros Hid Ha.
  destruct (index_func_spec (fun w => v_id w =? v_id v) (a ++ u :: b)) as [[H1 H2]|(p & x & H1 & H2 & H3 & H4)].
  - specialize (H2 u (in_elt _ _ _)). simpl in H2. lia.
  - rewrite H1. f_equal.
    destruct (lt_eq_lt_dec p (length a)) as [[Hl| ->]|Hg]; auto.
    + exfalso. apply Ha. apply in_map_iff. exists x. split; [lia|].
      rewrite nth_error_app1 in H2 by auto. eapply nth_error_In; eauto.
    + exfalso. specialize (H4 (length a) u Hg). rewrite nth_error_app2, Nat.sub_diag in H4 by lia.
      specialize (H4 eq_refl). simpl in H4. lia.
Qed.

Section F.
Context {A : Type} {N : NumOps A}.

(** Dividing a row by its sum unless the sum is zero. *)
Definition row_norm (row : list A) (x : A) : A :=
  let sum := fold_left nadd row n0 in if neqb sum n0 then x else ndiv x sum.

(** The block loop of NormalizeFor. *)
Lemma norm_blocks values bins (data : list A) : length data = (bins * values)%nat ->
  exists d, foldM (fun data i =>
      let! sum := foldM (fun sum j =>
          let! x := sget data (i * Z.of_nat values + j) in Ok (nadd sum x)) n0 (zrange 0 (Z.of_nat values)) in
      if neqb sum n0 then Ok data
      else
        foldM (fun data j =>
          let! x := sget data (i * Z.of_nat values + j) in
          sset data (i * Z.of_nat values + j) (ndiv x sum)) data (zrange 0 (Z.of_nat values)))
    data (zrange 0 (Z.of_nat bins)) = Ok d /\ length d = length data /\
    forall i k, (i < bins)%nat -> (k < values)%nat ->
      nth_error d (i * values + k) = Some (row_norm (map (fun j => nth (i * values + j) data n0) (seq 0 values))
                                             (nth (i * values + k) data n0)).
Proof.
  intros Hl.
  edestruct (foldM_inv (X := Z) (fun n d => length d = length data /\
     forall i k, (i < bins)%nat -> (k < values)%nat ->
      nth_error d (i * values + k) = Some (if (i <? n)%nat then
           row_norm (map (fun j => nth (i * values + j) data n0) (seq 0 values)) (nth (i * values + k) data n0)
           else nth (i * values + k) data n0))) as (d & E & H1 & H2).
  3:{ exists d. split; [exact E|]. split; auto. intros i k Hi Hk. rewrite H2 by auto.
      rewrite zrange_length. destruct (Nat.ltb_spec i (Z.to_nat (Z.of_nat bins - 0))); auto; lia. }
  - split; auto. intros i k Hi Hk. simpl. apply nth_error_nth'. nia.
  - intros n d z Hz [Hld Hcell]. apply zrange_nth_inv in Hz. destruct Hz as [-> Hn]. rewrite Z.add_0_l.
    assert (Hn' : (n < bins)%nat) by lia. clear Hn.
    set (row := map (fun j => nth (n * values + j) data n0) (seq 0 values)).
    assert (Hrow : forall j, (j < values)%nat -> sget d (Z.of_nat n * Z.of_nat values + Z.of_nat j) = Ok (nth (n * values + j) data n0)).
    { intros j Hj. replace (Z.of_nat n * Z.of_nat values + Z.of_nat j) with (Z.of_nat (n * values + j)) by lia.
      apply sget_ok. rewrite Hcell by auto. destruct (Nat.ltb_spec n n); auto; lia. }
    assert (Hsum : foldM (fun sum j =>
          let! x := sget d (Z.of_nat n * Z.of_nat values + j) in Ok (nadd sum x)) n0 (zrange 0 (Z.of_nat values))
          = Ok (fold_left nadd row n0)).
    { rewrite zrange_0. unfold row. generalize n0 at 1 3. 
      assert (G : forall l acc, (forall j, In j l -> (j < values)%nat) ->
        foldM (fun sum j => let! x := sget d (Z.of_nat n * Z.of_nat values + j) in Ok (nadd sum x)) acc (Zs l) =
        Ok (fold_left nadd (map (fun j => nth (n * values + j) data n0) l) acc)).
      { induction l; intros acc Hj; simpl; auto. rewrite Hrow by (apply Hj; simpl; auto). simpl.
        apply IHl. intros; apply Hj; simpl; auto. }
      intros acc. apply G. intros j Hj. apply in_seq in Hj. lia. }
    rewrite Hsum. simpl.
    destruct (neqb (fold_left nadd row n0) n0) eqn:Eq.
    + eexists; split; [reflexivity|]. split; auto. intros i k Hi Hk. rewrite Hcell by auto.
      destruct (Nat.ltb_spec i n), (Nat.ltb_spec i (S n)); auto; try lia.
      assert (i = n) by lia. subst i. fold row. unfold row_norm. rewrite Eq. auto.
    + destruct (foldM_inv (fun c d' => length d' = length data /\
         (forall i k, (i < bins)%nat -> (k < values)%nat -> i <> n -> nth_error d' (i * values + k) = nth_error d (i * values + k)) /\
         (forall k, (k < values)%nat -> nth_error d' (n * values + k) =
             Some (if (k <? c)%nat then ndiv (nth (n * values + k) data n0) (fold_left nadd row n0) else nth (n * values + k) data n0)))
        (fun data j =>
          let! x := sget data (Z.of_nat n * Z.of_nat values + j) in
          sset data (Z.of_nat n * Z.of_nat values + j) (ndiv x (fold_left nadd row n0)))
        (zrange 0 (Z.of_nat values)) d) as (d' & E' & G1 & G2 & G3).
      * split; auto. split; auto. intros k Hk. rewrite Hcell by auto. destruct (Nat.ltb_spec n n); [lia|]. auto.
      * intros c d1 z Hz (K1 & K2 & K3). apply zrange_nth_inv in Hz. destruct Hz as [-> Hc]. rewrite Z.add_0_l.
        assert (Hc' : (c < values)%nat) by lia.
        replace (Z.of_nat n * Z.of_nat values + Z.of_nat c) with (Z.of_nat (n * values + c)) by lia.
        rewrite (sget_ok _ _ _ (K3 c Hc')). simpl. rewrite sset_ok by nia. eexists; split; [reflexivity|].
        destruct (Nat.ltb_spec c c); [lia|].
        split; [rewrite upd_nth_length; auto|]. split.
        -- intros i k Hi Hk Hne. rewrite upd_nth_spec. destruct (Nat.eqb_spec (n * values + c) (i * values + k)); [nia|].
           simpl. auto.
        -- intros k Hk. rewrite upd_nth_spec. destruct (Nat.eqb_spec (n * values + c) (n * values + k)).
           ++ assert (c = k) by lia. subst k. destruct (Nat.ltb_spec (n * values + c) (length d1)); [|nia].
              simpl. destruct (Nat.ltb_spec c (S c)); [auto|lia].
           ++ simpl. rewrite K3 by auto. destruct (Nat.ltb_spec k c), (Nat.ltb_spec k (S c)); auto; lia.
      * exists d'. split; auto. split; auto. intros i k Hi Hk.
        destruct (Nat.eq_dec i n) as [->|Hne].
        -- rewrite G3 by auto. rewrite zrange_length.
           destruct (Nat.ltb_spec k (Z.to_nat (Z.of_nat values - 0))); [|lia].
           destruct (Nat.ltb_spec n (S n)); [|lia]. fold row. unfold row_norm. rewrite Eq. auto.
        -- rewrite G2 by auto. rewrite Hcell by auto.
           destruct (Nat.ltb_spec i n), (Nat.ltb_spec i (S n)); auto; lia.
Qed.

Lemma normalize_for_spec s (f : factor A) a v b :
  fits f -> f_vars f = a ++ v :: b -> wf_vars (f_vars f) -> (0 < v_outcomes v)%nat ->
  exists d, normalize_for s f v = Ok (bump s, mkFactor (vs_counter s) (a ++ b ++ [v]) d) /\
    length d = prod (outs (a ++ b ++ [v])) /\
    forall t1 t2 k, inb (outs a) t1 -> inb (outs b) t2 -> (k < v_outcomes v)%nat ->
      nth_error d (flat (outs (a ++ b ++ [v])) (t1 ++ t2 ++ [k])) =
      Some (row_norm (map (fun j => ft f (t1 ++ j :: t2)) (seq 0 (v_outcomes v))) (ft f (t1 ++ k :: t2))).
Proof.
  intros Hfit Hvs Hwf Hpos. unfold normalize_for.
  assert (Hnd : ~ In (v_id v) (map v_id a) /\ ~ In (v_id v) (map v_id b)).
  { unfold wf_vars in Hwf. rewrite Hvs, map_app in Hwf. simpl in Hwf. apply NoDup_remove_2 in Hwf.
    rewrite in_app_iff in Hwf. tauto. }
  destruct Hnd as [Ha Hb].
  cbv zeta. rewrite !Hvs. rewrite index_func_mid by auto.
  destruct (Z.of_nat (length a) <? 0) eqn:E; [lia|]. clear E.
  rewrite (sget_ok _ _ v) by (rewrite nth_error_app2, Nat.sub_diag by lia; auto). cbn [gbind].
  rewrite Nat2Z.id. rewrite firstn_app_len.
  replace (skipn (S (length a)) (a ++ v :: b)) with b.
  2:{ replace (a ++ v :: b) with ((a ++ [v]) ++ b) by (rewrite <- app_assoc; auto).
      replace (S (length a)) with (length (a ++ [v])) by (rewrite app_length; simpl; lia).
      symmetry. apply skipn_app_len. }
  assert (Hperm : Permutation (a ++ b ++ [v]) (f_vars f)).
  { rewrite Hvs. apply Permutation_app_head. apply Permutation_sym. apply Permutation_cons_append. }
  destruct (rearrange_spec s f (a ++ b ++ [v]) Hfit Hwf Hperm) as (r & E & Hlr & Hr).
  rewrite E. cbn [gbind f_data f_id f_vars]. clear E.
  assert (Hwf' : wf_vars (a ++ b ++ [v])).
  { unfold wf_vars. eapply Permutation_NoDup; [|apply Hwf]. apply Permutation_map. apply Permutation_sym; auto. }
  unfold v_out. destruct (Z.of_nat (v_outcomes v) =? 0) eqn:E; [lia|]. clear E.
  set (n := v_outcomes v) in *. set (m := prod (outs (a ++ b))).
  assert (Hlr' : length r = (m * n)%nat).
  { rewrite Hlr. rewrite !outs_app, !prod_app. unfold m. rewrite outs_app, prod_app. simpl. fold n. lia. }
  unfold zlen. rewrite Hlr'.
  replace (Z.quot (Z.of_nat (m * n)) (Z.of_nat n)) with (Z.of_nat m).
  2:{ rewrite Nat2Z.inj_mul, Z.quot_mul by lia. auto. }
  destruct (norm_blocks n m r Hlr') as (d & E & Hld & Hd).
  rewrite E. simpl. exists d. split; auto. split; [lia|].
  assert (Hfl : forall t1 t2 k, inb (outs a) t1 -> inb (outs b) t2 ->
     flat (outs (a ++ b ++ [v])) (t1 ++ t2 ++ [k]) = (flat (outs (a ++ b)) (t1 ++ t2) * n + k)%nat).
  { intros t1 t2 k H1 H2. rewrite !outs_app. rewrite !app_assoc. simpl outs.
    rewrite flat_snoc; auto. rewrite !app_length. apply inb_length in H1. apply inb_length in H2. lia. }
  assert (Hcell : forall t1 t2 k, inb (outs a) t1 -> inb (outs b) t2 -> (k < n)%nat ->
     nth (flat (outs (a ++ b)) (t1 ++ t2) * n + k) r n0 = ft f (t1 ++ k :: t2)).
  { intros t1 t2 k H1 H2 Hk. rewrite <- Hfl by auto.
    set (vars := a ++ b ++ [v]) in *. set (t := t1 ++ t2 ++ [k]).
    assert (Hin : inb (outs vars) t).
    { unfold vars, t. rewrite !outs_app. apply inb_app; auto. apply inb_app; auto. constructor; auto. }
    set (g := asg_of vars t).
    assert (Hg : tof vars g = t).
    { apply tof_asg_of; auto. apply inb_length in Hin. rewrite outs_length in Hin. auto. }
    assert (Hrg : in_range vars g) by (apply in_range_inb; rewrite Hg; auto).
    specialize (Hr g Hrg). rewrite Hg in Hr. erewrite nth_error_nth; [|eauto].
    unfold fv. f_equal. rewrite Hvs. unfold vars, t in Hg. rewrite !tof_app in *.
    pose proof (inb_length _ _ H1) as L1. pose proof (inb_length _ _ H2) as L2. rewrite outs_length in *.
    apply app_inj_len in Hg; [|rewrite tof_length; auto]. destruct Hg as [-> Hg].
    apply app_inj_len in Hg; [|rewrite tof_length; auto]. destruct Hg as [Hg2 Hg3].
    simpl. rewrite Hg2. inversion Hg3. auto. }
  intros t1 t2 k H1 H2 Hk. rewrite Hfl by auto. rewrite Hd; auto.
  - f_equal. rewrite Hcell by auto. f_equal. apply map_ext_in. intros j Hj. apply in_seq in Hj.
    apply Hcell; auto. lia.
  - unfold m. apply flat_lt. rewrite outs_app. apply inb_app; auto.
Qed.

(** ** Policy *)

Definition mi_step : Z * A * list Z -> A -> Z * A * list Z :=
  fun '(c, mx, mi) u =>
                 if nlt mx u then (c + 1, u, [c])
                 else if neqb u mx then (c + 1, mx, mi ++ [c])
                 else (c + 1, mx, mi).

Lemma max_indices_range row : forall i, In i (max_indices row) -> 0 <= i < zlen row.
Proof.
  unfold max_indices. fold mi_step.
  assert (G : forall row c mx mi, 0 <= c -> (forall i, In i mi -> 0 <= i < c) ->
    let '(c', _, mi') := fold_left mi_step row (c, mx, mi) in
    c' = c + zlen row /\ forall i, In i mi' -> 0 <= i < c').
  { induction row0; intros c mx mi Hc Hmi.
    - simpl. unfold zlen; simpl. split; auto. lia.
    - cbn [fold_left]. replace (c + zlen (a :: row0)) with (c + 1 + zlen row0) by (unfold zlen; simpl; lia).
      unfold mi_step at 2. destruct (nlt mx a); [|destruct (neqb a mx)]; apply IHrow0; try (clear Hmi; lia).
      + simpl. intros i [<-|[]]. lia.
      + intros i Hi. apply in_app_iff in Hi. destruct Hi as [Hi|[<-|[]]]; [apply Hmi in Hi|]; lia.
      + intros i Hi. apply Hmi in Hi. lia. }
  specialize (G row 0 nninf []). simpl in G.
  destruct (fold_left mi_step row (0, nninf, [])) as [[c mx] mi].
  destruct G as [-> H]; auto. lia. tauto.
Qed.

Definition zmem (k : nat) (l : list Z) : bool := existsb (Z.eqb (Z.of_nat k)) l.

(** Policy value of outcome k in a row of utilities. *)
Definition policy_entry (row : list A) (k : nat) : A :=
  if zmem k (max_indices row) then ndiv n1 (nofint (zlen (max_indices row))) else n0.

Lemma policy_spec s (f : factor A) a v b :
  fits f -> f_vars f = a ++ v :: b -> wf_vars (f_vars f) -> (0 < v_outcomes v)%nat ->
  (forall t1 t2, inb (outs a) t1 -> inb (outs b) t2 ->
      max_indices (map (fun j => ft f (t1 ++ j :: t2)) (seq 0 (v_outcomes v))) <> []) ->
  exists d, policy s f v = Ok (bump s, mkFactor (vs_counter s) (a ++ b ++ [v]) d) /\
    length d = prod (outs (a ++ b ++ [v])) /\
    forall t1 t2 k, inb (outs a) t1 -> inb (outs b) t2 -> (k < v_outcomes v)%nat ->
      nth_error d (flat (outs (a ++ b ++ [v])) (t1 ++ t2 ++ [k])) =
      Some (policy_entry (map (fun j => ft f (t1 ++ j :: t2)) (seq 0 (v_outcomes v))) k).
Proof.
  intros Hfit Hvs Hwf Hpos Hne. unfold policy.
  assert (Hnd : ~ In (v_id v) (map v_id a) /\ ~ In (v_id v) (map v_id b)).
  { unfold wf_vars in Hwf. rewrite Hvs, map_app in Hwf. simpl in Hwf. apply NoDup_remove_2 in Hwf.
    rewrite in_app_iff in Hwf. tauto. }
  destruct Hnd as [Ha Hb].
  rewrite !Hvs. rewrite scan_vars_in by auto.
  destruct (Z.of_nat (length a) <? 0) eqn:E; [lia|]. clear E.
  rewrite (sget_ok _ _ v) by (rewrite nth_error_app2, Nat.sub_diag by lia; auto). cbn [gbind].
  rewrite <- app_assoc. rewrite create_factor_none. cbn [gbind].
  unfold v_out. destruct (Z.of_nat (v_outcomes v) =? 0) eqn:E; [lia|]. clear E.
  set (n := v_outcomes v) in *. set (nsab := outs (a ++ b)). set (m := prod nsab).
  set (nv := a ++ b ++ [v]). set (ns := outs nv).
  assert (Hns : ns = nsab ++ [n]) by (unfold ns, nsab, nv; rewrite app_assoc, outs_app; auto).
  assert (Hpns : prod ns = (m * n)%nat) by (rewrite Hns, prod_app; simpl; fold m; lia).
  assert (Hd : length (f_data f) = (m * n)%nat).
  { rewrite Hfit, Hvs. unfold m, nsab. rewrite !outs_app, !prod_app. simpl. fold n. lia. }
  replace (zlen (f_data f)) with (Z.of_nat (m * n)) by (unfold zlen; rewrite Hd; auto).
  replace (Z.quot (Z.of_nat (m * n)) (Z.of_nat n)) with (Z.of_nat m).
  2:{ rewrite Nat2Z.inj_mul, Z.quot_mul by lia. auto. }
  assert (Hidx : zlen nv - 1 = Z.of_nat (length (a ++ b))).
  { unfold zlen, nv. rewrite !app_length. simpl. lia. }
  rewrite Hidx.
  assert (Hfl : forall t k, inb nsab t -> flat ns (t ++ [k]) = (flat nsab t * n + k)%nat).
  { intros t k Ht. rewrite Hns. rewrite flat_snoc; auto. apply inb_length in Ht. auto. }
  set (d0 := repeat n0 (prod ns)).
  set (rowof := fun t1 t2 => map (fun j => ft f (t1 ++ j :: t2)) (seq 0 n)).
  assert (Hsetlast : forall (t : list nat) x c, length t = length (a ++ b) ->
     sset (Zs (t ++ [x])) (Z.of_nat (length (a ++ b))) (Z.of_nat c) = Ok (Zs (t ++ [c]))).
  { intros t x c Ht. rewrite <- Ht. rewrite sset_ok by (rewrite Zs_length, app_length; simpl; lia). f_equal.
     rewrite !Zs_app. rewrite <- (Zs_length t). generalize (Zs t). clear.
    induction l; simpl; auto. f_equal; auto. }
  edestruct (foldM_inv (X := Z) (fun r '((od, nw, fn) : list Z * list Z * factor A) =>
     length od = length (f_vars f) /\ length nw = length nv /\
     f_id fn = vs_counter s /\ f_vars fn = nv /\ length (f_data fn) = prod ns /\
     forall t1 t2 k, inb (outs a) t1 -> inb (outs b) t2 -> (k < n)%nat ->
      nth_error (f_data fn) (flat ns (t1 ++ t2 ++ [k])) =
      Some (if (flat nsab (t1 ++ t2) <? r)%nat then policy_entry (rowof t1 t2) k else n0)))
    as ([[od nw] fn] & E & HI).
  3:{ rewrite E. cbn [gbind]. destruct HI as (_ & _ & Hfid & Hfv & Hfd & Hcell).
      exists (f_data fn). split; [|split; auto].
      - f_equal. f_equal. destruct fn; simpl in *; subst; auto.
      - intros t1 t2 k H1 H2 Hk. rewrite Hcell by auto. rewrite zrange_length.
        assert (flat nsab (t1 ++ t2) < m)%nat.
        { apply flat_lt. unfold nsab. rewrite outs_app. apply inb_app; auto. }
        destruct (Nat.ltb_spec (flat nsab (t1 ++ t2)) (Z.to_nat (Z.of_nat m - 0))); [|lia]. auto. }
  - split; [rewrite Hvs; apply repeat_length|]. split; [apply repeat_length|]. split; [auto|]. split; [auto|].
    split; [simpl; apply repeat_length|].
    intros t1 t2 k H1 H2 Hk. cbn [f_data]. unfold d0. rewrite nth_error_repeat'.
    assert (flat ns (t1 ++ t2 ++ [k]) < prod ns)%nat.
    { apply flat_lt. rewrite Hns. unfold nsab. rewrite outs_app, <- app_assoc.
      apply inb_app; auto. apply inb_app; auto. constructor; auto. }
    fold ns. destruct (Nat.ltb_spec (flat ns (t1 ++ t2 ++ [k])) (prod ns)); [|lia].
    destruct (Nat.ltb_spec (flat nsab (t1 ++ t2)) 0); [lia|]. auto.
  - intros r [[od nw] fn] z Hz (Hlod & Hlnw & Hfid & Hfv & Hfd & Hcell).
    apply zrange_nth_inv in Hz. destruct Hz as [-> Hr]. rewrite Z.add_0_l.
    assert (Hr' : (r < m)%nat) by lia. clear Hr.
    assert (Hinr : inb nsab (tup nsab r)) by (apply tup_inb; unfold m in *; lia).
    unfold nsab in Hinr at 1. rewrite outs_app in Hinr. apply inb_app_inv in Hinr.
    destruct Hinr as (t1 & t2 & Ht & H1 & H2).
    pose proof (inb_length _ _ H1) as L1. pose proof (inb_length _ _ H2) as L2. rewrite outs_length in *.
    assert (Hfr : flat nsab (t1 ++ t2) = r) by (rewrite <- Ht; apply flat_tup_lt; auto).
    unfold f_outcomes. rewrite Hfv.
    replace (Z.of_nat r * Z.of_nat n) with (Z.of_nat (r * n + 0)) by lia.
    rewrite vars_outcomes_tup by (auto; fold ns; rewrite Hpns; nia).
    fold ns. rewrite Hns, tup_snoc by auto. rewrite Ht. cbn [gbind].
    (* the row *)
    destruct (foldM_inv (fun c '(od, nw, rd) =>
        length od = length (f_vars f) /\ (exists x, nw = Zs ((t1 ++ t2) ++ [x])) /\
        rd = map (fun j => ft f (t1 ++ j :: t2)) (seq 0 c))
      (fun '(od, nw, rd) c =>
          let! nw' := sset nw (Z.of_nat (length (a ++ b))) c in
          let! od' := copy_insert (Z.of_nat (length a)) nw' od in
          let! x := f_get f od' in
          Ok (od', nw', rd ++ [x]))
      (zrange 0 (Z.of_nat n)) (od, Zs ((t1 ++ t2) ++ [0%nat]), []))
      as ([[od1 nw1] rd] & E1 & Hlod1 & (x1 & Hnw1) & Hrd).
    { split; auto. split; [exists 0%nat; auto|]. auto. }
    { intros c [[od1 nw1] rd] z Hz (Hlod1 & (x1 & ->) & ->). apply zrange_nth_inv in Hz. destruct Hz as [-> Hc].
      rewrite Z.add_0_l. rewrite Hsetlast by (rewrite !app_length; lia). cbn [gbind].
      rewrite <- app_assoc. rewrite copy_insert_app.
      2: auto.
      2:{ rewrite Hlod1, Hvs, app_length. simpl. lia. }
      cbn [gbind]. rewrite f_get_ft; auto.
      2:{ rewrite Hvs, outs_app. simpl. apply inb_mid; auto. fold n. lia. }
      cbn [gbind]. eexists; split; [reflexivity|]. split.
      - rewrite Zs_length, Hvs, !app_length. simpl. lia.
      - split; [exists c; rewrite <- app_assoc; auto|]. rewrite seq_S, map_app. auto. }
    rewrite zrange_length in Hrd. replace (Z.to_nat (Z.of_nat n - 0)) with n in Hrd by lia.
    rewrite E1. cbn [gbind]. clear E1.
    assert (Hrow : rd = rowof t1 t2) by auto. rewrite Hrow.
    assert (Hmi : max_indices (rowof t1 t2) <> []) by (apply Hne; auto).
    destruct (zlen (max_indices (rowof t1 t2)) =? 0) eqn:Ez.
    { exfalso. apply Hmi. destruct (max_indices (rowof t1 t2)); auto. unfold zlen in Ez. simpl in Ez. lia. }
    set (mi := max_indices (rowof t1 t2)) in *. set (p := ndiv n1 (nofint (zlen mi))).
    assert (Hmir : forall i, In i mi -> 0 <= i < Z.of_nat n).
    { intros i Hi. apply max_indices_range in Hi. unfold zlen, rowof in Hi. rewrite map_length, seq_length in Hi. auto. }
    destruct (foldM_inv (fun c '(nw, fn') =>
        (exists x, nw = Zs ((t1 ++ t2) ++ [x])) /\
        f_id fn' = vs_counter s /\ f_vars fn' = nv /\ length (f_data fn') = prod ns /\
        (forall u1 u2 k, inb (outs a) u1 -> inb (outs b) u2 -> (k < n)%nat -> u1 ++ u2 <> t1 ++ t2 ->
           nth_error (f_data fn') (flat ns (u1 ++ u2 ++ [k])) = nth_error (f_data fn) (flat ns (u1 ++ u2 ++ [k]))) /\
        (forall k, (k < n)%nat -> nth_error (f_data fn') (flat ns (t1 ++ t2 ++ [k])) =
            Some (if zmem k (firstn c mi) then p else n0)))
      (fun '(nw, fn) i =>
          let! nw' := sset nw (Z.of_nat (length (a ++ b))) i in
          let! fn' := f_set fn nw' p in
          Ok (nw', fn'))
      mi (nw1, fn)) as ([nw2 fn2] & E2 & (x2 & Hnw2) & Hid2 & Hv2 & Hl2 & Ho2 & Hc2).
    { split; [eauto|]. split; [auto|]. split; [auto|]. split; [auto|]. split; [auto|].
      intros k Hk. rewrite Hcell by auto. rewrite Hfr. destruct (Nat.ltb_spec r r); [lia|]. auto. }
    { intros c [nw2 fn2] i Hi ((x2 & ->) & Hid2 & Hv2 & Hl2 & Ho2 & Hc2).
      assert (Hir : 0 <= i < Z.of_nat n) by (apply Hmir; eapply nth_error_In; eauto).
      destruct (Z_of_nat_complete i) as (j & ->); [lia|]. assert (Hj : (j < n)%nat) by lia.
      rewrite Hsetlast by (rewrite !app_length; lia). cbn [gbind].
      unfold f_set, f_index. rewrite Hv2. rewrite vars_index_flat.
      2:{ unfold nv. rewrite !app_length. simpl. lia. }
      fold ns. cbn [gbind].
      assert (Hltj : forall u1 u2 k, inb (outs a) u1 -> inb (outs b) u2 -> (k < n)%nat -> inb ns ((u1 ++ u2) ++ [k])).
      { intros. rewrite Hns. apply inb_app. unfold nsab. rewrite outs_app. apply inb_app; auto.
        constructor; auto. }
      rewrite sset_ok by (rewrite Hl2; apply flat_lt; auto). cbn [gbind].
      eexists; split; [reflexivity|]. cbn [f_id f_vars f_data].
      split; [eauto|]. split; [auto|]. split; [auto|]. split; [rewrite upd_nth_length; auto|]. split.
      - intros u1 u2 k U1 U2 Hk Hu. rewrite upd_nth_spec.
        destruct (Nat.eqb_spec (flat ns ((t1 ++ t2) ++ [j])) (flat ns (u1 ++ u2 ++ [k]))) as [Ef|Ef].
        + rewrite app_assoc in Ef. apply flat_inj in Ef; auto. apply app_inj_tail in Ef. destruct Ef. congruence.
        + simpl. apply Ho2; auto.
      - intros k Hk. rewrite upd_nth_spec.
        assert (F : firstn (S c) mi = firstn c mi ++ [Z.of_nat j]).
        { clear - Hi. clearbody mi. revert c Hi. induction mi; destruct c; intros; try discriminate.
          - inversion Hi; auto.
          - rewrite !firstn_cons. simpl. f_equal. apply IHmi. auto. }
        rewrite F. unfold zmem. rewrite existsb_app. cbn [existsb].
        destruct (Nat.eqb_spec (flat ns ((t1 ++ t2) ++ [j])) (flat ns (t1 ++ t2 ++ [k]))) as [Ef|Ef].
        + rewrite app_assoc in Ef. apply flat_inj in Ef; auto. apply app_inj_tail in Ef. destruct Ef as [_ <-].
          destruct (Nat.ltb_spec (flat ns ((t1 ++ t2) ++ [j])) (length (f_data fn2))) as [|Hge].
          * simpl. replace (Z.of_nat j =? Z.of_nat j) with true by lia. rewrite orb_true_r. auto.
          * rewrite Hl2 in Hge. pose proof (flat_lt _ _ (Hltj t1 t2 j H1 H2 Hj)). lia.
        + simpl. rewrite Hc2 by auto. unfold zmem.
          replace (Z.of_nat k =? Z.of_nat j) with false; [rewrite !orb_false_r; auto|].
          symmetry. apply Z.eqb_neq. intros Hki. apply Ef. assert (k = j) by lia. subst k. rewrite <- app_assoc. auto. }
    rewrite E2. cbn [gbind]. eexists; split; [reflexivity|]. cbv beta iota. rewrite <- Hns.
    split; [auto|]. split. { rewrite Hnw2, Zs_length. unfold nv. rewrite !app_length. simpl. lia. }
    split; [auto|]. split; [auto|]. split; [auto|].
    intros u1 u2 k U1 U2 Hk.
    destruct (list_eq_dec Nat.eq_dec (u1 ++ u2) (t1 ++ t2)) as [He|He].
    + apply app_inj_len in He. 2:{ apply inb_length in U1. rewrite outs_length in U1. lia. }
      destruct He as [-> ->]. rewrite Hc2 by auto. rewrite Hfr. destruct (Nat.ltb_spec r (S r)); [|lia].
      rewrite firstn_all. auto.
    + rewrite Ho2 by auto. rewrite Hcell by auto. do 2 f_equal.
      assert (flat nsab (u1 ++ u2) <> r).
      { rewrite <- Hfr. intros Ef. apply flat_inj in Ef; auto; unfold nsab; rewrite outs_app; apply inb_app; auto. }
      destruct (Nat.ltb_spec (flat nsab (u1 ++ u2)) r), (Nat.ltb_spec (flat nsab (u1 ++ u2)) (S r)); auto; lia.
Qed.

End F.
