(** Factor operations as functions of assignments, for any arithmetic. *)
From Coq Require Import ZArith List Bool Lia Arith PeanoNat ZifyBool ZifyNat.
From Verif Require Import Num GoBase VarModel Tuples GoFacts SpecFactor.
Import ListNotations.
Open Scope Z_scope.

#[global] Arguments Z.of_nat : simpl never.
#[global] Arguments Z.add : simpl never.
#[global] Arguments Z.sub : simpl never.
#[global] Arguments Z.mul : simpl never.
#[global] Arguments Z.to_nat : simpl never.

Definition outs (vs : list variable) : list nat := map v_outcomes vs.
Definition tof (vs : list variable) (a : asg) : list nat := map (fun v => a (v_id v)) vs.

Lemma num_cells_prod vs : num_cells vs = prod (outs vs).
Proof. induction vs; simpl; auto. Qed.

Lemma tuple_of_tof vs a : tuple_of vs a = Zs (tof vs a).
Proof. unfold tuple_of, Zs, tof. rewrite map_map. auto. Qed.

Lemma tof_length vs a : length (tof vs a) = length vs.
Proof. apply map_length. Qed.

Lemma outs_length vs : length (outs vs) = length vs.
Proof. apply map_length. Qed.

Lemma in_range_inb vs a : in_range vs a <-> inb (outs vs) (tof vs a).
Proof.
  unfold in_range, inb, outs, tof. induction vs; simpl.
  - split; intros; [constructor|tauto].
  - split; intros H.
    + constructor; [apply H; auto|]. apply IHvs. intros; apply H; auto.
    + inversion H; subst. intros v [->|Hv]; auto. apply IHvs; auto.
Qed.

Lemma vars_rows_prod vs : vars_rows vs = Z.of_nat (prod (outs vs)).
Proof.
  unfold vars_rows. assert (G : forall r, fold_left (fun rows v => rows * v_out v) vs r = r * Z.of_nat (prod (outs vs))).
  { induction vs; intros; simpl; [lia|]. rewrite IHvs. unfold v_out. lia. }
  rewrite G. lia.
Qed.

Lemma var_eqb_spec a b : var_eqb a b = true <-> a = b.
Proof.
  unfold var_eqb. destruct a as [i1 x1 o1 t1], b as [i2 x2 o2 t2]; simpl.
  split.
  - intros H. apply andb_prop in H. destruct H as [H Ht]. apply andb_prop in H. destruct H as [H Ho].
    apply andb_prop in H. destruct H as [Hi Hx].
    apply Z.eqb_eq in Hi. apply Nat.eqb_eq in Ho. apply Nat.eqb_eq in Hx.
    assert (t1 = t2) by (destruct t1, t2; simpl in Ht; congruence). subst; auto.
  - intros E; inversion E; subst. rewrite Z.eqb_refl, !Nat.eqb_refl. destruct t2; auto.
Qed.

Lemma var_eqb_refl a : var_eqb a a = true.
Proof. apply var_eqb_spec; auto. Qed.

(** ** Index, Outcomes, increment *)

Lemma index_fold vs t : length t = length vs ->
  fold_right (fun '(v, i) '(index, multiplier) => (index + i * multiplier, multiplier * v_out v))
         (0, 1) (combine vs (Zs t)) = (Z.of_nat (flat (outs vs) t), Z.of_nat (prod (outs vs))).
Proof.
  revert t; induction vs; destruct t; simpl; intros; try lia; auto.
  rewrite IHvs by lia. unfold v_out. f_equal; lia.
Qed.

Lemma vars_index_flat vs t : length t = length vs ->
  vars_index vs (Zs t) = Ok (Z.of_nat (flat (outs vs) t)).
Proof.
  intros H. unfold vars_index, zlen. rewrite Zs_length, H, Z.eqb_refl. simpl.
  rewrite index_fold by auto. auto.
Qed.

Lemma vars_increment_succ vs t : length t = length vs ->
  vars_increment vs (Zs t) = let '(u, c) := succ_tup (outs vs) t in Ok (Zs u, negb c).
Proof.
  intros H. unfold vars_increment, zlen. rewrite Zs_length, H, Z.eqb_refl. simpl.
  assert (G : forall vs t, length t = length vs ->
    fold_right (fun '((v, i) : variable * Z) '((rest, carry) : list Z * bool) =>
         if carry then
           if i + 1 <? v_out v then (i + 1 :: rest, false) else (0 :: rest, true)
         else (i :: rest, false))
      ([], true) (combine vs (Zs t)) = let '(u, c) := succ_tup (outs vs) t in (Zs u, c)).
  { clear. induction vs; destruct t; simpl; intros; try lia; auto.
    rewrite IHvs by lia. destruct (succ_tup (outs vs) t) as [u c].
    destruct c; auto. unfold v_out.
    destruct (Z.of_nat n + 1 <? Z.of_nat (v_outcomes a)) eqn:E.
    - destruct (Nat.ltb_spec (S n) (v_outcomes a)); [|lia]. simpl. do 2 f_equal. lia.
    - destruct (Nat.ltb_spec (S n) (v_outcomes a)); [lia|]. auto. }
  rewrite G by auto. destruct (succ_tup (outs vs) t); auto.
Qed.

Lemma vars_increment_tup vs i : (0 < prod (outs vs))%nat ->
  vars_increment vs (Zs (tup (outs vs) i)) =
  Ok (Zs (tup (outs vs) (S i)), negb (S (i mod prod (outs vs)) =? prod (outs vs))%nat).
Proof.
  intros. rewrite vars_increment_succ by (rewrite tup_length, outs_length; auto).
  rewrite succ_tup_tup by auto. auto.
Qed.

Lemma tup_zero ns : (0 < prod ns)%nat -> tup ns 0 = repeat 0%nat (length ns).
Proof.
  induction ns; simpl; intros; auto.
  assert (0 < prod ns)%nat by nia. rewrite IHns by auto.
  rewrite Nat.div_0_l by lia. rewrite Nat.mod_0_l by nia. auto.
Qed.

Lemma zeros_tup vs : (0 < prod (outs vs))%nat -> repeat 0 (length vs) = Zs (tup (outs vs) 0).
Proof.
  intros. rewrite tup_zero by auto. rewrite outs_length.
  unfold Zs. clear. induction (length vs); simpl; f_equal; auto.
Qed.

Lemma vars_outcomes_tup vs i l : length l = length vs -> (0 < prod (outs vs))%nat ->
  vars_outcomes vs (Z.of_nat i) l = Ok (Zs (tup (outs vs) i)).
Proof.
  intros Hl Hp. unfold vars_outcomes, zlen. rewrite Hl, Z.eqb_refl. simpl.
  assert (G : forall vs, (0 < prod (outs vs))%nat ->
   fold_right
      (fun v (st : gores (list Z * Z)) =>
         let! (rest, index) := st in
         if v_out v =? 0 then Panic PDiv
         else Ok (Z.rem index (v_out v) :: rest, Z.quot index (v_out v)))
      (Ok ([], Z.of_nat i)) vs = Ok (Zs (tup (outs vs) i), Z.of_nat (i / prod (outs vs)))).
  { clear. induction vs; intros; cbn [fold_right outs map tup prod].
    - rewrite Nat.div_1_r. auto.
    - fold (outs vs). simpl in H. fold (outs vs) in H. rewrite IHvs by nia. simpl. unfold v_out.
      assert (Hpo : (0 < v_outcomes a)%nat) by nia.
      destruct (Z.of_nat (v_outcomes a) =? 0) eqn:E; [lia|].
      rewrite Z.rem_mod_nonneg, Z.quot_div_nonneg by (try apply Nat2Z.is_nonneg; lia).
      rewrite <- Nat2Z.inj_mod, <- Nat2Z.inj_div.
      rewrite Nat.div_div by nia. rewrite (Nat.mul_comm (prod (outs vs))). auto. }
  rewrite G by auto. auto.
Qed.

(** ** Reading factors *)

Section F.
Context {A : Type} {N : NumOps A}.

(** Value of a factor at a tuple and at an assignment (total versions, used in proofs only). *)
Definition ft (f : factor A) (t : list nat) : A := nth (flat (outs (f_vars f)) t) (f_data f) n0.
Definition fv (f : factor A) (a : asg) : A := ft f (tof (f_vars f) a).

Definition fits (f : factor A) : Prop := length (f_data f) = prod (outs (f_vars f)).

Lemma wf_fits f : wf_factor f -> fits f.
Proof. intros [_ H]. unfold fits. rewrite <- num_cells_prod. auto. Qed.

Lemma ft_nth f t : fits f -> inb (outs (f_vars f)) t ->
  nth_error (f_data f) (flat (outs (f_vars f)) t) = Some (ft f t).
Proof.
  intros Hf Ht. unfold ft. apply nth_error_nth'. rewrite Hf. apply flat_lt. auto.
Qed.

Lemma f_get_ft f t : fits f -> inb (outs (f_vars f)) t -> f_get f (Zs t) = Ok (ft f t).
Proof.
  intros Hf Ht. unfold f_get, f_index.
  rewrite vars_index_flat by (apply inb_length in Ht; rewrite outs_length in Ht; auto).
  simpl. apply sget_ok. apply ft_nth; auto.
Qed.

Lemma get_at_fv f a : fits f -> in_range (f_vars f) a -> get_at f a = Ok (fv f a).
Proof.
  intros. unfold get_at. rewrite tuple_of_tof. apply f_get_ft; auto. apply in_range_inb; auto.
Qed.

Lemma create_factor_none s vs :
  create_factor s vs None =
  Ok (mkVS (vs_counter s + 1) (vs_vars s) (vs_ids s), mkFactor (vs_counter s) vs (repeat n0 (prod (outs vs)))).
Proof.
  unfold create_factor, smake. rewrite vars_rows_prod.
  destruct (Z.of_nat (prod (outs vs)) <? 0) eqn:E; [lia|]. simpl. rewrite Nat2Z.id. auto.
Qed.

Lemma create_factor_some s vs d : length d = prod (outs vs) ->
  create_factor s vs (Some d) =
  Ok (mkVS (vs_counter s + 1) (vs_vars s) (vs_ids s), mkFactor (vs_counter s) vs d).
Proof.
  intros H. unfold create_factor, zlen. rewrite vars_rows_prod, H, Z.eqb_refl. auto.
Qed.

(** State after one CreateFactor. *)
Definition bump (s : vstate) : vstate := mkVS (vs_counter s + 1) (vs_vars s) (vs_ids s).

(** ** copy loops *)

Lemma copy_loop {T} (src : list T) (a b lo hi : nat) (dst : list T) :
  (lo <= hi)%nat -> (hi + a <= length src + 0)%nat -> (hi + b <= length dst)%nat ->
  forall (f : list T -> Z -> gores (list T)),
  (forall nw j, (lo <= j < hi)%nat -> f nw (Z.of_nat j) =
      (let! x := sget src (Z.of_nat (j + a)) in sset nw (Z.of_nat (j + b)) x)) ->
  exists r, foldM f dst (zrange (Z.of_nat lo) (Z.of_nat hi)) = Ok r /\ length r = length dst /\
    forall p, nth_error r p = if (lo + b <=? p)%nat && (p <? hi + b)%nat
                              then nth_error src (p + a - b) else nth_error dst p.
Proof.
  intros Hlh Ha Hb f Hf.
  destruct (foldM_inv (fun i nw => length nw = length dst /\
     forall p, nth_error nw p = if (lo + b <=? p)%nat && (p <? lo + i + b)%nat
                              then nth_error src (p + a - b) else nth_error dst p)
     f (zrange (Z.of_nat lo) (Z.of_nat hi)) dst) as (r & E & Hr1 & Hr2).
  - split; auto. intros p. destruct (Nat.leb_spec (lo + b) p), (Nat.ltb_spec p (lo + 0 + b)); simpl; auto; lia.
  - intros i nw x Hx [Hl Hn]. apply zrange_nth_inv in Hx. destruct Hx as [-> Hi].
    assert (Hi' : (i < hi - lo)%nat) by lia.
    replace (Z.of_nat lo + Z.of_nat i) with (Z.of_nat (lo + i)) by lia.
    rewrite Hf by lia.
    destruct (nth_error src (lo + i + a)) eqn:E.
    2:{ apply nth_error_None in E. lia. }
    rewrite (sget_ok _ _ _ E). simpl. rewrite sset_ok by lia. eexists; split; [reflexivity|].
    split; [rewrite upd_nth_length; auto|].
    intros p. rewrite upd_nth_spec, Hn, Hl.
    destruct (Nat.eqb_spec (lo + i + b) p).
    + subst. destruct (Nat.ltb_spec (lo + i + b) (length dst)); [|lia].
      destruct (Nat.leb_spec (lo + b) (lo + i + b)), (Nat.ltb_spec (lo + i + b) (lo + S i + b)); simpl; try lia.
      rewrite <- E. f_equal. lia.
    + simpl. destruct (Nat.leb_spec (lo + b) p), (Nat.ltb_spec p (lo + i + b)),
        (Nat.ltb_spec p (lo + S i + b)); simpl; auto; lia.
  - exists r. split; auto. split; auto. intros p. rewrite Hr2. rewrite zrange_length.
    replace (lo + Z.to_nat (Z.of_nat hi - Z.of_nat lo) + b)%nat with (hi + b)%nat by lia. auto.
Qed.


Lemma copy_skip_app idx (a : list nat) k b nw :
  idx = length a -> length nw = (length a + length b)%nat ->
  copy_skip (Z.of_nat idx) (Zs (a ++ k :: b)) nw = Ok (Zs (a ++ b)).
Proof.
  intros -> Hl. unfold copy_skip.
  destruct (copy_loop (Zs (a ++ k :: b)) 0 0 0 (length a) nw) with
    (f := fun nw j => let! x := sget (Zs (a ++ k :: b)) j in sset nw j x) as (r & E & Hr & Hn).
  - lia.
  - rewrite Zs_length, app_length; simpl; lia.
  - lia.
  - intros. rewrite !Nat.add_0_r. auto.
  - change 0 with (Z.of_nat 0) at 1. rewrite E. simpl.
    unfold zlen. rewrite Zs_length.
    replace (Z.of_nat (length a) + 1) with (Z.of_nat (S (length a))) by lia.
    destruct (copy_loop (Zs (a ++ k :: b)) 1 0 (length a) (length (a ++ k :: b) - 1) r)
     with (f := fun nw j => let! x := sget (Zs (a ++ k :: b)) (j + 1) in sset nw j x) as (r2 & E2 & Hr2 & Hn2).
    + rewrite app_length; simpl; lia.
    + rewrite Zs_length, app_length; simpl; lia.
    + rewrite app_length; simpl; lia.
    + intros nw0 j Hj. replace (Z.of_nat j + 1) with (Z.of_nat (j + 1)) by lia. rewrite Nat.add_0_r. auto.
    + assert (Hre : foldM (fun nw0 j => let! x := sget (Zs (a ++ k :: b)) j in sset nw0 (j - 1) x) r
        (zrange (Z.of_nat (S (length a))) (Z.of_nat (length (a ++ k :: b)))) =
        foldM (fun nw j => let! x := sget (Zs (a ++ k :: b)) (j + 1) in sset nw j x) r
        (zrange (Z.of_nat (length a)) (Z.of_nat (length (a ++ k :: b) - 1)))).
      { assert (HL : (length (a ++ k :: b) = length a + S (length b))%nat) by (rewrite app_length; auto).
        rewrite HL. unfold zrange.
        replace (Z.to_nat (Z.of_nat (length a + S (length b)) - Z.of_nat (S (length a)))) with (length b) by lia.
        replace (Z.to_nat (Z.of_nat (length a + S (length b) - 1) - Z.of_nat (length a))) with (length b) by lia.
        generalize (seq 0 (length b)) as l. clear. intros l. revert r.
        induction l as [|x l IH]; intros r; simpl; auto.
        replace (Z.of_nat (S (length a)) + Z.of_nat x - 1) with (Z.of_nat (length a) + Z.of_nat x) by lia.
        replace (Z.of_nat (S (length a)) + Z.of_nat x) with (Z.of_nat (length a) + Z.of_nat x + 1) by lia.
        destruct (sget _ _); simpl; auto. destruct (sset _ _ _); simpl; auto. }
      rewrite Hre, E2. f_equal. apply nth_error_ext. intros p. rewrite Hn2, Hn.
      unfold Zs. rewrite !nth_error_map.
      rewrite !app_length. simpl length. rewrite !Nat.add_0_r.
      destruct (Nat.leb_spec (length a) p), (Nat.ltb_spec p (length a + S (length b) - 1)); simpl.
      * f_equal. rewrite (nth_error_app2 a b) by lia.
        rewrite nth_error_app2 by lia. replace (p + 1 - 0 - length a)%nat with (S (p - length a)) by lia. auto.
      * destruct (Nat.ltb_spec p (length a)); [lia|]. simpl.
        assert (nth_error nw p = None) as -> by (apply nth_error_None; lia).
        rewrite (proj2 (nth_error_None (a ++ b) p)) by (rewrite app_length; lia). auto.
      * destruct (Nat.ltb_spec p (length a)); [|lia]. simpl.
        f_equal. rewrite Nat.sub_0_r. rewrite !nth_error_app1 by lia. auto.
      * destruct (Nat.ltb_spec p (length a)); [|lia]. simpl.
        f_equal. rewrite Nat.sub_0_r. rewrite !nth_error_app1 by lia. auto.
Qed.

Lemma copy_insert_app idx (a : list nat) k b od :
  idx = length a -> length od = S (length a + length b) ->
  copy_insert (Z.of_nat idx) (Zs (a ++ b ++ [k])) od = Ok (Zs (a ++ k :: b)).
Proof.
  intros -> Hl. unfold copy_insert.
  destruct (copy_loop (Zs (a ++ b ++ [k])) 0 0 0 (length a) od) with
    (f := fun nw j => let! x := sget (Zs (a ++ b ++ [k])) j in sset nw j x) as (r & E & Hr & Hn).
  - lia.
  - rewrite Zs_length, !app_length; simpl; lia.
  - lia.
  - intros. rewrite !Nat.add_0_r. auto.
  - change 0 with (Z.of_nat 0) at 1. rewrite E. simpl.
    unfold zlen.
    destruct (copy_loop (Zs (a ++ b ++ [k])) 0 1 (length a) (length a + length b) r)
     with (f := fun nw j => let! x := sget (Zs (a ++ b ++ [k])) j in sset nw (j + 1) x) as (r2 & E2 & Hr2 & Hn2).
    + lia.
    + rewrite Zs_length, !app_length; simpl; lia.
    + lia.
    + intros nw0 j Hj. replace (Z.of_nat j + 1) with (Z.of_nat (j + 1)) by lia. rewrite Nat.add_0_r. auto.
    + assert (Hre : foldM (fun nw0 j => let! x := sget (Zs (a ++ b ++ [k])) (j - 1) in sset nw0 j x) r
        (zrange (Z.of_nat (length a) + 1) (Z.of_nat (length od))) =
        foldM (fun nw j => let! x := sget (Zs (a ++ b ++ [k])) j in sset nw (j + 1) x) r
        (zrange (Z.of_nat (length a)) (Z.of_nat (length a + length b)))).
      { rewrite Hl. unfold zrange.
        replace (Z.to_nat (Z.of_nat (S (length a + length b)) - (Z.of_nat (length a) + 1))) with (length b) by lia.
        replace (Z.to_nat (Z.of_nat (length a + length b) - Z.of_nat (length a))) with (length b) by lia.
        generalize (seq 0 (length b)) as l. clear. intros l. revert r.
        induction l as [|x l IH]; intros r; simpl; auto.
        replace (Z.of_nat (length a) + 1 + Z.of_nat x - 1) with (Z.of_nat (length a) + Z.of_nat x) by lia.
        replace (Z.of_nat (length a) + 1 + Z.of_nat x) with (Z.of_nat (length a) + Z.of_nat x + 1) by lia.
        destruct (sget _ _); simpl; auto. destruct (sset _ _ _); simpl; auto. }
      rewrite Hre, E2. simpl. rewrite Zs_length.
      replace (Z.of_nat (length (a ++ b ++ [k])) - 1) with (Z.of_nat (length a + length b))
        by (rewrite !app_length; simpl; lia).
      assert (Ek : nth_error (Zs (a ++ b ++ [k])) (length a + length b) = Some (Z.of_nat k)).
      { rewrite app_assoc. unfold Zs. rewrite nth_error_map, nth_error_app2 by (rewrite app_length; lia).
        rewrite app_length, Nat.sub_diag. auto. }
      rewrite (sget_ok _ _ _ Ek). simpl. rewrite sset_ok by lia. f_equal.
      apply nth_error_ext. intros p. rewrite upd_nth_spec, Hr2, Hr, Hn2, Hn.
      unfold Zs. rewrite !nth_error_map.
      destruct (Nat.eqb_spec (length a) p).
      { subst p. destruct (Nat.ltb_spec (length a) (length od)); [|lia]. simpl.
        rewrite nth_error_app2 by lia. rewrite Nat.sub_diag. auto. }
      simpl. rewrite !Nat.add_0_r.
      destruct (Nat.leb_spec (length a + 1) p), (Nat.ltb_spec p (length a + length b + 1)); simpl; try lia.
      * f_equal. rewrite (nth_error_app2 a (k :: b)) by lia.
        rewrite nth_error_app2 by lia. replace (p - length a)%nat with (S (p - 1 - length a)) by lia. simpl.
        rewrite nth_error_app1 by lia. auto.
      * destruct (Nat.ltb_spec p (length a)); [lia|]. simpl.
        assert (nth_error od p = None) as -> by (apply nth_error_None; lia).
        rewrite (proj2 (nth_error_None (a ++ k :: b) p)) by (rewrite app_length; simpl; lia). auto.
      * destruct (Nat.ltb_spec p (length a)); [|lia]. simpl.
        f_equal. rewrite Nat.sub_0_r. rewrite !nth_error_app1 by lia. auto.
Qed.

(** ** scan_vars *)

Lemma ids_split id vs : In id (map v_id vs) -> NoDup (map v_id vs) ->
  exists a u b, vs = a ++ u :: b /\ v_id u = id /\ ~ In id (map v_id a) /\ ~ In id (map v_id b).
Proof.
  intros Hin Hnd. apply in_map_iff in Hin. destruct Hin as (u & Hu & Hin).
  apply in_split in Hin. destruct Hin as (a & b & ->). exists a, u, b. repeat split; auto.
  - rewrite map_app in Hnd. simpl in Hnd. intros H. apply NoDup_remove_2 in Hnd. apply Hnd.
    rewrite <- Hu in H. apply in_or_app; auto.
  - rewrite map_app in Hnd. simpl in Hnd. intros H. apply NoDup_remove_2 in Hnd. apply Hnd.
    rewrite <- Hu in H. apply in_or_app; auto.
Qed.

Definition scan_step (id : Z) : Z * Z * list variable -> variable -> Z * Z * list variable :=
  fun '(i, idx, nv) v => if v_id v =? id then (i + 1, i, nv) else (i + 1, idx, nv ++ [v]).

Lemma scan_fold_notin id vs : forall i idx nv, ~ In id (map v_id vs) ->
  fold_left (scan_step id) vs (i, idx, nv) = (i + zlen vs, idx, nv ++ vs).
Proof.
  induction vs; intros; simpl.
  - rewrite app_nil_r. unfold zlen; simpl. replace (i + Z.of_nat 0) with i by lia. auto.
  - destruct (v_id a =? id) eqn:E.
    + exfalso. apply H. left. lia.
    + rewrite IHvs by (intros Hi; apply H; right; auto). rewrite <- app_assoc.
      replace (i + 1 + zlen vs) with (i + zlen (a :: vs)) by (unfold zlen; simpl; lia). auto.
Qed.

Lemma scan_vars_notin id vs : ~ In id (map v_id vs) -> scan_vars vs id = (-1, vs).
Proof.
  intros. unfold scan_vars. fold (scan_step id). rewrite scan_fold_notin; auto.
Qed.

Lemma scan_vars_in id a u b : v_id u = id -> ~ In id (map v_id a) -> ~ In id (map v_id b) ->
  scan_vars (a ++ u :: b) id = (Z.of_nat (length a), a ++ b).
Proof.
  intros Hu Ha Hb. unfold scan_vars. fold (scan_step id).
  rewrite fold_left_app. rewrite scan_fold_notin by auto. simpl.
  rewrite Hu, Z.eqb_refl. rewrite scan_fold_notin by auto. unfold zlen. simpl. auto.
Qed.

(** ** splitting tuples *)

Lemma inb_app_inv na nb t : inb (na ++ nb) t ->
  exists t1 t2, t = t1 ++ t2 /\ inb na t1 /\ inb nb t2.
Proof.
  intros H. apply Forall2_app_inv_l in H. destruct H as (t1 & t2 & H1 & H2 & ->). eauto.
Qed.

Lemma inb_mid_inv na n nb t : inb (na ++ n :: nb) t ->
  exists t1 k t2, t = t1 ++ k :: t2 /\ inb na t1 /\ (k < n)%nat /\ inb nb t2.
Proof.
  intros H. apply inb_app_inv in H. destruct H as (t1 & t' & -> & H1 & H2).
  inversion H2; subst. exists t1, y, l'. auto.
Qed.

Lemma inb_mid na n nb t1 k t2 : inb na t1 -> (k < n)%nat -> inb nb t2 -> inb (na ++ n :: nb) (t1 ++ k :: t2).
Proof. intros. apply Forall2_app; auto. Qed.

Lemma app_inj_len {T} (a b c d : list T) : length a = length c -> a ++ b = c ++ d -> a = c /\ b = d.
Proof.
  revert c; induction a; destruct c; simpl; intros; try lia; auto.
  inversion H0; subst. destruct (IHa c) as [-> ->]; auto.
Qed.

Lemma outs_app a b : outs (a ++ b) = outs a ++ outs b.
Proof. apply map_app. Qed.

Lemma tof_app a b g : tof (a ++ b) g = tof a g ++ tof b g.
Proof. apply map_app. Qed.

Lemma tof_upd_notin vs g id k : ~ In id (map v_id vs) -> tof vs (upd g id k) = tof vs g.
Proof.
  intros H. unfold tof. apply map_ext_in. intros v Hv. unfold upd.
  destruct (v_id v =? id) eqn:E; auto. exfalso. apply H. apply in_map_iff. exists v. split; auto. lia.
Qed.

Lemma tof_upd_mid a u b g k : ~ In (v_id u) (map v_id a) -> ~ In (v_id u) (map v_id b) ->
  tof (a ++ u :: b) (upd g (v_id u) k) = tof a g ++ k :: tof b g.
Proof.
  intros Ha Hb. rewrite tof_app. simpl. rewrite !tof_upd_notin by auto.
  unfold upd. rewrite Z.eqb_refl. auto.
Qed.

(** ** Restrict *)

Lemma prod_mid_pos na n nb i : (i < prod (na ++ n :: nb))%nat -> (0 < prod (na ++ n :: nb))%nat.
Proof. lia. Qed.

Lemma restrict_spec s f a u b v o :
  fits f -> f_vars f = a ++ u :: b -> v_id u = v_id v ->
  ~ In (v_id v) (map v_id a) -> ~ In (v_id v) (map v_id b) ->
  (o < v_outcomes v)%nat -> (o < v_outcomes u)%nat ->
  exists d, restrict s f v (Z.of_nat o) = Ok (bump s, mkFactor (vs_counter s) (a ++ b) d) /\
    length d = prod (outs (a ++ b)) /\
    forall t1 t2, inb (outs a) t1 -> inb (outs b) t2 ->
      nth_error d (flat (outs (a ++ b)) (t1 ++ t2)) = Some (ft f (t1 ++ o :: t2)).
Proof.
  intros Hfit Hvs Hid Ha Hb Ho Ho'. unfold restrict, v_out.
  destruct ((Z.of_nat o <? 0) || (Z.of_nat (v_outcomes v) <=? Z.of_nat o)) eqn:E; [lia|]. clear E.
  unfold smake. destruct (zlen (f_vars f) - 1 <? 0) eqn:E.
  { rewrite Hvs in E. unfold zlen in E. rewrite app_length in E. simpl in E. lia. }
  clear E. simpl. rewrite Hvs, scan_vars_in by auto.
  destruct (Z.of_nat (length a) <? 0) eqn:E; [lia|]. clear E.
  rewrite create_factor_none. simpl.
  set (ns := outs (a ++ u :: b)). set (d0 := repeat n0 (prod (outs (a ++ b)))).
  assert (Hns : ns = outs a ++ v_outcomes u :: outs b) by (unfold ns; rewrite outs_app; auto).
  assert (Hd : length (f_data f) = prod ns) by (rewrite Hfit, Hvs; auto).
  destruct (foldM_inv (fun i '(od, nw, fn) =>
       od = (if (0 <? prod ns)%nat then Zs (tup ns i) else repeat 0 (length (a ++ u :: b))) /\
       length nw = length (a ++ b) /\
       f_id fn = vs_counter s /\ f_vars fn = a ++ b /\ length (f_data fn) = prod (outs (a ++ b)) /\
       forall t1 t2, inb (outs a) t1 -> inb (outs b) t2 ->
         nth_error (f_data fn) (flat (outs (a ++ b)) (t1 ++ t2)) =
         Some (if (flat ns (t1 ++ o :: t2) <? i)%nat then ft f (t1 ++ o :: t2) else n0))
    (fun '(oldIndex, newIndex, fNew) (x : A) =>
      let! o0 := sget oldIndex (Z.of_nat (length a)) in
      let! (newIndex', fNew') :=
        if o0 =? Z.of_nat o then
          let! nw := copy_skip (Z.of_nat (length a)) oldIndex newIndex in
          let! fn := f_set fNew nw x in
          Ok (nw, fn)
        else Ok (newIndex, fNew) in
      let! (oldIndex', _) := vars_increment (a ++ u :: b) oldIndex in
      Ok (oldIndex', newIndex', fNew'))
    (f_data f)
    (repeat 0 (length (a ++ u :: b)), repeat 0 (length (a ++ b)), mkFactor (vs_counter s) (a ++ b) d0))
    as ([[od nw] fn] & E & HI).
  - split; [|split; [|split; [|split; [|split]]]]; auto.
    + destruct (Nat.ltb_spec 0 (prod ns)); auto. apply zeros_tup. auto.
    + apply repeat_length.
    + simpl. unfold d0. apply repeat_length.
    + intros t1 t2 H1 H2. destruct (Nat.ltb_spec (flat ns (t1 ++ o :: t2)) 0); [lia|].
      unfold d0. simpl. rewrite nth_error_repeat'.
      assert (flat (outs (a ++ b)) (t1 ++ t2) < prod (outs (a ++ b)))%nat.
      { apply flat_lt. rewrite outs_app. apply inb_app; auto. }
      destruct (Nat.ltb_spec (flat (outs (a ++ b)) (t1 ++ t2)) (prod (outs (a ++ b)))); auto; lia.
  - intros i [[od nw] fn] x Hx (Hod & Hnw & Hfid & Hfv & Hfd & Hcell).
    assert (Hi : (i < prod ns)%nat) by (rewrite <- Hd; apply nth_error_Some; congruence).
    destruct (Nat.ltb_spec 0 (prod ns)) as [Hpos|]; [|lia].
    assert (Hin : inb ns (tup ns i)) by (apply tup_inb; auto).
    rewrite Hns in Hin at 1. apply inb_mid_inv in Hin.
    destruct Hin as (t1 & k & t2 & Ht & H1 & Hk & H2).
    pose proof (inb_length _ _ H1) as L1. pose proof (inb_length _ _ H2) as L2. rewrite !outs_length in *.
    assert (Hflat : flat ns (t1 ++ k :: t2) = i) by (rewrite <- Ht; apply flat_tup_lt; auto).
    assert (Hinb : forall t1 k t2, inb (outs a) t1 -> (k < v_outcomes u)%nat -> inb (outs b) t2 -> inb ns (t1 ++ k :: t2)).
    { intros. rewrite Hns. apply inb_mid; auto. }
    assert (Hcase : forall t1' t2', inb (outs a) t1' -> inb (outs b) t2' ->
       flat ns (t1' ++ o :: t2') = i -> k = o /\ t1' = t1 /\ t2' = t2).
    { intros t1' t2' H1' H2' He. rewrite <- Hflat in He. apply flat_inj in He; auto.
      apply app_inj_len in He. 2:{ apply inb_length in H1'. rewrite outs_length in H1'. lia. }
      destruct He as [-> He]. inversion He; auto. }
    subst od. rewrite Ht.
    assert (Hk1 : nth_error (Zs (t1 ++ k :: t2)) (length a) = Some (Z.of_nat k)).
    { unfold Zs. rewrite nth_error_map, L1, nth_error_app2, Nat.sub_diag by lia. auto. }
    rewrite (sget_ok _ _ _ Hk1). simpl.
    assert (Hinc : vars_increment (a ++ u :: b) (Zs (t1 ++ k :: t2)) =
        Ok (Zs (tup ns (S i)), negb (S (i mod prod ns) =? prod ns)%nat)).
    { rewrite <- Ht. apply vars_increment_tup. auto. }
    destruct (Z.of_nat k =? Z.of_nat o) eqn:Eko.
    + assert (k = o) by lia. subst k.
      rewrite copy_skip_app by (try lia; rewrite Hnw, app_length; lia). simpl.
      unfold f_set, f_index. rewrite Hfv.
      rewrite vars_index_flat by (rewrite !app_length; lia). simpl.
      assert (Hlt : (flat (outs (a ++ b)) (t1 ++ t2) < length (f_data fn))%nat).
      { rewrite Hfd. apply flat_lt. rewrite outs_app. apply inb_app; auto. }
      rewrite sset_ok by auto. simpl. rewrite Hinc. simpl.
      eexists; split; [reflexivity|]. simpl.
      split; [auto|]. split; [rewrite Zs_length, !app_length; lia|].
      split; [auto|]. split; [auto|]. split; [rewrite upd_nth_length; auto|].
      intros t1' t2' H1' H2'. rewrite upd_nth_spec.
      destruct (Nat.eqb_spec (flat (outs (a ++ b)) (t1 ++ t2)) (flat (outs (a ++ b)) (t1' ++ t2'))) as [Ef|Ef].
      * apply flat_inj in Ef; try (rewrite outs_app; apply inb_app; auto).
        apply app_inj_len in Ef. 2:{ apply inb_length in H1'. rewrite outs_length in H1'. lia. }
        destruct Ef as [<- <-].
        destruct (Nat.ltb_spec (flat (outs (a ++ b)) (t1 ++ t2)) (length (f_data fn))); [|lia]. simpl.
        rewrite Hflat. destruct (Nat.ltb_spec i (S i)); [|lia]. f_equal.
        unfold ft. rewrite Hvs. fold ns. rewrite Hflat. symmetry. apply nth_error_nth. auto.
      * simpl. rewrite Hcell by auto. do 2 f_equal.
        destruct (Nat.eq_dec (flat ns (t1' ++ o :: t2')) i) as [Ee|Ee].
        -- destruct (Hcase t1' t2' H1' H2' Ee) as (_ & -> & ->). congruence.
        -- destruct (Nat.ltb_spec (flat ns (t1' ++ o :: t2')) i), (Nat.ltb_spec (flat ns (t1' ++ o :: t2')) (S i)); auto; lia.
    + simpl. rewrite Hinc. simpl. eexists; split; [reflexivity|]. simpl. repeat split; auto.
      intros t1' t2' H1' H2'. rewrite Hcell by auto. do 2 f_equal.
      destruct (Nat.eq_dec (flat ns (t1' ++ o :: t2')) i) as [Ee|Ee].
      * destruct (Hcase t1' t2' H1' H2' Ee) as (-> & _). lia.
      * destruct (Nat.ltb_spec (flat ns (t1' ++ o :: t2')) i), (Nat.ltb_spec (flat ns (t1' ++ o :: t2')) (S i)); auto; lia.
  - rewrite E. simpl. destruct HI as (_ & _ & Hfid & Hfv & Hfd & Hcell).
    exists (f_data fn). split; [|split; auto].
    + f_equal. f_equal. destruct fn; simpl in *; subst; auto.
    + intros t1 t2 H1 H2. rewrite Hcell by auto. f_equal.
      assert (flat ns (t1 ++ o :: t2) < prod ns)%nat.
      { apply flat_lt. rewrite Hns. apply inb_mid; auto. }
      rewrite Hd. destruct (Nat.ltb_spec (flat ns (t1 ++ o :: t2)) (prod ns)); auto; lia.
Qed.

End F.
