(** Properties C01-C18 and C67: factors and the operations on them (package ve,
    factor.go and variables.go). Specification vocabulary: SpecFactor.v. *)
From Coq Require Import ZArith List Bool Lia Arith PeanoNat ZifyBool ZifyNat Permutation QArith Qcanon.
From Coq Require String.
Import (notations) String.
From Verif Require Import Num GoBase VarModel Tuples GoFacts SpecFactor FactorFacts FactorSum FactorProd
  FactorPolicy FactorAt XnumFacts ExactFactor FactorThms.
Import ListNotations.
Open Scope Z_scope.

(** ** Example objects used to show that hypotheses can be met *)
Definition ex_x := mkVar 0 0 2 Chance.
Definition ex_y := mkVar 1 1 3 Chance.
Definition ex_z := mkVar 2 2 2 Chance.
Definition ex_f : factor xnum :=
  mkFactor 0 [ex_x; ex_y] (map (fun z => Fin (qc (inject_Z z))) [1; 2; 3; 4; 4; 0]).
Definition ex_g : factor xnum :=
  mkFactor 1 [ex_y; ex_z] (map (fun z => Fin (qc (inject_Z z))) [1; 0; 2; 5; 7; 1]).
Definition ex_q (a : asg) : Qc := qc (inject_Z (nth (3 * a 0%Z + a 1%Z)%nat [1; 2; 3; 4; 4; 0] 0)).
Definition ex_qg (a : asg) : Qc := qc (inject_Z (nth (2 * a 1%Z + a 2%Z)%nat [1; 0; 2; 5; 7; 1] 0)).
Definition ex_a : asg := fun id => if id =? 1 then 2%nat else 1%nat.
Definition ex_s := mkVS 7 [ex_x; ex_y; ex_z] [].

Example ex_f_wf : wf_factor ex_f /\ wf_factor ex_g.
Proof.
  repeat split; unfold wf_vars; simpl; try reflexivity;
    repeat (constructor; [simpl; intuition discriminate|]); constructor.
Qed.

Example ex_denotes : denotes ex_f ex_q /\ denotes ex_g ex_qg.
Proof.
  split; intros a Ha.
  - assert (H0 : (a 0%Z < 2)%nat) by (apply (Ha ex_x); simpl; auto).
    assert (H1 : (a 1%Z < 3)%nat) by (apply (Ha ex_y); simpl; auto).
    unfold get_at, tuple_of, ex_q. simpl.
    destruct (a 0) as [|[|]]; try lia; destruct (a 1) as [|[|[|]]]; try lia; reflexivity.
  - assert (H0 : (a 1%Z < 3)%nat) by (apply (Ha ex_y); simpl; auto).
    assert (H1 : (a 2%Z < 2)%nat) by (apply (Ha ex_z); simpl; auto).
    unfold get_at, tuple_of, ex_qg. simpl.
    destruct (a 1) as [|[|[|]]]; try lia; destruct (a 2) as [|[|]]; try lia; reflexivity.
Qed.

(** ** C01: indexing is a bijection between in-range tuples and positions *)

Theorem C01_outcomes_of_index : forall (A : Type) (f : factor A) t scratch,
  wf_factor f -> tuple_ok (f_vars f) t -> length scratch = length (f_vars f) ->
  exists i, f_index f t = Ok i /\ 0 <= i < zlen (f_data f) /\ f_outcomes f i scratch = Ok t.
Proof.
  intros A f t scratch Hw Ht Hs. apply tuple_ok_nat in Ht. destruct Ht as (u & -> & Hu).
  exists (Z.of_nat (flat (outs (f_vars f)) u)). unfold f_index, f_outcomes.
  pose proof (inb_length _ _ Hu) as L. rewrite outs_length in L.
  pose proof (flat_lt _ _ Hu). pose proof (prod_pos _ _ Hu).
  split; [apply vars_index_flat; auto|]. split.
  - unfold zlen. rewrite (wf_fits f Hw). lia.
  - rewrite vars_outcomes_tup by auto. rewrite tup_flat; auto.
Qed.

Theorem C01_index_of_outcomes : forall (A : Type) (f : factor A) i scratch,
  wf_factor f -> 0 <= i < zlen (f_data f) -> length scratch = length (f_vars f) ->
  exists t, f_outcomes f i scratch = Ok t /\ tuple_ok (f_vars f) t /\ f_index f t = Ok i.
Proof.
  intros A f i scratch Hw Hi Hs. unfold zlen in Hi. rewrite (wf_fits f Hw) in Hi.
  assert (P : (0 < prod (outs (f_vars f)))%nat) by lia.
  exists (Zs (tup (outs (f_vars f)) (Z.to_nat i))). unfold f_index, f_outcomes.
  split; [|split].
  - rewrite <- (Z2Nat.id i) at 1 by lia. apply vars_outcomes_tup; auto.
  - apply tuple_ok_nat. eexists; split; eauto. apply tup_inb; auto.
  - rewrite vars_index_flat by (rewrite tup_length, outs_length; auto).
    rewrite flat_tup_lt by lia. f_equal. lia.
Qed.

Theorem C01_wrong_length_panics : forall (A : Type) (f : factor A) t i,
  length t <> length (f_vars f) ->
  f_index f t = Panic (PMsg "wrong number of indices") /\
  f_outcomes f i t = Panic (PMsg "wrong number of indices") /\
  f_get f t = Panic (PMsg "wrong number of indices").
Proof.
  intros A f t i H. unfold f_get, f_index, f_outcomes, vars_index, vars_outcomes.
  assert (E : (zlen t =? zlen (f_vars f)) = false) by (unfold zlen; lia).
  rewrite E. auto.
Qed.

Example C01_example :
  wf_factor ex_f /\ tuple_ok (f_vars ex_f) [1; 2] /\
  f_index ex_f [1; 2] = Ok 5 /\ f_outcomes ex_f 5 [0; 0] = Ok [1; 2] /\ zlen (f_data ex_f) = 6.
Proof. split; [apply ex_f_wf|]. repeat split; try reflexivity. repeat constructor; simpl; lia. Qed.

(** ** C02: n increments from zero visit the tuple of position n *)

(** n calls of increment. *)
Fixpoint increments (vs : list variable) (n : nat) (t : list Z) : gores (list Z) :=
  match n with
  | O => Ok t
  | S n' => let! t' := increments vs n' t in let! (t'', _) := vars_increment vs t' in Ok t''
  end.

Theorem C02_odometer : forall vs n scratch,
  (0 < num_cells vs)%nat -> length scratch = length vs ->
  exists t t',
    increments vs n (repeat 0 (length vs)) = Ok t /\
    vars_outcomes vs (Z.of_nat (n mod num_cells vs)) scratch = Ok t /\
    vars_increment vs t = Ok (t', negb (S n mod num_cells vs =? 0)%nat).
Proof.
  intros vs n scratch Hp Hs. rewrite num_cells_prod in *.
  exists (Zs (tup (outs vs) n)), (Zs (tup (outs vs) (S n))). split; [|split].
  - clear Hs. induction n; simpl.
    + rewrite zeros_tup by auto. auto.
    + rewrite IHn. simpl. rewrite vars_increment_tup by auto. auto.
  - rewrite vars_outcomes_tup by auto. rewrite tup_mod by auto. auto.
  - rewrite vars_increment_tup by auto. do 3 f_equal. set (p := prod (outs vs)) in *.
    assert (E : (S n mod p = S (n mod p) mod p)%nat).
    { rewrite <- (Nat.add_1_r n), <- (Nat.add_1_r (n mod p)), Nat.add_mod_idemp_l by lia. auto. }
    rewrite E. pose proof (Nat.mod_upper_bound n p).
    destruct (Nat.eqb_spec (S (n mod p)) p) as [H0|H0].
    + rewrite H0, Nat.mod_same by lia. auto.
    + rewrite Nat.mod_small by lia. auto.
Qed.

Theorem C02_wraps_to_zero : forall vs,
  (0 < num_cells vs)%nat -> increments vs (num_cells vs) (repeat 0 (length vs)) = Ok (repeat 0 (length vs)).
Proof.
  intros vs Hp. destruct (C02_odometer vs (num_cells vs) (repeat 0 (length vs)) Hp (repeat_length _ _)) as (t & t' & E & E2 & _).
  rewrite E. rewrite Nat.mod_same in E2 by lia. rewrite num_cells_prod in Hp.
  change (Z.of_nat 0) with (Z.of_nat 0) in E2. rewrite vars_outcomes_tup in E2; auto using repeat_length.
  rewrite <- zeros_tup in E2 by auto. congruence.
Qed.

Example C02_example : num_cells [ex_x; ex_y] = 6%nat /\
  increments [ex_x; ex_y] 5 [0; 0] = Ok [1; 2] /\ vars_increment [ex_x; ex_y] [1; 2] = Ok ([0; 0], false) /\
  vars_increment [ex_x; ex_y] [0; 2] = Ok ([1; 0], true).
Proof. repeat split. Qed.

(** ** C03: Row is the block of the last variable *)

Theorem C03_row : forall (A : Type) (f : factor A) vs v a,
  wf_factor f -> f_vars f = vs ++ [v] -> in_range vs a ->
  exists row, f_row f (tuple_of vs a) = Ok row /\ length row = v_outcomes v /\
    forall k x, nth_error row k = Some x -> get_at f (upd a (v_id v) k) = Ok x.
Proof. exact @row_spec. Qed.

Example C03_example : f_row ex_f [1] = Ok (map (fun z => Fin (qc (inject_Z z))) [4; 4; 0]).
Proof. reflexivity. Qed.

(** ** C04: Get after Set *)

Theorem C04_set_get : forall (A : Type) (f : factor A) t x,
  wf_factor f -> tuple_ok (f_vars f) t ->
  exists f', f_set f t x = Ok f' /\ f_vars f' = f_vars f /\ wf_factor f' /\
    f_get f' t = Ok x /\
    forall t', tuple_ok (f_vars f) t' -> t' <> t -> f_get f' t' = f_get f t'.
Proof. exact @set_get_spec. Qed.

Example C04_example : exists f', f_set ex_f [1; 0] (Fin (qc 9)) = Ok f' /\ f_get f' [1; 0] = Ok (Fin (qc 9)) /\
  f_get f' [0; 1] = Ok (Fin (qc 2)).
Proof. eexists. repeat split. Qed.

(** ** C05: missing data *)

Theorem C05_no_data : forall (A : Type) (f : factor A) t,
  wf_factor f -> Forall2 (fun v k => k = -1 \/ 0 <= k < Z.of_nat (v_outcomes v)) (f_vars f) t ->
  (In (-1) t -> f_index_nodata f t = Ok (0, false)) /\
  (~ In (-1) t -> exists i, f_index_nodata f t = Ok (i, true) /\ f_index f t = Ok i).
Proof. exact @no_data_spec. Qed.

Theorem C05_wrong_length_panics : forall (A : Type) (f : factor A) t,
  length t <> length (f_vars f) -> f_index_nodata f t = Panic (PMsg "wrong number of indices").
Proof.
  intros A f t H. unfold f_index_nodata, vars_index_nodata.
  assert (E : (zlen t =? zlen (f_vars f)) = false) by (unfold zlen; lia). rewrite E. auto.
Qed.

Example C05_example : f_index_nodata ex_f [1; -1] = Ok (0, false) /\ f_index_nodata ex_f [1; 1] = Ok (4, true).
Proof. split; reflexivity. Qed.

(** ** C06: CreateFactor and fresh ids *)

Theorem C06_create_factor : forall (A : Type) (N : NumOps A) s vs (data : option (list A)),
  match data with
  | None => exists f, create_factor s vs data = Ok (bump s, f) /\ f_vars f = vs /\ f_data f = repeat n0 (num_cells vs)
  | Some d =>
      (length d = num_cells vs -> exists f, create_factor s vs data = Ok (bump s, f) /\ f_vars f = vs /\ f_data f = d) /\
      (length d <> num_cells vs -> create_factor s vs data = Panic (PMsg "wrong data length for factor"))
  end.
Proof.
  intros A N s vs [d|].
  - rewrite num_cells_prod. split; intros H.
    + rewrite create_factor_some by auto. eauto.
    + unfold create_factor. rewrite vars_rows_prod. replace (zlen d =? _) with false by (unfold zlen; lia). auto.
  - rewrite create_factor_none. rewrite num_cells_prod. eauto.
Qed.

(** The calls on a Variables instance that produce factors, with arbitrary arguments. *)
Inductive call (A : Type) :=
| CCreate (vs : list variable) (d : option (list A))
| CRestrict (f : factor A) (v : variable) (o : Z)
| CSumOut (f : factor A) (v : variable)
| CPolicy (f : factor A) (v : variable)
| CRearrange (f : factor A) (vs : list variable)
| CProduct (fs : list (factor A))
| CSum (fs : list (factor A))
| CMarginal (f : factor A) (v : variable)
| CNormalize (f : factor A)
| CNormalizeFor (f : factor A) (v : variable)
| CInvert (f : factor A)
| CAddVariable (id : Z) (t : nodeType) (outcomes : nat).

(** Run a call; the result is the new state and the produced factor, if the call makes one. *)
Definition run_call {A} {N : NumOps A} (s : vstate) (c : call A) : gores (vstate * option (factor A)) :=
  let made r := let! (s', f) := r in Ok (s', Some f) in
  match c with
  | CCreate _ vs d => made (create_factor s vs d)
  | CRestrict _ f v o => made (restrict s f v o)
  | CSumOut _ f v => made (sum_out s f v)
  | CPolicy _ f v => made (policy s f v)
  | CRearrange _ f vs => made (rearrange s f vs)
  | CProduct _ fs => made (product s fs)
  | CSum _ fs => made (sum s fs)
  | CMarginal _ f v => made (marginal s f v)
  | CNormalize _ f => made (normalize s f)
  | CNormalizeFor _ f v => made (normalize_for s f v)
  | CInvert _ f => made (invert s f)
  | CAddVariable _ id t n => let! (s', _) := add_variable s id t n in Ok (s', None)
  end.

(** A history of calls: the factors made, in order. *)
Fixpoint run_calls {A} {N : NumOps A} (s : vstate) (cs : list (call A)) : gores (vstate * list (factor A)) :=
  match cs with
  | [] => Ok (s, [])
  | c :: r =>
      let! (s', o) := run_call s c in
      let! (s'', fs) := run_calls s' r in
      Ok (s'', match o with Some f => f :: fs | None => fs end)
  end.

Lemma run_call_id {A} {N : NumOps A} s (c : call A) s' o : run_call s c = Ok (s', o) ->
  match o with
  | Some f => vs_counter s' = vs_counter s + 1 /\ f_id f = vs_counter s
  | None => vs_counter s' = vs_counter s
  end.
Proof.
  assert (G : forall r, (let! (s', f) := r in Ok (s', Some f)) = Ok (s', o) ->
     (forall s1 f, r = Ok (s1, f) -> s1 = bump s /\ f_id f = vs_counter s) ->
     match o with
     | Some f => vs_counter s' = vs_counter s + 1 /\ f_id f = vs_counter s
     | None => vs_counter s' = vs_counter s
     end).
  { intros r E H. destruct r as [[s1 f]| |]; simpl in E; try discriminate. inversion E; subst.
    destruct (H _ _ eq_refl) as [-> ->]. auto. }
  destruct c; cbn [run_call]; intros E; try (apply G in E; auto; intros s1 f1 E1).
  - apply create_factor_inv in E1. tauto.
  - eapply restrict_id; eauto.
  - eapply sum_out_id; eauto.
  - eapply policy_id; eauto.
  - eapply rearrange_id; eauto.
  - eapply product_id; eauto.
  - eapply sum_id; eauto.
  - eapply marginal_id; eauto.
  - eapply normalize_id; eauto.
  - eapply normalize_for_id; eauto.
  - eapply invert_id; eauto.
  - unfold add_variable in E. destruct (existsb _ _); simpl in E; [discriminate|]. inversion E; subst. auto.
Qed.

Theorem C06_fresh_ids : forall (A : Type) (N : NumOps A) s (cs : list (call A)) s' fs,
  run_calls s cs = Ok (s', fs) -> NoDup (map f_id fs).
Proof.
  intros A N s cs s' fs E.
  assert (G : NoDup (map f_id fs) /\ vs_counter s <= vs_counter s' /\ forall f, In f fs -> vs_counter s <= f_id f).
  { revert s s' fs E. induction cs as [|c cs IH]; simpl; intros s s' fs E.
    - inversion E; subst. split; [constructor|]. split; [lia|]. intros f [].
    - destruct (run_call s c) as [[s1 o]| |] eqn:Ec; simpl in E; try discriminate.
      destruct (run_calls s1 cs) as [[s2 fs2]| |] eqn:Er; simpl in E; try discriminate. inversion E; subst.
      apply run_call_id in Ec. destruct (IH _ _ _ Er) as (H1 & H2 & H3). destruct o as [f|].
      + destruct Ec as [Hc Hid]. split; [|split].
        * simpl. constructor; auto. rewrite in_map_iff. intros (g & Hg & Hin). specialize (H3 g Hin). lia.
        * lia.
        * intros g [<-|Hin]; [lia|]. specialize (H3 g Hin). lia.
      + split; auto. split; [lia|]. intros g Hin. specialize (H3 g Hin). lia. }
  tauto.
Qed.

Example C06_example : exists s' fs,
  run_calls new_variables [CAddVariable _ 0 Chance 2; CCreate _ [ex_x; ex_y] None;
     CProduct _ [ex_f; ex_g]; CSumOut _ ex_f ex_x; CNormalizeFor _ ex_f ex_x; CPolicy _ ex_f ex_y] = Ok (s', fs) /\
  map f_id fs = [0; 1; 2; 3; 4].
Proof. eexists; eexists. split; [vm_compute; reflexivity|reflexivity]. Qed.

Lemma run_call_ids {A} {N : NumOps A} s (c : call A) s' o : run_call s c = Ok (s', o) -> vs_ids s' = vs_ids s.
Proof.
  assert (G : forall r : gores (vstate * factor A), (let! (s', f) := r in Ok (s', Some f)) = Ok (s', o) ->
     (forall s1 f, r = Ok (s1, f) -> s1 = bump s /\ f_id f = vs_counter s) -> vs_ids s' = vs_ids s).
  { intros r E H. destruct r as [[s1 f]| |]; simpl in E; try discriminate. inversion E; subst.
    destruct (H _ _ eq_refl) as [-> _]. auto. }
  destruct c; cbn [run_call]; intros E; try (eapply G; [exact E|intros s1 f1 E1]).
  - apply create_factor_inv in E1. tauto.
  - eapply restrict_id; eauto.
  - eapply sum_out_id; eauto.
  - eapply policy_id; eauto.
  - eapply rearrange_id; eauto.
  - eapply product_id; eauto.
  - eapply sum_id; eauto.
  - eapply marginal_id; eauto.
  - eapply normalize_id; eauto.
  - eapply normalize_for_id; eauto.
  - eapply invert_id; eauto.
  - unfold add_variable in E. destruct (existsb _ _); simpl in E; [discriminate|]. inversion E; subst. auto.
Qed.

(** ** C07: Restrict *)

Theorem C07_restrict : forall (A : Type) (N : NumOps A) s (f : factor A) v o,
  wf_factor f -> In v (f_vars f) -> (o < v_outcomes v)%nat ->
  exists f', restrict s f v (Z.of_nat o) = Ok (bump s, f') /\
    wf_factor f' /\ f_vars f' = others (f_vars f) v /\
    forall a, in_range (f_vars f') a -> get_at f' a = get_at f (upd a (v_id v) o).
Proof. intros A N s f v o H1 H2 H3. destruct (restrict_at s f v o H1 H2 H3) as (f' & H). exists f'. tauto. Qed.

Theorem C07_restrict_panics : forall (A : Type) (N : NumOps A) s (f : factor A) v o,
  ~ In (v_id v) (map v_id (f_vars f)) \/ o < 0 \/ Z.of_nat (v_outcomes v) <= o ->
  exists p, restrict s f v o = Panic p.
Proof.
  intros A N s f v o H. unfold restrict, v_out.
  destruct ((o <? 0) || (Z.of_nat (v_outcomes v) <=? o)) eqn:E; [eauto|].
  destruct H as [H|H]; [|exfalso; lia].
  unfold smake. destruct (zlen (f_vars f) - 1 <? 0); simpl; [eauto|].
  rewrite scan_vars_notin by auto. simpl. eauto.
Qed.

Example C07_example : In ex_y (f_vars ex_f) /\ exists f', restrict ex_s ex_f ex_y 1 = Ok (bump ex_s, f') /\
  f_vars f' = [ex_x] /\ map xshow (f_data f') = [SFin 2; SFin 4].
Proof. split; [simpl; auto|]. eexists. split; [vm_compute; reflexivity|]. split; reflexivity. Qed.

(** ** C08: SumOut *)

Theorem C08_sum_out : forall (A : Type) (N : NumOps A) s (f : factor A) v,
  wf_factor f -> In v (f_vars f) ->
  exists f', sum_out s f v = Ok (bump s, f') /\
    wf_factor f' /\ f_vars f' = others (f_vars f) v /\
    forall a, in_range (f_vars f') a ->
      get_at f' a = sum_of (map (fun k => get_at f (upd a (v_id v) k)) (seq 0 (v_outcomes v))).
Proof. intros A N s f v H1 H2. destruct (sum_out_at s f v H1 H2) as (f' & H). exists f'. tauto. Qed.

Theorem C08_sum_out_exact : forall s (f : factor xnum) v q,
  wf_factor f -> In v (f_vars f) -> denotes f q ->
  exists f', sum_out s f v = Ok (bump s, f') /\
    denotes f' (fun a => qsum (map (fun k => q (upd a (v_id v) k)) (seq 0 (v_outcomes v)))).
Proof. intros s f v q H1 H2 H3. destruct (denotes_sum_out s f v q H1 H2 H3) as (f' & H). exists f'. tauto. Qed.

Theorem C08_sum_out_panics : forall (A : Type) (N : NumOps A) s (f : factor A) v,
  ~ In (v_id v) (map v_id (f_vars f)) -> exists p, sum_out s f v = Panic p.
Proof.
  intros A N s f v H. unfold sum_out. unfold smake. destruct (zlen (f_vars f) - 1 <? 0); simpl; [eauto|].
  rewrite scan_vars_notin by auto. simpl. eauto.
Qed.

Example C08_example : exists f', sum_out ex_s ex_f ex_x = Ok (bump ex_s, f') /\
  f_vars f' = [ex_y] /\ map xshow (f_data f') = [SFin 5; SFin 6; SFin 3].
Proof. eexists. split; [vm_compute; reflexivity|]. split; reflexivity. Qed.

(** The same theorem speaks about float64: 0.1 + 0.2 is summed with rounding. *)
Example C08_float_example : exists f',
  sum_out ex_s (mkFactor 0 [ex_x] [f64_dec 1 1; f64_dec 2 1]) ex_x = Ok (bump ex_s, f') /\
  f_data f' = [nadd (f64_dec 1 1) (f64_dec 2 1)] /\ nadd (f64_dec 1 1) (f64_dec 2 1) <> f64_dec 3 1.
Proof. eexists. split; [vm_compute; reflexivity|]. split; [vm_compute; reflexivity|]. vm_compute. discriminate. Qed.

(** ** C09, C10: Product and Sum *)

Theorem C09_product : forall (A : Type) (N : NumOps A) s (fs : list (factor A)),
  Forall wf_factor fs -> consistent fs ->
  exists f', product s fs = Ok (bump s, f') /\ wf_factor f' /\
    (forall v, In v (f_vars f') <-> exists f, In f fs /\ In v (f_vars f)) /\
    forall a, in_range (f_vars f') a ->
      get_at f' a = match fs with [f] => get_at f a | _ => prod_of (map (fun f => get_at f a) fs) end.
Proof. intros A N s fs H1 H2. destruct (product_at s fs H1 H2) as (f' & H). exists f'. tauto. Qed.

Theorem C09_product_order : forall (A : Type) (N : NumOps A) s (fs : list (factor A)) f',
  Forall wf_factor fs -> consistent fs -> product s fs = Ok (bump s, f') ->
  f_vars f' = first_occurrences (concat (map f_vars fs)).
Proof. exact @product_order. Qed.

Theorem C09_product_exact : forall s (fs : list (factor xnum)) qs,
  Forall wf_factor fs -> consistent fs -> Forall2 denotes fs qs ->
  exists f', product s fs = Ok (bump s, f') /\ denotes f' (fun a => qprod (map (fun q => q a) qs)).
Proof. intros s fs qs H1 H2 H3. destruct (denotes_product s fs qs H1 H2 H3) as (f' & H). exists f'. tauto. Qed.

Theorem C10_sum : forall (A : Type) (N : NumOps A) s (fs : list (factor A)),
  Forall wf_factor fs -> consistent fs ->
  exists f', sum s fs = Ok (bump s, f') /\ wf_factor f' /\
    (forall v, In v (f_vars f') <-> exists f, In f fs /\ In v (f_vars f)) /\
    forall a, in_range (f_vars f') a ->
      get_at f' a = match fs with [f] => get_at f a | _ => sum_of (map (fun f => get_at f a) fs) end.
Proof. intros A N s fs H1 H2. destruct (sum_at s fs H1 H2) as (f' & H). exists f'. tauto. Qed.

Theorem C10_sum_exact : forall s (fs : list (factor xnum)) qs,
  Forall wf_factor fs -> consistent fs -> Forall2 denotes fs qs ->
  exists f', sum s fs = Ok (bump s, f') /\ denotes f' (fun a => qsum (map (fun q => q a) qs)).
Proof. intros s fs qs H1 H2 H3. destruct (denotes_sum s fs qs H1 H2 H3) as (f' & H). exists f'. tauto. Qed.

Example C09_hypotheses : Forall wf_factor [ex_f; ex_g] /\ consistent [ex_f; ex_g] /\
  Forall2 denotes [ex_f; ex_g] [ex_q; ex_qg].
Proof.
  split; [constructor; [apply ex_f_wf|constructor; [apply ex_f_wf|constructor]]|split].
  - intros f g v w Hf Hg Hv Hw E. simpl in Hf, Hg.
    repeat match goal with H : _ \/ _ |- _ => destruct H | H : False |- _ => destruct H end; subst;
      simpl in Hv, Hw;
      repeat match goal with H : _ \/ _ |- _ => destruct H | H : False |- _ => destruct H end; subst;
      auto; discriminate.
  - constructor; [apply ex_denotes|constructor; [apply ex_denotes|constructor]].
Qed.

Example C09_example : exists f', product ex_s [ex_f; ex_g] = Ok (bump ex_s, f') /\
  f_vars f' = [ex_x; ex_y; ex_z] /\
  map xshow (f_data f') = map (fun z => SFin (inject_Z z)) [1; 0; 4; 10; 21; 3; 4; 0; 8; 20; 0; 0].
Proof. eexists. split; [vm_compute; reflexivity|]. split; reflexivity. Qed.

Example C10_example : exists f', sum ex_s [ex_f; ex_g] = Ok (bump ex_s, f') /\
  f_vars f' = [ex_x; ex_y; ex_z] /\
  map xshow (f_data f') = map (fun z => SFin (inject_Z z)) [2; 1; 4; 7; 10; 4; 5; 4; 6; 9; 7; 1].
Proof. eexists. split; [vm_compute; reflexivity|]. split; reflexivity. Qed.

(** ** C11: Marginal *)

Theorem C11_marginal : forall (A : Type) (N : NumOps A) s (f : factor A) v,
  wf_factor f -> In v (f_vars f) ->
  exists f', marginal s f v = Ok (bump s, f') /\ wf_factor f' /\ f_vars f' = [v] /\
    forall a, in_range [v] a ->
      get_at f' a = sum_of (map (get_at f) (worlds (others (f_vars f) v) a)).
Proof. intros A N s f v H1 H2. destruct (marginal_at s f v H1 H2) as (f' & H). exists f'. tauto. Qed.

Theorem C11_marginal_exact : forall s (f : factor xnum) v q,
  wf_factor f -> In v (f_vars f) -> denotes f q ->
  exists f', marginal s f v = Ok (bump s, f') /\ f_vars f' = [v] /\
    denotes f' (fun a => qsum (map q (worlds (others (f_vars f) v) a))).
Proof. intros s f v q H1 H2 H3. destruct (denotes_marginal s f v q H1 H2 H3) as (f' & H). exists f'. tauto. Qed.

Example C11_example : exists f', marginal ex_s ex_g ex_z = Ok (bump ex_s, f') /\
  f_vars f' = [ex_z] /\ map xshow (f_data f') = [SFin 10; SFin 6].
Proof. eexists. split; [vm_compute; reflexivity|]. split; reflexivity. Qed.

(** ** C12: Normalize *)

(** [total] is the sum of all values. *)
Theorem C12_normalize : forall s (f : factor xnum) q,
  wf_factor f -> denotes f q ->
  let total := qsum (map q (worlds (f_vars f) (fun _ => O))) in
  exists f', normalize s f = Ok (bump s, f') /\ wf_factor f' /\ f_vars f' = f_vars f /\
    (total <> 0%Qc ->
       denotes f' (fun a => (q a / total)%Qc) /\
       qsum (map (fun a => (q a / total)%Qc) (worlds (f_vars f) (fun _ => O))) = 1%Qc) /\
    (total = 0%Qc -> forall a, in_range (f_vars f) a -> q a = 0%Qc -> get_at f' a = Ok NaN).
Proof.
  intros s f q Hw Hd total. destruct (denotes_normalize s f q (fun _ => O) Hw Hd) as (f' & E & _ & Hw' & Hvs & H1 & H2).
  exists f'. do 3 (split; auto). fold total in H1, H2. split.
  - intros Ht. split; auto. unfold Qcdiv. rewrite qsum_scale_r. fold total. apply Qcmult_inv_r. auto.
  - intros Ht a Ha Hq. rewrite H2 by auto. rewrite Hq. reflexivity.
Qed.

Example C12_example : exists f', normalize ex_s ex_g = Ok (bump ex_s, f') /\
  map xshow (f_data f') = [SFin (1#16); SFin 0; SFin (1#8); SFin (5#16); SFin (7#16); SFin (1#16)].
Proof. eexists. split; vm_compute; reflexivity. Qed.

(** ** C13: NormalizeFor *)

Theorem C13_normalize_for : forall s (f : factor xnum) v q,
  wf_factor f -> In v (f_vars f) -> (0 < v_outcomes v)%nat -> denotes f q ->
  let row a := qsum (map (fun k => q (upd a (v_id v) k)) (seq 0 (v_outcomes v))) in
  exists f' q', normalize_for s f v = Ok (bump s, f') /\ wf_factor f' /\
    f_vars f' = others (f_vars f) v ++ [v] /\ denotes f' q' /\
    (forall a, row a = 0%Qc -> q' a = q a) /\
    (forall a, row a <> 0%Qc -> q' a = (q a / row a)%Qc) /\
    (forall a, in_range (f_vars f) a -> row a <> 0%Qc -> qsum (map (fun k => q' (upd a (v_id v) k)) (seq 0 (v_outcomes v))) = 1%Qc).
Proof.
  intros s f v q Hw Hin Hp Hd row. destruct (denotes_normalize_for s f v q Hw Hin Hp Hd) as (f' & E & _ & Hw' & Hvs & Hd').
  exists f'. eexists. do 3 (split; [eassumption|]). split; [exact Hd'|]. cbn zeta.
  split; [|split]; intros a Ha; [| |intros Ha'].
  - fold (row a). rewrite Ha, qeq_refl. auto.
  - fold (row a). rewrite qeq_neq; auto.
  - assert (Hr : forall k, qsum (map (fun j => q (upd (upd a (v_id v) k) (v_id v) j)) (seq 0 (v_outcomes v))) =
       qsum (map (fun j => q (upd a (v_id v) j)) (seq 0 (v_outcomes v)))).
    { intros k. apply qsum_ext. intros j Hj. apply in_seq in Hj. apply (denotes_upd2 f); auto. lia. }
    rewrite (qsum_ext _ (fun k => q (upd a (v_id v) k) * / row a)%Qc).
    + rewrite qsum_scale_r. apply Qcmult_inv_r. auto.
    + intros k Hk. rewrite Hr. fold (row a). rewrite qeq_neq; auto.
Qed.

Example C13_example : exists f', normalize_for ex_s ex_f ex_x = Ok (bump ex_s, f') /\ f_vars f' = [ex_y; ex_x] /\
  map xshow (f_data f') = [SFin (1#5); SFin (4#5); SFin (1#3); SFin (2#3); SFin 1; SFin 0].
Proof. eexists. split; [vm_compute; reflexivity|]. split; vm_compute; reflexivity. Qed.

(** ** C14, C15: Rearrange *)

Theorem C14_rearrange : forall (A : Type) (N : NumOps A) s (f : factor A) vars,
  wf_factor f -> Permutation vars (f_vars f) ->
  exists f', rearrange s f vars = Ok (bump s, f') /\ wf_factor f' /\ f_vars f' = vars /\
    forall a, in_range vars a -> get_at f' a = get_at f a.
Proof. intros A N s f v H1 H2. destruct (rearrange_at s f v H1 H2) as (f' & H). exists f'. tauto. Qed.

Theorem C14_rearrange_back : forall (A : Type) (N : NumOps A) s s' (f f' : factor A) vars,
  wf_factor f -> Permutation vars (f_vars f) -> rearrange s f vars = Ok (s', f') ->
  exists f'', rearrange s' f' (f_vars f) = Ok (bump s', f'') /\ f_vars f'' = f_vars f /\ f_data f'' = f_data f.
Proof. exact @rearrange_back. Qed.

Example C14_example : Permutation [ex_y; ex_x] (f_vars ex_f) /\
  exists f', rearrange ex_s ex_f [ex_y; ex_x] = Ok (bump ex_s, f') /\
  map xshow (f_data f') = map (fun z => SFin (inject_Z z)) [1; 4; 2; 4; 3; 0].
Proof. split; [apply perm_swap|]. eexists. split; vm_compute; reflexivity. Qed.

(** The full C15 is false: a list that repeats a variable is accepted. *)
Theorem C15_rearrange_accepts_duplicates_refuted : exists s (f f' : factor xnum) vars,
  wf_factor f /\ ~ Permutation vars (f_vars f) /\ rearrange s f vars = Ok (bump s, f') /\ f_vars f' = vars.
Proof.
  exists ex_s, ex_f. eexists. exists [ex_x; ex_x]. split; [apply ex_f_wf|]. split.
  - intros H. assert (Hin : In ex_y [ex_x; ex_x]) by (eapply Permutation_in; [apply Permutation_sym; apply H|simpl; auto]).
    simpl in Hin. intuition discriminate.
  - split; [vm_compute; reflexivity|reflexivity].
Qed.

(** What holds: lists of another length or with a foreign variable panic. Missing for the
    full property: lists of the right length that repeat a variable (refuted above). *)
Theorem C15_rearrange_rejects_partial : forall (A : Type) (N : NumOps A) s (f : factor A) vars,
  length vars <> length (f_vars f) \/ (exists v, In v vars /\ ~ In v (f_vars f)) ->
  exists p, rearrange s f vars = Panic p.
Proof. exact @rearrange_rejects. Qed.

(** ** C16: Policy *)

Theorem C16_policy : forall s (f : factor xnum) v q,
  wf_factor f -> In v (f_vars f) -> (0 < v_outcomes v)%nat -> denotes f q ->
  let u a k := q (upd a (v_id v) k) in
  let n := v_outcomes v in
  exists f' p, policy s f v = Ok (bump s, f') /\ wf_factor f' /\ f_vars f' = others (f_vars f) v ++ [v] /\
    denotes f' p /\
    (forall a, (forall k, (k < n)%nat -> (u a k <= u a (a (v_id v)))%Qc) ->
       p a = (1 / qc (inject_Z (Z.of_nat (num_max (u a) n))))%Qc) /\
    (forall a k, (k < n)%nat -> (u a (a (v_id v)) < u a k)%Qc -> p a = 0%Qc) /\
    (forall a, in_range (f_vars f) a -> qsum (map (fun k => p (upd a (v_id v) k)) (seq 0 n)) = 1%Qc).
Proof. exact policy_exact_spec. Qed.

Example C16_example : exists f', policy ex_s ex_f ex_x = Ok (bump ex_s, f') /\ f_vars f' = [ex_y; ex_x] /\
  map xshow (f_data f') = [SFin 0; SFin 1; SFin 0; SFin 1; SFin 1; SFin 0].
Proof. eexists. split; [vm_compute; reflexivity|]. split; vm_compute; reflexivity. Qed.

Example C16_tie_example : exists f', policy ex_s ex_f ex_y = Ok (bump ex_s, f') /\
  map xshow (f_data f') = [SFin 0; SFin 0; SFin 1; SFin (1#2); SFin (1#2); SFin 0].
Proof. eexists. split; vm_compute; reflexivity. Qed.

(** ** C17: Invert *)

Theorem C17_invert : forall s (f : factor xnum) q,
  wf_factor f -> denotes f q ->
  exists f', invert s f = Ok (bump s, f') /\ wf_factor f' /\ f_vars f' = f_vars f /\
    forall a, in_range (f_vars f) a ->
      (q a <> 0%Qc -> get_at f' a = Ok (Fin (1 / q a)%Qc)) /\ (q a = 0%Qc -> get_at f' a = Ok PInf).
Proof.
  intros s f q Hw Hd. destruct (denotes_invert s f q Hw Hd) as (f' & E & _ & Hw' & Hvs & Hat).
  exists f'. do 3 (split; auto). intros a Ha. rewrite Hat by auto. split; intros H.
  - rewrite qeq_neq by auto. auto.
  - rewrite H. rewrite qeq_refl. auto.
Qed.

Theorem C17_invert_twice : forall s s' (f f' : factor xnum) q,
  wf_factor f -> denotes f q -> (forall a, q a <> 0%Qc) -> invert s f = Ok (s', f') ->
  exists f'', invert s' f' = Ok (bump s', f'') /\ f_vars f'' = f_vars f /\ denotes f'' q.
Proof.
  intros s s' f f' q Hw Hd Hnz E.
  destruct (denotes_invert s f q Hw Hd) as (f1 & E1 & _ & Hw1 & Hvs1 & Hat1).
  rewrite E1 in E. inversion E; subst s' f'.
  destruct (denotes_invert (bump s) f1 (fun a => (1 / q a)%Qc)) as (f2 & E2 & _ & Hw2 & Hvs2 & Hat2); auto.
  { intros a Ha. rewrite Hvs1 in Ha. rewrite Hat1 by auto. rewrite qeq_neq; auto. }
  exists f2. split; auto. split; [congruence|]. intros a Ha. rewrite Hvs2 in Ha. rewrite Hat2 by auto.
  assert (1 / q a <> 0)%Qc.
  { intros H. apply (Hnz a). rewrite <- (Qcmult_1_l (q a)). rewrite <- (Qcmult_inv_r (q a)) by auto.
    unfold Qcdiv in H. rewrite Qcmult_1_l in H. rewrite H. ring. }
  rewrite qeq_neq by auto. do 2 f_equal. field. repeat split; auto. discriminate.
Qed.

Example C17_example : exists f', invert ex_s ex_f = Ok (bump ex_s, f') /\
  map xshow (f_data f') = [SFin 1; SFin (1#2); SFin (1#3); SFin (1#4); SFin (1#4); SPInf].
Proof. eexists. split; vm_compute; reflexivity. Qed.

(** ** C18: duplicate ids are not rejected *)

(** False of the code: AddVariable never records ids, so after any history of calls
    on a new Variables instance, adding any id again succeeds. *)
Theorem C18_duplicate_ids_accepted_refuted : forall (A : Type) (N : NumOps A) (cs : list (call A)) s fs id t n,
  run_calls new_variables cs = Ok (s, fs) ->
  exists s' v, add_variable s id t n = Ok (s', v) /\ v_id v = id.
Proof.
  intros A N cs s fs id t n E.
  assert (G : forall s0, vs_ids s0 = [] -> run_calls s0 cs = Ok (s, fs) -> vs_ids s = []).
  { clear E. revert fs. induction cs as [|c cs IH]; simpl; intros fs s0 H0 E; [inversion E; subst; auto|].
    destruct (run_call s0 c) as [[s1 o]| |] eqn:Ec; simpl in E; try discriminate.
    destruct (run_calls s1 cs) as [[s2 fs2]| |] eqn:Er; simpl in E; try discriminate. inversion E; subst s2.
    eapply IH; [|exact Er]. rewrite (run_call_ids _ _ _ _ Ec). auto. }
  unfold add_variable. rewrite (G new_variables eq_refl E). simpl. eauto.
Qed.

Example C18_example : exists s s' v v', add_variable new_variables 5 Chance 2 = Ok (s, v) /\
  add_variable s 5 Decision 3 = Ok (s', v') /\ v_id v = v_id v'.
Proof. eexists; eexists; eexists; eexists. repeat split. Qed.

(** ** C67: silent overflow of the table size *)

(** False of the code: with 64-bit ints the row count wraps, and a factor with no values
    is created for variables with 2^64 joint outcomes. *)
Theorem C67_size_overflow_refuted : exists vs,
  (forall v, In v vs -> Z.of_nat (v_outcomes v) <= 65535) /\
  fold_right (fun v n => Z.of_nat (v_outcomes v) * n) 1 vs = 2 ^ 64 /\
  exists s' f, create_factor_int64 (A := xnum) new_variables vs None = Ok (s', f) /\ f_data f = [].
Proof. exact (@size_overflow_spec xnum xnum_ops). Qed.

(** What holds: with at most 2^63-1 joint outcomes the 64-bit computation is exact, so the
    unbounded integers used elsewhere in the model lose nothing. Missing: larger products (refuted above). *)
Theorem C67_no_overflow_partial : forall (A : Type) (N : NumOps A) s vs d,
  Forall (fun v => 0 < v_outcomes v)%nat vs -> Z.of_nat (num_cells vs) < 2 ^ 63 ->
  create_factor_int64 (A := A) s vs d = create_factor s vs d.
Proof. exact @no_overflow_spec. Qed.

Example C67_example : Z.of_nat (num_cells [ex_x; ex_y]) < 2 ^ 63.
Proof. reflexivity. Qed.

Print Assumptions C01_outcomes_of_index.
Print Assumptions C01_index_of_outcomes.
Print Assumptions C01_wrong_length_panics.
Print Assumptions C02_odometer.
Print Assumptions C02_wraps_to_zero.
Print Assumptions C03_row.
Print Assumptions C04_set_get.
Print Assumptions C05_no_data.
Print Assumptions C05_wrong_length_panics.
Print Assumptions C06_create_factor.
Print Assumptions C06_fresh_ids.
Print Assumptions C07_restrict.
Print Assumptions C07_restrict_panics.
Print Assumptions C08_sum_out.
Print Assumptions C08_sum_out_exact.
Print Assumptions C08_sum_out_panics.
Print Assumptions C09_product.
Print Assumptions C09_product_order.
Print Assumptions C09_product_exact.
Print Assumptions C10_sum.
Print Assumptions C10_sum_exact.
Print Assumptions C11_marginal.
Print Assumptions C11_marginal_exact.
Print Assumptions C12_normalize.
Print Assumptions C13_normalize_for.
Print Assumptions C14_rearrange.
Print Assumptions C14_rearrange_back.
Print Assumptions C15_rearrange_accepts_duplicates_refuted.
Print Assumptions C15_rearrange_rejects_partial.
Print Assumptions C16_policy.
Print Assumptions C17_invert.
Print Assumptions C17_invert_twice.
Print Assumptions C18_duplicate_ids_accepted_refuted.
Print Assumptions C67_size_overflow_refuted.
Print Assumptions C67_no_overflow_partial.
