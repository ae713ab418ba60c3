(** The factors, dependencies and weights created by toVE. *)
From Coq Require Import ZArith List Bool String Lia Permutation QArith Qcanon.
From Verif Require Import Num GoBase VarModel GoFacts Tuples SpecFactor FactorFacts FactorAt XnumFacts ExactFactor FactorThms
  VEModel SpecVE VEWorlds VEFacts VESolve VEThms NetModel SpecNet NetVars.
Import ListNotations.
Open Scope string_scope.
Open Scope list_scope.
Open Scope Z_scope.

Section NF.
Variable n : network xnum.
Hypothesis Hwf : wf_network n.

Notation vars := (n_vars n).
Definition lookup (x : string) : option nentry := sget_map (name_map (entries n)) x.
Definition vv (x : string) : variable := match lookup x with Some e => en_ve e | None => mkVar 0 0 0 Chance end.
(** The state of names belonging to an assignment of ids. *)
Definition by_name (a : asg) : nstate := fun x => match lookup x with Some e => a (v_id (en_ve e)) | None => 0%nat end.
Definition known (x : string) : Prop := is_total n x = false /\ exists v, var_named vars x = Some v.

Lemma var_named_in x v : var_named vars x = Some v <-> In v vars /\ nv_name v = x.
Proof.
  unfold var_named. split.
  - intros H. apply find_some in H. destruct H as [H E]. apply String.eqb_eq in E. auto.
  - intros [Hin <-]. pose proof (wn_names n Hwf) as Hd. induction (n_vars n) as [|u l IH]; [destruct Hin|].
    simpl. simpl in Hd. inversion Hd; subst. destruct Hin as [->|Hin].
    + rewrite String.eqb_refl. auto.
    + destruct (String.eqb (nv_name u) (nv_name v)) eqn:E; auto.
      apply String.eqb_eq in E. exfalso. apply H1. rewrite E. apply in_map. auto.
Qed.

Lemma name_pos_inj i j u v : nth_error vars i = Some u -> nth_error vars j = Some v -> nv_name u = nv_name v -> i = j.
Proof.
  intros Hi Hj E. pose proof (wn_names n Hwf) as Hd. rewrite NoDup_nth_error in Hd. apply Hd.
  - rewrite map_length. apply nth_error_Some. congruence.
  - rewrite !nth_error_map, Hi, Hj. simpl. congruence.
Qed.

Lemma is_total_spec i v : nth_error vars i = Some v -> is_total n (nv_name v) = (Z.of_nat i =? n_tui n).
Proof.
  intros Hi. unfold is_total. destruct (nth_error vars (Z.to_nat (n_tui n))) as [t|] eqn:Et.
  - destruct (0 <=? n_tui n) eqn:E0; simpl.
    + destruct (String.eqb (nv_name t) (nv_name v)) eqn:E.
      * apply String.eqb_eq in E. pose proof (name_pos_inj _ _ _ _ Et Hi E). lia.
      * apply String.eqb_neq in E. symmetry. apply Z.eqb_neq. intros Hn. apply E.
        rewrite <- Hn, Nat2Z.id in Et. congruence.
    + lia.
  - symmetry. apply Z.eqb_neq. intros Hn. rewrite <- Hn, Nat2Z.id in Et. congruence.
Qed.

Lemma entries_nodup : NoDup (map (fun e => nv_name (en_var e)) (entries n)).
Proof. apply entries_names_nodup. apply Hwf. Qed.

Lemma lookup_spec x e : lookup x = Some e <-> In e (entries n) /\ nv_name (en_var e) = x.
Proof. apply name_map_get. apply entries_nodup. Qed.

Lemma lookup_known x : known x -> exists k v, nth_error vars k = Some v /\ nv_name v = x /\ var_named vars x = Some v /\
  Z.of_nat k <> n_tui n /\ lookup x = Some (ve_entry n (Z.of_nat k, v)).
Proof.
  intros [Ht (v & Hv)]. pose proof Hv as Hv'. apply var_named_in in Hv. destruct Hv as [Hin Hn].
  apply In_nth_error in Hin. destruct Hin as (k & Hk).
  assert (Hne : Z.of_nat k <> n_tui n).
  { rewrite <- Hn, (is_total_spec k v Hk) in Ht. lia. }
  exists k, v. repeat split; auto. apply lookup_spec. split; [|simpl; auto]. apply in_entries. eauto.
Qed.

Lemma lookup_inv x e : lookup x = Some e -> known x /\ var_named vars x = Some (en_var e) /\ en_ve e = vv x.
Proof.
  intros H. pose proof H as H0. apply lookup_spec in H. destruct H as [Hin Hn]. apply in_entries in Hin.
  destruct Hin as (k & v & Hk & Hne & ->). simpl in *. subst x.
  assert (var_named vars (nv_name v) = Some v) by (apply var_named_in; split; auto; eapply nth_error_In; eauto).
  unfold known. rewrite (is_total_spec k v Hk). repeat split; eauto; try lia. unfold vv. rewrite H0. auto.
Qed.

Lemma vv_in x : known x -> In (vv x) (net_vars n).
Proof.
  intros H. destruct (lookup_known x H) as (k & v & _ & _ & _ & _ & E). unfold vv. rewrite E.
  unfold net_vars. apply in_map. apply lookup_spec in E. tauto.
Qed.

Lemma u16_outcomes v : In v vars -> u16 (zlen (nv_outcomes v)) = List.length (nv_outcomes v).
Proof. intros H. pose proof (wn_outcomes n Hwf v H). apply Nat2Z.inj. rewrite u16_small by lia. auto. Qed.

Lemma vv_outcomes x : known x -> v_outcomes (vv x) = num_outcomes vars x /\ (0 < v_outcomes (vv x))%nat.
Proof.
  intros H. destruct (lookup_known x H) as (k & v & Hk & _ & Hv & _ & E). unfold vv. rewrite E. simpl.
  apply nth_error_In in Hk. rewrite u16_outcomes by auto. unfold num_outcomes. rewrite Hv. split; auto.
  pose proof (wn_outcomes n Hwf v Hk). unfold zlen in *. lia.
Qed.

Lemma vv_inj x y : known x -> known y -> v_id (vv x) = v_id (vv y) -> x = y.
Proof.
  intros Hx Hy E. destruct (lookup_known x Hx) as (k & v & Hk & <- & _ & _ & Ex).
  destruct (lookup_known y Hy) as (k' & v' & Hk' & <- & _ & _ & Ey).
  unfold vv in E. rewrite Ex, Ey in E. simpl in E. apply Nat2Z.inj in E. subst k'. congruence.
Qed.

Lemma vv_surj v : In v (net_vars n) -> exists x, known x /\ v = vv x.
Proof.
  intros H. unfold net_vars in H. apply in_map_iff in H. destruct H as (e & <- & Hin).
  assert (L : lookup (nv_name (en_var e)) = Some e) by (apply lookup_spec; auto).
  destruct (lookup_inv _ _ L) as (Hk & _ & Hv). eauto.
Qed.

Lemma by_name_vv a x : known x -> by_name a x = a (v_id (vv x)).
Proof. intros H. destruct (lookup_known x H) as (k & v & _ & _ & _ & _ & E). unfold by_name, vv. rewrite E. auto. Qed.

Lemma by_name_upd a x k : known x -> forall y, by_name (upd a (v_id (vv x)) k) y = nupd (by_name a) x k y.
Proof.
  intros Hx y. unfold nupd. destruct (String.eqb y x) eqn:E.
  - apply String.eqb_eq in E. subst y. rewrite by_name_vv by auto. apply upd_same.
  - apply String.eqb_neq in E. unfold by_name. destruct (lookup y) as [e|] eqn:Ly; auto.
    destruct (lookup_inv _ _ Ly) as (Hy & _ & Hv). rewrite Hv. apply upd_other. intros Hid. apply E. apply vv_inj; auto.
Qed.

Lemma by_name_proper a b : asg_eq a b -> forall y, by_name a y = by_name b y.
Proof. intros H y. unfold by_name. destruct (lookup y); auto. Qed.

(** Tables. *)
Lemma cell_flat names s : forall acc,
  fold_left (fun i x => (i * num_outcomes vars x + s x)%nat) names acc =
  (acc * prod (map (num_outcomes vars) names) + flat (map (num_outcomes vars) names) (map s names))%nat.
Proof. induction names; intros acc; simpl; [lia|]. rewrite IHnames. lia. Qed.

Lemma cell_spec names s : cell vars names s = flat (map (num_outcomes vars) names) (map s names).
Proof. unfold cell. rewrite cell_flat. lia. Qed.

Lemma table_size_prod names : table_size vars names = prod (map (num_outcomes vars) names).
Proof. induction names; simpl; auto. Qed.

Lemma outs_vv names : (forall x, In x names -> known x) -> outs (map vv names) = map (num_outcomes vars) names.
Proof. intros H. unfold outs. rewrite map_map. apply map_ext_in. intros x Hx. apply vv_outcomes. auto. Qed.

Lemma tof_vv names a : (forall x, In x names -> known x) -> tof (map vv names) a = map (by_name a) names.
Proof. intros H. unfold tof. rewrite map_map. apply map_ext_in. intros x Hx. symmetry. apply by_name_vv. auto. Qed.

Lemma wf_vars_vv names : (forall x, In x names -> known x) -> NoDup names -> wf_vars (map vv names).
Proof.
  intros H Hd. unfold wf_vars. rewrite map_map. induction names; simpl; constructor.
  - intros Hin. apply in_map_iff in Hin. destruct Hin as (y & Hy & Hin). inversion Hd; subst. apply H2.
    rewrite <- (vv_inj y a); simpl in *; auto.
  - apply IHnames; simpl in *; auto. inversion Hd; auto.
Qed.

Definition tvars (f : nfactor xnum) : list variable := map vv (nf_given f ++ [nf_for f]).

Lemma table_names f : is_total n (nf_for f) = false -> wf_table n f -> forall x, In x (nf_given f ++ [nf_for f]) -> known x.
Proof.
  intros Ht Hw x Hin. apply in_app_iff in Hin. destruct Hin as [Hin|[<-|[]]].
  - apply (wt_given n f Hw). auto.
  - split; auto. apply Hw.
Qed.

Lemma entry_proper f s s' : (forall y, s y = s' y) -> entry vars f s = entry vars f s'.
Proof.
  intros H. unfold entry. do 2 f_equal. rewrite !cell_spec. f_equal. apply map_ext. auto.
Qed.

Lemma nupd_proper s s' x k : (forall y, s y = s' y) -> forall y, nupd s x k y = nupd s' x k y.
Proof. intros H y. unfold nupd. destruct (String.eqb y x); auto. Qed.

Lemma row_sum_proper f s s' : (forall y, s y = s' y) -> row_sum vars f s = row_sum vars f s'.
Proof. intros H. unfold row_sum. apply qsum_ext. intros k _. apply entry_proper. apply nupd_proper. auto. Qed.

Lemma cond_prob_proper f s s' : (forall y, s y = s' y) -> cond_prob vars f s = cond_prob vars f s'.
Proof. intros H. unfold cond_prob. rewrite (row_sum_proper f s s'), (entry_proper f s s'); auto. Qed.

Lemma table_denotes f id l : is_total n (nf_for f) = false -> wf_table n f ->
  nf_table f = Some (map Fin l) -> List.length l = table_size vars (nf_given f ++ [nf_for f]) ->
  wf_factor (mkFactor id (tvars f) (map Fin l)) /\
  denotes (mkFactor id (tvars f) (map Fin l)) (fun a => entry vars f (by_name a)).
Proof.
  intros Ht Hw Hl Hlen. pose proof (table_names f Ht Hw) as Hk.
  assert (Ho : outs (tvars f) = map (num_outcomes vars) (nf_given f ++ [nf_for f])) by (apply outs_vv; auto).
  assert (Hfit : List.length (map Fin l) = prod (outs (tvars f))).
  { rewrite map_length, Hlen, table_size_prod, Ho. auto. }
  split.
  - apply fits_wf; [exact Hfit|]. simpl. apply wf_vars_vv; auto. apply Hw.
  - intros a Ha. simpl in Ha. apply in_range_inb in Ha. pose proof (flat_lt _ _ Ha) as Hlt.
    apply mk_get_at; auto. { apply in_range_inb. auto. }
    unfold entry. rewrite Hl. simpl slice_of. rewrite cell_spec, <- Ho, <- (tof_vv _ a Hk). fold (tvars f).
    destruct (nth_error (map Fin l) (flat (outs (tvars f)) (tof (tvars f) a))) eqn:E.
    + rewrite nth_error_map in E. destruct (nth_error l _); inversion E; subst. auto.
    + apply nth_error_None in E. lia.
Qed.

(** What a table of the network becomes. *)
Definition table_value (f : nfactor xnum) (s : nstate) : Qc :=
  match kind vars (nf_for f) with Some Chance => cond_prob vars f s | _ => entry vars f s end.
Definition became (f : nfactor xnum) (g : factor xnum) : Prop :=
  wf_factor g /\ f_vars g = tvars f /\ denotes g (fun a => table_value f (by_name a)).

Definition is_table (f : nfactor xnum) : bool :=
  negb (is_total n (nf_for f)) && match kind vars (nf_for f) with Some Decision => false | Some _ => true | None => false end.
(** A decision without policy *)
Definition is_open (f : nfactor xnum) : bool :=
  negb (is_total n (nf_for f)) && match kind vars (nf_for f) with Some Decision => true | _ => false end
  && negb (has_key (n_policies n) (nf_for f)).

Definition dep_of (f : nfactor xnum) : variable * list variable := (vv (nf_for f), map vv (nf_given f)).

Lemma kind_known x : known x -> exists t, kind vars x = Some t /\
  v_type (vv x) = (if nodeType_eqb t Decision && has_key (n_policies n) x then Chance else t).
Proof.
  intros H. destruct (lookup_known x H) as (k & v & Hk & Hn & Hv & _ & E). exists (nv_type v).
  unfold kind, vv. rewrite Hv, E. simpl. split; auto. unfold ve_type. rewrite Hn. auto.
Qed.

Lemma last_tvars (f : nfactor xnum) : sget (map vv (nf_given f) ++ [vv (nf_for f)]) (zlen (map vv (nf_given f) ++ [vv (nf_for f)]) - 1) = Ok (vv (nf_for f)).
Proof.
  replace (zlen (map vv (nf_given f) ++ [vv (nf_for f)]) - 1) with (Z.of_nat (List.length (map vv (nf_given f)))).
  - apply sget_ok. rewrite nth_error_app2 by lia. rewrite Nat.sub_diag. auto.
  - unfold zlen. rewrite app_length. simpl. lia.
Qed.

Lemma others_last f : is_total n (nf_for f) = false -> wf_table n f ->
  others (tvars f) (vv (nf_for f)) ++ [vv (nf_for f)] = tvars f.
Proof.
  intros Ht Hw. pose proof (wf_vars_vv _ (table_names f Ht Hw) (wt_distinct n f Hw)) as H.
  unfold tvars in *. rewrite map_app in *. simpl in *. f_equal.
  unfold wf_vars in H. rewrite map_app in H. simpl in H. apply NoDup_remove_2 in H. rewrite app_nil_r in H.
  change (map vv (nf_given f)) with (map vv (nf_given f)) at 2.
  rewrite (others_split (map vv (nf_given f)) (vv (nf_for f)) []); auto. apply app_nil_r.
Qed.

Lemma mapM_given (f : nfactor xnum) : is_total n (nf_for f) = false -> wf_table n f ->
  mapM (fun g => match sget_map (name_map (entries n)) g with
                 | None => Err (EMsg "variable in factor not found")
                 | Some vv => Ok (en_ve vv) end) (nf_given f) = Ok (map vv (nf_given f)).
Proof.
  intros Ht Hw. apply mapM_ok. intros x Hx.
  destruct (lookup_known x) as (k & v & _ & _ & _ & _ & E).
  { apply (table_names f Ht Hw). apply in_or_app. auto. }
  unfold lookup in E. unfold vv, lookup. rewrite E. auto.
Qed.

Lemma total_name_eq (f : nfactor xnum) : (is_total n (nf_for f) = false -> wf_table n f) ->
  String.eqb (nf_for f) (total_name n) = is_total n (nf_for f).
Proof.
  intros Hw. unfold total_name. destruct (n_tui n <? 0) eqn:E0.
  - assert (is_total n (nf_for f) = false) as Ht.
    { unfold is_total. destruct (nth_error vars (Z.to_nat (n_tui n))); auto. replace (0 <=? n_tui n) with false by lia. auto. }
    rewrite Ht. apply String.eqb_neq. destruct (wt_for n f (Hw Ht)) as (v & Hv). apply var_named_in in Hv.
    destruct Hv as [Hin <-]. apply Hwf. auto.
  - unfold is_total in *. destruct (nth_error vars (Z.to_nat (n_tui n))) as [t|] eqn:Et.
    + replace (0 <=? n_tui n) with true by lia. simpl. apply String.eqb_sym.
    + apply String.eqb_neq. destruct (wt_for n f (Hw eq_refl)) as (v & Hv). apply var_named_in in Hv.
      destruct Hv as [Hin <-]. apply Hwf. auto.
Qed.

Definition vs_at (c : Z) : vstate := mkVS c (net_vars n) [].

Theorem add_net_factors_ok L : (forall f, In f L -> is_total n (nf_for f) = false -> wf_table n f) -> forall c deps0 fs0,
  exists c' fs, foldM (add_net_factor (name_map (entries n)) (total_name n)) (vs_at c, deps0, fs0) L
      = Ok (vs_at c', fold_left (fun m f => mset var_eqb m (fst (dep_of f)) (snd (dep_of f))) (filter is_open L) deps0, fs0 ++ fs) /\
    Forall2 became (filter is_table L) fs /\ c <= c' /\
    NoDup (map f_id fs) /\ forall f, In f fs -> c <= f_id f < c'.
Proof.
  induction L as [|f L IH]; intros Hw c deps0 fs0.
  - exists c, []. simpl. rewrite app_nil_r. repeat split; auto; try lia; try constructor; intros ? [].
  - assert (Hf := Hw f (or_introl eq_refl)). specialize (IH (fun g Hg => Hw g (or_intror Hg))).
    cbn [foldM]. unfold add_net_factor at 1. rewrite (total_name_eq f Hf).
    cbn [filter].
    assert (Ho : is_open f = negb (is_total n (nf_for f)) && match kind vars (nf_for f) with Some Decision => true | _ => false end
      && negb (has_key (n_policies n) (nf_for f))) by reflexivity.
    assert (Hta : is_table f = negb (is_total n (nf_for f)) && match kind vars (nf_for f) with Some Decision => false | Some _ => true | None => false end)
      by reflexivity.
    rewrite Ho, Hta. clear Ho Hta.
    destruct (is_total n (nf_for f)) eqn:Et; cbn [negb andb].
    { cbn [gbind]. apply IH. }
    specialize (Hf eq_refl). assert (Hkn : known (nf_for f)) by (split; auto; apply Hf).
    destruct (lookup_known _ Hkn) as (k & v & Hk & Hn & Hv & _ & E). unfold lookup in E. rewrite E.
    rewrite (mapM_given f Et Hf). cbn [gbind].
    assert (Ev : en_ve (ve_entry n (Z.of_nat k, v)) = vv (nf_for f)) by (unfold vv, lookup; rewrite E; auto).
    rewrite Ev. destruct (kind_known _ Hkn) as (t & Hkt & Htype). rewrite Hkt, Htype.
    assert (Hvt : nv_type (en_var (ve_entry n (Z.of_nat k, v))) = t).
    { simpl. unfold kind in Hkt. rewrite Hv in Hkt. simpl in Hkt. congruence. }
    rewrite Hvt.
    destruct (nodeType_eqb t Decision) eqn:Etd.
    + assert (Heq : t = Decision) by (destruct t; try discriminate; auto). rewrite Heq in *. clear Heq. cbn [andb].
      destruct (has_key (n_policies n) (nf_for f)) eqn:Ep; cbn [nodeType_eqb negb andb gbind].
      * apply IH.
      * cbn [fold_left]. apply IH.
    + cbn [andb]. rewrite Etd. 
      replace (match t with Decision => true | _ => false end) with false by (destruct t; auto; simpl in Etd; congruence).
      replace (match t with Decision => false | _ => true end) with true by (destruct t; auto; simpl in Etd; congruence).
      cbn [andb].
      destruct (wt_table n f Hf) as (l & Hl & Hlen). { rewrite Hkt. intros Hc. inversion Hc as [Hc']. rewrite Hc' in Etd. discriminate Etd. }
      rewrite Hl. destruct (table_denotes f c l Et Hf Hl Hlen) as [Hwfc Hden].
      pose proof (wf_fits _ Hwfc) as Hfit. unfold fits in Hfit. simpl in Hfit.
      assert (Etv : map vv (nf_given f) ++ [vv (nf_for f)] = tvars f) by (unfold tvars; rewrite map_app; auto).
      rewrite last_tvars, Etv.
      rewrite (create_factor_some (vs_at c) (tvars f) (map Fin l) Hfit). cbn [gbind vs_counter vs_at].
      destruct (nodeType_eqb t Chance) eqn:Etc.
      * assert (Heq : t = Chance) by (destruct t; try discriminate; auto). rewrite Heq in *. clear Heq.
        assert (Hinv : In (vv (nf_for f)) (tvars f)) by (rewrite <- Etv; apply in_or_app; simpl; auto).
        destruct (denotes_normalize_for (bump (vs_at c)) (mkFactor c (tvars f) (map Fin l)) (vv (nf_for f)) _ Hwfc Hinv
          (proj2 (vv_outcomes _ Hkn)) Hden) as (g & Eg & Hgid & Hgw & Hgv & Hgd).
        unfold bump in Eg. cbn [vs_at vs_counter vs_vars vs_ids] in Eg |- *. rewrite Eg. cbn [gbind].
        destruct (IH (c + 1 + 1) deps0 (fs0 ++ [g])) as (c' & fs & E' & Hfs & Hc & Hnd & Hids).
        unfold vs_at in E'. unfold vs_at. cbn [bump vs_counter vs_vars vs_ids] in *.
        exists c', (g :: fs). rewrite E'. split; [rewrite <- app_assoc; auto|].
        simpl in Hgid, Hgv. rewrite (others_last f Et Hf) in Hgv.
        split; [|split; [lia|split]].
        { constructor; auto. split; auto. split; auto.
          intros a Ha. rewrite Hgd by auto. do 2 f_equal. unfold table_value. rewrite Hkt.
          unfold cond_prob.
          assert (Hrs : qsum (map (fun k => entry vars f (by_name (upd a (v_id (vv (nf_for f))) k))) (seq 0 (v_outcomes (vv (nf_for f)))))
            = row_sum vars f (by_name a)).
          { unfold row_sum. rewrite (proj1 (vv_outcomes _ Hkn)). apply qsum_ext. intros j _. apply entry_proper.
            apply by_name_upd. auto. }
          cbv zeta. rewrite Hrs. auto. }
        { simpl. constructor; auto. intros Hin. apply in_map_iff in Hin. destruct Hin as (h & Hh & Hin).
          specialize (Hids h Hin). lia. }
        { intros h [<-|Hin]; [lia|]. specialize (Hids h Hin). lia. }
      * cbn [gbind].
        destruct (IH (c + 1) deps0 (fs0 ++ [mkFactor c (tvars f) (map Fin l)])) as (c' & fs & E' & Hfs & Hc & Hnd & Hids).
        unfold vs_at in E'. unfold vs_at. cbn [vs_vars vs_ids].
        exists c', (mkFactor c (tvars f) (map Fin l) :: fs). rewrite E'. split; [rewrite <- app_assoc; auto|].
        split; [|split; [lia|split]].
        { constructor; auto. split; auto. split; auto.
          intros a Ha. rewrite Hden by auto. unfold table_value. rewrite Hkt. destruct t; auto; simpl in Etc; congruence. }
        { simpl. constructor; auto. intros Hin. apply in_map_iff in Hin. destruct Hin as (h & Hh & Hin).
          specialize (Hids h Hin). lia. }
        { intros h [<-|Hin]; [simpl; lia|]. specialize (Hids h Hin). lia. }
Qed.

End NF.
