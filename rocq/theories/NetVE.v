(** The elimination problem created by toVE. *)
From Coq Require Import ZArith List Bool String Lia Permutation QArith Qcanon.
From Verif Require Import Num GoBase VarModel GoFacts Tuples SpecFactor FactorFacts FactorAt XnumFacts ExactFactor FactorThms
  VEModel SpecVE VEWorlds VEFacts VESolve VEThms VEUtil NetModel SpecNet NetVars NetFactors.
Import ListNotations.
Open Scope string_scope.
Open Scope list_scope.
Open Scope Z_scope.

Lemma get_at_same (f g : factor xnum) a : map v_id (f_vars f) = map v_id (f_vars g) ->
  outs (f_vars f) = outs (f_vars g) -> f_data f = f_data g -> get_at f a = get_at g a.
Proof.
  intros Hi Ho Hd. unfold get_at, f_get, f_index. rewrite !tuple_of_tof, !vars_index_flat by apply tof_length.
  simpl. rewrite Hd, Ho. do 2 f_equal. unfold tof.
  rewrite <- !(map_map v_id a), Hi. auto.
Qed.

Lemma value_same (f g : factor xnum) a : map v_id (f_vars f) = map v_id (f_vars g) ->
  outs (f_vars f) = outs (f_vars g) -> f_data f = f_data g -> value f a = value g a.
Proof. intros. unfold value. rewrite (get_at_same f g); auto. Qed.

Lemma Forall2_filter {X Y} (R : X -> Y -> Prop) p q l l' : (forall x y, In x l -> R x y -> p x = q y) -> Forall2 R l l' ->
  Forall2 R (filter p l) (filter q l').
Proof.
  intros H F. induction F; simpl; auto. rewrite (H x y); simpl; auto.
  assert (Forall2 R (filter p l) (filter q l')) by (apply IHF; intros; apply H; simpl; auto).
  destruct (q y); auto.
Qed.

Lemma Forall2_qprod {X Y} (R : X -> Y -> Prop) (F : X -> Qc) (G : Y -> Qc) l l' :
  (forall x y, R x y -> F x = G y) -> Forall2 R l l' -> qprod (map F l) = qprod (map G l').
Proof. intros H F2. induction F2; simpl; auto. rewrite IHF2, (H x y); auto. Qed.

Lemma Forall2_qsum {X Y} (R : X -> Y -> Prop) (F : X -> Qc) (G : Y -> Qc) l l' :
  (forall x y, In x l -> R x y -> F x = G y) -> Forall2 R l l' -> qsum (map F l) = qsum (map G l').
Proof. intros H F2. induction F2; simpl; auto. rewrite IHF2, (H x y); simpl; auto. intros. apply H; simpl; auto. Qed.

Lemma Forall2_in_l {X Y} (R : X -> Y -> Prop) l l' x : Forall2 R l l' -> In x l -> exists y, In y l' /\ R x y.
Proof. induction 1; intros Hin; [destruct Hin|]. destruct Hin as [<-|Hin]; simpl; eauto. destruct (IHForall2 Hin) as (z & ? & ?). eauto. Qed.
Lemma Forall2_in_r {X Y} (R : X -> Y -> Prop) l l' y : Forall2 R l l' -> In y l' -> exists x, In x l /\ R x y.
Proof. induction 1; intros Hin; [destruct Hin|]. destruct Hin as [<-|Hin]; simpl; eauto. destruct (IHForall2 Hin) as (z & ? & ?). eauto. Qed.

Lemma mset_in {K V} (eqb : K -> K -> bool) (Heq : forall a b, eqb a b = true <-> a = b) (m : list (K * V)) k v x :
  In x (mset eqb m k v) -> In x m \/ x = (k, v).
Proof.
  induction m as [|[k' v'] m IH]; simpl; intros H.
  - destruct H as [<-|[]]; auto.
  - destruct (eqb k k') eqn:E; destruct H as [H|H]; auto; [apply Heq in E; subst; auto|]. destruct (IH H); auto.
Qed.

Lemma NoDup_app_intro {X} (a b : list X) : NoDup a -> NoDup b -> (forall x, In x a -> In x b -> False) -> NoDup (a ++ b).
Proof.
  intros Ha Hb H. induction Ha; simpl; auto. constructor.
  - intros Hin. apply in_app_iff in Hin. destruct Hin; auto. apply (H x); simpl; auto.
  - apply IHHa. intros y Hy. apply H. simpl. auto.
Qed.

Section NV.
Variable n : network xnum.
Hypothesis Hwf : wf_network n.
Notation vars := (n_vars n).
Notation vv := (vv n).
Notation by_name := (by_name n).
Notation known := (known n).

Lemma tui_utility i v : nth_error vars i = Some v -> nv_type v <> Utility -> Z.of_nat i <> n_tui n.
Proof.
  intros Hi Hu E. destruct (wn_total n Hwf) as [H|(j & t & k & f & l & Hj & Ht & Htt & _)]; [lia|].
  rewrite Hj in E. apply Nat2Z.inj in E. subst j. congruence.
Qed.

Definition pol_var (v : variable) : variable :=
  if nodeType_eqb (v_type v) Decision then
    match nth_error (all_entries n) (Z.to_nat (v_id v)) with
    | Some e => if has_key (n_policies n) (nv_name (en_var e)) then withNodeType v Chance else v
    | None => v
    end
  else v.

Lemma represents_vv v : represents n v -> exists i nv, nth_error vars i = Some nv /\ v_id v = Z.of_nat i /\
  nv_type nv <> Utility /\ known (nv_name nv) /\ pol_var v = vv (nv_name nv) /\
  v_id v = v_id (vv (nv_name nv)) /\ v_outcomes v = v_outcomes (vv (nv_name nv)) /\
  nth_error (all_entries n) i = Some (ve_entry n (Z.of_nat i, nv)).
Proof.
  intros (i & nv & Hi & Hid & Hix & Ho & Hu & Hty).
  pose proof (tui_utility i nv Hi Hu) as Hne.
  assert (Hk : known (nv_name nv)).
  { split. { rewrite (is_total_spec n Hwf i nv Hi). lia. }
    exists nv. apply (var_named_in n Hwf). split; auto. eapply nth_error_In; eauto. }
  assert (Ha : nth_error (all_entries n) i = Some (ve_entry n (Z.of_nat i, nv))).
  { unfold all_entries. rewrite nth_error_map, numbered_nth, Hi. simpl. unfold keeps. simpl.
    replace (Z.of_nat i =? n_tui n) with false by lia. auto. }
  destruct (lookup_known n Hwf _ Hk) as (k & v' & Hk' & Hn' & _ & _ & L).
  assert (k = i) by (apply (name_pos_inj n Hwf k i v' nv); auto). subst k.
  assert (v' = nv) by congruence. subst v'.
  assert (Evv : vv (nv_name nv) = mkVar (v_id v) (v_index v) (v_outcomes v) (ve_type n nv)).
  { unfold NetFactors.vv. rewrite L. unfold ve_entry. simpl. rewrite Hid. f_equal.
    - unfold ve_index. rewrite <- Hix. lia.
    - rewrite (u16_outcomes n Hwf); auto. eapply nth_error_In; eauto. }
  exists i, nv. split; auto. split; auto. split; auto. split; auto. split; [|split; [|split]]; auto.
  - rewrite Evv. unfold pol_var. rewrite Hid, Nat2Z.id, Ha. simpl. unfold ve_type.
    destruct Hty as [Hty|(Hd & Hc & Hp)].
    + rewrite Hty. destruct (nodeType_eqb (nv_type nv) Decision) eqn:E; simpl.
      * destruct (has_key (n_policies n) (nv_name nv)); simpl; [|rewrite <- Hty; rewrite <- Hid; destruct v; auto].
        unfold withNodeType. rewrite Hid. auto.
      * rewrite <- Hty, <- Hid. destruct v; auto.
    + rewrite Hc, Hd, Hp. simpl. rewrite <- Hc, <- Hid. destruct v; auto.
  - rewrite Evv. auto.
  - rewrite Evv. auto.
Qed.

Lemma pol_vars_ok (p : factor xnum) : (forall v, In v (f_vars p) -> represents n v) ->
  mapM (fun v => if nodeType_eqb (v_type v) Decision then
            let! vv := sget (all_entries n) (v_id v) in
            if has_key (n_policies n) (nv_name (en_var vv)) then Ok (withNodeType v Chance) else Ok v
          else Ok v) (f_vars p : list variable) = Ok (map pol_var (f_vars p)).
Proof.
  intros H. apply mapM_ok. intros v Hv. destruct (represents_vv v (H v Hv)) as (i & nv & Hi & Hid & _ & _ & _ & _ & _ & Ha).
  unfold pol_var. destruct (nodeType_eqb (v_type v) Decision); auto.
  rewrite Hid, (sget_ok _ _ _ Ha), Nat2Z.id, Ha. cbn [gbind]. destruct (has_key _ _); auto.
Qed.

Definition pol_became (dp : string * factor xnum) (g : factor xnum) : Prop :=
  wf_factor g /\ f_vars g = map pol_var (f_vars (snd dp)) /\
  denotes g (fun a => policy_prob vars (snd dp) (by_name a)).

Lemma positions_by_name a v : represents n v -> positions vars (by_name a) (v_id v) = a (v_id v).
Proof.
  intros H. destruct (represents_vv v H) as (i & nv & Hi & Hid & _ & Hk & _ & Hvid & _).
  unfold positions. rewrite Hid, Nat2Z.id, Hi. rewrite (by_name_vv n Hwf) by auto. rewrite <- Hvid, Hid. auto.
Qed.

Lemma policy_became id x (p : factor xnum) : wf_policy n x p -> pol_became (x, p) (mkFactor id (map pol_var (f_vars p)) (f_data p)).
Proof.
  intros Hp. simpl.
  assert (Hi : map v_id (map pol_var (f_vars p)) = map v_id (f_vars p)).
  { rewrite map_map. apply map_ext_in. intros v Hv. destruct (represents_vv v (wp_scope n x p Hp v Hv)) as (i & nv & _ & _ & _ & _ & -> & <- & _). auto. }
  assert (Ho : outs (map pol_var (f_vars p)) = outs (f_vars p)).
  { unfold outs. rewrite map_map. apply map_ext_in. intros v Hv. destruct (represents_vv v (wp_scope n x p Hp v Hv)) as (i & nv & _ & _ & _ & _ & -> & _ & <- & _). auto. }
  split; [|split; auto].
  - split; simpl; unfold wf_vars; [rewrite Hi; apply Hp|]. rewrite num_cells_prod, Ho, <- num_cells_prod. apply Hp.
  - intros a Ha. simpl in *.
    assert (Hr : in_range (f_vars p) a).
    { apply in_range_inb. apply in_range_inb in Ha. rewrite Ho in Ha. unfold tof in *. rewrite <- (map_map v_id a), Hi, map_map in Ha. auto. }
    rewrite (get_at_same _ p); auto. unfold policy_prob.
    rewrite (value_agree p (positions vars (by_name a)) a).
    + destruct (wp_finite n x p Hp a Hr) as (q & E). unfold value. rewrite E. auto.
    + intros v Hv. apply positions_by_name. apply (wp_scope n x p Hp). auto.
Qed.

Lemma pol_create c x (p : factor xnum) : wf_policy n x p ->
  create_factor (vs_at n c) (map pol_var (f_vars p)) (Some (f_data p)) =
  Ok (vs_at n (c + 1), mkFactor c (map pol_var (f_vars p)) (f_data p)).
Proof.
  intros Hp. destruct (policy_became c x p Hp) as [Hw _]. apply wf_fits in Hw.
  rewrite create_factor_some; auto.
Qed.

Lemma policy_list_ok ev (L : list (string * factor xnum)) : (forall x p, In (x, p) L -> wf_policy n x p) -> forall c fs0,
  exists c' fs, foldM (fun '(vs, fs) '((name, f) : string * factor xnum) =>
      if has_key (ev : list (string * string)) name then Ok (vs, fs)
      else
        let! variables := mapM (fun v =>
            if nodeType_eqb (v_type v) Decision then
              let! vv := sget (all_entries n) (v_id v) in
              if has_key (n_policies n) (nv_name (en_var vv)) then Ok (withNodeType v Chance) else Ok v
            else Ok v) (f_vars f) in
        let! (vs, fac) := create_factor vs variables (Some (f_data f)) in
        Ok (vs, fs ++ [fac])) (vs_at n c, fs0) L = Ok (vs_at n c', fs0 ++ fs) /\
    Forall2 pol_became (filter (fun dp => negb (has_key ev (fst dp))) L) fs /\ c <= c' /\
    NoDup (map f_id fs) /\ forall f, In f fs -> c <= f_id f < c'.
Proof.
  induction L as [|[x p] L IH]; intros Hw c fs0.
  - exists c, []. simpl. rewrite app_nil_r. repeat split; auto; try lia; try constructor; intros ? [].
  - specialize (IH (fun y q Hq => Hw y q (or_intror Hq))). assert (Hp := Hw x p (or_introl eq_refl)).
    cbn [foldM filter fst]. destruct (has_key ev x); cbn [negb].
    { cbn [gbind]. apply IH. }
    rewrite (pol_vars_ok p (wp_scope n x p Hp)). cbn [gbind]. rewrite (pol_create c x p Hp). cbn [gbind].
    destruct (IH (c + 1) (fs0 ++ [mkFactor c (map pol_var (f_vars p)) (f_data p)])) as (c' & fs & E' & Hfs & Hc & Hnd & Hids).
    exists c', (mkFactor c (map pol_var (f_vars p)) (f_data p) :: fs). rewrite E'.
    split; [rewrite <- app_assoc; auto|]. split; [|split; [lia|split]].
    + constructor; auto. apply policy_became; auto.
    + simpl. constructor; auto. intros Hin. apply in_map_iff in Hin. destruct Hin as (h & Hh & Hin). specialize (Hids h Hin). lia.
    + intros h [<-|Hin]; [simpl; lia|]. specialize (Hids h Hin). lia.
Qed.

(** Weights. *)
Definition utility_nodes : list nvar :=
  map snd (filter (fun iv => negb (fst iv =? n_tui n) && nodeType_eqb (nv_type (snd iv)) Utility) (numbered n)).
Definition weights : option (list Qc) :=
  if n_tui n <? 0 then None else Some (map (fun u => net_weight n (nv_name u)) utility_nodes).

Lemma str_index_position x l : In x l -> str_index l x = Z.of_nat (position x l) /\ (position x l < List.length l)%nat.
Proof.
  intros Hin. assert (G : forall i, index_func_from (String.eqb x) l i = i + Z.of_nat (position x l) /\ (position x l < List.length l)%nat).
  { induction l; [destruct Hin|]. intros i. simpl. destruct (String.eqb x a) eqn:E; [simpl; lia|].
    apply String.eqb_neq in E. destruct Hin as [->|Hin]; [congruence|]. destruct (IHl Hin (i + 1)). simpl. lia. }
  apply (G 0).
Qed.

Lemma weights_ok : prepare_utility_weights n = Ok (finite_weights weights).
Proof.
  unfold prepare_utility_weights, weights. destruct (n_tui n <? 0) eqn:E0; auto.
  destruct (wn_total n Hwf) as [H|(i & v & k & f & l & Hi & Hv & Hu & Hk & Hf & Hl & Hlen & Hall)]; [lia|].
  rewrite Hi, (sget_ok _ _ _ Hv). cbn [gbind]. rewrite Hk, (sget_ok _ _ _ Hf). cbn [gbind].
  rewrite mapM_ok with (g := fun u => Fin (net_weight n (nv_name u))).
  - cbn [gbind finite_weights option_map]. do 2 f_equal. unfold utility_nodes, numbered. rewrite !map_map. f_equal. rewrite Hi. apply filter_ext. intros [j w]. auto.
  - intros u Hin. apply in_map_iff in Hin. destruct Hin as ([j w] & Hw & Hin). simpl in Hw. subst w.
    apply filter_In in Hin. destruct Hin as [Hin Hc]. apply andb_true_iff in Hc. destruct Hc as [Hc1 Hc2].
    apply in_numbered in Hin. destruct Hin as (j' & -> & Hj).
    assert (In (nv_name u) (nf_given f)) as Hin.
    { apply (Hall j' u Hj); [intros ->; lia|]. destruct (nv_type u); auto; discriminate. }
    destruct (str_index_position _ _ Hin) as [Ei Hlt]. rewrite Ei.
    replace (Z.of_nat (position (nv_name u) (nf_given f)) <? 0) with false by lia.
    rewrite Hl. simpl slice_of. 
    assert (Hnw : net_weight n (nv_name u) = fin_value (nth_error (map Fin l) (position (nv_name u) (nf_given f)))).
    { unfold net_weight, total_factor. rewrite E0, Hi, Nat2Z.id, Hv, Hk, Hf, Hl. auto. }
    rewrite Hnw. destruct (nth_error (map Fin l) (position (nv_name u) (nf_given f))) eqn:En.
    + rewrite (sget_ok _ _ _ En). rewrite nth_error_map in En. destruct (nth_error l _); inversion En; subst. auto.
    + apply nth_error_None in En. rewrite map_length in En. lia.
Qed.

(** Utility variables. *)
Lemma ve_type_utility v : ve_type n v = Utility <-> nv_type v = Utility.
Proof. unfold ve_type. destruct (nv_type v); simpl; split; intros H; try discriminate; auto. destruct (has_key _ _); discriminate. Qed.

Lemma vv_utility x : known x -> (v_type (vv x) = Utility <-> kind vars x = Some Utility).
Proof.
  intros H. destruct (kind_known n Hwf x H) as (t & Hk & Ht). rewrite Hk, Ht.
  destruct t; simpl; try (split; congruence). destruct (has_key _ _); split; congruence.
Qed.


Lemma vv_of_entry i v : nth_error vars i = Some v -> Z.of_nat i <> n_tui n ->
  known (nv_name v) /\ vv (nv_name v) = en_ve (ve_entry n (Z.of_nat i, v)).
Proof.
  intros Hi Hne.
  assert (Hk : known (nv_name v)).
  { split. { rewrite (is_total_spec n Hwf i v Hi). lia. }
    exists v. apply (var_named_in n Hwf). split; auto. eapply nth_error_In; eauto. }
  split; auto. destruct (lookup_known n Hwf _ Hk) as (k & v' & Hk' & Hn' & _ & _ & L).
  assert (k = i) by (apply (name_pos_inj n Hwf k i v' v); auto). subst k.
  unfold NetFactors.vv. rewrite L. congruence.
Qed.

Lemma filter_map_comm' {X Y} (p : Y -> bool) (f : X -> Y) l : filter p (map f l) = map f (filter (fun x => p (f x)) l).
Proof. induction l; simpl; auto. destruct (p (f a)); simpl; rewrite IHl; auto. Qed.
Lemma filter_filter {X} (p q : X -> bool) l : filter p (filter q l) = filter (fun x => q x && p x) l.
Proof. induction l; simpl; auto. destruct (q a); simpl; rewrite ?IHl; auto. Qed.

Lemma net_vars_filter p (q : nvar -> bool) : (forall i v, nth_error vars i = Some v -> Z.of_nat i <> n_tui n -> p (vv (nv_name v)) = q v) ->
  filter p (net_vars n) = map (fun iv => vv (nv_name (snd iv))) (filter (fun iv => negb (fst iv =? n_tui n) && q (snd iv)) (numbered n)).
Proof.
  intros H. unfold net_vars, entries. rewrite map_map, filter_map_comm', filter_filter.
  assert (E : forall i v, In (i, v) (numbered n) -> i <> n_tui n -> en_ve (ve_entry n (i, v)) = vv (nv_name v) /\ p (vv (nv_name v)) = q v).
  { intros i v Hin Hne. apply in_numbered in Hin. destruct Hin as (k & -> & Hk). destruct (vv_of_entry k v Hk Hne) as [_ ->]. split; auto.
    destruct (vv_of_entry k v Hk Hne) as [_ <-]. eapply H; eauto. }
  erewrite filter_ext_in with (g := fun iv => negb (fst iv =? n_tui n) && q (snd iv)).
  - apply map_ext_in. intros [i v] Hin. apply filter_In in Hin. destruct Hin as [Hin Hc]. apply andb_true_iff in Hc. simpl in *.
    apply E; auto. lia.
  - intros [i v] Hin. unfold keeps. simpl. destruct (i =? n_tui n) eqn:Ei; auto. simpl. apply Z.eqb_neq in Ei.
    destruct (E i v Hin Ei) as [E1 E2]. rewrite <- E2, <- E1. auto.
Qed.

Lemma utilities_net : utilities_of (net_vars n) = map (fun v => vv (nv_name v)) utility_nodes.
Proof.
  unfold utilities_of. rewrite (net_vars_filter _ (fun v => nodeType_eqb (nv_type v) Utility)).
  - unfold utility_nodes. rewrite map_map. auto.
  - intros i v Hi Hne. destruct (vv_of_entry i v Hi Hne) as [_ ->]. simpl.
    pose proof (ve_type_utility v). destruct (ve_type n v), (nv_type v); simpl; auto; intuition discriminate.
Qed.

Definition non_utility : list nvar := filter (fun v => negb (is_kind Utility v)) vars.
Definition worldly : list variable := filter (fun v => negb (nodeType_eqb (v_type v) Utility)) (net_vars n).

Lemma worldly_net : worldly = map (fun v => vv (nv_name v)) non_utility.
Proof.
  unfold worldly, non_utility. rewrite (net_vars_filter _ (fun v => negb (is_kind Utility v))).
  - assert (E : vars = map snd (numbered n)).
    { unfold numbered. apply nth_error_ext. intros k. rewrite nth_error_map. fold (numbered n). rewrite numbered_nth.
      destruct (nth_error vars k); auto. }
    rewrite E. rewrite filter_map_comm', map_map. f_equal. apply filter_ext_in. intros [i v] Hin. simpl.
    apply in_numbered in Hin. destruct Hin as (k & -> & Hk). unfold is_kind. destruct (nodeType_eqb (nv_type v) Utility) eqn:Et; [apply andb_false_r|].
    pose proof (tui_utility k v Hk). destruct (Z.of_nat k =? n_tui n) eqn:Eq; auto. simpl.
    exfalso. apply H; [|lia]. intros E'. rewrite E' in Et. discriminate.
  - intros i v Hi Hne. destruct (vv_of_entry i v Hi Hne) as [_ ->]. simpl. unfold is_kind. f_equal.
    pose proof (ve_type_utility v). destruct (ve_type n v), (nv_type v); simpl; auto; intuition discriminate.
Qed.

(** ** toVE *)

Definition is_chance (f : nfactor xnum) : bool := match kind vars (nf_for f) with Some Chance => true | _ => false end.
Definition is_util (f : nfactor xnum) : bool := match kind vars (nf_for f) with Some Utility => true | _ => false end.

Lemma total_kind x : is_total n x = true -> kind vars x = Some Utility.
Proof.
  unfold is_total. destruct (nth_error vars (Z.to_nat (n_tui n))) as [v|] eqn:E; [|discriminate].
  intros H. apply andb_true_iff in H. destruct H as [H0 H]. apply String.eqb_eq in H. subst x.
  unfold kind. rewrite (proj2 (var_named_in n Hwf (nv_name v) v)) by (split; auto; eapply nth_error_In; eauto). simpl.
  destruct (wn_total n Hwf) as [Hm|(i & v' & _ & _ & _ & Hi & Hv & Hu & _)]; [lia|].
  rewrite Hi, Nat2Z.id in E. congruence.
Qed.

Lemma chance_tables : filter is_chance (filter (is_table n) (n_factors n)) = chance_factors n.
Proof.
  rewrite filter_filter. apply filter_ext. intros f. unfold is_table, is_chance.
  destruct (is_total n (nf_for f)) eqn:E; simpl; [rewrite (total_kind _ E); auto|].
  destruct (kind vars (nf_for f)) as [[]|]; auto.
Qed.
Lemma util_tables : filter is_util (filter (is_table n) (n_factors n)) = utility_tables n.
Proof.
  rewrite filter_filter. apply filter_ext. intros f. unfold is_table, is_util.
  destruct (is_total n (nf_for f)) eqn:E; simpl; auto. destruct (kind vars (nf_for f)) as [[]|]; auto.
Qed.

Lemma became_utility f g : In f (filter (is_table n) (n_factors n)) -> became n f g -> is_util f = is_utility_factor g.
Proof.
  intros Hin (Hw & Hvs & _). apply filter_In in Hin. destruct Hin as [Hin Ht].
  unfold is_table in Ht. apply andb_true_iff in Ht. destruct Ht as [Ht Hk]. apply negb_true_iff in Ht.
  pose proof (wn_tables n Hwf f Hin Ht) as Hwt. pose proof (table_names n f Ht Hwt) as Hkn.
  unfold is_utility_factor. rewrite Hvs. unfold tvars. rewrite map_app, existsb_app. simpl. rewrite orb_false_r.
  assert (E1 : existsb (fun v => nodeType_eqb (v_type v) Utility) (map vv (nf_given f)) = false).
  { apply not_true_iff_false. intros H. apply existsb_exists in H. destruct H as (v & Hv & Hty). apply in_map_iff in Hv.
    destruct Hv as (x & <- & Hx). apply (wt_parents n f Hwt x Hx). apply vv_utility; [apply Hkn; apply in_app_iff; auto|].
    destruct (v_type (vv x)); auto; discriminate. }
  rewrite E1. simpl. unfold is_util.
  assert (Hkf : known (nf_for f)) by (apply Hkn; apply in_app_iff; simpl; auto).
  pose proof (vv_utility (nf_for f) Hkf) as Hu.
  destruct (kind vars (nf_for f)) as [[]|] eqn:Ek; destruct (v_type (vv (nf_for f))); simpl; auto; intuition discriminate.
Qed.

Lemma became_chance f g : In f (filter (is_table n) (n_factors n)) -> became n f g -> is_chance f = negb (is_utility_factor g).
Proof.
  intros Hin Hb. rewrite <- (became_utility f g Hin Hb). apply filter_In in Hin. destruct Hin as [_ Ht].
  unfold is_table in Ht. apply andb_true_iff in Ht. unfold is_chance, is_util. destruct (kind vars (nf_for f)) as [[]|]; auto; destruct Ht; discriminate.
Qed.

Lemma pol_no_utility d p g : In (d, p) (n_policies n) -> pol_became (d, p) g -> is_utility_factor g = false.
Proof.
  intros Hin (Hw & Hvs & _). simpl in Hvs. unfold is_utility_factor. rewrite Hvs. apply not_true_iff_false. intros H.
  apply existsb_exists in H. destruct H as (v & Hv & Hty). apply in_map_iff in Hv. destruct Hv as (w & <- & Hw').
  destruct (represents_vv w (wp_scope n d p (wn_policies n Hwf d p Hin) w Hw')) as (i & nv & Hi & _ & Hnu & Hk & E & _).
  rewrite E in Hty. apply Hnu.
  assert (Ek : kind vars (nv_name nv) = Some Utility) by (apply vv_utility; auto; destruct (v_type (vv (nv_name nv))); auto; discriminate).
  unfold kind in Ek. rewrite (proj2 (var_named_in n Hwf (nv_name nv) nv)) in Ek; [simpl in Ek; congruence|].
  split; auto. eapply nth_error_In; eauto.
Qed.

Definition net_deps : depmap :=
  fold_left (fun m f => mset var_eqb m (fst (dep_of n f)) (snd (dep_of n f))) (filter (is_open n) (n_factors n)) [].

Definition active (ev : list (string * string)) : list (string * factor xnum) :=
  filter (fun dp => negb (has_key ev (fst dp))) (n_policies n).

(** What toVE creates. *)
Record created (ev : list (string * string)) (vs : vstate) (fs : list (factor xnum)) : Prop := {
  cr_vars : vs_vars vs = net_vars n;
  cr_problem : ve_problem vs fs net_deps;
  cr_split : exists tfs pfs pols, fs = tfs ++ pfs /\ Forall2 (became n) (filter (is_table n) (n_factors n)) tfs /\
    Permutation pols (active ev) /\ Forall2 pol_became pols pfs
}.

Lemma net_deps_spec d ps : In (d, ps) net_deps -> exists f, In f (n_factors n) /\ is_open n f = true /\ d = vv (nf_for f) /\ ps = map vv (nf_given f).
Proof.
  unfold net_deps.
  assert (G : forall L m, In (d, ps) (fold_left (fun m f => mset var_eqb m (fst (dep_of n f)) (snd (dep_of n f))) L m) ->
    In (d, ps) m \/ exists f, In f L /\ d = vv (nf_for f) /\ ps = map vv (nf_given f)).
  { induction L as [|f L IH]; intros m H; [auto|]. simpl in H. apply IH in H. destruct H as [H|(g & Hg & Hd)].
    - apply (mset_in _ var_eqb_spec) in H. destruct H as [H|H]; auto. right. exists f. simpl. unfold dep_of in H. simpl in H. inversion H. auto.
    - right. exists g. simpl. auto. }
  intros H. apply G in H. destruct H as [[]|(f & Hf & Hd & Hp)]. apply filter_In in Hf. exists f. tauto.
Qed.

Lemma net_deps_keys : NoDup (map fst net_deps).
Proof.
  unfold net_deps. generalize (filter (is_open n) (n_factors n)). intros L.
  assert (G : forall m, NoDup (map fst m) -> NoDup (map fst (fold_left (fun m f => mset var_eqb m (fst (dep_of n f)) (snd (dep_of n f))) L m))).
  { induction L; intros m Hm; simpl; auto. apply IHL. apply (mset_NoDup var_eqb var_eqb_spec); auto. }
  apply G. constructor.
Qed.

Lemma open_known f : In f (n_factors n) -> is_open n f = true -> forall x, In x (nf_given f ++ [nf_for f]) -> known x.
Proof.
  intros Hin Ho. unfold is_open in Ho. do 2 (apply andb_true_iff in Ho; destruct Ho as [Ho ?]). apply negb_true_iff in Ho.
  apply table_names; auto. apply (wn_tables n Hwf); auto.
Qed.

Theorem to_ve_ok sc t ev : exists vs fs, to_ve sc t n ev = Ok (ve_new (S t) vs fs net_deps (finite_weights weights), name_map (entries n)) /\
  created ev vs fs.
Proof.
  unfold to_ve. pose proof (add_net_variables_ok n (wn_names n Hwf) (wn_count n Hwf)) as Ha.
  rewrite Ha. cbn [gbind].
  destruct (add_net_factors_ok n Hwf (n_factors n) (fun f Hf Ht => wn_tables n Hwf f Hf Ht) 0 [] []) as (c1 & tfs & E1 & Hb & Hc1 & Hnd1 & Hid1).
  match type of E1 with _ = ?r => match goal with |- context [foldM ?g ?i (n_factors n)] =>
    replace (foldM g i (n_factors n)) with r by (symmetry; exact E1) end end.
  cbn [gbind]. fold net_deps.
  assert (Hperm : Permutation (shuffle sc t (n_policies n)) (n_policies n)) by (apply Permutation_sym, shuffle_perm).
  destruct (policy_list_ok ev (shuffle sc t (n_policies n))) with (c := c1) (fs0 := @nil (factor xnum)) as (c2 & pfs & E2 & Hpb & Hc2 & Hnd2 & Hid2).
  { intros x p Hin. apply (wn_policies n Hwf). eapply Permutation_in; eauto. }
  unfold policy_factors. rewrite E2. cbn [gbind]. rewrite weights_ok. cbn [gbind].
  exists (vs_at n c2), (tfs ++ pfs). split; auto.
  assert (Hsplit : Permutation (filter (fun dp => negb (has_key ev (fst dp))) (shuffle sc t (n_policies n))) (active ev)) by (apply Permutation_filter; auto).
  split; auto; [|exists tfs, pfs; eexists; split; [reflexivity|]; eauto].
  split; simpl.
  - apply net_vars_wf.
  - apply net_vars_index.
  - intros f Hf. apply in_app_iff in Hf. destruct Hf as [Hf|Hf].
    + destruct (Forall2_in_r _ _ _ _ Hb Hf) as (nf & Hnf & Hw & Hvs & Hd). split; auto. split; [eapply denotes_finite; eauto|]. split.
      * rewrite Hvs. intros v Hv. apply in_map_iff in Hv. destruct Hv as (x & <- & Hx). apply vv_in; auto.
        apply filter_In in Hnf. destruct Hnf as [Hin Ht]. unfold is_table in Ht. apply andb_true_iff in Ht. destruct Ht as [Ht _]. apply negb_true_iff in Ht.
        eapply table_names; eauto. apply (wn_tables n Hwf); auto.
      * specialize (Hid1 f Hf). lia.
    + destruct (Forall2_in_r _ _ _ _ Hpb Hf) as ([d p] & Hdp & Hw & Hvs & Hd). split; auto. split; [eapply denotes_finite; eauto|]. split.
      * rewrite Hvs. intros v Hv. apply in_map_iff in Hv. destruct Hv as (w & <- & Hw').
        apply filter_In in Hdp. destruct Hdp as [Hdp _]. apply (Permutation_in _ Hperm) in Hdp.
        destruct (represents_vv w (wp_scope n d p (wn_policies n Hwf d p Hdp) w Hw')) as (i & nv & _ & _ & _ & Hk & -> & _).
        apply vv_in; auto.
      * specialize (Hid2 f Hf). lia.
  - rewrite map_app. apply NoDup_app_intro; auto. intros x Hx Hx'. apply in_map_iff in Hx, Hx'.
    destruct Hx as (f & <- & Hf). destruct Hx' as (g & Hg' & Hg). specialize (Hid1 f Hf). specialize (Hid2 g Hg). lia.
  - apply net_deps_keys.
  - intros d ps Hin. apply net_deps_spec in Hin. destruct Hin as (f & Hf & Ho & -> & ->).
    pose proof (open_known f Hf Ho) as Hk. split.
    + apply vv_in; auto. apply Hk. apply in_app_iff. simpl. auto.
    + intros v Hv. apply in_map_iff in Hv. destruct Hv as (x & <- & Hx). apply vv_in; auto. apply Hk. apply in_app_iff. auto.
Qed.

End NV.
