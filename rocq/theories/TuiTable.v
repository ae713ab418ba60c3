(** The table dialog. *)
From Coq Require Import ZArith List Bool String Lia QArith Qcanon.
From Verif Require Import Num GoBase VarModel GoFacts Tuples SpecFactor XnumFacts VEModel NetModel SpecNet NetNew NetMass NetCheck CliModel TrainFacts TrainThms TuiModel SpecApp TuiGrid TuiDraw TuiCanvas.
Import ListNotations.
Open Scope string_scope.
Open Scope list_scope.
Open Scope Z_scope.

(** ** Positions in tables *)
Lemma cell_from vars names s : forall acc, fold_left (fun i x => (i * num_outcomes vars x + s x)%nat) names acc = (acc * table_size vars names + cell vars names s)%nat.
Proof.
  unfold cell, table_size. induction names as [|x l IH]; intros acc; cbn [fold_left fold_right]; [lia|]. rewrite IH, (IH (0 * _ + _)%nat). lia.
Qed.
Lemma cell_app vars l m s : cell vars (l ++ m) s = (cell vars l s * table_size vars m + cell vars m s)%nat.
Proof. unfold cell at 1. rewrite fold_left_app. fold (cell vars l s). apply cell_from. Qed.
Lemma table_size_app vars l m : table_size vars (l ++ m) = (table_size vars l * table_size vars m)%nat.
Proof. unfold table_size. induction l as [|x l IH]; cbn [List.app fold_right]; [lia|]. rewrite IH. lia. Qed.
Lemma cell_lt vars names s : (forall x, In x names -> (s x < num_outcomes vars x)%nat) -> (cell vars names s < table_size vars names)%nat.
Proof.
  induction names as [|x l IH] using rev_ind; intros H; [unfold cell, table_size; simpl; lia|]. rewrite cell_snoc, table_size_app.
  assert (H1 : (cell vars l s < table_size vars l)%nat) by (apply IH; intros y Hy; apply H; apply in_app_iff; auto).
  assert (H2 : (s x < num_outcomes vars x)%nat) by (apply H; apply in_app_iff; simpl; auto). unfold table_size at 2. cbn [fold_right]. nia.
Qed.
Lemma cell_onto vars names : NoDup names -> forall r, (r < table_size vars names)%nat -> exists s, (forall x, In x names -> (s x < num_outcomes vars x)%nat) /\ cell vars names s = r.
Proof.
  induction names as [|x l IH] using rev_ind; intros Hnd r Hr.
  - exists (fun _ => 0%nat). split; [intros x []|]. unfold table_size in Hr. simpl in Hr. unfold cell. simpl. lia.
  - rewrite table_size_app in Hr. unfold table_size at 2 in Hr. cbn [fold_right] in Hr. rewrite Nat.mul_1_r in Hr. set (k := num_outcomes vars x) in *. assert (Hk : k <> 0%nat) by (intros E; rewrite E in Hr; lia).
    assert (Hn2 : NoDup l /\ ~ In x l). { apply NoDup_remove in Hnd. rewrite app_nil_r in Hnd. auto. } destruct Hn2 as [Hn Hx].
    destruct (IH Hn (r / k)%nat) as (s & Hs & Es); [apply Nat.div_lt_upper_bound; lia|]. exists (nupd s x (r mod k)%nat). split.
    + intros y Hy. unfold nupd. destruct (String.eqb_spec y x) as [->|Hne]; [apply Nat.mod_upper_bound; auto|]. apply Hs. apply in_app_iff in Hy. destruct Hy as [Hy|[->|[]]]; auto. congruence.
    + rewrite cell_snoc. rewrite (cell_ext vars l (nupd s x (r mod k)%nat) s). 2:{ intros y Hy. unfold nupd. destruct (String.eqb_spec y x); congruence. } rewrite Es. unfold nupd. rewrite String.eqb_refl. fold k. pose proof (Nat.div_mod r k Hk). lia.
Qed.
Lemma table_size_pos vars names : (forall x, In x names -> (0 < num_outcomes vars x)%nat) -> (0 < table_size vars names)%nat.
Proof. induction names as [|x l IH]; intros H; unfold table_size; cbn [fold_right]; [lia|]. fold (table_size vars l). assert (0 < table_size vars l)%nat by (apply IH; intros; apply H; right; auto). pose proof (H x (or_introl eq_refl)). nia. Qed.

(** ** Nodes by name *)
Section Nodes.
Variable nodes : list tnode.
Hypothesis Hnd : NoDup (map t_name nodes).
Notation vars := (map t_var nodes).

Lemma by_name_at k t : nth_error nodes k = Some t -> nodes_by_name nodes (t_name t) = Z.of_nat k.
Proof.
  intros Hk. unfold nodes_by_name.
  assert (G : forall l m x i, NoDup (map (fun p : Z * tnode => t_name (snd p)) l) -> (forall j t, In (j, t) l -> t_name t = x -> j = i) -> ((exists t, In (i, t) l /\ t_name t = x) \/ sget_map m x = Some i) ->
    sget_map (fold_left (fun m '((i, t) : Z * tnode) => sset_map m (t_name t) i) l m) x = Some i).
  { induction l as [|[j u] l IH]; intros m x i Hn Hj He; cbn [fold_left].
    - destruct He as [(t' & [] & _)|He]; auto.
    - cbn [map] in Hn. inversion Hn; subst. apply IH; auto; [intros j' t' Hin; apply Hj; right; auto|]. destruct (string_dec (t_name u) x) as [E|E].
      + right. rewrite <- E. rewrite (mget_mset_same String.eqb String.eqb_eq). f_equal. apply (Hj j u); auto. left; auto.
      + destruct He as [(t' & [Et|Hin] & En)|He]; [injection Et as <- <-; congruence|left; eauto|]. right. rewrite (mget_mset_other String.eqb String.eqb_eq) by auto. auto. }
  rewrite (G _ [] (t_name t) (Z.of_nat k)); auto.
  - rewrite <- map_map. rewrite map_snd_numbered. auto.
  - intros j u Hin En. apply in_numbered in Hin. destruct Hin as [Hj Hu]. assert (Z.to_nat j = k); [|lia]. rewrite NoDup_nth_error in Hnd. apply Hnd.
    + rewrite map_length. unfold zlen in Hj. lia.
    + rewrite !nth_error_map, Hu, Hk. simpl. congruence.
  - left. exists t. split; auto. apply nth_error_In with (n := k). rewrite numbered_at, Hk. reflexivity.
Qed.
Lemma by_name_get k t : nth_error nodes k = Some t -> sget nodes (nodes_by_name nodes (t_name t)) = Ok t.
Proof. intros Hk. rewrite (by_name_at k t Hk), sget_nat, Hk. auto. Qed.
Lemma node_named g v : var_named vars g = Some v -> exists k t, nth_error nodes k = Some t /\ t_var t = v /\ t_name t = g.
Proof.
  intros E. unfold var_named in E. apply find_some in E. destruct E as [Hin En]. apply String.eqb_eq in En. apply in_map_iff in Hin. destruct Hin as (t & <- & Ht). apply In_nth_error in Ht. destruct Ht as (k & Hk). exists k, t. auto.
Qed.
Lemma named_node k t : nth_error nodes k = Some t -> var_named vars (t_name t) = Some (t_var t).
Proof. intros Hk. unfold t_name. apply var_named_in'; [rewrite map_map; exact Hnd|]. apply in_map. eapply nth_error_In; eauto. Qed.
Lemma parent_node g : (exists v, var_named vars g = Some v) -> exists t, sget nodes (nodes_by_name nodes g) = Ok t /\ num_outcomes vars g = List.length (t_outcomes t) /\ var_named vars g = Some (t_var t).
Proof.
  intros (v & Hv). destruct (node_named g v Hv) as (k & t & Hk & Et & En). exists t. rewrite <- En. split; [eapply by_name_get; eauto|]. pose proof (named_node k t Hk) as E. unfold num_outcomes. rewrite E. auto.
Qed.

Lemma stride_ok given c : (forall g, In g given -> exists v, var_named vars g = Some v) -> 0 <= c ->
  stride nodes given c = Ok (Z.of_nat (table_size vars (skipn (S (Z.to_nat c)) given))).
Proof.
  intros Hg Hc. unfold stride. assert (Hs : forall g, In g (skipn (S (Z.to_nat c)) given) -> exists v, var_named vars g = Some v).
  { intros g Hin. apply Hg. rewrite <- (firstn_skipn (S (Z.to_nat c)) given). apply in_app_iff. auto. }
  revert Hs. generalize (skipn (S (Z.to_nat c)) given) as l.
  assert (G : forall l acc, (forall g, In g l -> exists v, var_named vars g = Some v) ->
    foldM (fun s g => let! par := sget nodes (nodes_by_name nodes g) in Ok (s * zlen (t_outcomes par))) (Z.of_nat acc) l = Ok (Z.of_nat (acc * table_size vars l))).
  { induction l as [|g l IH]; intros acc Hl; cbn [foldM].
    - unfold table_size. simpl. rewrite Nat.mul_1_r. auto.
    - destruct (parent_node g (Hl g (or_introl eq_refl))) as (t & -> & Eo & _). cbn [gbind]. unfold zlen. rewrite <- Eo, <- Nat2Z.inj_mul, IH by (intros; apply Hl; right; auto).
      unfold table_size at 2. cbn [fold_right]. fold (table_size vars l). do 2 f_equal. lia. }
  intros l Hl. change 1 with (Z.of_nat 1). rewrite G by (intros g Hin; apply Hl; apply in_rev; auto). do 2 f_equal. rewrite Nat.mul_1_l. unfold table_size. clear.
  induction l as [|x l IH]; auto. cbn [rev fold_right]. pose proof (table_size_app vars (rev l) [x]) as E. unfold table_size in E. rewrite E. cbn [fold_right]. rewrite IH. lia.
Qed.

(** ** The cells *)
Variables (k : nat) (t : tnode) (f : nfactor xnum).
Hypothesis Hk : nth_error nodes k = Some t.
Hypothesis Hf : t_factor t = Some f.
Hypothesis Hfor : nf_for f = t_name t.
Hypothesis Hgiven : forall g, In g (nf_given f) -> exists v, var_named vars g = Some v.
Hypothesis Hpos : forall u, In u nodes -> t_outcomes u <> [].

Lemma columns_ok : table_columns nodes t = Ok (zlen (t_outcomes t)).
Proof. unfold table_columns. rewrite Hf, Hfor, (by_name_get k t Hk). auto. Qed.
Lemma columns_pos : 0 < zlen (t_outcomes t).
Proof. pose proof (Hpos t (nth_error_In _ _ Hk)). unfold zlen. destruct (t_outcomes t); [congruence|simpl; lia]. Qed.
Lemma parent_pos g : In g (nf_given f) -> (0 < num_outcomes vars g)%nat.
Proof.
  intros Hg. destruct (Hgiven g Hg) as (v & Hv). destruct (node_named g v Hv) as (j & u & Hj & <- & En). unfold num_outcomes. rewrite Hv. pose proof (Hpos u (nth_error_In _ _ Hj)) as Hp. unfold t_outcomes in Hp. destruct (nv_outcomes (t_var u)); [congruence|simpl; lia].
Qed.
Notation table := (slice_of (nf_table f)).
Notation cols := (zlen (t_outcomes t)).

(** What row [r] of the table shows. *)
Definition label_of (g : string) (i : nat) : string := match var_named vars g with Some v => nth i (nv_outcomes v) "" | None => "" end.
Definition number_of (values : list xnum) (x : xnum) : tcell :=
  if is_utility (t_var t) then CNumber true x else CNumber false (ndiv (nmul (nofint 100) x) (fold_left nadd values n0)).
Definition row_values (r : nat) : list xnum := firstn (List.length (t_outcomes t)) (skipn (r * List.length (t_outcomes t)) table).
Definition row_cells (r : nat) : list tcell :=
  map (fun '((c, g) : nat * string) => CLabel (label_of g ((r / table_size vars (skipn (S c) (nf_given f))) mod num_outcomes vars g))) (combine (seq 0 (List.length (nf_given f))) (nf_given f)) ++
  map (number_of (row_values r)) (row_values r).

Lemma get_header c : 0 <= c < zlen (nf_given f) + cols -> exists s, get_cell nodes (Z.of_nat k) 0 c = Ok (CLabel s) /\ nth_error (nf_given f ++ t_outcomes t) (Z.to_nat c) = Some s.
Proof.
  intros Hc. unfold get_cell. rewrite sget_nat, Hk. cbn [gbind]. unfold table_header. rewrite Hf. cbn [gbind]. rewrite columns_ok. cbn [gbind Z.eqb].
  destruct (sget_in (nf_given f ++ t_outcomes t) c) as (s & E & _); [unfold zlen in *; rewrite app_length; lia|]. rewrite E. cbn [gbind]. exists s. split; auto. apply sget_inv in E. tauto.
Qed.
Lemma get_label r c g : nth_error (nf_given f) c = Some g ->
  get_cell nodes (Z.of_nat k) (Z.of_nat r + 1) (Z.of_nat c) = Ok (CLabel (label_of g ((r / table_size vars (skipn (S c) (nf_given f))) mod num_outcomes vars g))).
Proof.
  intros Hg. assert (Hc : (c < List.length (nf_given f))%nat) by (apply nth_error_Some; congruence). assert (Hin : In g (nf_given f)) by (eapply nth_error_In; eauto).
  unfold get_cell. rewrite sget_nat, Hk. cbn [gbind]. unfold table_header. rewrite Hf. cbn [gbind]. rewrite columns_ok. cbn [gbind].
  replace (Z.of_nat r + 1 =? 0) with false by lia. replace (Z.of_nat r + 1 - 1) with (Z.of_nat r) by lia. replace (Z.of_nat c <? zlen (nf_given f)) with true by (unfold zlen; lia).
  rewrite stride_ok by (auto; lia). cbn [gbind]. rewrite sget_nat, Hg. cbn [gbind]. destruct (parent_node g (Hgiven g Hin)) as (u & -> & Eo & Ev). cbn [gbind].
  pose proof (parent_pos g Hin) as Hp. rewrite Nat2Z.id. set (st := table_size vars (skipn (S c) (nf_given f))).
  assert (Hst : (0 < st)%nat). { apply table_size_pos. intros x Hx. apply parent_pos. rewrite <- (firstn_skipn (S c) (nf_given f)). apply in_app_iff. auto. }
  replace (Z.of_nat st =? 0) with false by lia. replace (zlen (t_outcomes u) =? 0) with false by (unfold zlen; lia).
  rewrite Z.quot_div_nonneg, <- Nat2Z.inj_div by lia. unfold zlen. rewrite Z.rem_mod_nonneg, <- Nat2Z.inj_mod; [|apply Nat2Z.is_nonneg|rewrite <- Eo; clear -Hp; lia]. rewrite <- Eo, sget_nat.
  assert (Hm : ((r / st) mod num_outcomes vars g < num_outcomes vars g)%nat) by (apply Nat.mod_upper_bound; lia).
  unfold label_of. rewrite Ev. unfold t_outcomes in *. rewrite (nth_error_nth' (nv_outcomes (t_var u)) "") by lia. reflexivity.
Qed.
Lemma get_number r j : (S r * List.length (t_outcomes t) <= List.length table)%nat -> (j < List.length (t_outcomes t))%nat ->
  exists x, nth_error (row_values r) j = Some x /\ get_cell nodes (Z.of_nat k) (Z.of_nat r + 1) (Z.of_nat (List.length (nf_given f) + j)) = Ok (number_of (row_values r) x).
Proof.
  intros Hr Hj. unfold get_cell. rewrite sget_nat, Hk. cbn [gbind]. unfold table_header. rewrite Hf. cbn [gbind]. rewrite columns_ok. cbn [gbind].
  replace (Z.of_nat r + 1 =? 0) with false by lia. replace (Z.of_nat r + 1 - 1) with (Z.of_nat r) by lia. replace (Z.of_nat _ <? zlen (nf_given f)) with false by (unfold zlen; lia).
  set (m := List.length (t_outcomes t)) in *. unfold sslice, zlen. fold m. replace (_ || _ || _) with false.
  2:{ symmetry. rewrite !orb_false_iff. repeat split; apply Z.ltb_ge; nia. }
  cbn [gbind]. replace (Z.to_nat ((Z.of_nat r + 1) * Z.of_nat m - Z.of_nat r * Z.of_nat m)) with m by lia. replace (Z.to_nat (Z.of_nat r * Z.of_nat m)) with (r * m)%nat by lia. change (firstn m (skipn (r * m) table)) with (row_values r).
  replace (Z.of_nat (List.length (nf_given f) + j) - Z.of_nat (List.length (nf_given f))) with (Z.of_nat j) by lia. rewrite sget_nat.
  assert (Hl : List.length (row_values r) = m). { unfold row_values. fold m. rewrite firstn_length, skipn_length. nia. }
  destruct (nth_error (row_values r) j) as [x|] eqn:Ex; [|apply nth_error_None in Ex; lia]. exists x. split; auto. cbn [gbind]. unfold number_of. destruct (is_utility (t_var t)); auto.
Qed.

Lemma mapM_all {X Y} (F : X -> gores Y) l out : List.length out = List.length l -> (forall i x, nth_error l i = Some x -> exists y, F x = Ok y /\ nth_error out i = Some y) -> mapM F l = Ok out.
Proof.
  revert out. induction l as [|x l IH]; intros [|y out] El H; try discriminate; auto. cbn [mapM]. destruct (H 0%nat x eq_refl) as (y' & -> & E). injection E as <-. cbn [gbind]. rewrite (IH out); auto. intros i; apply (H (S i)).
Qed.

Theorem table_cells : exists rows cols', row_count nodes (Z.of_nat k) = Ok rows /\ column_count nodes (Z.of_nat k) = Ok cols' /\
  mapM (fun r => mapM (get_cell nodes (Z.of_nat k) r) (zrange 0 cols')) (zrange 0 rows) =
    Ok (map CLabel (nf_given f ++ t_outcomes t) :: map row_cells (seq 0 (List.length table / List.length (t_outcomes t)))).
Proof.
  pose proof columns_pos as Hcp. set (m := List.length (t_outcomes t)) in *. unfold row_count, column_count. rewrite sget_nat, Hk. cbn [gbind]. rewrite columns_ok. unfold table_header. rewrite Hf. cbn [gbind].
  replace (cols =? 0) with false by lia. eexists _, _. split; [reflexivity|]. split; [reflexivity|].
  assert (Hm : (0 < m)%nat) by (unfold zlen in Hcp; fold m in Hcp; lia).
  assert (Er : Z.quot (zlen table) cols + 1 = Z.of_nat (S (List.length table / m))). { unfold zlen. fold m. rewrite Z.quot_div_nonneg, <- Nat2Z.inj_div by lia. lia. }
  rewrite Er. assert (Ec : zlen (nf_given f ++ t_outcomes t) = Z.of_nat (List.length (nf_given f) + m)) by (unfold zlen; rewrite app_length; auto). rewrite Ec. rewrite !zrange_nat.
  apply mapM_all.
  - cbn [List.length]. rewrite !map_length, !seq_length. auto.
  - intros i z Hi. rewrite nth_error_map in Hi. destruct (nth_error (seq 0 (S (List.length table / m))) i) as [i'|] eqn:Ei; [|discriminate]. cbn [option_map] in Hi. injection Hi as <-.
    assert (Hil : (i < S (List.length table / m))%nat) by (rewrite <- (seq_length (S (List.length table / m)) 0); apply nth_error_Some; congruence).
    assert (i' = i). { apply (nth_error_nth _ _ 0%nat) in Ei. rewrite seq_nth in Ei by auto. lia. } subst i'. destruct i as [|r].
    + eexists. split; [|reflexivity]. apply mapM_all; [rewrite !map_length, seq_length, app_length; auto|]. intros c z Hc. rewrite nth_error_map in Hc. destruct (nth_error (seq 0 _) c) as [c'|] eqn:Ec'; [|discriminate]. cbn [option_map] in Hc. injection Hc as <-.
      assert (Hcl : (c < List.length (nf_given f) + m)%nat) by (rewrite <- (seq_length (List.length (nf_given f) + m) 0); apply nth_error_Some; congruence).
      assert (c' = c). { apply (nth_error_nth _ _ 0%nat) in Ec'. rewrite seq_nth in Ec' by auto. lia. } subst c'.
      destruct (get_header (Z.of_nat c)) as (s & E1 & E2); [unfold zlen; fold m; lia|]. exists (CLabel s). split; [exact E1|]. rewrite Nat2Z.id in E2. rewrite nth_error_map, E2. auto.
    + assert (Hr : (r < List.length table / m)%nat) by lia. assert (Hrm : (S r * m <= List.length table)%nat). { pose proof (Nat.mul_div_le (List.length table) m ltac:(lia)). nia. }
      assert (Hlv : List.length (row_values r) = m). { unfold row_values. fold m. rewrite firstn_length, skipn_length. nia. }
      assert (Hlg : List.length (combine (seq 0 (List.length (nf_given f))) (nf_given f)) = List.length (nf_given f)) by (rewrite combine_length, seq_length; lia).
      exists (row_cells r). split; [|cbn [nth_error]; rewrite nth_error_map; rewrite (nth_error_nth' (seq 0 _) 0%nat) by (rewrite seq_length; auto); rewrite seq_nth by auto; reflexivity].
      apply mapM_all; [unfold row_cells; rewrite app_length, !map_length, seq_length, Hlv, Hlg; auto|]. intros c z Hc. rewrite nth_error_map in Hc. destruct (nth_error (seq 0 _) c) as [c'|] eqn:Ec'; [|discriminate]. cbn [option_map] in Hc. injection Hc as <-.
      assert (Hcl : (c < List.length (nf_given f) + m)%nat) by (rewrite <- (seq_length (List.length (nf_given f) + m) 0); apply nth_error_Some; congruence).
      assert (c' = c). { apply (nth_error_nth _ _ 0%nat) in Ec'. rewrite seq_nth in Ec' by auto. lia. } subst c'.
      replace (Z.of_nat (S r)) with (Z.of_nat r + 1) by lia. unfold row_cells. destruct (Nat.lt_ge_cases c (List.length (nf_given f))) as [Hlt|Hge].
      * destruct (nth_error (nf_given f) c) as [g|] eqn:Eg; [|apply nth_error_None in Eg; lia]. eexists. split; [apply get_label; eauto|].
        rewrite nth_error_app1 by (rewrite map_length, Hlg; auto). rewrite nth_error_map.
        assert (E : nth_error (combine (seq 0 (List.length (nf_given f))) (nf_given f)) c = Some (c, g)).
        { assert (G : forall (l : list string) b c g, nth_error l c = Some g -> nth_error (combine (seq b (List.length l)) l) c = Some ((b + c)%nat, g)).
          { induction l as [|h l IH]; intros b [|c0] g0 E0; try discriminate; simpl in *; [rewrite Nat.add_0_r; congruence|]. rewrite (IH (S b) c0 g0 E0). do 2 f_equal. lia. }
          apply (G _ 0%nat). auto. }
        rewrite E. reflexivity.
      * destruct (get_number r (c - List.length (nf_given f))) as (x & Ex & Eg); [auto|fold m; lia|]. replace (List.length (nf_given f) + (c - List.length (nf_given f)))%nat with c in Eg by lia.
        eexists. split; [exact Eg|]. rewrite nth_error_app2 by (rewrite map_length, Hlg; auto). rewrite map_length, Hlg, nth_error_map, Ex. auto.
Qed.

(** ** Rows and parent configurations *)
Hypothesis Hdist : NoDup (nf_given f ++ [nf_for f]).
Variable l : list Qc.
Hypothesis Hl : nf_table f = Some (map Fin l).
Hypothesis Hsize : List.length l = table_size vars (nf_given f ++ [nf_for f]).

Lemma own_outcomes : num_outcomes vars (nf_for f) = List.length (t_outcomes t).
Proof. unfold num_outcomes. rewrite Hfor, (named_node k t Hk). auto. Qed.
Lemma row_total : (List.length table / List.length (t_outcomes t) = table_size vars (nf_given f))%nat.
Proof.
  pose proof columns_pos as Hp. rewrite Hl. cbn [slice_of]. rewrite map_length, Hsize, table_size_app. unfold table_size at 2. cbn [fold_right]. rewrite own_outcomes, Nat.mul_1_r. apply Nat.div_mul. unfold zlen in Hp. lia.
Qed.
Section Row.
Variable s : nstate.
Hypothesis Hs : forall g, In g (nf_given f) -> (s g < num_outcomes vars g)%nat.

Lemma label_index c g : nth_error (nf_given f) c = Some g ->
  ((cell vars (nf_given f) s / table_size vars (skipn (S c) (nf_given f))) mod num_outcomes vars g = s g)%nat.
Proof.
  intros Hg. destruct (nth_error_split _ _ Hg) as (l1 & l2 & E & El). assert (Esk : skipn (S c) (nf_given f) = l2). { rewrite E, <- El. clear. induction l1; auto. }
  rewrite Esk. rewrite E. replace (l1 ++ g :: l2) with ((l1 ++ [g]) ++ l2) by (rewrite <- app_assoc; auto). rewrite cell_app, cell_snoc.
  assert (Hlt : (cell vars l2 s < table_size vars l2)%nat). { apply cell_lt. intros x Hx. apply Hs. rewrite E. apply in_app_iff. right; right; auto. }
  rewrite Nat.div_add_l by lia. rewrite (Nat.div_small (cell vars l2 s)) by auto. rewrite Nat.add_0_r. assert (Hsg : (s g < num_outcomes vars g)%nat) by (apply Hs; eapply nth_error_In; eauto).
  rewrite Nat.add_comm, Nat.mod_add by lia. apply Nat.mod_small. auto.
Qed.
Lemma row_entries : row_values (cell vars (nf_given f) s) = map (fun j => Fin (entry vars f (nupd s (nf_for f) j))) (seq 0 (List.length (t_outcomes t))).
Proof.
  pose proof row_total as Hrt. set (r := cell vars (nf_given f) s). assert (Hr : (r < table_size vars (nf_given f))%nat) by (apply cell_lt; auto). set (m := List.length (t_outcomes t)) in *.
  assert (Hlm : List.length l = (table_size vars (nf_given f) * m)%nat). { rewrite Hsize, table_size_app. unfold table_size at 2. cbn [fold_right]. rewrite own_outcomes, Nat.mul_1_r. auto. }
  unfold row_values. fold m. rewrite Hl. cbn [slice_of]. rewrite skipn_map, firstn_map.
  apply nth_ext_sget; [unfold zlen; rewrite !map_length, firstn_length, skipn_length, seq_length; nia|]. intros i Hi. unfold zlen in Hi. rewrite map_length, firstn_length, skipn_length in Hi.
  assert (Him : (Z.to_nat i < m)%nat) by lia. rewrite <- (Z2Nat.id i) by lia. set (j := Z.to_nat i) in *. rewrite !sget_nat, !nth_error_map. rewrite nth_error_firstn_lt by auto. rewrite nth_error_skipn'.
  rewrite (nth_error_nth' (seq 0 m) 0%nat) by (rewrite seq_length; auto). rewrite seq_nth by auto. cbn [option_map Nat.add].
  unfold entry. rewrite Hl. cbn [slice_of]. rewrite cell_snoc, own_outcomes. fold m. rewrite (cell_ext vars (nf_given f) (nupd s (nf_for f) j) s).
  2:{ intros x Hx. unfold nupd. destruct (String.eqb_spec x (nf_for f)) as [->|]; auto. exfalso. apply NoDup_remove_2 in Hdist. rewrite app_nil_r in Hdist. auto. }
  fold r. unfold nupd. rewrite String.eqb_refl, nth_error_map. destruct (nth_error l (r * m + j)) as [q|] eqn:E; auto. apply nth_error_None in E. nia.
Qed.
Lemma sum_fin : forall (q : list Qc) a, fold_left nadd (map Fin q) (Fin a) = Fin (a + qsum q)%Qc.
Proof. induction q as [|x q IH]; intros a; cbn [map fold_left qsum fold_right]; [f_equal; ring|]. change (nadd (Fin a) (Fin x)) with (Fin (a + x)%Qc). rewrite IH. f_equal. unfold qsum. simpl. ring. Qed.
Lemma row_spec : row_cells (cell vars (nf_given f) s) =
  map (fun g => CLabel (label_of g (s g))) (nf_given f) ++
  map (fun j => let e := entry vars f (nupd s (nf_for f) j) in
         if is_utility (t_var t) then CNumber true (Fin e)
         else CNumber false (ndiv (Fin (Q2Qc 100 * e)%Qc) (Fin (row_sum vars f s)))) (seq 0 (List.length (t_outcomes t))).
Proof.
  unfold row_cells. rewrite row_entries. f_equal.
  - assert (G : forall (names : list string) b, (forall c g, nth_error names c = Some g -> ((cell vars (nf_given f) s / table_size vars (skipn (S (b + c)) (nf_given f))) mod num_outcomes vars g = s g)%nat) ->
      map (fun '((c, g) : nat * string) => CLabel (label_of g ((cell vars (nf_given f) s / table_size vars (skipn (S c) (nf_given f))) mod num_outcomes vars g))) (combine (seq b (List.length names)) names) = map (fun g => CLabel (label_of g (s g))) names).
    { induction names as [|g names IH]; intros b H; auto. cbn [List.length seq combine map]. f_equal.
      - pose proof (H 0%nat g eq_refl) as E. rewrite Nat.add_0_r in E. rewrite E. auto.
      - apply IH. intros c h Hc. replace (S b + c)%nat with (b + S c)%nat by lia. apply (H (S c)). auto. }
    apply (G _ 0%nat). intros c g Hc. apply label_index. auto.
  - rewrite map_map. apply map_ext_in. intros j Hj. cbv zeta. unfold number_of. destruct (is_utility (t_var t)); auto. f_equal.
    replace (fold_left nadd _ n0) with (Fin (row_sum vars f s)).
    2:{ symmetry. rewrite <- map_map. change n0 with (Fin 0%Qc). rewrite sum_fin. f_equal. rewrite Qcplus_0_l. unfold row_sum. rewrite own_outcomes. auto. }
    f_equal. 
Qed.
End Row.
End Nodes.
