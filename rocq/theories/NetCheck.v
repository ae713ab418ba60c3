(** Decision procedures for concrete networks, used to show that the hypotheses of the
    theorems are met by concrete networks. Not part of the model or the specification. *)
From Coq Require Import ZArith List Bool String Lia Permutation QArith Qcanon.
From Verif Require Import Num GoBase VarModel GoFacts SpecFactor Tuples FactorFacts FactorAt XnumFacts ExactFactor FactorThms
  VEModel SpecVE VEWorlds VEFacts VECor VECheck NetModel SpecNet NetVars NetFactors NetVE NetNew.
Import ListNotations.
Open Scope string_scope.
Open Scope list_scope.
Open Scope Z_scope.

Definition known_b (vars : list nvar) (x : string) : bool := match var_named vars x with Some _ => true | None => false end.
Definition table_b (n : network xnum) (f : nfactor xnum) : bool :=
  known_b (n_vars n) (nf_for f) &&
  forallb (fun g => negb (is_total n g) && match kind (n_vars n) g with Some Utility | None => false | _ => true end) (nf_given f) &&
  nodup_b String.eqb (nf_given f ++ [nf_for f]) &&
  match kind (n_vars n) (nf_for f) with
  | Some Decision => true
  | _ => match nf_table f with
         | Some l => forallb fin_b l && (List.length l =? table_size (n_vars n) (nf_given f ++ [nf_for f]))%nat
         | None => false
         end
  end.
Definition total_b (n : network xnum) : bool :=
  (n_tui n =? -1) ||
  match nth_error (n_vars n) (Z.to_nat (n_tui n)) with
  | Some v =>
      (0 <=? n_tui n) && nodeType_eqb (nv_type v) Utility &&
      match nv_factor v with
      | Some k => match nth_error (n_factors n) k with
        | Some f => match nf_table f with
          | Some l => forallb fin_b l && (List.length (nf_given f) <=? List.length l)%nat &&
              forallb (fun '(j, u) => (j =? Z.to_nat (n_tui n))%nat || negb (nodeType_eqb (nv_type u) Utility)
                         || existsb (String.eqb (nv_name u)) (nf_given f))
                (combine (seq 0 (List.length (n_vars n))) (n_vars n))
          | None => false end
        | None => false end
      | None => false end
  | None => false
  end.
Definition represents_b (n : network xnum) (v : variable) : bool :=
  (0 <=? v_id v) &&
  match nth_error (n_vars n) (Z.to_nat (v_id v)) with
  | Some nv =>
      (Z.of_nat (v_index v) =? (if (0 <=? n_tui n) && (n_tui n <? v_id v) then v_id v - 1 else v_id v)) &&
      (v_outcomes v =? List.length (nv_outcomes nv))%nat && negb (nodeType_eqb (nv_type nv) Utility) &&
      (nodeType_eqb (v_type v) (nv_type nv) ||
       nodeType_eqb (nv_type nv) Decision && nodeType_eqb (v_type v) Chance && has_key (n_policies n) (nv_name nv))
  | None => false
  end.
Definition policy_b (n : network xnum) (x : string) (p : factor xnum) : bool :=
  match kind (n_vars n) x with Some Decision => true | _ => false end &&
  wf_vars_b (f_vars p) && (List.length (f_data p) =? num_cells (f_vars p))%nat && forallb fin_b (f_data p) &&
  forallb (represents_b n) (f_vars p) &&
  existsb (fun v => match nth_error (n_vars n) (Z.to_nat (v_id v)) with Some nv => String.eqb (nv_name nv) x | None => false end) (f_vars p).
Definition network_b (n : network xnum) : bool :=
  nodup_b String.eqb (map nv_name (n_vars n)) &&
  forallb (fun v => negb (String.eqb (nv_name v) "") && (0 <? zlen (nv_outcomes v)) && (zlen (nv_outcomes v) <=? 65535)
             && nodup_b String.eqb (nv_outcomes v)) (n_vars n) &&
  (zlen (n_vars n) <=? 65536) &&
  forallb (fun f => is_total n (nf_for f) || table_b n f) (n_factors n) && total_b n &&
  nodup_b String.eqb (map fst (n_policies n)) &&
  forallb (fun '(x, p) => policy_b n x p) (n_policies n).

Lemma string_nodup_b l : nodup_b String.eqb l = true -> NoDup l.
Proof. apply nodup_b_sound. intros; apply String.eqb_eq. Qed.

Lemma fin_b_map l : forallb fin_b l = true -> exists l', l = map Fin l'.
Proof.
  induction l as [|x l IH]; simpl; intros H. { exists []. auto. }
  apply andb_prop in H. destruct H as [Hx Hl]. destruct x; try discriminate. destruct (IH Hl) as (l' & ->). exists (q :: l'). auto.
Qed.

Lemma table_b_sound n f : table_b n f = true -> wf_table n f.
Proof.
  unfold table_b. rewrite !andb_true_iff. intros [[[H1 H2] H3] H4]. rewrite forallb_forall in H2. split.
  - unfold known_b in H1. destruct (var_named _ _); eauto; discriminate.
  - intros g Hg. specialize (H2 g Hg). apply andb_prop in H2. destruct H2 as [Ha Hb]. apply negb_true_iff in Ha. split; auto.
    unfold kind in Hb. destruct (var_named (n_vars n) g); simpl in Hb; eauto; discriminate.
  - apply string_nodup_b. auto.
  - intros Hk. destruct (kind (n_vars n) (nf_for f)) as [[]|]; try congruence.
    all: destruct (nf_table f) as [l|]; try discriminate; apply andb_prop in H4; destruct H4 as [Ha Hb];
      apply fin_b_map in Ha; destruct Ha as (l' & ->); exists l'; split; auto; apply Nat.eqb_eq in Hb; rewrite map_length in Hb; auto.
  - intros g Hg. specialize (H2 g Hg). apply andb_prop in H2. destruct H2 as [_ Hb]. intros E. rewrite E in Hb. discriminate.
Qed.

Lemma in_combine_seq {X} (l : list X) j x : nth_error l j = Some x -> In (j, x) (combine (seq 0 (List.length l)) l).
Proof.
  assert (G : forall l k i, nth_error l i = Some x -> In ((k + i)%nat, x) (combine (seq k (List.length l)) l)).
  { clear. induction l; intros k i Hi; destruct i; simpl in *; try discriminate.
    - inversion Hi; subst. left. f_equal. lia.
    - right. replace (k + S i)%nat with (S k + i)%nat by lia. auto. }
  intros H. apply (G l 0%nat j H).
Qed.

Lemma total_b_sound n : total_b n = true -> wf_total n.
Proof.
  unfold total_b. intros H. apply orb_prop in H. destruct H as [H|H]; [left; apply Z.eqb_eq; auto|]. right.
  destruct (nth_error (n_vars n) (Z.to_nat (n_tui n))) as [v|] eqn:Ev; [|discriminate].
  apply andb_prop in H. destruct H as [H H3]. apply andb_prop in H. destruct H as [H1 H2].
  destruct (nv_factor v) as [k|] eqn:Ek; [|discriminate]. destruct (nth_error (n_factors n) k) as [f|] eqn:Ef; [|discriminate].
  destruct (nf_table f) as [l|] eqn:El; [|discriminate]. rewrite !andb_true_iff in H3. destruct H3 as [[Ha Hb] Hc].
  destruct (fin_b_map _ Ha) as (l' & ->). rewrite map_length in Hb. apply Nat.leb_le in Hb.
  exists (Z.to_nat (n_tui n)), v, k, f, l'. repeat split; auto; try lia.
  - destruct (nv_type v); auto; discriminate.
  - intros j u Hj Hne Hu. rewrite forallb_forall in Hc. specialize (Hc _ (in_combine_seq _ _ _ Hj)). cbv beta iota in Hc.
    rewrite Hu in Hc. apply orb_prop in Hc. destruct Hc as [Hc|Hc].
    + apply orb_prop in Hc. destruct Hc as [Hc|Hc]; [apply Nat.eqb_eq in Hc; congruence|discriminate].
    + apply existsb_exists in Hc. destruct Hc as (g & Hg & E). apply String.eqb_eq in E. subst. auto.
Qed.

Lemma node_eqb a b : nodeType_eqb a b = true -> a = b.
Proof. destruct a, b; simpl; congruence. Qed.

Lemma represents_b_sound n v : represents_b n v = true -> represents n v.
Proof.
  unfold represents_b. intros H. apply andb_prop in H. destruct H as [H0 H].
  destruct (nth_error (n_vars n) (Z.to_nat (v_id v))) as [nv|] eqn:E; [|discriminate].
  rewrite !andb_true_iff in H. destruct H as [[[H1 H2] H3] H4]. exists (Z.to_nat (v_id v)), nv. rewrite !Z2Nat.id by lia.
  split; auto. split; auto. split; [lia|]. split; [apply Nat.eqb_eq; auto|]. split.
  - intros Ht. rewrite Ht in H3. discriminate.
  - apply orb_prop in H4. destruct H4 as [H4|H4]; [left; apply node_eqb; auto|right]. rewrite !andb_true_iff in H4.
    destruct H4 as [[Ha Hb] Hc]. auto using node_eqb.
Qed.

Lemma policy_b_sound n x p : policy_b n x p = true -> wf_policy n x p.
Proof.
  unfold policy_b. rewrite !andb_true_iff. intros [[[[[H1 H2] H3] H4] H5] H6].
  assert (Hw : wf_factor p). { split; [apply wf_vars_b_sound; auto|apply Nat.eqb_eq; auto]. }
  rewrite forallb_forall in H5. assert (Hs : forall v, In v (f_vars p) -> represents n v) by (intros; apply represents_b_sound; auto).
  split; auto.
  - destruct (kind (n_vars n) x) as [[]|]; auto; discriminate.
  - apply literal_finite; auto. apply Forall_forall. intros y Hy. rewrite forallb_forall in H4. specialize (H4 y Hy).
    destruct y; try discriminate. eauto.
  - apply existsb_exists in H6. destruct H6 as (v & Hv & Hn). destruct (nth_error (n_vars n) (Z.to_nat (v_id v))) as [nv|] eqn:E; [|discriminate].
    apply String.eqb_eq in Hn. exists (Z.to_nat (v_id v)), nv, v. destruct (Hs v Hv) as (i & nv' & _ & Hi & _).
    repeat split; auto. lia.
Qed.

Theorem network_b_sound n : network_b n = true -> wf_network n.
Proof.
  unfold network_b. rewrite !andb_true_iff. intros [[[[[[H1 H2] H3] H4] H5] H6] H7].
  rewrite forallb_forall in H2, H4, H7.
  assert (Hv : forall v, In v (n_vars n) -> nv_name v <> "" /\ (0 < zlen (nv_outcomes v) <= 65535) /\ NoDup (nv_outcomes v)).
  { intros v Hv. specialize (H2 v Hv). rewrite !andb_true_iff in H2. destruct H2 as [[[Ha Hb] Hc] Hd]. apply negb_true_iff in Ha.
    split; [apply String.eqb_neq; auto|]. split; [lia|apply string_nodup_b; auto]. }
  split; auto using string_nodup_b, total_b_sound; try (intros v Hin; apply Hv; auto).
  - lia.
  - intros f Hf Ht. specialize (H4 f Hf). rewrite Ht in H4. apply table_b_sound. auto.
  - intros x p Hin. apply policy_b_sound. apply (H7 (x, p)). auto.
Qed.

Definition complete_b (n : network xnum) : bool :=
  forallb (fun v => negb (nodeType_eqb (nv_type v) Chance) || existsb (fun f => String.eqb (nf_for f) (nv_name v)) (n_factors n)) (n_vars n).
Lemma complete_b_sound n : complete_b n = true -> complete n.
Proof.
  unfold complete_b. rewrite forallb_forall. intros H v Hv Ht. specialize (H v Hv). rewrite Ht in H. simpl in H.
  apply existsb_exists in H. destruct H as (f & Hf & E). apply String.eqb_eq in E. eauto.
Qed.

Definition observations_b (n : network xnum) (ev : list (string * string)) : bool :=
  nodup_b String.eqb (map fst ev) &&
  forallb (fun '(x, o) => match var_named (n_vars n) x with
    | Some v => negb (nodeType_eqb (nv_type v) Utility) && existsb (String.eqb o) (nv_outcomes v)
    | None => false end) ev.
Lemma observations_b_sound n ev : observations_b n ev = true -> valid_observations n ev.
Proof.
  unfold observations_b. rewrite andb_true_iff, forallb_forall. intros [H1 H2]. split; [apply string_nodup_b; auto|].
  intros x o Hin. specialize (H2 _ Hin). cbv beta iota in H2. destruct (var_named (n_vars n) x) as [v|]; [|discriminate].
  exists v. apply andb_prop in H2. destruct H2 as [Ha Hb]. split; auto. split.
  - intros E. rewrite E in Ha. discriminate.
  - apply existsb_exists in Hb. destruct Hb as (y & Hy & E). apply String.eqb_eq in E. subst. auto.
Qed.

Definition nonneg_b (x : xnum) : bool := match x with Fin q => (0 <=? Qnum (this q))%Z | _ => true end.
Definition nonnegative_b (n : network xnum) : bool :=
  forallb (fun f => forallb nonneg_b (slice_of (nf_table f))) (chance_factors n) &&
  forallb (fun dp => forallb nonneg_b (f_data (snd dp))) (n_policies n).
Lemma nonneg_b_sound x q : nonneg_b x = true -> x = Fin q -> (0 <= q)%Qc.
Proof. intros H ->. simpl in H. unfold Qcle, Qle. simpl. lia. Qed.
Lemma nonneg_cell l i : forallb nonneg_b l = true -> (0 <= fin_value (nth_error l i))%Qc.
Proof.
  intros H. rewrite forallb_forall in H. destruct (nth_error l i) as [x|] eqn:E; [|apply Qcle_refl].
  apply nth_error_In in E. specialize (H x E). destruct x; simpl; try apply Qcle_refl. eapply nonneg_b_sound; eauto.
Qed.
Lemma sget_In {X} (l : list X) i x : sget l i = Ok x -> In x l.
Proof. intros H. apply sget_inv in H. destruct H as (_ & H). eapply nth_error_In; eauto. Qed.

Definition shown_net {X} (r : gores (network xnum * X)) := match r with Ok (_, x) => Some x | _ => None end.
Lemma nonnegative_b_sound n : nonnegative_b n = true -> nonnegative n.
Proof.
  unfold nonnegative_b. rewrite andb_true_iff, !forallb_forall. intros [H1 H2]. split.
  - intros f s Hf. apply nonneg_cell. auto.
  - intros x p s Hin. specialize (H2 _ Hin). simpl in H2. unfold policy_prob, value, get_at, f_get.
    destruct (f_index p _) as [i|e|p0]; cbn [gbind]; try apply Qcle_refl.
    destruct (sget (f_data p) i) as [y|e|p0] eqn:E; try apply Qcle_refl.
    apply sget_In in E. rewrite forallb_forall in H2. specialize (H2 y E). destruct y; try apply Qcle_refl. eapply nonneg_b_sound; eauto.
Qed.

(** All proper states, up to names that are not variables *)
Lemma states_cover L : NoDup (map nv_name L) -> forall s s0, (forall v, In v L -> (s (nv_name v) < List.length (nv_outcomes v))%nat) ->
  exists s', In s' (joint_states L s0) /\ (forall v, In v L -> s' (nv_name v) = s (nv_name v)) /\ forall x, ~ In x (map nv_name L) -> s' x = s0 x.
Proof.
  induction L as [|v L IH]; intros Hnd s s0 Hs; [exists s0; simpl; repeat split; auto; intros ? []|].
  simpl in Hnd. inversion Hnd; subst. destruct (IH H2 s (nupd s0 (nv_name v) (s (nv_name v)))) as (s' & Hin & He & Ho).
  { intros w Hw. apply Hs. simpl. auto. }
  exists s'. split; [|split].
  - simpl. apply in_flat_map. exists (s (nv_name v)). split; auto. apply in_seq. specialize (Hs v (or_introl eq_refl)). lia.
  - intros w [<-|Hw]; auto. rewrite Ho by auto. unfold nupd. rewrite String.eqb_refl. auto.
  - intros x Hx. simpl in Hx. rewrite Ho by tauto. unfold nupd. destruct (String.eqb x (nv_name v)) eqn:E; auto. apply String.eqb_eq in E. subst. tauto.
Qed.

Lemma cell_ext vars names s s' : (forall x, In x names -> s x = s' x) -> cell vars names s = cell vars names s'.
Proof.
  unfold cell. generalize 0%nat. induction names as [|x l IH]; intros i H; auto. simpl. rewrite (H x) by (simpl; auto). apply IH. intros; apply H; simpl; auto.
Qed.
Lemma entry_ext vars f s s' : (forall x, In x (nf_given f ++ [nf_for f]) -> s x = s' x) -> entry vars f s = entry vars f s'.
Proof. intros H. unfold entry. rewrite (cell_ext vars _ s s'); auto. Qed.
Lemma nupd_ext (P : string -> Prop) s s' y k : (forall x, P x -> s x = s' x) -> forall x, P x -> nupd s y k x = nupd s' y k x.
Proof. intros H x Hx. unfold nupd. destruct (String.eqb x y); auto. Qed.

Definition positive_b (q : Qc) : bool := (0 <? Qnum (this q))%Z.
Definition causal_b (n : network xnum) (ign : string -> bool) (free : list string) (rank : string -> nat) : bool :=
  nodup_b String.eqb (conditionals n ign) &&
  forallb (fun v => nodeType_eqb (nv_type v) Utility ||
    xorb (existsb (String.eqb (nv_name v)) (conditionals n ign)) (existsb (String.eqb (nv_name v)) free)) (n_vars n) &&
  forallb (fun f => forallb (fun g => (rank g <? rank (nf_for f))%nat) (nf_given f)) (chance_factors n) &&
  forallb (fun '(d, p) => ign d || forallb (fun x => String.eqb x d || (rank x <? rank d)%nat) (factor_names n p)) (n_policies n) &&
  forallb (fun f => forallb (fun s => negb (qeq (row_sum (n_vars n) f s) 0%Qc)) (joint_states (n_vars n) nowhere)) (chance_factors n) &&
  forallb (fun '(d, p) => ign d || forallb (fun s => qeq (qsum (map (fun k => policy_prob (n_vars n) p (nupd s d k)) (seq 0 (num_outcomes (n_vars n) d)))) 1%Qc)
     (joint_states (n_vars n) nowhere)) (n_policies n).

Lemma exists_eqb x l : existsb (String.eqb x) l = true <-> In x l.
Proof.
  rewrite existsb_exists. split.
  - intros (y & Hy & E). apply String.eqb_eq in E. subst. auto.
  - intros H. exists x. split; auto. apply String.eqb_refl.
Qed.

Theorem causal_b_sound n ign free rank : wf_network n -> causal_b n ign free rank = true -> causal n ign free.
Proof.
  intros Hwf. unfold causal_b. rewrite !andb_true_iff. intros [[[[[H1 H2] H3] H4] H5] H6].
  rewrite forallb_forall in H2, H3, H4, H5, H6.
  assert (Hsc : forall f x, In f (chance_factors n) -> In x (nf_given f ++ [nf_for f]) -> exists v, In v (n_vars n) /\ nv_name v = x).
  { intros f x Hf Hx. apply filter_In in Hf. destruct Hf as [Hf Hk].
    assert (Ht : is_total n (nf_for f) = false).
    { destruct (is_total n (nf_for f)) eqn:E; auto. unfold is_total in E.
      destruct (nth_error (n_vars n) (Z.to_nat (n_tui n))) as [t|] eqn:Et; [|discriminate].
      apply andb_true_iff in E. destruct E as [E0 E]. apply String.eqb_eq in E. rewrite <- E in Hk.
      destruct (wn_total n Hwf) as [H|(i & v & k & f' & l & Hi & Hv & Hu & _)]; [lia|].
      rewrite Hi, Nat2Z.id in Et. rewrite Hv in Et. injection Et as <-.
      unfold kind in Hk. rewrite (proj2 (var_named_in n Hwf (nv_name v) v)) in Hk by (split; auto; eapply nth_error_In; eauto).
      simpl in Hk. rewrite Hu in Hk. discriminate. }
    destruct (table_names n f Ht (wn_tables n Hwf f Hf Ht) x Hx) as [_ (v & Hv)]. exists v. apply (var_named_in n Hwf). auto. }
  split.
  - apply string_nodup_b. auto.
  - intros v Hv Hu. specialize (H2 v Hv). destruct (nodeType_eqb (nv_type v) Utility) eqn:E; [apply node_eqb in E; congruence|]. simpl in H2.
    rewrite <- !exists_eqb. destruct (existsb _ (conditionals n ign)), (existsb _ free); simpl in H2; try discriminate; split; intros; auto; congruence.
  - exists rank. split.
    + intros f g Hf Hg. specialize (H3 f Hf). rewrite forallb_forall in H3. apply Nat.ltb_lt. auto.
    + intros d p x Hin Hi Hx Hne. specialize (H4 _ Hin). cbv beta iota in H4. rewrite Hi in H4. simpl in H4. rewrite forallb_forall in H4.
      specialize (H4 x Hx). apply orb_prop in H4. destruct H4 as [H4|H4]; [apply String.eqb_eq in H4; congruence|apply Nat.ltb_lt; auto].
  - intros f s Hf Hs. destruct (states_cover (n_vars n) (wn_names n Hwf) s nowhere Hs) as (s' & Hin & He & _).
    assert (E : row_sum (n_vars n) f s = row_sum (n_vars n) f s').
    { unfold row_sum. apply qsum_ext. intros k _. apply entry_ext. intros x Hx. unfold nupd. destruct (String.eqb x (nf_for f)); auto.
      destruct (Hsc f x Hf Hx) as (v & Hv & <-). symmetry. auto. }
    rewrite E. specialize (H5 f Hf). rewrite forallb_forall in H5. specialize (H5 s' Hin). intros E0. rewrite E0, qeq_refl in H5. discriminate.
  - intros d p s Hin Hi Hs. destruct (states_cover (n_vars n) (wn_names n Hwf) s nowhere Hs) as (s' & Hin' & He & _).
    specialize (H6 _ Hin). cbv beta iota in H6. rewrite Hi in H6. simpl in H6. rewrite forallb_forall in H6. specialize (H6 s' Hin'). apply qeq_spec in H6.
    rewrite <- H6. apply qsum_ext. intros k _. unfold policy_prob, value. 
    assert (E : get_at p (positions (n_vars n) (nupd s d k)) = get_at p (positions (n_vars n) (nupd s' d k))); [|rewrite E; auto].
    unfold get_at. f_equal. unfold tuple_of. apply map_ext. intros v. f_equal. unfold positions.
    destruct (nth_error (n_vars n) (Z.to_nat (v_id v))) as [w|] eqn:Ew; auto. unfold nupd. destruct (String.eqb (nv_name w) d); auto.
    symmetry. apply He. eapply nth_error_In; eauto.
Qed.

Definition forgetful_b (n : network xnum) (u : string) : bool :=
  nodup_b String.eqb (map nv_name (n_vars n)) &&
  forallb (fun v => negb (String.eqb (nv_name v) "") && (0 <? zlen (nv_outcomes v)) && (zlen (nv_outcomes v) <=? 65535)
             && nodup_b String.eqb (nv_outcomes v)) (n_vars n) &&
  (zlen (n_vars n) <=? 65536) &&
  forallb (fun f => is_total n (nf_for f) || table_b n f) (n_factors n) &&
  nodup_b String.eqb (map fst (n_policies n)) &&
  forallb (fun '(x, p) => policy_b n x p) (n_policies n) &&
  (0 <=? n_tui n) &&
  match nth_error (n_vars n) (Z.to_nat (n_tui n)) with
  | Some v =>
      nodeType_eqb (nv_type v) Utility &&
      match nv_factor v with
      | Some k => match nth_error (n_factors n) k with
        | Some f => String.eqb (nf_for f) (nv_name v) && match nf_table f with
          | Some l => forallb fin_b l && (List.length (nf_given f) <=? List.length l)%nat | None => false end &&
            negb (String.eqb u (nv_name v)) && match kind (n_vars n) u with Some Utility => true | _ => false end && negb (existsb (String.eqb u) (nf_given f))
        | None => false end
      | None => false end
  | None => false
  end.
Lemma forgetful_b_sound n u : forgetful_b n u = true -> forgetful_total n u.
Proof.
  unfold forgetful_b. rewrite !andb_true_iff. intros [[[[[[[H1 H2] H3] H4] H5] H6] H7] H8].
  rewrite forallb_forall in H2, H4, H6.
  assert (Hv : forall v, In v (n_vars n) -> nv_name v <> "" /\ (0 < zlen (nv_outcomes v) <= 65535) /\ NoDup (nv_outcomes v)).
  { intros v Hv. specialize (H2 v Hv). rewrite !andb_true_iff in H2. destruct H2 as [[[Ha Hb] Hc] Hd]. apply negb_true_iff in Ha.
    split; [apply String.eqb_neq; auto|]. split; [lia|apply string_nodup_b; auto]. }
  split; auto using string_nodup_b; try (intros v Hin; apply Hv; auto).
  - lia.
  - intros f Hf Ht. specialize (H4 f Hf). rewrite Ht in H4. apply table_b_sound. auto.
  - intros x p Hin. apply policy_b_sound. apply (H6 (x, p)). auto.
  - destruct (nth_error (n_vars n) (Z.to_nat (n_tui n))) as [v|] eqn:Ev; [|discriminate]. apply andb_prop in H8. destruct H8 as [Ha H8].
    destruct (nv_factor v) as [k|] eqn:Ek; [|discriminate]. destruct (nth_error (n_factors n) k) as [f|] eqn:Ef; [|discriminate].
    rewrite !andb_true_iff in H8. destruct H8 as [[[[Hb Hc] Hd] He] Hf]. destruct (nf_table f) as [l|] eqn:El; [|discriminate].
    apply andb_prop in Hc. destruct Hc as [Hc Hg]. destruct (fin_b_map _ Hc) as (l' & ->). rewrite map_length in Hg. apply Nat.leb_le in Hg.
    exists (Z.to_nat (n_tui n)), v, k, f, l'. rewrite Z2Nat.id by lia. repeat split; auto using node_eqb.
    + apply String.eqb_eq. auto.
    + apply String.eqb_neq. apply negb_true_iff. auto.
    + destruct (kind (n_vars n) u) as [[]|]; auto; discriminate.
    + intros Hin. apply exists_eqb in Hin. rewrite Hin in Hf. discriminate.
Qed.

(** Checking a statement about all cells of a table *)
Definition table_states (vars : list nvar) (f : nfactor xnum) : list nstate :=
  joint_states (filter (fun v => existsb (String.eqb (nv_name v)) (nf_given f ++ [nf_for f])) vars) nowhere.
Lemma NoDup_map_filter {X Y} (g : X -> Y) p l : NoDup (map g l) -> NoDup (map g (filter p l)).
Proof.
  induction l as [|x l IH]; simpl; intros H; auto. inversion H; subst. destruct (p x); simpl; auto. constructor; auto.
  intros Hin. apply H2. apply in_map_iff in Hin. destruct Hin as (y & <- & Hy). apply filter_In in Hy. apply in_map. tauto.
Qed.
Lemma in_table_cases vars f (P : nstate -> Prop) : NoDup (map nv_name vars) ->
  (forall s s', (forall x, In x (nf_given f ++ [nf_for f]) -> s x = s' x) -> P s' -> P s) ->
  (forall s, In s (table_states vars f) -> P s) -> forall s, in_table vars f s -> P s.
Proof.
  intros Hnd Hext Hall s Hs.
  destruct (states_cover (filter (fun v => existsb (String.eqb (nv_name v)) (nf_given f ++ [nf_for f])) vars)) with (s := s) (s0 := nowhere) as (s' & Hin & He & _).
  - apply NoDup_map_filter. auto.
  - intros v Hv. apply filter_In in Hv. destruct Hv as [Hv Hx]. apply exists_eqb in Hx. specialize (Hs _ Hx). unfold num_outcomes in Hs.
    rewrite (var_named_in' vars v Hnd Hv) in Hs. auto.
  - apply (Hext s s'); [|apply Hall; auto]. intros x Hx. specialize (Hs x Hx). unfold num_outcomes in Hs.
    destruct (var_named vars x) as [v|] eqn:Ev; [|lia]. apply NetNew.var_named_some in Ev. destruct Ev as [Hv <-]. symmetry. apply He.
    apply filter_In. split; auto. apply exists_eqb. auto.
Qed.

Lemma row_sum_ext vars f s s' : (forall x, In x (nf_given f ++ [nf_for f]) -> s x = s' x) -> row_sum vars f s = row_sum vars f s'.
Proof. intros H. unfold row_sum. apply qsum_ext. intros k _. apply entry_ext. apply nupd_ext. auto. Qed.

Definition zero_rows_b (vars : list nvar) (f : nfactor xnum) : bool :=
  forallb (fun s => negb (qeq (row_sum vars f s) 0%Qc) || qeq (entry vars f s) 0%Qc) (table_states vars f).
Lemma zero_rows_b_sound vars f : NoDup (map nv_name vars) -> zero_rows_b vars f = true ->
  forall s, in_table vars f s -> row_sum vars f s = 0%Qc -> entry vars f s = 0%Qc.
Proof.
  intros Hnd H. apply (in_table_cases vars f (fun s => row_sum vars f s = 0%Qc -> entry vars f s = 0%Qc) Hnd).
  - intros s s' E. rewrite (row_sum_ext vars f s s'), (entry_ext vars f s s'); auto.
  - intros s Hs E. unfold zero_rows_b in H. rewrite forallb_forall in H. specialize (H s Hs). rewrite E, qeq_refl in H. simpl in H. apply qeq_spec. auto.
Qed.

Lemma scaled_b_sound vars f g (c : nstate -> Qc) : NoDup (map nv_name vars) -> nf_for g = nf_for f -> nf_given g = nf_given f ->
  (forall s, (0 < c s)%Qc) -> (forall s k, c (nupd s (nf_for f) k) = c s) ->
  (forall s s', (forall x, In x (nf_given f ++ [nf_for f]) -> s x = s' x) -> c s = c s') ->
  forallb (fun s => qeq (entry vars g s) (c s * entry vars f s)%Qc) (table_states vars f) = true -> row_scaled vars f g.
Proof.
  intros Hnd E1 E2 Hp Hr Hx Hb. split; auto. split; auto. exists c. split; auto. split; auto. split; [intros s s' H; apply Hx; auto|].
  apply (in_table_cases vars f (fun s => entry vars g s = (c s * entry vars f s)%Qc) Hnd).
  - intros s s' E. rewrite (entry_ext vars f s s'), (Hx s s'), (entry_ext vars g s s'); auto. rewrite E1, E2. auto.
  - intros s Hs. rewrite forallb_forall in Hb. apply qeq_spec. apply (Hb s Hs).
Qed.

(** Variables that can be asked for because a probability table mentions them *)
Definition askable_b (n : network xnum) (ev : list (string * string)) (q : string) : bool :=
  match var_named (n_vars n) q with Some v => negb (is_kind Utility v) | None => false end &&
  existsb (fun f => existsb (String.eqb q) (nf_given f ++ [nf_for f])) (chance_factors n) &&
  negb (existsb (String.eqb q) (map fst ev)).
Lemma askable_b_sound n ign ev q : askable_b n ev q = true -> askable n ign ev q.
Proof.
  unfold askable_b. intros H. apply andb_true_iff in H. destruct H as [H H3]. apply andb_true_iff in H. destruct H as [H1 H2]. split; [|split].
  - destruct (var_named (n_vars n) q) as [v|]; [|discriminate]. exists v. split; auto. intros E. unfold is_kind in H1. rewrite E in H1. discriminate.
  - left. apply existsb_exists in H2. destruct H2 as (f & Hf & H2). exists f. split; auto. apply exists_eqb; auto.
  - intros Hin. apply exists_eqb in Hin. rewrite Hin in H3. discriminate.
Qed.
Definition plain_b (n : network xnum) : bool :=
  forallb (fun v => negb (is_kind Utility v) || is_total n (nv_name v) ||
    (List.length (nv_outcomes v) =? 1)%nat && existsb (fun f => String.eqb (nf_for f) (nv_name v)) (n_factors n)) (n_vars n).
Lemma plain_b_sound n : plain_b n = true -> plain_utilities n.
Proof.
  unfold plain_b. rewrite forallb_forall. intros H v Hv Ht Hto. specialize (H v Hv). unfold is_kind in H. rewrite Ht, Hto in H. cbn [nodeType_eqb negb orb] in H.
  apply andb_true_iff in H. destruct H as [H1 H2]. apply Nat.eqb_eq in H1. split; auto. apply existsb_exists in H2. destruct H2 as (f & Hf & H2).
  exists f. split; auto. apply String.eqb_eq. auto.
Qed.
Definition some_utility_b (n : network xnum) : bool := existsb (fun v => is_kind Utility v && negb (is_total n (nv_name v))) (n_vars n).
Lemma some_utility_b_sound n : some_utility_b n = true -> some_utility n.
Proof.
  unfold some_utility_b. intros H. apply existsb_exists in H. destruct H as (v & Hv & H). apply andb_true_iff in H. destruct H as [H1 H2].
  exists v. split; auto. unfold is_kind in H1. split; [apply node_eqb; auto|]. apply negb_true_iff. auto.
Qed.
