(** The variables and names created by toVE. *)
From Coq Require Import ZArith List Bool String Lia Permutation.
From Verif Require Import Num GoBase VarModel GoFacts SpecFactor FactorFacts FactorThms VEModel SpecVE VEFacts NetModel SpecNet.
Import ListNotations.
Open Scope string_scope.
Open Scope list_scope.
Open Scope Z_scope.

Lemma string_eqb_spec : forall a b, String.eqb a b = true <-> a = b.
Proof. apply String.eqb_eq. Qed.

Section Vars.
Context {A : Type} {N : NumOps A}.
Notation net := (network A).

Definition numbered (n : net) : list (Z * nvar) := combine (zrange 0 (zlen (n_vars n))) (n_vars n).
Definition ve_type (n : net) (v : nvar) : nodeType :=
  if nodeType_eqb (nv_type v) Decision && has_key (n_policies n) (nv_name v) then Chance else nv_type v.
Definition ve_index (n : net) (i : Z) : Z := if (0 <=? n_tui n) && (n_tui n <? i) then i - 1 else i.
Definition ve_entry (n : net) (iv : Z * nvar) : nentry :=
  mkEntry (snd iv) (mkVar (fst iv) (Z.to_nat (ve_index n (fst iv))) (u16 (zlen (nv_outcomes (snd iv)))) (ve_type n (snd iv))).
Definition keeps (n : net) (iv : Z * nvar) : bool := negb (fst iv =? n_tui n).
(** The entries for all variables but the total utility. *)
Definition entries (n : net) : list nentry := map (ve_entry n) (filter (keeps n) (numbered n)).
Definition net_vars (n : net) : list variable := map en_ve (entries n).
Definition name_map (E : list nentry) : list (string * nentry) := map (fun e => (nv_name (en_var e), e)) E.
Definition all_entries (n : net) : list nentry :=
  map (fun iv => if keeps n iv then ve_entry n iv else zero_entry) (numbered n).
Definition total_name (n : net) : string :=
  if n_tui n <? 0 then "" else match nth_error (n_vars n) (Z.to_nat (n_tui n)) with Some v => nv_name v | None => "" end.

Lemma numbered_length n : List.length (numbered n) = List.length (n_vars n).
Proof. unfold numbered. rewrite combine_length, zrange_length. unfold zlen. lia. Qed.

Lemma numbered_nth n i : nth_error (numbered n) i = option_map (fun v => (Z.of_nat i, v)) (nth_error (n_vars n) i).
Proof.
  unfold numbered. rewrite nth_error_combine'.
  destruct (nth_error (n_vars n) i) eqn:E; simpl.
  - rewrite zrange_nth; [simpl; auto|]. assert (i < List.length (n_vars n))%nat by (apply nth_error_Some; congruence). unfold zlen. lia.
  - destruct (nth_error (zrange 0 (zlen (n_vars n))) i); auto.
Qed.

Lemma firstn_S_nth {X} (l : list X) i x : nth_error l i = Some x -> firstn (S i) l = firstn i l ++ [x].
Proof. revert l; induction i; destruct l; simpl; intros H; inversion H; auto. rewrite <- IHi; auto. Qed.

Lemma kept_length n i : (i <= List.length (n_vars n))%nat ->
  Z.of_nat (List.length (filter (keeps n) (firstn i (numbered n)))) = ve_index n (Z.of_nat i).
Proof.
  induction i; intros Hi.
  - simpl. unfold ve_index. destruct (0 <=? n_tui n) eqn:E1, (n_tui n <? Z.of_nat 0) eqn:E2; simpl; try lia.
  - destruct (nth_error (numbered n) i) as [iv|] eqn:E.
    2:{ apply nth_error_None in E. rewrite numbered_length in E. lia. }
    rewrite (firstn_S_nth _ _ _ E), filter_app, app_length, Nat2Z.inj_add, IHi by lia.
    rewrite numbered_nth in E. destruct (nth_error (n_vars n) i); inversion E; subst.
    simpl. unfold keeps, ve_index. simpl.
    destruct (Z.of_nat i =? n_tui n) eqn:E0, (0 <=? n_tui n) eqn:E1, (n_tui n <? Z.of_nat i) eqn:E2,
      (n_tui n <? Z.of_nat (S i)) eqn:E3; simpl; lia.
Qed.

Lemma filter_length_le {X} (p : X -> bool) l : (List.length (filter p l) <= List.length l)%nat.
Proof. induction l; simpl; auto. destruct (p a); simpl; lia. Qed.

Lemma NoDup_app_l {X} (a b : list X) : NoDup (a ++ b) -> NoDup a.
Proof. induction a; simpl; intros H; constructor; inversion H; subst; auto. intros Hi. apply H2. apply in_or_app. auto. Qed.

Lemma in_numbered n i v : In (i, v) (numbered n) <-> exists k, i = Z.of_nat k /\ nth_error (n_vars n) k = Some v.
Proof.
  split.
  - intros H. apply In_nth_error in H. destruct H as (k & H). rewrite numbered_nth in H.
    destruct (nth_error (n_vars n) k) eqn:E; inversion H; subst. eauto.
  - intros (k & -> & E). apply nth_error_In with k. rewrite numbered_nth, E. auto.
Qed.

Lemma in_entries n e : In e (entries n) <-> exists k v, nth_error (n_vars n) k = Some v /\ Z.of_nat k <> n_tui n /\
  e = ve_entry n (Z.of_nat k, v).
Proof.
  unfold entries. rewrite in_map_iff. split.
  - intros ([i v] & <- & H). apply filter_In in H. destruct H as [H Hk]. apply in_numbered in H.
    destruct H as (k & -> & E). exists k, v. unfold keeps in Hk. simpl in Hk. repeat split; auto. lia.
  - intros (k & v & E & Hk & ->). exists (Z.of_nat k, v). split; auto. apply filter_In. split.
    + apply in_numbered. eauto.
    + unfold keeps. simpl. lia.
Qed.

Lemma numbered_names n : map (fun iv => nv_name (snd iv)) (numbered n) = map nv_name (n_vars n).
Proof.
  rewrite <- map_map with (f := snd) (g := nv_name). f_equal. apply nth_error_ext. intros i.
  rewrite nth_error_map, numbered_nth. destruct (nth_error (n_vars n) i); auto.
Qed.

Lemma numbered_keys n : map fst (numbered n) = zrange 0 (zlen (n_vars n)).
Proof.
  apply nth_error_ext. intros i. rewrite nth_error_map, numbered_nth.
  destruct (nth_error (n_vars n) i) eqn:E; simpl.
  - assert (i < List.length (n_vars n))%nat by (apply nth_error_Some; congruence).
    rewrite zrange_nth; auto. unfold zlen. lia.
  - symmetry. apply nth_error_None. apply nth_error_None in E. rewrite zrange_length. unfold zlen. lia.
Qed.

Lemma entries_names_nodup n : NoDup (map nv_name (n_vars n)) -> NoDup (map (fun e => nv_name (en_var e)) (entries n)).
Proof.
  intros H. unfold entries. rewrite map_map. simpl. apply (NoDup_filter_map (fun iv => nv_name (snd iv))).
  rewrite numbered_names. auto.
Qed.

Lemma zrange_nodup lo hi : NoDup (zrange lo hi).
Proof.
  unfold zrange. apply FinFun.Injective_map_NoDup; [|apply seq_NoDup].
  intros x y E. lia.
Qed.

Lemma net_vars_wf n : wf_vars (net_vars n).
Proof.
  unfold wf_vars, net_vars, entries. rewrite !map_map. simpl. apply (NoDup_filter_map fst).
  rewrite numbered_keys. apply zrange_nodup.
Qed.

Lemma filter_nth_prefix {X} (p : X -> bool) l : forall j x, nth_error (filter p l) j = Some x ->
  exists i, nth_error l i = Some x /\ List.length (filter p (firstn i l)) = j.
Proof.
  induction l; simpl; intros j x H; [destruct j; discriminate|].
  destruct (p a) eqn:Ea.
  - destruct j; simpl in H.
    + inversion H; subst. exists 0%nat. auto.
    + destruct (IHl _ _ H) as (i & Hi & Hl). exists (S i). simpl. rewrite Ea. simpl. auto.
  - destruct (IHl _ _ H) as (i & Hi & Hl). exists (S i). simpl. rewrite Ea. auto.
Qed.

Lemma net_vars_index n : forall j v, nth_error (net_vars n) j = Some v -> v_index v = j.
Proof.
  intros j v H. unfold net_vars, entries in H. rewrite !nth_error_map in H.
  destruct (nth_error (filter (keeps n) (numbered n)) j) as [iv|] eqn:E; [|discriminate].
  simpl in H. inversion H; subst. simpl. apply filter_nth_prefix in E. destruct E as (i & Ei & El).
  rewrite numbered_nth in Ei. destruct (nth_error (n_vars n) i) eqn:Ev; inversion Ei; subst. simpl.
  rewrite <- kept_length; [lia|]. assert (i < List.length (n_vars n))%nat by (apply nth_error_Some; congruence). lia.
Qed.

Lemma has_key_spec {V} (m : list (string * V)) k : has_key m k = true <-> In k (map fst m).
Proof.
  unfold has_key. destruct (sget_map m k) eqn:E.
  - split; auto. intros _. apply (mget_In _ string_eqb_spec) in E. apply in_map_iff. exists (k, v). auto.
  - split; [discriminate|]. intros H. apply (mget_None _ string_eqb_spec) in E. tauto.
Qed.

Lemma name_map_keys E : map fst (name_map E) = map (fun e => nv_name (en_var e)) E.
Proof. unfold name_map. rewrite map_map. auto. Qed.

Lemma name_map_get E x e : NoDup (map (fun e => nv_name (en_var e)) E) ->
  (sget_map (name_map E) x = Some e <-> In e E /\ nv_name (en_var e) = x).
Proof.
  intros H. split.
  - intros G. apply (mget_In _ string_eqb_spec) in G. unfold name_map in G. apply in_map_iff in G.
    destruct G as (e' & Heq & Hin). inversion Heq; subst. auto.
  - intros [Hin <-]. apply (In_mget _ string_eqb_spec); [rewrite name_map_keys; auto|].
    unfold name_map. apply in_map_iff. eauto.
Qed.

Lemma name_map_none E x : sget_map (name_map E) x = None <-> ~ exists e, In e E /\ nv_name (en_var e) = x.
Proof.
  rewrite (mget_None _ string_eqb_spec), name_map_keys, in_map_iff. split; intros H G; apply H; destruct G as (e & H1 & H2); eauto.
Qed.

Lemma u16_small k : 0 <= k <= 65535 -> Z.of_nat (u16 k) = k.
Proof. intros. unfold u16. rewrite Z.mod_small by lia. lia. Qed.

Theorem add_net_variables_ok n : NoDup (map nv_name (n_vars n)) -> zlen (n_vars n) <= 65536 ->
  add_net_variables n = Ok (mkVS 0 (net_vars n) [], name_map (entries n), all_entries n, total_name n).
Proof.
  intros Hn Hc. unfold add_net_variables. fold (numbered n).
  destruct (foldM_inv (fun i st =>
      let E := map (ve_entry n) (filter (keeps n) (firstn i (numbered n))) in
      st = (mkVS 0 (map en_ve E) [], name_map E,
            map (fun iv => if keeps n iv then ve_entry n iv else zero_entry) (firstn i (numbered n)),
            if (0 <=? n_tui n) && (n_tui n <? Z.of_nat i) then total_name n else ""))
    (add_net_variable n) (numbered n) (new_variables, [], [], "")) as (st & E & H).
  - cbv zeta. replace ((0 <=? n_tui n) && (n_tui n <? Z.of_nat 0)) with false by lia. reflexivity.
  - intros i st [k v] Hnth Hst. cbv zeta in Hst. subst st.
    pose proof Hnth as Hnth'. rewrite numbered_nth in Hnth'.
    destruct (nth_error (n_vars n) i) as [v'|] eqn:Ev; inversion Hnth'; subst. clear Hnth'.
    assert (Hi : (i < List.length (n_vars n))%nat) by (apply nth_error_Some; congruence).
    rewrite (firstn_S_nth _ _ _ Hnth). rewrite filter_app, !map_app. cbn [add_net_variable].
    cbn [filter map].
    assert (Hke : keeps n (Z.of_nat i, v) = negb (Z.of_nat i =? n_tui n)) by reflexivity. rewrite Hke.
    destruct (Z.of_nat i =? n_tui n) eqn:Et; cbn [negb].
    + eexists. split; [reflexivity|]. cbv zeta. cbn [map]. rewrite !app_nil_r.
      replace ((0 <=? n_tui n) && (n_tui n <? Z.of_nat (S i))) with true by lia.
      do 2 f_equal. unfold total_name. replace (n_tui n <? 0) with false by lia.
      replace (Z.to_nat (n_tui n)) with i by lia. rewrite Ev. auto.
    + unfold add_variable. cbn [vs_ids existsb gbind vs_vars vs_counter].
      eexists. split; [reflexivity|]. cbv zeta. cbn [map].
      assert (Hidx : u16 (zlen (map en_ve (map (ve_entry n) (filter (keeps n) (firstn i (numbered n)))))) = Z.to_nat (ve_index n (Z.of_nat i))).
      { unfold zlen. rewrite !map_length. rewrite kept_length by lia.
        pose proof (kept_length n i ltac:(lia)).
        assert (List.length (filter (keeps n) (firstn i (numbered n))) <= i)%nat.
        { etransitivity; [apply filter_length_le|]. rewrite firstn_length. lia. }
        unfold zlen in Hc. rewrite <- H. unfold u16. rewrite Z.mod_small by lia. auto. }
      rewrite Hidx. fold (ve_type n v). 
      assert (Henew : mkEntry v (mkVar (Z.of_nat i) (Z.to_nat (ve_index n (Z.of_nat i))) (u16 (zlen (nv_outcomes v))) (ve_type n v)) = ve_entry n (Z.of_nat i, v)) by reflexivity.
      rewrite !Henew.
      assert (Hset : sset_map (name_map (map (ve_entry n) (filter (keeps n) (firstn i (numbered n))))) (nv_name v) (ve_entry n (Z.of_nat i, v))
        = name_map (map (ve_entry n) (filter (keeps n) (firstn i (numbered n))) ++ [ve_entry n (Z.of_nat i, v)])).
      { rewrite (mset_new _ string_eqb_spec).
        - unfold name_map. rewrite map_app. auto.
        - rewrite name_map_keys, map_map. simpl. intros Hin. apply in_map_iff in Hin. destruct Hin as (iv & Hnm & Hin).
          apply filter_In in Hin. destruct Hin as [Hin _].
          assert (Hd : NoDup (map (fun iv => nv_name (snd iv)) (firstn (S i) (numbered n)))).
          { rewrite <- firstn_map, numbered_names. rewrite <- (firstn_skipn (S i) (map nv_name (n_vars n))) in Hn.
            apply NoDup_app_l in Hn. auto. }
          rewrite (firstn_S_nth _ _ _ Hnth), map_app in Hd. simpl in Hd. apply NoDup_remove_2 in Hd. apply Hd.
          rewrite app_nil_r. apply in_map_iff. exists iv. auto. }
      rewrite Hset, map_app. cbn [map]. f_equal.
      destruct (0 <=? n_tui n) eqn:E1, (n_tui n <? Z.of_nat i) eqn:E2, (n_tui n <? Z.of_nat (S i)) eqn:E3; cbn [andb]; auto; try (exfalso; lia).
  - cbv zeta in H. subst st. rewrite E. rewrite firstn_all. unfold net_vars, entries, all_entries.
    repeat f_equal. unfold total_name. rewrite numbered_length.
    destruct (0 <=? n_tui n) eqn:E1, (n_tui n <? Z.of_nat (List.length (n_vars n))) eqn:E2; simpl; auto.
    + replace (n_tui n <? 0) with false by lia. destruct (nth_error (n_vars n) (Z.to_nat (n_tui n))) eqn:En; auto.
      exfalso. assert (Z.to_nat (n_tui n) < List.length (n_vars n))%nat by (apply nth_error_Some; congruence). lia.
    + replace (n_tui n <? 0) with true by lia. auto.
    + replace (n_tui n <? 0) with true by lia. auto.
Qed.

End Vars.
