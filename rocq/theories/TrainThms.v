(** Training in terms of states and samples. *)
From Coq Require Import ZArith QArith Qcanon List Bool String Lia Permutation.
From Verif Require Import Num GoBase VarModel Tuples GoFacts SpecFactor XnumFacts VEModel NetModel SpecNet NetNew NetRow TrainModel SpecTrain TrainFacts TrainUpdate.
Import ListNotations.
Open Scope string_scope.
Open Scope list_scope.
Open Scope Z_scope.

Lemma cell_is_flat vars names s : cell vars names s = flat (map (num_outcomes vars) names) (map s names).
Proof.
  unfold cell. assert (G : forall acc, fold_left (fun i x => (i * num_outcomes vars x + s x)%nat) names acc =
    (acc * prod (map (num_outcomes vars) names) + flat (map (num_outcomes vars) names) (map s names))%nat).
  { induction names; intros acc; simpl; [lia|]. rewrite IHnames. lia. }
  rewrite G. lia.
Qed.
Lemma cell_snoc vars names x s : cell vars (names ++ [x]) s = (cell vars names s * num_outcomes vars x + s x)%nat.
Proof. unfold cell. rewrite fold_left_app. auto. Qed.
Lemma table_size_is_prod vars names : table_size vars names = prod (map (num_outcomes vars) names).
Proof. induction names; simpl; auto. Qed.

Section Spec.
Context {A : Type} {N : NumOps A}.
Variable n : network A.
Hypothesis Hta : trainable n.
Notation vars := (n_vars n).
Notation sample := (list Z * option (list A))%type.

Lemma named_outcomes v : In v vars -> num_outcomes vars (nv_name v) = List.length (nv_outcomes v).
Proof. intros Hv. unfold num_outcomes. rewrite (var_named_in' _ v); auto. apply ta_names; auto. Qed.

Lemma state_inb v s : In v vars -> state_of vars s -> inb (map (num_outcomes vars) (nf_given (fac n v))) (map s (nf_given (fac n v))).
Proof.
  intros Hv Hs. destruct (fac_spec n Hta v Hv) as (_ & _ & _ & _ & _ & _ & Hp & _). unfold inb. induction (nf_given (fac n v)) as [|g l IH]; simpl; constructor.
  - destruct (Hp g (or_introl eq_refl)) as (p & Hp1 & <-). rewrite named_outcomes by auto. apply Hs; auto.
  - apply IH. intros g' Hg'. apply Hp. simpl; auto.
Qed.

Lemma hits_shows v s smp : In v vars -> state_of vars s -> valid_sample vars smp ->
  hits n v (cell vars (nf_given (fac n v)) s) smp = shows vars (nf_given (fac n v)) s smp.
Proof.
  intros Hv Hs Hsmp. unfold hits. apply eq_true_iff_eq. rewrite andb_true_iff, Nat.eqb_eq. unfold shows. rewrite forallb_forall. split.
  - intros [Hk E]. pose proof (parents_inb n Hta smp Hsmp v Hv Hk) as I1. pose proof (state_inb v s Hv Hs) as I2. rewrite cell_is_flat in E. unfold row_num in E.
    apply flat_inj in E; auto. intros g Hg. unfold known_parents in Hk. rewrite forallb_forall in Hk. specialize (Hk g Hg).
    apply (In_nth_error) in Hg. destruct Hg as (i & Hi). apply (f_equal (fun l => nth_error l i)) in E. rewrite !nth_error_map, Hi in E. injection E as E. lia.
  - intros H. assert (Hk : known_parents n (nf_given (fac n v)) smp = true). { unfold known_parents. apply forallb_forall. intros g Hg. specialize (H g Hg). lia. } split; auto.
    rewrite cell_is_flat. unfold row_num. f_equal. apply map_ext_in. intros g Hg. specialize (H g Hg). lia.
Qed.

Lemma rows_decision v : nv_type v <> Decision -> rows n v = table_size vars (nf_given (fac n v)).
Proof. intros H. unfold rows. destruct (nv_type v); auto. congruence. Qed.

Lemma cell_row v s : In v vars -> nv_type v <> Decision -> state_of vars s -> (cell vars (nf_given (fac n v)) s < rows n v)%nat.
Proof. intros Hv Ht Hs. rewrite rows_decision, cell_is_flat, table_size_is_prod by auto. apply flat_lt, state_inb; auto. Qed.

(** Every table row belongs to a state. *)
Lemma row_state v j : In v vars -> (j < rows n v)%nat -> nv_type v <> Decision /\ exists s, state_of vars s /\ (NoDup (nf_given (fac n v)) -> cell vars (nf_given (fac n v)) s = j).
Proof.
  intros Hv Hj. assert (Ht : nv_type v <> Decision). { intros E. unfold rows in Hj. rewrite E in Hj. simpl in Hj. lia. } split; auto.
  rewrite rows_decision, table_size_is_prod in Hj by auto. set (G := nf_given (fac n v)) in *.
  set (s := fun x => if existsb (String.eqb x) G then nth (Z.to_nat (index_func (String.eqb x) G)) (tup (map (num_outcomes vars) G) j) 0%nat else 0%nat).
  assert (Hin : inb (map (num_outcomes vars) G) (tup (map (num_outcomes vars) G) j)). { apply tup_inb. lia. }
  exists s. split.
  - intros w Hw. unfold s. destruct (existsb _ _) eqn:E.
    + apply existsb_exists in E. destruct E as (g & Hg & Eg). apply String.eqb_eq in Eg. subst g.
      destruct (index_func_spec (String.eqb (nv_name w)) G) as [[_ H]|(k & x & E & H1 & H2 & _)]; [specialize (H _ Hg); rewrite String.eqb_refl in H; discriminate|].
      rewrite E, Nat2Z.id. apply String.eqb_eq in H2. subst x. rewrite <- named_outcomes by auto.
      clear - Hin H1. unfold inb in Hin. revert k H1. induction G as [|g G IH]; intros k H1; [destruct k; discriminate|]. simpl in Hin |- *. inversion Hin; subst.
      destruct k as [|k]; simpl in *; [injection H1 as ->; auto|]. apply IH; auto.
    + pose proof (ta_outcomes n Hta w Hw). destruct (nv_outcomes w); [tauto|simpl; lia].
  - intros Hnd. rewrite cell_is_flat. transitivity (flat (map (num_outcomes vars) G) (tup (map (num_outcomes vars) G) j)); [|apply flat_tup_lt; auto]. f_equal.
    pose proof (inb_length _ _ Hin) as L. rewrite map_length in L. apply nth_error_ext. intros i. rewrite nth_error_map. destruct (nth_error G i) as [g|] eqn:E.
    + simpl. unfold s. replace (existsb (String.eqb g) G) with true. 2:{ symmetry. apply existsb_exists. exists g. split; [eapply nth_error_In; eauto|apply String.eqb_refl]. }
      destruct (index_func_spec (String.eqb g) G) as [[_ H]|(k & x & E2 & H1 & H2 & _)]; [specialize (H g (nth_error_In _ _ E)); rewrite String.eqb_refl in H; discriminate|].
      apply String.eqb_eq in H2. subst x. assert (k = i). { rewrite NoDup_nth_error in Hnd. apply Hnd; [apply nth_error_Some; congruence|congruence]. } subst k. rewrite E2, Nat2Z.id.
      symmetry. apply nth_error_nth'. rewrite <- L. apply nth_error_Some. congruence.
    + simpl. apply nth_error_None in E. symmetry. apply nth_error_None. lia.
Qed.

Lemma filter_ext' {X} (p q : X -> bool) l : (forall x, In x l -> p x = q x) -> filter p l = filter q l.
Proof. intros H. apply filter_ext_in. auto. Qed.

Lemma count_usable v s samples : In v vars -> state_of vars s -> (forall smp, In smp samples -> valid_sample vars smp) ->
  hit_count n v (cell vars (nf_given (fac n v)) s) samples = (if is_utility v then 2 else 1) * usable_count vars v (nf_given (fac n v)) s samples.
Proof.
  intros Hv Hs Hval. unfold hit_count, usable_count, count_of. do 2 f_equal. apply filter_ext'. intros smp Hsmp. rewrite hits_shows by auto. reflexivity.
Qed.

(** The trained entry, for any kind of numbers. *)
Definition add_up (l : list A) : A := fold_left nadd l n0.
Lemma sum_usable v s samples : In v vars -> state_of vars s -> (forall smp, In smp samples -> valid_sample vars smp) ->
  hit_sum n v (cell vars (nf_given (fac n v)) s) (s (nv_name v)) samples =
  if is_utility v then
    if (s (nv_name v) =? 0)%nat then add_up (map (fun smp => reported vars smp (nv_name v)) (filter (usable vars v (nf_given (fac n v)) s) samples)) else n0
  else add_up (map (fun _ => n1) (filter (shows vars (nf_given (fac n v) ++ [nv_name v]) s) samples)).
Proof.
  intros Hv Hs Hval. unfold hit_sum, add_up. destruct (is_utility v) eqn:Eu.
  - destruct (_ =? 0)%nat; auto. do 2 f_equal. apply filter_ext'. intros smp Hsmp. rewrite hits_shows by auto. reflexivity.
  - assert (E : filter (fun smp => hits n v (cell vars (nf_given (fac n v)) s) smp && (observed vars smp (nv_name v) =? Z.of_nat (s (nv_name v)))) samples =
      filter (shows vars (nf_given (fac n v) ++ [nv_name v]) s) samples).
    { apply filter_ext'. intros smp Hsmp. rewrite hits_shows by auto. unfold shows. rewrite forallb_app. simpl. rewrite andb_true_r. auto. }
    rewrite E. clear E. generalize (filter (shows vars (nf_given (fac n v) ++ [nv_name v]) s) samples) as l, (n0 : A) as z. induction l as [|x l IH]; intros z; simpl; auto.
Qed.

Theorem trained_entry samples v s : In v vars -> nv_type v <> Decision -> state_of vars s -> (forall smp, In smp samples -> valid_sample vars smp) ->
  nth_error (slice_of (nf_table (trained n samples v))) (cell vars (nf_given (fac n v) ++ [nv_name v]) s) =
  Some (ndiv (hit_sum n v (cell vars (nf_given (fac n v)) s) (s (nv_name v)) samples) (nofint (hit_count n v (cell vars (nf_given (fac n v)) s) samples))).
Proof.
  intros Hv Ht Hs Hval. destruct (fac_spec n Hta v Hv) as (_ & _ & _ & _ & _ & Hc & _ & Hlen). pose proof (cell_row v s Hv Ht Hs) as Hr. pose proof (Hs v Hv) as Hk.
  set (j := cell vars (nf_given (fac n v)) s) in *. set (k := s (nv_name v)) in *.
  assert (Ep : cell vars (nf_given (fac n v) ++ [nv_name v]) s = (j * cols v + k)%nat) by (rewrite cell_snoc, named_outcomes by auto; auto).
  assert (Hkc : (k < cols v)%nat) by auto.
  rewrite Ep. destruct (nf_table (fac n v)) as [T|] eqn:ET.
  - unfold trained. rewrite ET. cbn [option_map nf_table slice_of]. unfold new_entries. rewrite nth_map_seq by nia.
    replace ((j * cols v + k) / cols v)%nat with j by (apply (Nat.div_unique _ _ j k); lia). replace ((j * cols v + k) mod cols v)%nat with k by (apply (Nat.mod_unique _ _ j k); lia). auto.
  - cbn [slice_of List.length] in Hlen. nia.
Qed.

(** The outcome of training. *)
Theorem train_result samples : (forall smp, In smp samples -> valid_sample vars smp) -> (forall v, In v vars -> NoDup (nf_given (fac n v))) ->
  (exists n', train n samples = (n', Ok tt) /\ only_tables_differ n n' /\ (forall v, In v vars -> own_factor n' v (trained n samples v)) /\
     (forall v s, In v vars -> nv_type v <> Decision -> state_of vars s -> usable_count vars v (nf_given (fac n v)) s samples <> 0) /\
     (forall k, (forall v, In v vars -> nv_factor v <> Some k) -> nth_error (n_factors n') k = nth_error (n_factors n) k)) \/
  (exists n' e, train n samples = (n', Err e) /\ only_tables_differ n n' /\
     exists v s, In v vars /\ nv_type v <> Decision /\ state_of vars s /\ usable_count vars v (nf_given (fac n v)) s samples = 0).
Proof.
  intros Hval Hnd. destruct (train_ok n Hta samples Hval) as (t & C & ->).
  assert (HD : forall fs, Forall2 keeps (n_factors n) fs -> only_tables_differ n (with_factors n fs)). { intros fs Hfs. repeat (split; [reflexivity|]). exact Hfs. }
  destruct (update_ok n Hta samples t C) as [(fs & -> & Hnz & _ & Hown & Hrest & Hk)|(fs & e & -> & (v & j & Hv & Hj & Hz) & Hk)].
  - left. exists (with_factors n fs). split; auto. split; auto. split; auto. split; auto. intros v s Hv Ht Hs E. apply (Hnz v (cell vars (nf_given (fac n v)) s) Hv).
    + apply cell_row; auto.
    + rewrite count_usable, E by auto. lia.
  - right. exists (with_factors n fs), e. split; auto. split; auto. destruct (row_state v j Hv Hj) as (Ht & s & Hs & Ej). exists v, s. split; auto. split; auto. split; auto.
    specialize (Ej (Hnd v Hv)). subst j. rewrite count_usable in Hz by auto. destruct (is_utility v); lia.
Qed.
End Spec.

(** ** Exact numbers *)
Section Exact.
Variable n : network xnum.
Hypothesis Hta : trainable n.
Notation vars := (n_vars n).

Lemma qz_add a b : qz (a + b) = (qz a + qz b)%Qc.
Proof. unfold qz. apply Qc_is_canon. unfold Qcplus, Q2Qc. cbn [this]. rewrite !Qred_correct, inject_Z_plus. reflexivity. Qed.
Lemma qz_inj a b : qz a = qz b -> a = b.
Proof. unfold qz. intros H. apply (f_equal this) in H. cbn [this Q2Qc] in H. assert (E : inject_Z a == inject_Z b). { rewrite <- (Qred_correct (inject_Z a)), <- (Qred_correct (inject_Z b)), H. reflexivity. } apply inject_Z_injective. auto. Qed.
Lemma qz_mul a b : qz (a * b) = (qz a * qz b)%Qc.
Proof. unfold qz. apply Qc_is_canon. unfold Qcmult, Q2Qc. cbn [this]. rewrite !Qred_correct, inject_Z_mult. reflexivity. Qed.

Lemma add_up_ones {X} (l : list X) : add_up (map (fun _ => n1) l) = Fin (qz (zlen l)).
Proof.
  unfold add_up. assert (G : forall z, fold_left nadd (map (fun _ : X => n1) l) (Fin (qz z)) = Fin (qz (z + zlen l))).
  { induction l as [|x l IH]; intros z; cbn [map fold_left]; [f_equal; f_equal; unfold zlen; simpl; lia|]. cbn [nadd n1 xnum_ops xadd].
    replace (qz z + 1)%Qc with (qz (z + 1)) by (rewrite qz_add; reflexivity). rewrite IH. f_equal. f_equal. unfold zlen. cbn [List.length]. lia. }
  exact (G 0).
Qed.

Lemma div_count q c : c <> 0 -> ndiv (Fin q) (nofint c) = Fin (q / qz c).
Proof.
  intros H. cbn [ndiv nofint xnum_ops xdiv]. rewrite qeq_neq; auto. intros E. apply H. apply qz_inj. exact E.
Qed.

Lemma add_up_perm l l' : Permutation l l' -> add_up (A := xnum) l = add_up l'.
Proof.
  intros P. unfold add_up. generalize (n0 : xnum) as z. induction P as [|x l l' P IH|x y l|l l' l'' P1 IH1 P2 IH2]; intros z; cbn [fold_left]; auto.
  - f_equal. destruct z, x, y; cbn [nadd xnum_ops xadd]; auto. f_equal. ring.
  - rewrite IH1. auto.
Qed.
Lemma filter_perm {X} (p : X -> bool) l l' : Permutation l l' -> Permutation (filter p l) (filter p l').
Proof. induction 1; simpl; auto. - destruct (p x); auto. - destruct (p x), (p y); auto. constructor. - eapply Permutation_trans; eauto. Qed.

Theorem train_order samples samples' : Permutation samples samples' -> (forall smp, In smp samples -> valid_sample vars smp) ->
  train n samples = train n samples'.
Proof.
  intros P Hval. assert (Hval' : forall smp, In smp samples' -> valid_sample vars smp). { intros smp H. apply Hval. eapply Permutation_in; [apply Permutation_sym; eauto|auto]. }
  apply train_depends; auto.
  - intros v j k Hv. unfold hit_sum. destruct (is_utility v).
    + destruct (k =? 0)%nat; auto. apply add_up_perm, Permutation_map, filter_perm; auto.
    + assert (G : forall l (z : xnum), fold_left (fun (x : xnum) _ => nadd x n1) l z = fold_left nadd (map (fun _ : list Z * option (list xnum) => n1) l) z). { induction l; intros z; simpl; auto. }
      rewrite !G. apply add_up_perm, Permutation_map, filter_perm; auto.
  - intros v j Hv. unfold hit_count, count_of, zlen. f_equal. f_equal. apply Permutation_length, filter_perm; auto.
Qed.

Theorem chance_entry samples v s : In v vars -> nv_type v = Chance -> state_of vars s -> (forall smp, In smp samples -> valid_sample vars smp) ->
  usable_count vars v (nf_given (fac n v)) s samples <> 0 ->
  nth_error (slice_of (nf_table (trained n samples v))) (cell vars (nf_given (fac n v) ++ [nv_name v]) s) =
  Some (Fin (qz (count_of (shows vars (nf_given (fac n v) ++ [nv_name v]) s) samples) / qz (usable_count vars v (nf_given (fac n v)) s samples))).
Proof.
  intros Hv Ht Hs Hval Hnz. rewrite trained_entry by (auto; congruence). rewrite sum_usable, count_usable by auto.
  assert (Eu : is_utility v = false) by (unfold is_utility; rewrite Ht; auto). rewrite Eu, add_up_ones, div_count by lia. rewrite Z.mul_1_l. auto.
Qed.

Theorem utility_entry samples v s : In v vars -> nv_type v = Utility -> state_of vars s -> (forall smp, In smp samples -> valid_sample vars smp) ->
  (forall smp, In smp samples -> exists q, reported vars smp (nv_name v) = Fin q \/ reported vars smp (nv_name v) = NaN) ->
  usable_count vars v (nf_given (fac n v)) s samples <> 0 ->
  nth_error (slice_of (nf_table (trained n samples v))) (cell vars (nf_given (fac n v) ++ [nv_name v]) s) =
  Some (Fin (if (s (nv_name v) =? 0)%nat then
    qsum (map (fun smp => finite_value (reported vars smp (nv_name v))) (filter (usable vars v (nf_given (fac n v)) s) samples)) / qz (2 * usable_count vars v (nf_given (fac n v)) s samples) else 0%Qc)).
Proof.
  intros Hv Ht Hs Hval Hfin Hnz. rewrite trained_entry by (auto; congruence). rewrite sum_usable, count_usable by auto.
  assert (Eu : is_utility v = true) by (unfold is_utility; rewrite Ht; auto). rewrite Eu. destruct (s (nv_name v) =? 0)%nat.
  - replace (map (fun smp => reported vars smp (nv_name v)) (filter (usable vars v (nf_given (fac n v)) s) samples)) with
      (map Fin (map (fun smp => finite_value (reported vars smp (nv_name v))) (filter (usable vars v (nf_given (fac n v)) s) samples))).
    + unfold add_up. rewrite fold_xadd0, div_count by lia. auto.
    + rewrite map_map. apply map_ext_in. intros smp Hin. apply filter_In in Hin. destruct Hin as [Hin Hus]. destruct (Hfin smp Hin) as (q & [E|E]); rewrite E; auto.
      exfalso. unfold usable in Hus. rewrite Ht in Hus. cbn [nodeType_eqb] in Hus. rewrite E in Hus. cbn in Hus. rewrite andb_false_r in Hus. discriminate.
  - change (n0 : xnum) with (Fin 0%Qc). rewrite div_count by lia. do 2 f_equal. unfold Qcdiv. ring.
Qed.
End Exact.

Lemma Forall2_in_r {X Y} (R : X -> Y -> Prop) l l' y : Forall2 R l l' -> In y l' -> exists x, In x l /\ R x y.
Proof. induction 1; simpl; [tauto|]. intros [<-|H1]; eauto. destruct IHForall2 as (x' & ? & ?); eauto. Qed.
Lemma Forall2_names l l' : Forall2 same_variable l l' -> map nv_name l' = map nv_name l.
Proof. induction 1 as [|a b l l' (H & _) _ IH]; simpl; auto. congruence. Qed.
Lemma Forall2_named l l' x : Forall2 same_variable l l' ->
  match var_named l' x, var_named l x with Some a, Some b => same_variable b a | None, None => True | _, _ => False end.
Proof.
  unfold var_named. induction 1 as [|a b l l' H _ IH]; simpl; auto. destruct H as (E & H). rewrite E. destruct (String.eqb (nv_name a) x); auto. split; auto.
Qed.
Lemma Forall2_outcomes l l' x : Forall2 same_variable l l' -> num_outcomes l' x = num_outcomes l x.
Proof. intros H. unfold num_outcomes. pose proof (Forall2_named l l' x H). destruct (var_named l' x), (var_named l x); try tauto. destruct H0 as (_ & _ & -> & _). auto. Qed.

(** Networks that New builds from complete tables can be trained. *)
Theorem built_trainable {A} name info vars (factors : list (nfactor A)) n : (forall v, In v vars -> nv_factor v = None) ->
  net_new name info vars factors = Ok n ->
  (forall v, In v vars -> nv_outcomes v <> []) ->
  (forall v, In v vars -> exists f, factor_for factors (nv_name v) = Some f /\ NoDup (nf_given f ++ [nf_for f]) /\
     (nv_type v = Decision -> slice_of (nf_table f) = []) /\
     (nv_type v <> Decision -> List.length (slice_of (nf_table f)) = table_size vars (nf_given f ++ [nf_for f]))) ->
  trainable n /\ (forall v f, In v (n_vars n) -> own_factor n v f -> NoDup (nf_given f ++ [nf_for f])).
Proof.
  intros Hnil E Hout Hfac. destruct (new_api name info vars factors Hnil) as ([_ Hst] & _ & Hn). specialize (Hst (ex_intro _ n E)).
  destruct (Hn n E) as (_ & _ & _ & _ & Hv & _ & Hl & _). pose proof (st_names _ _ Hst) as Hnd.
  assert (Hnd' : NoDup (map nv_name (n_vars n))) by (rewrite (Forall2_names _ _ Hv); auto).
  assert (Hsz : forall l, table_size (n_vars n) l = table_size vars l). { induction l; simpl; auto. rewrite IHl, (Forall2_outcomes _ _ a Hv). auto. }
  assert (Hone : forall v', In v' (n_vars n) -> exists v f, In v vars /\ same_variable v v' /\ factor_for factors (nv_name v) = Some f /\ own_factor n v' (linked_factor vars f)).
  { intros v' Hv'. destruct (Forall2_in_r _ _ _ _ Hv Hv') as (v & Hin & Hs). destruct (Hfac v Hin) as (f & Ef & _). exists v, f. split; auto. split; auto. split; auto.
    destruct (Hl v f Hin Ef) as (w & k & Hw & Hk & _ & Hf). assert (w = v'). { destruct Hs as (En & _). rewrite <- En, (var_named_in' _ v') in Hw by auto. congruence. } subst w. exists k. auto. }
  split; [constructor; auto|].
  - intros v' Hv'. destruct (Forall2_in_r _ _ _ _ Hv Hv') as (v & Hin & (_ & _ & -> & _)). auto.
  - intros v' Hv'. destruct (Hone v' Hv') as (v & f & Hin & (En & Et & Eo & _) & Ef & Ho). exists (linked_factor vars f). split; auto.
    destruct (Hfac v Hin) as (f' & Ef' & _ & H1 & H2). assert (f' = f) by congruence. subst f'.
    assert (Efor : nf_for f = nv_name v). { unfold factor_for in Ef. apply find_some in Ef. destruct Ef as [_ Ef]. apply String.eqb_eq in Ef. auto. }
    cbn [linked_factor nf_for nf_given nf_table nf_outcomes nf_columns].
    split; [congruence|]. split; [apply map_ext; intros g; rewrite (Forall2_outcomes _ _ g Hv); auto|]. split; [unfold num_outcomes, zlen; rewrite Efor, (var_named_in' vars v), Eo by auto; auto|].
    split; [|split].
    + intros g Hg. destruct (st_parents _ _ Hst v f g Hin Ef Hg) as (p & Hp & <-). pose proof (Forall2_named _ _ (nv_name p) Hv) as H. rewrite (var_named_in' vars p) in H by auto.
      destruct (var_named (n_vars n) (nv_name p)) as [w|] eqn:Ew; [|tauto]. destruct (var_named_some _ _ _ Ew) as (Hi & Hnm). exists w. split; auto.
    + rewrite Et. auto.
    + rewrite Et. intros H. rewrite Hsz. auto.
  - intros v' f' Hv' Ho'. destruct (Hone v' Hv') as (v & f & Hin & _ & Ef & Ho). destruct (Hfac v Hin) as (f2 & Ef2 & Hd & _). assert (f2 = f) by congruence. subst f2.
    destruct Ho as (k & K1 & K2), Ho' as (k' & K3 & K4). assert (k' = k) by congruence. subst k'. assert (f' = linked_factor vars f) by congruence. subst f'. auto.
Qed.

(** The counts of the outcomes of a row add up to the count of the row. *)
Lemma qsum_single p m (o : Z) : o < Z.of_nat m ->
  qsum (map (fun k => qz (if p && (o =? Z.of_nat k) then 1 else 0)) (seq 0 m)) = qz (if p && (0 <=? o) then 1 else 0).
Proof.
  intros Hm. destruct p; cbn [andb]; [|apply qsum_zero; intros; reflexivity].
  destruct (0 <=? o) eqn:E0.
  - assert (Hlt : (Z.to_nat o < m)%nat) by lia. rewrite <- (Z2Nat.id o) by lia. revert Hlt. generalize (Z.to_nat o) as k. clear. induction m as [|m IH]; intros k Hk; [lia|].
    rewrite seq_S, map_app, qsum_app. cbn [map]. destruct (Nat.eq_dec k m) as [->|Hne].
    + rewrite qsum_zero. 2:{ intros j Hj. apply in_seq in Hj. replace (Z.of_nat m =? Z.of_nat j) with false by lia. reflexivity. }
      cbn [Nat.add]. rewrite Z.eqb_refl. unfold qsum. simpl. ring.
    + rewrite IH by lia. cbn [Nat.add]. replace (Z.of_nat k =? Z.of_nat m) with false by lia. unfold qsum. simpl. change (qz 0) with 0%Qc. ring.
  - apply qsum_zero. intros k _. replace (o =? Z.of_nat k) with false by lia. reflexivity.
Qed.
Lemma count_cons {X} (p : X -> bool) x l : count_of p (x :: l) = (if p x then 1 else 0) + count_of p l.
Proof. unfold count_of, zlen. simpl. destruct (p x); simpl List.length; lia. Qed.
Lemma count_split {X} (p : X -> bool) (o : X -> Z) m l : (forall x, In x l -> o x < Z.of_nat m) ->
  qsum (map (fun k => qz (count_of (fun x => p x && (o x =? Z.of_nat k)) l)) (seq 0 m)) = qz (count_of (fun x => p x && (0 <=? o x)) l).
Proof.
  induction l as [|x l IH]; intros H.
  - apply qsum_zero. intros; reflexivity.
  - rewrite count_cons, qz_add, <- IH by (intros; apply H; simpl; auto). rewrite <- (qsum_single (p x) m (o x)) by (apply H; simpl; auto). rewrite <- qsum_add.
    apply qsum_ext. intros k _. rewrite count_cons, qz_add. reflexivity.
Qed.
