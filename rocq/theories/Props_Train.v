(** Properties C41-C43: training a network from samples (training.go).
    Specification vocabulary: SpecTrain.v, SpecNet.v. *)
From Coq Require Import ZArith QArith Qcanon List Bool String Lia Permutation.
From Verif Require Import Num GoBase VarModel GoFacts SpecFactor XnumFacts VEModel NetModel SpecNet NetNew TrainModel SpecTrain TrainFacts TrainUpdate TrainThms Props_VE Props_Net.
Import ListNotations.
Open Scope string_scope.
Open Scope list_scope.
Open Scope Z_scope.

(** No variable is its own parent or listed twice as a parent. *)
Definition plain_parents {A} (n : network A) : Prop :=
  forall v f, In v (n_vars n) -> own_factor n v f -> NoDup (nf_given f ++ [nf_for f]).

Lemma fac_nodup {A} (n : network A) : trainable n -> plain_parents n -> forall v, In v (n_vars n) -> NoDup (nf_given (fac n v)).
Proof.
  intros Hta Hp v Hv. destruct (fac_spec n Hta v Hv) as (_ & Ho & _). specialize (Hp v _ Hv Ho). apply NoDup_remove_1 in Hp. rewrite app_nil_r in Hp. auto.
Qed.

(** An example: weather, a forecast, a decision and a utility. *)
Definition trip_vars := [node Chance "weather" ["sunny"; "rainy"]; node Chance "forecast" ["good"; "mixed"; "bad"];
  node Decision "trip" ["go"; "stay"]; node Utility "mood" ["value"]].
Definition trip_factors := [cpt "weather" [] [1#2; 1#2]; cpt "forecast" ["weather"] [1#1; 1#1; 1#1; 1#1; 1#1; 1#1];
  mkNFactor "trip" ["forecast"] None [] 0; cpt "mood" ["weather"; "trip"] [0#1; 0#1; 0#1; 0#1]].
Definition trip : network xnum := built (net_new "trip" "" trip_vars trip_factors).
Definition smp (o : list Z) (u : option Q) : sample xnum :=
  (o, Some (lit [0#1; 0#1; 0#1] ++ [match u with Some q => Fin (Q2Qc q) | None => NaN end])).
(** The fourth sample has no utility, the fifth does not know the weather, the last two not the forecast or the trip. *)
Definition trip_samples : list (sample xnum) := [smp [0; 0; 0; 0] (Some (10#1)); smp [0; 1; 1; 0] (Some (4#1)); smp [1; 2; 0; 0] (Some ((-6)#1));
  smp [0; 0; 0; 0] None; smp [-1; 1; 0; 0] (Some (5#1)); smp [1; 1; 1; 0] (Some (1#1)); smp [0; -1; 0; 0] (Some (12#1)); smp [1; 2; -1; 0] (Some (3#1))].

Lemma trip_built : net_new "trip" "" trip_vars trip_factors = Ok trip.
Proof.
  unfold trip. destruct (net_new "trip" "" trip_vars trip_factors) eqn:E; auto; exfalso;
    assert (H : match net_new "trip" "" trip_vars trip_factors with Ok _ => true | _ => false end = true) by (vm_compute; reflexivity); rewrite E in H; discriminate.
Qed.
Lemma trip_trainable : trainable trip /\ plain_parents trip.
Proof.
  apply (built_trainable "trip" "" trip_vars trip_factors); [| apply trip_built | |].
  - intros v H. simpl in H. repeat (destruct H as [<-|H]; [reflexivity|]). destruct H.
  - intros v H. simpl in H. repeat (destruct H as [<-|H]; [discriminate|]). destruct H.
  - intros v H. simpl in H.
    repeat (destruct H as [<-|H]; [eexists; split; [reflexivity|split; [repeat constructor; simpl; intuition discriminate|split; [intros E; first [discriminate|reflexivity]|intros E; first [reflexivity|exfalso; apply E; reflexivity]]]]|]). destruct H.
Qed.
Lemma trip_vars_are : map (fun v => (nv_name v, nv_type v, nv_outcomes v)) (n_vars trip) = map (fun v => (nv_name v, nv_type v, nv_outcomes v)) trip_vars.
Proof. vm_compute. reflexivity. Qed.
Definition valid_sample_b {A} (vars : list nvar) (smp : sample A) : bool :=
  (List.length (fst smp) =? List.length vars)%nat && forallb (fun v => observed vars smp (nv_name v) <? zlen (nv_outcomes v)) vars &&
  match snd smp with Some u => (List.length u =? List.length vars)%nat | None => forallb (fun v => negb (nodeType_eqb (nv_type v) Utility)) vars end.
Lemma valid_sample_b_sound {A} vars (smp : sample A) : valid_sample_b vars smp = true -> valid_sample vars smp.
Proof.
  unfold valid_sample_b. rewrite !andb_true_iff, Nat.eqb_eq, forallb_forall. intros [[H1 H2] H3]. constructor; auto.
  - intros v Hv. specialize (H2 v Hv). lia.
  - destruct (snd smp); [apply Nat.eqb_eq; auto|]. rewrite forallb_forall in H3. intros v Hv E. specialize (H3 v Hv). rewrite E in H3. discriminate.
Qed.
Lemma trip_valid : forall smp, In smp trip_samples -> valid_sample (n_vars trip) smp.
Proof.
  assert (H : forallb (valid_sample_b (n_vars trip)) trip_samples = true) by (vm_compute; reflexivity). rewrite forallb_forall in H.
  intros smp Hs. apply valid_sample_b_sound. auto.
Qed.
Definition trained_table {A} (r : network A * gores unit) (k : nat) : option (list A) :=
  match nth_error (n_factors (fst r)) k with Some f => nf_table f | None => None end.
Definition shown_table (r : network xnum * gores unit) (k : nat) : option (list shown) := option_map (map xshow) (trained_table r k).

(** ** C41: trained probabilities are relative frequencies *)
Theorem C41_frequencies : forall n samples n', trainable n -> plain_parents n -> (forall smp, In smp samples -> valid_sample (n_vars n) smp) ->
  train n samples = (n', Ok tt) ->
  forall v f, In v (n_vars n) -> nv_type v = Chance -> own_factor n v f ->
  exists f', own_factor n' v f' /\ same_tables_shape f f' /\
    forall s, state_of (n_vars n) s ->
      0 < usable_count (n_vars n) v (nf_given f) s samples /\
      nth_error (slice_of (nf_table f')) (cell (n_vars n) (nf_given f ++ [nv_name v]) s) =
      Some (Fin (qz (count_of (shows (n_vars n) (nf_given f ++ [nv_name v]) s) samples) / qz (usable_count (n_vars n) v (nf_given f) s samples))).
Proof.
  intros n samples n' Hta Hp Hval E v f Hv Ht Ho. pose proof (own_fac n v f Ho) as ->.
  destruct (train_result n Hta samples Hval (fac_nodup n Hta Hp)) as [(n2 & E2 & Hd & Hown & Hnz & _)|(n2 & e & E2 & _)]; [|congruence].
  assert (n2 = n') by congruence. subst n2. exists (trained n samples v). split; auto. split.
  - destruct Hd as (_ & _ & _ & _ & _ & _ & _ & Hd). destruct Ho as (k & K1 & K2). destruct (Hown v Hv) as (k' & K3 & K4). assert (k' = k) by congruence. subst k'.
    clear - Hd K2 K4. revert k K2 K4. induction Hd; intros [|k] K2 K4; try discriminate; simpl in *; eauto. congruence.
  - intros s Hs. assert (H : usable_count (n_vars n) v (nf_given (fac n v)) s samples <> 0) by (apply Hnz; auto; congruence). split.
    + unfold usable_count, count_of, zlen in *. lia.
    + apply chance_entry; auto.
Qed.

Lemma shows_other {A} vars G s x k (sm : sample A) : ~ In x G -> shows vars G (nupd s x k) sm = shows vars G s sm.
Proof.
  unfold shows. intros H. induction G as [|g l IH]; auto. simpl in *. rewrite IH by tauto. f_equal. unfold nupd. destruct (String.eqb_spec g x); auto. subst g. tauto.
Qed.
(** The probabilities of each row add up to one. *)
Theorem C41_rows_add_up : forall n samples n', trainable n -> plain_parents n -> (forall smp, In smp samples -> valid_sample (n_vars n) smp) ->
  train n samples = (n', Ok tt) ->
  forall v f', In v (n_vars n) -> nv_type v = Chance -> own_factor n' v f' ->
  forall s, state_of (n_vars n) s -> row_sum (n_vars n) f' s = 1%Qc.
Proof.
  intros n samples n' Hta Hp Hval E v f' Hv Ht Ho' s Hs. destruct (fac_spec n Hta v Hv) as (_ & Ho & Hfor & _).
  destruct (C41_frequencies n samples n' Hta Hp Hval E v _ Hv Ht Ho) as (f2 & Ho2 & (K1 & K2 & _) & Hent).
  assert (f2 = f'). { destruct Ho' as (a & A1 & A2), Ho2 as (b & B1 & B2). congruence. } subst f2.
  pose proof (Hp v _ Hv Ho) as Hnd. rewrite Hfor in Hnd. apply NoDup_remove_2 in Hnd. rewrite app_nil_r in Hnd.
  set (G := nf_given (fac n v)) in *. set (x := nv_name v) in *.
  assert (Hup : forall k, (k < num_outcomes (n_vars n) x)%nat -> state_of (n_vars n) (nupd s x k)).
  { intros k Hk w Hw. unfold nupd. destruct (String.eqb_spec (nv_name w) x); auto. assert (w = v). { pose proof (ta_names n Hta) as Hn. pose proof (var_named_in' _ w Hn Hw) as E1. pose proof (var_named_in' _ v Hn Hv) as E2. fold x in E2. rewrite e in E1. congruence. } subst w. unfold x in Hk. rewrite named_outcomes in Hk by auto. auto. }
  assert (HG : forall k (sm : sample xnum), shows (n_vars n) G (nupd s x k) sm = shows (n_vars n) G s sm).
  { intros k sm. apply shows_other. auto. }
  assert (HU : forall k, usable_count (n_vars n) v G (nupd s x k) samples = usable_count (n_vars n) v G s samples).
  { intros k. unfold usable_count, count_of. f_equal. apply filter_ext. intros sm. unfold usable. rewrite HG. auto. }
  destruct (Hent s Hs) as (Hpos & _).
  unfold row_sum. rewrite K1, Hfor. fold x.
  rewrite (qsum_ext _ (fun k => (qz (count_of (fun sm => shows (n_vars n) G s sm && (observed (n_vars n) sm x =? Z.of_nat k)) samples) * / qz (usable_count (n_vars n) v G s samples))%Qc)).
  - rewrite qsum_scale_r, count_split.
    + replace (count_of (fun sm => shows (n_vars n) G s sm && (0 <=? observed (n_vars n) sm x)) samples) with (usable_count (n_vars n) v G s samples).
      * apply Qcmult_inv_r. intros Hz. apply (qz_inj _ 0) in Hz. lia.
      * unfold usable_count, count_of. f_equal. apply filter_ext. intros sm. unfold usable. rewrite Ht. auto.
    + intros sm Hsm. destruct (Hval sm Hsm) as [_ Hr _]. specialize (Hr v Hv). unfold x. rewrite named_outcomes by auto. auto.
  - intros k Hk. apply in_seq in Hk. specialize (Hent (nupd s x k)). destruct Hent as (_ & Hent); [apply Hup; lia|]. unfold entry. rewrite K1, K2, Hfor. rewrite Hent. cbn [fin_value].
    rewrite HU. unfold Qcdiv. f_equal. f_equal. unfold count_of. f_equal. apply filter_ext. intros sm. unfold shows. rewrite forallb_app. fold (shows (n_vars n) G (nupd s x k) sm). rewrite HG.
    f_equal. cbn [forallb]. rewrite andb_true_r. unfold nupd. rewrite String.eqb_refl. auto.
Qed.

(** The order of the samples does not matter. *)
Theorem C41_order : forall (n : network xnum) samples samples', trainable n -> (forall smp, In smp samples -> valid_sample (n_vars n) smp) ->
  Permutation samples samples' -> train n samples = train n samples'.
Proof. intros n samples samples' Hta Hval P. apply train_order; auto. Qed.

Definition opt_nat_dec (a b : option nat) : {a = b} + {a <> b}.
Proof. decide equality. apply Nat.eq_dec. Defined.

(** Training changes tables of chance and utility nodes and nothing else. *)
Theorem C41_changes_only_tables : forall {A} {N : NumOps A} (n : network A) samples n' r, trainable n -> plain_parents n ->
  (forall smp, In smp samples -> valid_sample (n_vars n) smp) -> train n samples = (n', r) ->
  only_tables_differ n n' /\
  (r = Ok tt -> forall k, (forall v, In v (n_vars n) -> nv_type v <> Decision -> nv_factor v <> Some k) ->
     nth_error (n_factors n') k = nth_error (n_factors n) k).
Proof.
  intros A N n samples n' r Hta Hp Hval E. destruct (train_result n Hta samples Hval (fac_nodup n Hta Hp)) as [(n2 & E2 & Hd & Hown & _ & Hrest)|(n2 & e & E2 & Hd & _)];
    rewrite E in E2; injection E2 as <- ->; split; auto; [|discriminate].
  intros _ k Hk. destruct (in_dec opt_nat_dec (Some k) (map nv_factor (n_vars n))) as [Hin|Hno].
  - apply in_map_iff in Hin. destruct Hin as (v & Ek & Hv). assert (Ht : nv_type v = Decision). { destruct (nv_type v) eqn:Et; auto; exfalso; apply (Hk v Hv); congruence. }
    destruct (Hown v Hv) as (k' & K1 & K2). assert (k' = k) by congruence. subst k'. rewrite K2. destruct (fac_spec n Hta v Hv) as (_ & (k2 & K3 & K4) & _ & _ & _ & _ & _ & Hlen).
    assert (k2 = k) by congruence. subst k2. rewrite K4. f_equal. unfold trained. unfold rows in *. rewrite Ht in *. cbn [nodeType_eqb] in *.
    destruct (fac n v) as [ff fg ft fo fc]. cbn [nf_for nf_given nf_table nf_outcomes nf_columns] in *. f_equal. destruct ft as [T|]; auto. cbn [slice_of option_map] in *. destruct T; [reflexivity|discriminate].
  - apply Hrest. intros v Hv Ek. apply Hno. rewrite <- Ek. apply in_map. auto.
Qed.

Example C41_example : snd (train trip trip_samples) = Ok tt /\
  shown_table (train trip trip_samples) 0 = Some [SFin (4#7); SFin (3#7)] /\
  shown_table (train trip trip_samples) 1 = Some [SFin (2#3); SFin (1#3); SFin 0; SFin 0; SFin (1#3); SFin (2#3)] /\
  train trip trip_samples = train trip (rev trip_samples).
Proof.
  split; [vm_compute; reflexivity|]. split; [vm_compute; reflexivity|]. split; [vm_compute; reflexivity|].
  apply C41_order; [apply trip_trainable | apply trip_valid | apply Permutation_rev].
Qed.

(** ** C42: trained utilities *)

(** The full statement (the trained entry is the mean of the utilities) is false: AddSample counts every
    utility twice, so training returns half the mean. *)
Definition mean (l : list Qc) : Qc := (qsum l / qz (zlen l))%Qc.
Theorem C42_mean_utility_refuted : ~ (forall n samples n', trainable n -> plain_parents n -> (forall smp, In smp samples -> valid_sample (n_vars n) smp) ->
  train n samples = (n', Ok tt) ->
  forall v f', In v (n_vars n) -> nv_type v = Utility -> own_factor n' v f' ->
  forall s, state_of (n_vars n) s -> s (nv_name v) = 0%nat ->
    nth_error (slice_of (nf_table f')) (cell (n_vars n) (nf_given f' ++ [nv_name v]) s) =
    Some (Fin (mean (map (fun smp => finite_value (reported (n_vars n) smp (nv_name v))) (filter (usable (n_vars n) v (nf_given f') s) samples))))).
Proof.
  intros H. destruct (train trip trip_samples) as [n' r] eqn:E.
  assert (Er : r = Ok tt). { change r with (snd (n', r)). rewrite <- E. vm_compute. reflexivity. } subst r.
  specialize (H trip trip_samples n' (proj1 trip_trainable) (proj2 trip_trainable) trip_valid E).
  set (v := nth 3 (n_vars trip) (node Chance "" [])). assert (Hv : In v (n_vars trip)). { unfold v. apply nth_In. vm_compute. lia. }
  destruct (fac_spec trip (proj1 trip_trainable) v Hv) as (_ & Ho & _).
  destruct (train_result trip (proj1 trip_trainable) trip_samples trip_valid (fac_nodup trip (proj1 trip_trainable) (proj2 trip_trainable))) as [(n2 & E2 & _ & Hown & _)|(n2 & e & E2 & _)]; [|congruence].
  assert (n2 = n') by congruence. subst n2. specialize (H v _ Hv eq_refl (Hown v Hv) (fun _ => 0%nat)).
  assert (Hs : state_of (n_vars trip) (fun _ => 0%nat)). { intros w Hw. pose proof (ta_outcomes _ (proj1 trip_trainable) w Hw). destruct (nv_outcomes w); [tauto|simpl; lia]. }
  specialize (H Hs eq_refl). apply (f_equal (option_map xshow)) in H. revert H. vm_compute. discriminate.
Qed.

(** What does hold: half the mean in the first column, zero in other columns. *)
Theorem C42_half_the_mean_partial : forall n samples n', trainable n -> plain_parents n -> (forall smp, In smp samples -> valid_sample (n_vars n) smp) ->
  train n samples = (n', Ok tt) ->
  forall v f, In v (n_vars n) -> nv_type v = Utility -> own_factor n v f ->
  (forall smp, In smp samples -> exists q, reported (n_vars n) smp (nv_name v) = Fin q \/ reported (n_vars n) smp (nv_name v) = NaN) ->
  exists f', own_factor n' v f' /\ same_tables_shape f f' /\
    forall s, state_of (n_vars n) s ->
      0 < usable_count (n_vars n) v (nf_given f) s samples /\
      nth_error (slice_of (nf_table f')) (cell (n_vars n) (nf_given f ++ [nv_name v]) s) =
      Some (Fin (if (s (nv_name v) =? 0)%nat
        then (mean (map (fun smp => finite_value (reported (n_vars n) smp (nv_name v))) (filter (usable (n_vars n) v (nf_given f) s) samples)) / qz 2)%Qc
        else 0%Qc)).
Proof.
  intros n samples n' Hta Hp Hval E v f Hv Ht Ho Hfin. pose proof (own_fac n v f Ho) as ->.
  destruct (train_result n Hta samples Hval (fac_nodup n Hta Hp)) as [(n2 & E2 & Hd & Hown & Hnz & _)|(n2 & e & E2 & _)]; [|congruence].
  assert (n2 = n') by congruence. subst n2. exists (trained n samples v). split; auto. split.
  - destruct Hd as (_ & _ & _ & _ & _ & _ & _ & Hd). destruct Ho as (k & K1 & K2). destruct (Hown v Hv) as (k' & K3 & K4). assert (k' = k) by congruence. subst k'.
    clear - Hd K2 K4. revert k K2 K4. induction Hd; intros [|k] K2 K4; try discriminate; simpl in *; eauto. congruence.
  - intros s Hs. assert (H : usable_count (n_vars n) v (nf_given (fac n v)) s samples <> 0) by (apply Hnz; auto; congruence). split.
    + unfold usable_count, count_of, zlen in *. lia.
    + rewrite utility_entry by auto. destruct (s (nv_name v) =? 0)%nat; auto. do 2 f_equal. unfold mean. rewrite qz_mul.
      assert (El : zlen (map (fun smp => finite_value (reported (n_vars n) smp (nv_name v))) (filter (usable (n_vars n) v (nf_given (fac n v)) s) samples)) = usable_count (n_vars n) v (nf_given (fac n v)) s samples).
      { unfold usable_count, count_of, zlen. rewrite map_length. auto. }
      rewrite El. field. split; intros Hz; [apply (qz_inj _ 0) in Hz; auto|apply (qz_inj 2 0) in Hz; discriminate].
Qed.

Example C42_example : shown_table (train trip trip_samples) 3 = Some [SFin (11#2); SFin 2; SFin ((-3)#1); SFin (1#2)].
Proof. vm_compute. reflexivity. Qed.

(** ** C43: errors *)

(** Training never panics on valid samples, and there is an error exactly when some row has no usable sample. *)
Theorem C43_error_iff_no_samples_partial : forall {A} {N : NumOps A} (n : network A) samples, trainable n -> plain_parents n ->
  (forall smp, In smp samples -> valid_sample (n_vars n) smp) ->
  ((exists n', train n samples = (n', Ok tt)) \/ (exists n' e, train n samples = (n', Err e))) /\
  ((exists n' e, train n samples = (n', Err e)) <->
   exists v f s, In v (n_vars n) /\ nv_type v <> Decision /\ own_factor n v f /\ state_of (n_vars n) s /\ usable_count (n_vars n) v (nf_given f) s samples = 0).
Proof.
  intros A N n samples Hta Hp Hval. destruct (train_result n Hta samples Hval (fac_nodup n Hta Hp)) as [(n' & E & _ & _ & Hnz & _)|(n' & e & E & _ & v & s & Hv & Ht & Hs & Hz)].
  - split; [left; eauto|]. split; [intros (n2 & e & E2); congruence|]. intros (v & f & s & Hv & Ht & Ho & Hs & Hz). exfalso. pose proof (own_fac n v f Ho) as ->. apply (Hnz v s Hv Ht Hs). auto.
  - split; [right; eauto|]. split; [|intros _; eauto]. intros _. exists v, (fac n v), s. destruct (fac_spec n Hta v Hv) as (_ & Ho & _). auto 10.
Qed.

(** The second half of the property, that tables are unchanged after an error, is false: nodes before the
    failing one are already updated. *)
Definition trip_few : list (sample xnum) := [smp [0; 0; 0; 0] (Some (10#1)); smp [1; -1; 0; 0] (Some (1#1))].
Theorem C43_unchanged_on_error_refuted : ~ (forall (n : network xnum) samples n' e, trainable n -> plain_parents n ->
  (forall smp, In smp samples -> valid_sample (n_vars n) smp) -> train n samples = (n', Err e) -> n_factors n' = n_factors n).
Proof.
  intros H. destruct (train trip trip_few) as [n' r] eqn:E.
  assert (Er : r = Err (EMsg "no samples for node")). { change r with (snd (n', r)). rewrite <- E. vm_compute. reflexivity. } subst r.
  assert (Hval : forall smp, In smp trip_few -> valid_sample (n_vars trip) smp).
  { assert (Hb : forallb (valid_sample_b (n_vars trip)) trip_few = true) by (vm_compute; reflexivity). rewrite forallb_forall in Hb. intros sm Hs. apply valid_sample_b_sound. auto. }
  specialize (H trip trip_few n' _ (proj1 trip_trainable) (proj2 trip_trainable) Hval E).
  assert (E1 : shown_table (train trip trip_few) 1 = Some [SFin 1; SFin 0; SFin 0; SFin 1; SFin 1; SFin 1]) by (vm_compute; reflexivity).
  rewrite E in E1. unfold shown_table, trained_table in E1. cbn [fst] in E1. rewrite H in E1. vm_compute in E1. discriminate.
Qed.
Example C43_example : (exists v f s, In v (n_vars trip) /\ nv_type v <> Decision /\ own_factor trip v f /\ state_of (n_vars trip) s /\ usable_count (n_vars trip) v (nf_given f) s trip_few = 0) /\
  ~ (exists v f s, In v (n_vars trip) /\ nv_type v <> Decision /\ own_factor trip v f /\ state_of (n_vars trip) s /\ usable_count (n_vars trip) v (nf_given f) s trip_samples = 0).
Proof.
  assert (Hval : forall smp, In smp trip_few -> valid_sample (n_vars trip) smp).
  { assert (Hb : forallb (valid_sample_b (n_vars trip)) trip_few = true) by (vm_compute; reflexivity). rewrite forallb_forall in Hb. intros sm Hs. apply valid_sample_b_sound. auto. }
  destruct (C43_error_iff_no_samples_partial trip trip_few (proj1 trip_trainable) (proj2 trip_trainable) Hval) as (_ & H1 & _).
  destruct (C43_error_iff_no_samples_partial trip trip_samples (proj1 trip_trainable) (proj2 trip_trainable) trip_valid) as (_ & _ & H2). split.
  - apply H1. destruct (train trip trip_few) as [n' r] eqn:E. exists n', (EMsg "no samples for node"). f_equal. change r with (snd (n', r)). rewrite <- E. vm_compute. reflexivity.
  - intros H. specialize (H2 H). destruct H2 as (n' & e & E). apply (f_equal snd) in E. revert E. vm_compute. discriminate.
Qed.

Print Assumptions C41_frequencies.
Print Assumptions C41_rows_add_up.
Print Assumptions C41_order.
Print Assumptions C41_changes_only_tables.
Print Assumptions C42_mean_utility_refuted.
Print Assumptions C42_half_the_mean_partial.
Print Assumptions C43_error_iff_no_samples_partial.
Print Assumptions C43_unchanged_on_error_refuted.
