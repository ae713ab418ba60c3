(** Property C85: training with float64 numbers (training.go, network.go).
    Specification vocabulary: SpecTrain.v, SpecNet.v and SpecRound.v. *)
From Coq Require Import ZArith List Bool String Lia Permutation QArith Qcanon Qcabs.
From Coq Require Import Floats.SpecFloat.
From Verif Require Import Num GoBase VarModel GoFacts SpecFactor XnumFacts VEModel NetModel SpecNet SpecRound NetNew TrainModel SpecTrain
  TrainFacts TrainUpdate TrainThms RoundTrain Props_VE Props_Net Props_Train Props_Float.
Import ListNotations.
Open Scope string_scope.
Open Scope list_scope.
Open Scope Z_scope.

(** ** C85: trained float64 probabilities are correctly rounded relative frequencies *)

(** With fewer than 2^53 samples, each trained probability is the float64 that is nearest to the
    number of samples with the outcomes of the table entry, divided by the number of samples
    that count for the table row. *)
Theorem C85_correctly_rounded : forall (n : network f64) samples n', trainable n -> plain_parents n ->
  (forall smp, In smp samples -> valid_sample (n_vars n) smp) -> zlen samples < 2 ^ 53 ->
  train n samples = (n', Ok tt) ->
  forall v f, In v (n_vars n) -> nv_type v = Chance -> own_factor n v f ->
  exists f', own_factor n' v f' /\ same_tables_shape f f' /\
    forall s, state_of (n_vars n) s ->
      0 < usable_count (n_vars n) v (nf_given f) s samples /\
      exists p, nth_error (slice_of (nf_table f')) (cell (n_vars n) (nf_given f ++ [nv_name v]) s) = Some p /\
      nearest_float p (qz (count_of (shows (n_vars n) (nf_given f ++ [nv_name v]) s) samples) / qz (usable_count (n_vars n) v (nf_given f) s samples)).
Proof.
  intros n samples n' Hta Hp Hval Hlen E v f Hv Ht Ho. pose proof (own_fac n v f Ho) as ->.
  destruct (train_result n Hta samples Hval (fac_nodup n Hta Hp)) as [(n2 & E2 & Hd & Hown & Hnz & _)|(n2 & e & E2 & _)]; [|congruence].
  assert (n2 = n') by congruence. subst n2. exists (trained n samples v). split; auto. split.
  - destruct Hd as (_ & _ & _ & _ & _ & _ & _ & Hd). destruct Ho as (k & K1 & K2). destruct (Hown v Hv) as (k' & K3 & K4). assert (k' = k) by congruence. subst k'.
    clear - Hd K2 K4. revert k K2 K4. induction Hd; intros [|k] K2 K4; try discriminate; simpl in *; eauto. congruence.
  - intros s Hs. assert (H : usable_count (n_vars n) v (nf_given (fac n v)) s samples <> 0) by (apply Hnz; auto; congruence). split.
    + unfold usable_count, count_of, zlen in *. lia.
    + apply chance_entry64; auto.
Qed.

(** For every kind of numbers, and any number of samples: in every order of the samples, training
    succeeds or fails alike, and sets the same probabilities, bit by bit. *)
Theorem C85_order : forall {A} {N : NumOps A} (n : network A) samples samples', trainable n -> plain_parents n ->
  (forall smp, In smp samples -> valid_sample (n_vars n) smp) -> Permutation samples samples' ->
  (forall n1, train n samples = (n1, Ok tt) -> exists n2, train n samples' = (n2, Ok tt) /\
     forall v f, In v (n_vars n) -> nv_type v = Chance -> own_factor n1 v f -> own_factor n2 v f) /\
  ((forall v, In v (n_vars n) -> nv_type v <> Utility) -> train n samples = train n samples').
Proof.
  intros A N n samples samples' Hta Hp Hval P. split; [|intros Hu; apply train_order_any; auto].
  assert (Hval' : forall smp, In smp samples' -> valid_sample (n_vars n) smp).
  { intros smp H. apply Hval. eapply Permutation_in; [apply Permutation_sym; eauto|auto]. }
  intros n1 E. destruct (train_result n Hta samples Hval (fac_nodup n Hta Hp)) as [(n2 & E2 & _ & Hown & Hnz & _)|(n2 & e & E2 & _)]; [|congruence].
  assert (n2 = n1) by congruence. subst n2. clear E2.
  assert (Hc : forall v G s, usable_count (n_vars n) v G s samples' = usable_count (n_vars n) v G s samples).
  { intros v G s. unfold usable_count, count_of, zlen. f_equal. symmetry. apply Permutation_length, filter_perm. auto. }
  destruct (train_result n Hta samples' Hval' (fac_nodup n Hta Hp)) as [(n2 & E2 & _ & Hown2 & _)|(n2 & e & E2 & _ & v & s & Hv & Ht & Hs & Hz)].
  - exists n2. split; auto. intros v f Hv Ht Ho. specialize (Hown v Hv). specialize (Hown2 v Hv).
    rewrite <- (trained_order n samples samples' v P) in Hown2 by (unfold is_utility; rewrite Ht; auto).
    destruct Ho as (a & A1 & A2), Hown as (b & B1 & B2). assert (a = b) by congruence. subst b. assert (f = trained n samples v) by congruence. subst f. auto.
  - exfalso. rewrite Hc in Hz. apply (Hnz v s); auto.
Qed.

(** The network of C41 with float64 numbers. *)
Definition trip64 : network f64 := built64 (net_new "trip" "" trip_vars [cpt64 "weather" [] [(5, 1); (5, 1)];
  cpt64 "forecast" ["weather"] [(1, 0); (1, 0); (1, 0); (1, 0); (1, 0); (1, 0)];
  mkNFactor "trip" ["forecast"] None [] 0; cpt64 "mood" ["weather"; "trip"] [(0, 0); (0, 0); (0, 0); (0, 0)]]).
Definition smp64 (o : list Z) (u : option Z) : sample f64 :=
  (o, Some [n0; n0; n0; match u with Some z => f64_of_int z | None => nnan end]).
Definition trip64_samples : list (sample f64) := [smp64 [0; 0; 0; 0] (Some 10); smp64 [0; 1; 1; 0] (Some 4); smp64 [1; 2; 0; 0] (Some (-6));
  smp64 [0; 0; 0; 0] None; smp64 [-1; 1; 0; 0] (Some 5); smp64 [1; 1; 1; 0] (Some 1); smp64 [0; -1; 0; 0] (Some 12); smp64 [1; 2; -1; 0] (Some 3)].

Lemma trip64_trainable : trainable trip64 /\ plain_parents trip64.
Proof.
  apply (built_trainable "trip" "" trip_vars [cpt64 "weather" [] [(5, 1); (5, 1)];
    cpt64 "forecast" ["weather"] [(1, 0); (1, 0); (1, 0); (1, 0); (1, 0); (1, 0)];
    mkNFactor "trip" ["forecast"] None [] 0; cpt64 "mood" ["weather"; "trip"] [(0, 0); (0, 0); (0, 0); (0, 0)]]).
  - intros v H. simpl in H. repeat (destruct H as [<-|H]; [reflexivity|]). destruct H.
  - vm_compute. reflexivity.
  - intros v H. simpl in H. repeat (destruct H as [<-|H]; [discriminate|]). destruct H.
  - intros v H. simpl in H.
    repeat (destruct H as [<-|H]; [eexists; split; [reflexivity|split; [repeat constructor; simpl; intuition discriminate|split; [intros E; first [discriminate|reflexivity]|intros E; first [reflexivity|exfalso; apply E; reflexivity]]]]|]). destruct H.
Qed.
Lemma trip64_valid : forall smp, In smp trip64_samples -> valid_sample (n_vars trip64) smp.
Proof.
  assert (H : forallb (valid_sample_b (n_vars trip64)) trip64_samples = true) by (vm_compute; reflexivity). rewrite forallb_forall in H.
  intros smp Hs. apply valid_sample_b_sound. auto.
Qed.

(** Four of seven known samples are sunny. The trained probability is not 4/7, which is no float64,
    but the nearest float64, 2573485501354569 / 2^52 (the same table as in C41, rounded). *)
Definition float_table (r : network f64 * gores unit) (k : nat) : option (list shown) :=
  option_map (map (fun x => xshow (f64_exact x))) (trained_table r k).
Example C85_example : snd (train trip64 trip64_samples) = Ok tt /\ zlen trip64_samples < 2 ^ 53 /\
  float_table (train trip64 trip64_samples) 0 = Some [SFin (2573485501354569 # 4503599627370496); SFin (7720456504063707 # 18014398509481984)] /\
  float_table (train trip64 (rev trip64_samples)) 0 = float_table (train trip64 trip64_samples) 0 /\
  shown_table (train trip trip_samples) 0 = Some [SFin (4 # 7); SFin (3 # 7)].
Proof. vm_compute. repeat split; reflexivity. Qed.

(** Trained utilities, in contrast, are sums of float64 numbers and depend on the order: 10^16 + 3 - 10^16
    is not 10^16 - 10^16 + 3. *)
Definition rich_samples (a b c : Z) : list (sample f64) := trip64_samples ++ [smp64 [1; 1; 1; 0] (Some a); smp64 [1; 1; 1; 0] (Some b); smp64 [1; 1; 1; 0] (Some c)].
Example C85_utilities_differ :
  snd (train trip64 (rich_samples (10 ^ 16) 3 (- 10 ^ 16))) = Ok tt /\
  float_table (train trip64 (rich_samples (10 ^ 16) 3 (- 10 ^ 16))) 3 <> float_table (train trip64 (rich_samples (10 ^ 16) (- 10 ^ 16) 3)) 3 /\
  float_table (train trip64 (rich_samples (10 ^ 16) 3 (- 10 ^ 16))) 1 = float_table (train trip64 (rich_samples (10 ^ 16) (- 10 ^ 16) 3)) 1.
Proof. vm_compute. repeat split; try reflexivity. discriminate. Qed.

Print Assumptions C85_correctly_rounded.
Print Assumptions C85_order.
