(** C104: trained tables give the samples the highest probability. *)
From Coq Require Import ZArith QArith Qcanon List Bool String Lia.
From Verif Require Import Num GoBase VarModel SpecFactor VEModel NetModel SpecNet SpecTrain SpecLikelihood TrainModel NetScale NetCheck Likelihood TrainThms Props_Net Props_Train.
Import ListNotations.
Open Scope string_scope.
Open Scope list_scope.
Open Scope Z_scope.

Lemma parents_not_utilities (n : network xnum) : wf_network n -> forall f y, In f (chance_factors n) -> In y (nf_given f) -> kind (n_vars n) y <> Some Utility.
Proof.
  intros Hwf f y Hf Hy. unfold chance_factors in Hf. apply filter_In in Hf. destruct Hf as (Hf & Hk). apply (wt_parents n f); [|exact Hy]. apply (wn_tables n Hwf f Hf).
  apply chance_not_total; [exact Hwf|]. destruct (kind (n_vars n) (nf_for f)) as [[]|]; congruence.
Qed.

(** No other tables of the same network give the samples a higher probability. *)
Theorem C104_most_likely : forall n samples n' m, wf_network n -> trainable n -> plain_parents n -> NoDup (map nf_for (n_factors n)) ->
  (forall smp, In smp samples -> valid_sample (n_vars n) smp /\ complete_sample (n_vars n) smp) ->
  train n samples = (n', Ok tt) -> only_tables_differ n m -> nonnegative m ->
  (likelihood m samples <= likelihood n' samples)%Qc.
Proof.
  intros n samples n' m Hwf Hta Hp Hone Hs Ht Hm Hnn.
  apply (most_likely n n' m samples Hta Hp Hone (fun s H => proj1 (Hs s H)) (fun s H => proj2 (Hs s H)) Ht Hm Hnn (parents_not_utilities n Hwf)).
Qed.

(** Nothing that was seen is impossible afterwards. *)
Theorem C104_seen_is_possible : forall n samples n', wf_network n -> trainable n -> plain_parents n -> NoDup (map nf_for (n_factors n)) ->
  (forall smp, In smp samples -> valid_sample (n_vars n) smp /\ complete_sample (n_vars n) smp) ->
  train n samples = (n', Ok tt) -> n_policies n = [] ->
  forall smp, In smp samples -> (0 < mass n' (fun _ => false) (fits (n_vars n') smp))%Qc.
Proof.
  intros n samples n' Hwf Hta Hp Hone Hs Ht Hno smp Hin.
  apply (seen_positive n n' samples Hta Hp Hone (fun s H => proj1 (Hs s H)) (fun s H => proj2 (Hs s H)) Ht (parents_not_utilities n Hwf) smp Hin Hno).
Qed.

(** The probability of a sample is what [SolveQuery] answers for its known outcomes as evidence and no query. *)
Theorem C104_answer : forall n sc (smp : sample xnum), wf_network n -> causal n (fun _ => false) [] -> valid_sample (n_vars n) smp ->
  exists n' f, net_solve_query sc n (as_evidence (n_vars n) smp) [] false = (n', Ok ([], f)) /\
    f_vars f = [] /\ f_data f = [Fin (mass n (fun _ => false) (fits (n_vars n) smp))].
Proof.
  intros n sc smp Hwf Hc Hv. destruct (C29_probability_of_evidence n sc _ Hwf Hc (evidence_valid n Hwf smp Hv)) as (n' & f & E & Ef & Ed & _).
  exists n', f. split; [exact E|]. split; [exact Ef|]. rewrite Ed. now rewrite (evidence_mass n Hwf smp Hv).
Qed.

(** An example: rain and a wet street. *)
Definition wet_vars := [node Chance "rain" ["yes"; "no"]; node Chance "street" ["wet"; "dry"]].
Definition wet_factors := [cpt "rain" [] [1#2; 1#2]; cpt "street" ["rain"] [1#2; 1#2; 1#4; 3#4]].
Definition wet : network xnum := built (net_new "wet" "" wet_vars wet_factors).
Definition seen (o : list Z) : sample xnum := (o, None).
Definition wet_samples : list (sample xnum) := [seen [0; 0]; seen [1; 1]; seen [1; 1]; seen [0; 0]; seen [1; 0]; seen [0; 1]; seen [1; 1]].
Definition wet_trained : network xnum := fst (train wet wet_samples).

Lemma wet_built : net_new "wet" "" wet_vars wet_factors = Ok wet.
Proof.
  unfold wet. destruct (net_new "wet" "" wet_vars wet_factors) eqn:E; auto; exfalso;
    assert (H : match net_new "wet" "" wet_vars wet_factors with Ok _ => true | _ => false end = true) by (vm_compute; reflexivity); rewrite E in H; discriminate.
Qed.
Lemma wet_trainable : trainable wet /\ plain_parents wet.
Proof.
  apply (built_trainable "wet" "" wet_vars wet_factors); [| apply wet_built | |].
  - intros v H. simpl in H. repeat (destruct H as [<-|H]; [reflexivity|]). destruct H.
  - intros v H. simpl in H. repeat (destruct H as [<-|H]; [discriminate|]). destruct H.
  - intros v H. simpl in H.
    repeat (destruct H as [<-|H]; [eexists; split; [reflexivity|split; [repeat constructor; simpl; intuition discriminate|split; [intros E; first [discriminate|reflexivity]|intros E; first [reflexivity|exfalso; apply E; reflexivity]]]]|]). destruct H.
Qed.
Lemma wet_wf : wf_network wet. Proof. apply network_b_sound. vm_compute. reflexivity. Qed.
Lemma wet_one : NoDup (map nf_for (n_factors wet)).
Proof. replace (map nf_for (n_factors wet)) with ["rain"; "street"] by (vm_compute; reflexivity). repeat constructor; simpl; intuition discriminate. Qed.
Definition complete_sample_b {A} (vars : list nvar) (smp : sample A) : bool :=
  forallb (fun v => nodeType_eqb (nv_type v) Utility || (0 <=? observed vars smp (nv_name v))) vars.
Lemma complete_sample_b_sound {A} vars (smp : sample A) : complete_sample_b vars smp = true -> complete_sample vars smp.
Proof. unfold complete_sample_b. rewrite forallb_forall. intros H v Hv Ht. specialize (H v Hv). apply orb_true_iff in H. destruct H as [H|H]; [|lia]. destruct (nv_type v); try discriminate. congruence. Qed.
Lemma wet_samples_ok : forall smp, In smp wet_samples -> valid_sample (n_vars wet) smp /\ complete_sample (n_vars wet) smp.
Proof.
  assert (H : forallb (fun s => valid_sample_b (n_vars wet) s && complete_sample_b (n_vars wet) s) wet_samples = true) by (vm_compute; reflexivity). rewrite forallb_forall in H.
  intros s Hs. specialize (H s Hs). apply andb_true_iff in H. destruct H. split; [now apply valid_sample_b_sound|now apply complete_sample_b_sound].
Qed.
Lemma train_ok (n : network xnum) samples : match snd (train n samples) with Ok _ => true | _ => false end = true -> train n samples = (fst (train n samples), Ok tt).
Proof. destruct (train n samples) as (n' & [[]| |]); cbn; intros H; try discriminate. reflexivity. Qed.
Lemma wet_trains : train wet wet_samples = (wet_trained, Ok tt).
Proof. apply train_ok. vm_compute. reflexivity. Qed.
Lemma wet_same : only_tables_differ wet wet.
Proof. repeat split. induction (n_factors wet); constructor; auto. repeat split. Qed.
Lemma wet_nonneg : nonnegative wet. Proof. apply nonnegative_b_sound. vm_compute. reflexivity. Qed.
Example C104_hypotheses : (likelihood wet wet_samples <= likelihood wet_trained wet_samples)%Qc /\
  (forall s, In s wet_samples -> (0 < mass wet_trained (fun _ => false) (fits (n_vars wet_trained) s))%Qc).
Proof.
  split.
  - exact (C104_most_likely wet wet_samples wet_trained wet wet_wf (proj1 wet_trainable) (proj2 wet_trainable) wet_one wet_samples_ok wet_trains wet_same wet_nonneg).
  - apply (C104_seen_is_possible wet wet_samples wet_trained wet_wf (proj1 wet_trainable) (proj2 wet_trainable) wet_one wet_samples_ok wet_trains). vm_compute. reflexivity.
Qed.
(** The probability of all samples: (1/2)^7 (1/2)^3 (3/4)^3 (1/4) before and (3/7)^3 (4/7)^4 (2/3)^2 (1/3) (3/4)^3 (1/4) after training. *)
Example C104_example : shown_table (train wet wet_samples) 0 = Some [SFin (3#7); SFin (4#7)] /\
  shown_table (train wet wet_samples) 1 = Some [SFin (2#3); SFin (1#3); SFin (1#4); SFin (3#4)] /\
  xshow (Fin (likelihood wet wet_samples)) = SFin (27#262144) /\ xshow (Fin (likelihood wet_trained wet_samples)) = SFin (108#823543).
Proof. vm_compute. repeat split; reflexivity. Qed.
Lemma wet_causal : causal wet (fun _ => false) [].
Proof. apply causal_b_sound with (rank := fun x => if String.eqb x "rain" then 0%nat else 1%nat); [apply wet_wf|]. vm_compute. reflexivity. Qed.
Example C104_answer_example :
  match snd (net_solve_query sched_id wet (as_evidence (n_vars wet) (seen [1; 1])) [] false) with Ok (_, f) => map xshow (f_data f) | _ => [] end = [SFin (3#8)].
Proof. vm_compute. reflexivity. Qed.

(** ** Missing outcomes
    With missing outcomes the trained tables need not be the most likely ones: each table only counts the samples that
    know its variable and the parents. *)
Definition gap_factors := [cpt "rain" [] [1#3; 2#3]; cpt "street" ["rain"] [1#1; 0#1; 0#1; 1#1]].
Definition gap : network xnum := built (net_new "wet" "" wet_vars gap_factors).
Definition gap_samples : list (sample xnum) := [seen [0; 0]; seen [1; 1]; seen [-1; 1]].
Theorem C104_missing_refuted : ~ (forall n samples n' m, wf_network n -> trainable n -> plain_parents n -> NoDup (map nf_for (n_factors n)) ->
  (forall smp, In smp samples -> valid_sample (n_vars n) smp) ->
  train n samples = (n', Ok tt) -> only_tables_differ n m -> nonnegative m ->
  (likelihood m samples <= likelihood n' samples)%Qc).
Proof.
  intros H. assert (Hb : only_tables_differ wet gap).
  { assert (E : n_name gap = n_name wet /\ n_info gap = n_info wet /\ n_vars gap = n_vars wet /\ n_policies gap = n_policies wet /\
      n_ve gap = n_ve wet /\ n_names gap = n_names wet /\ n_tui gap = n_tui wet) by (repeat split; vm_compute; reflexivity).
    destruct E as (E1 & E2 & E3 & E4 & E5 & E6 & E7). do 7 (split; [assumption|]).
    assert (L : exists a b c d, n_factors wet = [a; b] /\ n_factors gap = [c; d] /\ same_tables_shape a c /\ same_tables_shape b d).
    { destruct (n_factors wet) as [|a [|b [|]]] eqn:Ew; try (exfalso; assert (X : List.length (n_factors wet) = 2%nat) by (vm_compute; reflexivity); rewrite Ew in X; discriminate X).
      destruct (n_factors gap) as [|c [|d [|]]] eqn:Eg; try (exfalso; assert (X : List.length (n_factors gap) = 2%nat) by (vm_compute; reflexivity); rewrite Eg in X; discriminate X).
      exists a, b, c, d. split; [reflexivity|]. split; [reflexivity|].
      assert (X : map (fun f => (nf_for f, nf_given f, nf_outcomes f, nf_columns f, option_map (@List.length xnum) (nf_table f))) (n_factors gap) =
                  map (fun f => (nf_for f, nf_given f, nf_outcomes f, nf_columns f, option_map (@List.length xnum) (nf_table f))) (n_factors wet)) by (vm_compute; reflexivity).
      rewrite Ew, Eg in X. cbn [map] in X. inversion X. unfold same_tables_shape. repeat split; assumption. }
    destruct L as (a & b & c & d & -> & -> & S1 & S2). constructor; [exact S1|constructor; [exact S2|constructor]]. }
  assert (Hn : nonnegative gap) by (apply nonnegative_b_sound; vm_compute; reflexivity).
  assert (Hval : forall smp, In smp gap_samples -> valid_sample (n_vars wet) smp).
  { assert (X : forallb (valid_sample_b (n_vars wet)) gap_samples = true) by (vm_compute; reflexivity). rewrite forallb_forall in X. intros s Hs. now apply valid_sample_b_sound, X. }
  assert (Ht : train wet gap_samples = (fst (train wet gap_samples), Ok tt)) by (apply train_ok; vm_compute; reflexivity).
  specialize (H wet gap_samples _ gap wet_wf (proj1 wet_trainable) (proj2 wet_trainable) wet_one Hval Ht Hb Hn).
  assert (G : match Qccompare (likelihood gap gap_samples) (likelihood (fst (train wet gap_samples)) gap_samples) with Gt => true | _ => false end = true) by (vm_compute; reflexivity).
  unfold Qcle in H. rewrite Qle_alt in H. unfold Qccompare in G. destruct (Qcompare _ _); try discriminate. now apply H.
Qed.
(** 4/27 with the other tables, 1/8 with the trained ones. *)
Example C104_missing_example : xshow (Fin (likelihood gap gap_samples)) = SFin (4#27) /\ xshow (Fin (likelihood (fst (train wet gap_samples)) gap_samples)) = SFin (1#8).
Proof. vm_compute. split; reflexivity. Qed.

Print Assumptions C104_most_likely.
Print Assumptions C104_seen_is_possible.
Print Assumptions C104_answer.
Print Assumptions C104_missing_refuted.
