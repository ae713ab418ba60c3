(** Properties C119 and C120: samples that come from a network, and copies of samples (training.go). The
    vocabulary is in SpecNet.v, SpecTrain.v, SpecLikelihood.v and SpecRecover.v. *)
From Coq Require Import ZArith QArith Qcanon List Bool String Lia Permutation.
From Verif Require Import Num GoBase VarModel SpecFactor XnumFacts VEModel SpecVE NetModel SpecNet NetCheck NetQuery TrainModel SpecTrain SpecLikelihood SpecSame SpecRecover TrainThms TrainRecover TrainCopies
  Props_VE Props_Net Props_Train Props_Likelihood Props_Same.
Import ListNotations.
Open Scope string_scope.
Open Scope list_scope.
Open Scope Z_scope.

(** ** C119: training recovers the network that the samples come from *)

(** [n] is a network of chance nodes without cycles, the samples have the frequencies of its joint
    distribution, and [m] is the same network with any other tables. Training [m] gives the
    probabilities of [n]. *)
Theorem C119_tables : forall n m samples n', wf_network n -> causal n unignored [] -> (forall v, In v (n_vars n) -> nv_type v = Chance) ->
  only_tables_differ n m -> trainable m -> plain_parents m -> (forall smp, In smp samples -> valid_sample (n_vars n) smp) -> (forall smp, In smp samples -> complete_sample (n_vars n) smp) ->
  representative n samples -> train m samples = (n', Ok tt) ->
  forall v f f' s, In v (n_vars n) -> In f (chance_factors n) -> nf_for f = nv_name v -> own_factor n' v f' -> state_of (n_vars n) s ->
    nf_for f' = nv_name v /\ nf_given f' = nf_given f /\
    nth_error (slice_of (nf_table f')) (cell (n_vars n) (nf_given f ++ [nv_name v]) s) = Some (Fin (cond_prob (n_vars n) f s)).
Proof.
  intros n m samples n' Hwf Hca Hch Hd Hta Hp Hval Hcom Hrep Ht v f f' s Hv Hf Ef Hf' Hs.
  destruct (recovered n m n' samples Hwf Hca Hch Hd Hta Hp Hval Hcom Hrep Ht v f f' s Hv Hf Ef Hf' Hs) as (E1 & E2 & _ & _ & E3). auto.
Qed.
(** Training succeeds exactly if [n] gives no combination of parents the probability 0. *)
Theorem C119_succeeds : forall n m samples, wf_network n -> causal n unignored [] -> (forall v, In v (n_vars n) -> nv_type v = Chance) ->
  only_tables_differ n m -> trainable m -> plain_parents m -> (forall smp, In smp samples -> valid_sample (n_vars n) smp) -> (forall smp, In smp samples -> complete_sample (n_vars n) smp) ->
  representative n samples ->
  ((exists n', train m samples = (n', Ok tt)) <->
   forall f s, In f (chance_factors n) -> state_of (n_vars n) s -> mass n unignored (same_on (nf_given f) s) <> 0%Qc).
Proof. exact succeeds_iff. Qed.
(** The trained network gives the same answers to all queries. *)
Theorem C119_answers : forall n m samples n' sc sc' ig ev query, wf_network n -> complete n -> nonnegative n -> causal n unignored [] -> (forall v, In v (n_vars n) -> nv_type v = Chance) ->
  only_tables_differ n m -> trainable m -> plain_parents m -> (forall smp, In smp samples -> valid_sample (n_vars n) smp) -> (forall smp, In smp samples -> complete_sample (n_vars n) smp) ->
  representative n samples -> train m samples = (n', Ok tt) ->
  valid_observations n ev -> (forall q, In q query -> askable n (ignored_by ig ev) ev q) ->
  exists n1 res f n1' res' f', net_solve_query sc n ev query ig = (n1, Ok (res, f)) /\ net_solve_query sc' n' ev query ig = (n1', Ok (res', f')) /\
    forall q, (In q query -> sget_map res q <> None) /\ sget_map res' q = sget_map res q.
Proof.
  intros n m samples n' sc sc' ig ev query Hwf Hcp Hnn Hca Hch Hd Hta Hp Hval Hcom Hrep Ht Hev Hq. apply C111_same_answers; auto.
  - eapply result_proportional; eauto.
  - eapply result_wf; eauto.
  - eapply result_complete; eauto.
  - eapply result_nonnegative; eauto.
  - intros q Hin. split; auto. eapply result_askable; eauto.
Qed.

(** Rain and a wet street again: eight samples with the frequencies of [wet], and tables that know nothing. *)
Definition wet_flat : network xnum := built (net_new "wet" "" wet_vars [cpt "rain" [] [1#1; 1#1]; cpt "street" ["rain"] [1#1; 1#1; 1#1; 1#1]]).
Definition wet_days : list (sample xnum) := [seen [0; 0]; seen [0; 1]; seen [1; 1]; seen [0; 0]; seen [1; 0]; seen [0; 1]; seen [1; 1]; seen [1; 1]].
Lemma wet_flat_built : net_new "wet" "" wet_vars [cpt "rain" [] [1#1; 1#1]; cpt "street" ["rain"] [1#1; 1#1; 1#1; 1#1]] = Ok wet_flat.
Proof.
  unfold wet_flat. destruct (net_new "wet" "" wet_vars _) eqn:E; auto; exfalso;
    assert (H : match net_new "wet" "" wet_vars [cpt "rain" [] [1#1; 1#1]; cpt "street" ["rain"] [1#1; 1#1; 1#1; 1#1]] with Ok _ => true | _ => false end = true) by (vm_compute; reflexivity); rewrite E in H; discriminate.
Qed.
Lemma wet_flat_trainable : trainable wet_flat /\ plain_parents wet_flat.
Proof.
  apply (built_trainable "wet" "" wet_vars [cpt "rain" [] [1#1; 1#1]; cpt "street" ["rain"] [1#1; 1#1; 1#1; 1#1]]); [| apply wet_flat_built | |].
  - intros v H. simpl in H. repeat (destruct H as [<-|H]; [reflexivity|]). destruct H.
  - intros v H. simpl in H. repeat (destruct H as [<-|H]; [discriminate|]). destruct H.
  - intros v H. simpl in H.
    repeat (destruct H as [<-|H]; [eexists; split; [reflexivity|split; [repeat constructor; simpl; intuition discriminate|split; [intros E; first [discriminate|reflexivity]|intros E; first [reflexivity|exfalso; apply E; reflexivity]]]]|]). destruct H.
Qed.
Example C119_hypotheses : wf_network wet /\ complete wet /\ nonnegative wet /\ causal wet unignored [] /\ (forall v, In v (n_vars wet) -> nv_type v = Chance) /\
  only_tables_differ wet wet_flat /\ trainable wet_flat /\ plain_parents wet_flat /\ (forall smp, In smp wet_days -> valid_sample (n_vars wet) smp) /\ (forall smp, In smp wet_days -> complete_sample (n_vars wet) smp) /\
  representative wet wet_days /\ (exists n', train wet_flat wet_days = (n', Ok tt)).
Proof.
  split; [apply wet_wf|]. split; [apply complete_b_sound; vm_compute; reflexivity|]. split; [apply nonnegative_b_sound; vm_compute; reflexivity|].
  split; [apply causal_b_sound with (rank := fun x => SpecNet.position x ["rain"; "street"]); [apply wet_wf|]; vm_compute; reflexivity|].
  split; [intros v Hv; vm_compute in Hv; repeat (destruct Hv as [<-|Hv]; [reflexivity|]); destruct Hv|].
  assert (HV : forall sm, In sm wet_days -> valid_sample (n_vars wet) sm /\ complete_sample (n_vars wet) sm).
  { assert (H : forallb (fun s => valid_sample_b (n_vars wet) s && complete_sample_b (n_vars wet) s) wet_days = true) by (vm_compute; reflexivity). rewrite forallb_forall in H.
    intros s Hs. specialize (H s Hs). apply andb_true_iff in H. destruct H. split; [now apply valid_sample_b_sound|now apply complete_sample_b_sound]. }
  split. { unfold only_tables_differ. do 7 (split; [vm_compute; reflexivity|]).
    assert (HL : List.length (n_factors wet) = 2%nat) by reflexivity. assert (HL' : List.length (n_factors wet_flat) = 2%nat) by reflexivity.
    repeat (constructor; [repeat split|]); constructor. }
  split; [apply wet_flat_trainable|]. split; [apply wet_flat_trainable|]. split; [apply HV|]. split; [apply HV|]. split.
  - exists (qz 8). split; [discriminate|]. intros s Hs.
    assert (H : forallb (fun s => qeq (qz (count_of (fun smp => fits (n_vars wet) smp s) wet_days)) (qz 8 * joint wet unignored s)) (worlds_of wet) = true) by (vm_compute; reflexivity).
    rewrite forallb_forall in H. apply qeq_spec. auto.
  - exists (fst (train wet_flat wet_days)). assert (H : match snd (train wet_flat wet_days) with Ok _ => true | _ => false end = true) by (vm_compute; reflexivity).
    destruct (train wet_flat wet_days) as [r [[]| |]]; auto; discriminate.
Qed.
Example C119_example : shown_table (train wet_flat wet_days) 0 = Some [SFin (1#2); SFin (1#2)] /\ shown_table (train wet_flat wet_days) 1 = Some [SFin (1#2); SFin (1#2); SFin (1#4); SFin (3#4)] /\
  shown_answer (net_solve_query sched_id wet [("street", "wet")] ["rain"] false) = Some [("rain", [SFin (2#3); SFin (1#3)])] /\
  shown_answer (net_solve_query sched_id (fst (train wet_flat wet_days)) [("street", "wet")] ["rain"] false) = Some [("rain", [SFin (2#3); SFin (1#3)])].
Proof. repeat split; vm_compute; reflexivity. Qed.

(** ** C120: only proportions matter *)

(** Adding all samples several times changes nothing: not the tables, not the result, and not what is left after an error. *)
Theorem C120_copies : forall (n : network xnum) samples c, trainable n -> (0 < c)%nat -> (forall smp, In smp samples -> valid_sample (n_vars n) smp) ->
  train n (List.concat (repeat samples c)) = train n samples.
Proof. intros n samples c Hta Hc Hval. exact (train_copies n c samples Hta Hc Hval). Qed.
(** Nor does the order in which the copies are added. *)
Theorem C120_any_order : forall (n : network xnum) samples samples' c, trainable n -> (0 < c)%nat -> (forall smp, In smp samples -> valid_sample (n_vars n) smp) ->
  Permutation samples' (List.concat (repeat samples c)) -> train n samples' = train n samples.
Proof.
  intros n samples samples' c Hta Hc Hval HP. rewrite <- (C120_copies n samples c Hta Hc Hval). symmetry. apply C41_order; auto; [|now apply Permutation_sym].
  intros sm Hs. apply Hval. eapply copies_in, Hs.
Qed.
Example C120_example : trainable trip /\ (forall sm, In sm trip_samples -> valid_sample (n_vars trip) sm) /\
  shown_table (train trip (List.concat (repeat trip_samples 3))) 0 = Some [SFin (4#7); SFin (3#7)] /\ shown_table (train trip trip_samples) 0 = Some [SFin (4#7); SFin (3#7)] /\
  shown_table (train trip (List.concat (repeat trip_samples 3))) 3 = Some [SFin (11#2); SFin 2; SFin ((-3)#1); SFin (1#2)].
Proof. split; [apply trip_trainable|]. split; [apply trip_valid|]. repeat split; vm_compute; reflexivity. Qed.

Print Assumptions C119_tables.
Print Assumptions C119_succeeds.
Print Assumptions C119_answers.
Print Assumptions C120_copies.
Print Assumptions C120_any_order.
