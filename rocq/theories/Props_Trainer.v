(** Properties C117 and C118: a Trainer in use (training.go and network.go). The vocabulary is in
    SpecTrain.v and SpecTrainer.v. *)
From Coq Require Import ZArith List Bool String Lia Permutation QArith Qcanon.
From Verif Require Import Num GoBase VarModel SpecFactor XnumFacts VEModel SpecVE NetModel SpecNet NetHistory TrainModel SpecTrain TrainFacts TrainUpdate SpecTrainer TrainContinue TrainHistory
  Props_VE Props_Net Props_Train.
Import ListNotations.
Open Scope string_scope.
Open Scope list_scope.
Open Scope Z_scope.

(** ** C117: training can go on *)

(** AddSample, UpdateNetwork and all calls on the network can be mixed: UpdateNetwork returns what
    training the original network with all samples added so far returns, and leaves the same tables,
    also if it returns an error. (Any numbers.) *)
Theorem C117_update : forall {A} {N : NumOps A} (n : network A) t0 cs, trainable n -> new_trainer n = Ok t0 ->
  (forall smp, In smp (added cs) -> valid_sample (n_vars n) smp) ->
  exists m t rs r, run_trainer n t0 (cs ++ [TUpdate]) = Ok (m, t, rs ++ [r]) /\
    List.length rs = List.length (filter (fun c => match c with TUpdate => true | _ => false end) cs) /\
    r = snd (train n (added cs)) /\ let m0 := fst (train n (added cs)) in
    n_factors m = n_factors m0 /\ n_vars m = n_vars m0 /\ n_name m = n_name m0 /\ n_info m = n_info m0 /\ n_tui m = n_tui m0.
Proof.
  intros A N n t0 cs Hta E0 Hval. destruct (trained_history n Hta cs t0 E0 Hval) as (m & t & rs & r & P & a & b & E & L & -> & Er).
  exists (dressed (fst (train n (added cs))) P a b), t, rs, r. auto 10.
Qed.
(** All other calls leave the tables alone. *)
Theorem C117_between : forall {A} {N : NumOps A} (n : network A) t cs m t' rs, run_trainer n t cs = Ok (m, t', rs) -> (forall c, In c cs -> c <> TUpdate) ->
  n_factors m = n_factors n /\ n_vars m = n_vars n.
Proof. intros A N n t cs m t' rs. apply kept_tables. Qed.
(** Without stored policies, all answers after UpdateNetwork are those of the original network trained
    with all samples at once. *)
Theorem C117_answers : forall {A} {N : NumOps A} (n : network A) t0 cs, trainable n -> new_trainer n = Ok t0 ->
  (forall smp, In smp (added cs) -> valid_sample (n_vars n) smp) -> (forall sc st, ~ In (CSolvePolicies sc st) (solved_by cs)) ->
  exists m t rs, run_trainer n t0 (cs ++ [TUpdate]) = Ok (m, t, rs) /\
    forall sc ev query u ig, snd (net_solve_query sc m ev query ig) = snd (net_solve_query sc (fst (train n (added cs))) ev query ig) /\
      snd (net_solve_utility sc m ev query u ig) = snd (net_solve_utility sc (fst (train n (added cs))) ev query u ig).
Proof.
  intros A N n t0 cs Hta E0 Hval Hno. destruct (trained_history n Hta cs t0 E0 Hval) as (m & t & rs & r & P & a & b & E & _ & Em & _).
  exists m, t, (rs ++ [r]). split; auto. assert (HP : n_policies m = n_policies (fst (train n (added cs)))).
  { rewrite (same_policies n t0 (cs ++ [TUpdate]) m t _ E).
    - unfold train. destruct (gbind _ _) as [t1| |]; auto. unfold update_network. destruct (run_steps _ _ _). auto.
    - intros sc st Hin. unfold solved_by in Hin. rewrite flat_map_app in Hin. cbn [flat_map] in Hin. rewrite !app_nil_r in Hin. apply (Hno sc st). auto. }
  subst m. cbn [dressed with_solver with_policies n_policies] in HP. subst P. intros sc ev query u ig. split; [apply query_congr|apply utility_congr]; reflexivity.
Qed.

(** Training stops with an error after the first two samples, goes on, and is repeated. *)
Definition trip_calls : list (trainer_call xnum) := map TAdd trip_few ++ [TUpdate; TSolve (CSolveQuery sched_id [] ["weather"] false)] ++ map TAdd trip_samples ++ [TUpdate].
Example C117_hypotheses : trainable trip /\ (exists t0, new_trainer trip = Ok t0) /\ (forall smp, In smp (added trip_calls) -> valid_sample (n_vars trip) smp) /\
  (forall sc st, ~ In (CSolvePolicies sc st) (solved_by trip_calls)).
Proof.
  split; [apply trip_trainable|]. split; [destruct (new_trainer_ok trip (proj1 trip_trainable)) as (t0 & E & _); eauto|]. split.
  - assert (Hb : forallb (valid_sample_b (n_vars trip)) (added trip_calls) = true) by (vm_compute; reflexivity). rewrite forallb_forall in Hb. intros sm Hs. apply valid_sample_b_sound. auto.
  - intros sc st [E|[]]. discriminate.
Qed.
Definition shown_run (r : gores (network xnum * trainer xnum * list (gores unit))) (i : nat) : option (list shown) * list bool :=
  match r with
  | Ok (m, _, rs) => (shown_table (m, Ok tt) i, map (fun r => match r with Ok _ => true | _ => false end) rs)
  | _ => (None, [])
  end.
Example C117_example : match new_trainer trip with Ok t0 => shown_run (run_trainer trip t0 (trip_calls ++ [TUpdate])) 0 | _ => (None, []) end = (Some [SFin (5#9); SFin (4#9)], [false; true; true]) /\
  shown_table (train trip (trip_few ++ trip_samples)) 0 = Some [SFin (5#9); SFin (4#9)].
Proof. split; vm_compute; reflexivity. Qed.

(** ** C118: policies after training *)

(** SolvePolicies after any calls gives the policies of the trained network. *)
Theorem C118_solve_again_partial : forall {A} {N : NumOps A} (n : network A) t0 cs, trainable n -> new_trainer n = Ok t0 ->
  (forall smp, In smp (added cs) -> valid_sample (n_vars n) smp) ->
  exists m t rs, run_trainer n t0 (cs ++ [TUpdate]) = Ok (m, t, rs) /\
    forall sc st, snd (net_solve_policies sc m st) = snd (net_solve_policies sc (fst (train n (added cs))) st) /\
      n_policies (fst (net_solve_policies sc m st)) = n_policies (fst (net_solve_policies sc (fst (train n (added cs))) st)).
Proof.
  intros A N n t0 cs Hta E0 Hval. destruct (trained_history n Hta cs t0 E0 Hval) as (m & t & rs & r & P & a & b & E & _ & Em & _).
  exists m, t, (rs ++ [r]). split; auto. subst m. intros sc st. unfold dressed. destruct (policies_again sc (fst (train n (added cs))) P a b st) as [->|(p & -> & ->)]; auto.
Qed.

(** False of the code: UpdateNetwork keeps policies that were solved for the old tables, so the
    answers after it can differ from those after solving again. *)
Definition stale : list (trainer_call xnum) := TSolve (CSolvePolicies sched_id true) :: map TAdd trip_samples ++ [TUpdate].
Definition fresh : list (trainer_call xnum) := map TAdd trip_samples ++ [TUpdate; TSolve (CSolvePolicies sched_id true)].
Definition answer_after (n : network xnum) sc ev query (cs : list (trainer_call xnum)) : option (list (string * list shown)) :=
  match new_trainer n with
  | Ok t0 => match run_trainer n t0 cs with Ok (m, _, _) => shown_answer (net_solve_query sc m ev query false) | _ => None end
  | _ => None
  end.
Example C118_example : answer_after trip sched_id [("forecast", "good")] ["trip"] stale = Some [("trip", [SFin (1#2); SFin (1#2)])] /\ answer_after trip sched_id [("forecast", "good")] ["trip"] fresh = Some [("trip", [SFin 1; SFin 0])].
Proof. split; vm_compute; reflexivity. Qed.
Definition policies_follow : Prop := forall (n : network xnum) t0 sc st samples m1 t1 r1 m2 t2 r2, trainable n -> new_trainer n = Ok t0 ->
  (forall smp, In smp samples -> valid_sample (n_vars n) smp) ->
  run_trainer n t0 (TSolve (CSolvePolicies sc st) :: map TAdd samples ++ [TUpdate]) = Ok (m1, t1, r1) ->
  run_trainer n t0 (map TAdd samples ++ [TUpdate; TSolve (CSolvePolicies sc st)]) = Ok (m2, t2, r2) ->
  forall sc' ev query, snd (net_solve_query sc' m1 ev query false) = snd (net_solve_query sc' m2 ev query false).
Lemma follow_answers : policies_follow -> forall n sc st samples sc' ev query a1 a2, trainable n -> (forall smp, In smp samples -> valid_sample (n_vars n) smp) ->
  answer_after n sc' ev query (TSolve (CSolvePolicies sc st) :: map TAdd samples ++ [TUpdate]) = Some a1 ->
  answer_after n sc' ev query (map TAdd samples ++ [TUpdate; TSolve (CSolvePolicies sc st)]) = Some a2 -> a1 = a2.
Proof.
  intros H n sc st samples sc' ev query a1 a2 Hta Hval E1 E2. unfold answer_after in E1, E2. destruct (new_trainer n) as [t0| |] eqn:E0; try discriminate.
  destruct (run_trainer n t0 (TSolve (CSolvePolicies sc st) :: map TAdd samples ++ [TUpdate])) as [[[m1 t1] r1]| |] eqn:F1; try discriminate.
  destruct (run_trainer n t0 (map TAdd samples ++ [TUpdate; TSolve (CSolvePolicies sc st)])) as [[[m2 t2] r2]| |] eqn:F2; try discriminate.
  specialize (H n t0 sc st samples m1 t1 r1 m2 t2 r2 Hta E0 Hval F1 F2 sc' ev query). unfold shown_answer in E1, E2. rewrite H, E2 in E1. injection E1 as ->. auto.
Qed.
Theorem C118_stale_policies_refuted : ~ policies_follow.
Proof.
  intros H. assert (E := follow_answers H trip sched_id true trip_samples sched_id [("forecast", "good")] ["trip"] _ _ (proj1 trip_trainable) trip_valid (proj1 C118_example) (proj2 C118_example)).
  discriminate.
Qed.

Print Assumptions C117_update.
Print Assumptions C117_between.
Print Assumptions C117_answers.
Print Assumptions C118_solve_again_partial.
Print Assumptions C118_stale_policies_refuted.
