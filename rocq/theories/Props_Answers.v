(** Properties C92 and C93: how the factor and the probabilities returned by calls relate to one
    another (network.go: SolveQuery, Normalize). The vocabulary is in SpecNet.v and SpecAnswers.v. *)
From Coq Require Import ZArith List Bool String Lia Permutation QArith Qcanon.
From Verif Require Import Num GoBase VarModel SpecFactor XnumFacts VEModel SpecVE NetModel SpecNet NetNew NetCheck NetQuery SpecAnswers NetJoint NetBayes
  Props_VE Props_Net Props_Graph.
Import ListNotations.
Open Scope string_scope.
Open Scope list_scope.
Open Scope Z_scope.

(** ** C92: the returned factor is the joint distribution of the query *)

(** The factor has exactly one axis for each queried variable, whatever the order and the
    repetitions in the query. The entry for a combination of outcomes is the summed weight of all
    complete assignments that agree with the evidence and show this combination. Normalize divides
    it by the weight of the evidence, which gives the joint posterior probability. *)
Theorem C92_joint : forall n sc ig ev query, wf_network n -> complete n -> solved n -> valid_observations n ev ->
  (forall q, In q query -> askable n (ignored_by ig ev) ev q) ->
  let weight := mass n (ignored_by ig ev) in
  exists n' res f, net_solve_query sc n ev query ig = (n', Ok (res, f)) /\ wf_factor f /\ NoDup (factor_names n f) /\
    (forall x, In x (factor_names n f) <-> In x query) /\
    (forall s, proper_state n s -> get_at f (positions (n_vars n) s) = Ok (Fin (weight (fun s' => agrees (n_vars n) ev s' && same_on query s s')))) /\
    (weight (agrees (n_vars n) ev) <> 0%Qc -> exists n'' g, net_normalize n' f = Ok (n'', g) /\ f_vars g = f_vars f /\
       forall s, proper_state n s ->
         get_at g (positions (n_vars n) s) = Ok (Fin (weight (fun s' => agrees (n_vars n) ev s' && same_on query s s') / weight (agrees (n_vars n) ev))%Qc)).
Proof. intros n sc ig ev query Hwf. exact (joint_factor n Hwf sc ig ev query). Qed.

Example C92_hypotheses : let ev := [("grass", "wet")] in wf_network wet /\ complete wet /\ solved wet /\ valid_observations wet ev /\
  (forall q, In q ["rain"; "sprinkler"] -> askable wet (ignored_by false ev) ev q) /\ mass wet (ignored_by false ev) (agrees (n_vars wet) ev) <> 0%Qc.
Proof.
  cbn zeta. split; [apply wet_wf|]. split; [apply wet_complete|]. split.
  { intros v Hv Ht. exfalso. destruct Hv as [<-|[<-|[<-|[<-|[]]]]]; discriminate Ht. }
  split; [apply observations_b_sound; vm_compute; reflexivity|]. split.
  - intros q [<-|[<-|[]]]; apply askable_b_sound; try apply wet_wf; vm_compute; reflexivity.
  - apply qeq_false; vm_compute; reflexivity.
Qed.
Definition shown_joint (r : network xnum * gores (list (string * list xnum) * factor xnum)) : option (list string * list shown * list shown) :=
  match r with
  | (n, Ok (_, f)) => match net_normalize n f with Ok (_, g) => Some (factor_names n f, map xshow (f_data f), map xshow (f_data g)) | _ => None end
  | _ => None
  end.
(** Rain and sprinkler given wet grass: the joint probabilities and, normalised, the joint posterior. *)
Example C92_example : shown_joint (net_solve_query sched_id wet [("grass", "wet")] ["rain"; "sprinkler"] false) =
  Some (["sprinkler"; "rain"], [SFin (891#10000); SFin (189#1000); SFin (369#1000); SFin (0#1)], [SFin (99#719); SFin (210#719); SFin (410#719); SFin (0#1)]).
Proof. vm_compute. reflexivity. Qed.

(** ** C93: answers of different calls fit together *)

(** Bayes' rule. The probability of an outcome of x times the probability of an outcome of y given
    it is the probability of the outcome of y times the probability of the outcome of x given it. *)
Theorem C93_bayes : forall n sc1 sc2 sc3 ev x y vx vy i j ox oy, wf_network n -> complete n -> valid_observations n ev ->
  mass n (fun _ => false) (agrees (n_vars n) ev) <> 0%Qc ->
  var_named (n_vars n) x = Some vx -> nth_error (nv_outcomes vx) i = Some ox -> var_named (n_vars n) y = Some vy -> nth_error (nv_outcomes vy) j = Some oy -> x <> y ->
  askable n (fun _ => false) ev x -> askable n (fun _ => false) ev y ->
  exists px py, answered (net_solve_query sc1 n ev [x; y] false) x i px /\ answered (net_solve_query sc1 n ev [x; y] false) y j py /\
    (px <> 0%Qc -> py <> 0%Qc -> exists pyx pxy,
       answered (net_solve_query sc2 n (ev ++ [(x, ox)]) [y] false) y j pyx /\ answered (net_solve_query sc3 n (ev ++ [(y, oy)]) [x] false) x i pxy /\
       (px * pyx = py * pxy)%Qc).
Proof. intros n sc1 sc2 sc3 ev x y vx vy i j ox oy Hwf Hco. exact (bayes n Hwf Hco sc1 sc2 sc3 ev x y vx vy i j ox oy). Qed.

(** The law of total probability. The probability of an outcome of y is the average of its
    probabilities given the outcomes of x, weighted by the probabilities of these outcomes. *)
Theorem C93_total : forall n sc1 sc2 ev x y vx j, wf_network n -> complete n -> nonnegative n -> valid_observations n ev ->
  mass n (fun _ => false) (agrees (n_vars n) ev) <> 0%Qc -> var_named (n_vars n) x = Some vx -> x <> y ->
  askable n (fun _ => false) ev x -> askable n (fun _ => false) ev y -> (j < num_outcomes (n_vars n) y)%nat ->
  exists py (px pyx : nat -> Qc), answered (net_solve_query sc1 n ev [x; y] false) y j py /\
    (forall i, (i < List.length (nv_outcomes vx))%nat -> answered (net_solve_query sc1 n ev [x; y] false) x i (px i)) /\
    (forall i o, nth_error (nv_outcomes vx) i = Some o -> px i <> 0%Qc -> answered (net_solve_query (sc2 i) n (ev ++ [(x, o)]) [y] false) y j (pyx i)) /\
    py = qsum (map (fun i => px i * pyx i)%Qc (seq 0 (List.length (nv_outcomes vx)))).
Proof. intros n sc1 sc2 ev x y vx j Hwf Hco Hnn. exact (total_probability n Hwf Hco Hnn sc1 sc2 ev x y vx j). Qed.

(** Observing what is certain anyway changes no answer. *)
Theorem C93_certain : forall n sc1 sc2 ev x v i o query, wf_network n -> complete n -> nonnegative n -> valid_observations n ev ->
  mass n (fun _ => false) (agrees (n_vars n) ev) <> 0%Qc ->
  var_named (n_vars n) x = Some v -> nth_error (nv_outcomes v) i = Some o -> askable n (fun _ => false) ev x ->
  (forall q, In q query -> askable n (fun _ => false) ev q /\ q <> x) ->
  answered (net_solve_query sc1 n ev (x :: query) false) x i 1%Qc ->
  exists n1 res1 f1 n2 res2 f2, net_solve_query sc1 n ev (x :: query) false = (n1, Ok (res1, f1)) /\
    net_solve_query sc2 n (ev ++ [(x, o)]) query false = (n2, Ok (res2, f2)) /\
    forall q, In q query -> sget_map res1 q <> None /\ sget_map res2 q = sget_map res1 q.
Proof. intros n sc1 sc2 ev x v i o query Hwf Hco Hnn. exact (certain_evidence n Hwf Hco Hnn sc1 sc2 ev x v i o query). Qed.

Example C93_hypotheses : let ev := [("grass", "wet")] in
  wf_network wet /\ complete wet /\ nonnegative wet /\ valid_observations wet ev /\ mass wet (fun _ => false) (agrees (n_vars wet) ev) <> 0%Qc /\
  askable wet (fun _ => false) ev "sprinkler" /\ askable wet (fun _ => false) ev "rain".
Proof.
  cbn zeta. split; [apply wet_wf|]. split; [apply wet_complete|]. split; [apply wet_nonneg|].
  split; [apply observations_b_sound; vm_compute; reflexivity|]. split; [apply qeq_false; vm_compute; reflexivity|].
  split; apply askable_b_sound; try apply wet_wf; vm_compute; reflexivity.
Qed.
(** Sprinkler and rain given wet grass: 309/719 * 33/103 = 509/719 * 99/509, and
    309/719 * 33/103 + 410/719 * 1 = 509/719. *)
Example C93_example : shown_answer (net_solve_query sched_id wet [("grass", "wet")] ["sprinkler"; "rain"] false) =
    Some [("sprinkler", [SFin (309#719); SFin (410#719)]); ("rain", [SFin (509#719); SFin (210#719)])] /\
  shown_answer (net_solve_query sched_id wet [("grass", "wet"); ("sprinkler", "on")] ["rain"] false) = Some [("rain", [SFin (33#103); SFin (70#103)])] /\
  shown_answer (net_solve_query sched_id wet [("grass", "wet"); ("sprinkler", "off")] ["rain"] false) = Some [("rain", [SFin (1#1); SFin (0#1)])] /\
  shown_answer (net_solve_query sched_id wet [("grass", "wet"); ("rain", "yes")] ["sprinkler"] false) = Some [("sprinkler", [SFin (99#509); SFin (410#509)])].
Proof. split; [|split; [|split]]; vm_compute; reflexivity. Qed.
(** Wet grass without rain makes the sprinkler certain. *)
Example C93_certain_hypotheses : let ev := [("grass", "wet"); ("rain", "no")] in
  valid_observations wet ev /\ mass wet (fun _ => false) (agrees (n_vars wet) ev) <> 0%Qc /\ askable wet (fun _ => false) ev "sprinkler" /\ askable wet (fun _ => false) ev "cloudy" /\
  answered (net_solve_query sched_id wet ev ["sprinkler"; "cloudy"] false) "sprinkler" 0 1%Qc.
Proof.
  cbn zeta. split; [apply observations_b_sound; vm_compute; reflexivity|]. split; [apply qeq_false; vm_compute; reflexivity|].
  split; [apply askable_b_sound; try apply wet_wf; vm_compute; reflexivity|]. split; [apply askable_b_sound; try apply wet_wf; vm_compute; reflexivity|].
  assert (E : posterior wet (fun _ => false) [("grass", "wet"); ("rain", "no")] "sprinkler" 0 = 1%Qc) by (apply qeq_spec; vm_compute; reflexivity).
  rewrite <- E. apply query_answered; [apply wet_wf|apply wet_complete|apply observations_b_sound; vm_compute; reflexivity| |apply qeq_false; vm_compute; reflexivity|left; reflexivity|vm_compute; auto].
  intros q [<-|[<-|[]]]; apply askable_b_sound; try apply wet_wf; vm_compute; reflexivity.
Qed.

Print Assumptions C92_joint.
Print Assumptions C93_bayes.
Print Assumptions C93_total.
Print Assumptions C93_certain.
