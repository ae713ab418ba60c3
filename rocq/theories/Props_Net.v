(** Properties C27-C40, C64, C66: the public network API (network.go).
    Specification vocabulary: SpecNet.v. *)
From Coq Require Import ZArith List Bool String Lia Permutation QArith Qcanon.
From Verif Require Import Num GoBase VarModel GoFacts SpecFactor XnumFacts VEModel SpecVE NetModel SpecNet
  NetVars NetFactors NetQuery NetNew NetUtil NetHistory NetMass NetCor NetScale NetExtra NetRow NetTotal NetCheck VECheck Props_VE.
Import ListNotations.
Open Scope string_scope.
Open Scope list_scope.
Open Scope Z_scope.

(** ** Example networks *)
Definition node (t : nodeType) (name : string) (outcomes : list string) : nvar := mkNVar name t outcomes (0, 0) "" None.
Definition cpt (name : string) (given : list string) (table : list Q) : nfactor xnum := mkNFactor name given (Some (lit table)) [] 0.
Definition built (r : gores (network xnum)) : network xnum := match r with Ok n => n | _ => mkNet "" "" [] [] [] None [] (-1) end.

(** Rain, sprinkler, wet grass; one table in percent. *)
Definition spr_vars := [node Chance "rain" ["yes"; "no"]; node Chance "sprinkler" ["on"; "off"]; node Chance "grass" ["wet"; "dry"]].
Definition spr_factors := [cpt "rain" [] [1#5; 4#5]; cpt "sprinkler" ["rain"] [1#1; 99#1; 40#1; 60#1];
  cpt "grass" ["rain"; "sprinkler"] [99#100; 1#100; 4#5; 1#5; 9#10; 1#10; 0#1; 1#1]].
Definition spr : network xnum := built (net_new "sprinkler" "" spr_vars spr_factors).
(** Weather, forecast, umbrella: before and after solving the decision. *)
Definition umb_vars := [node Chance "weather" ["sunny"; "rainy"]; node Chance "forecast" ["sunny"; "cloudy"; "rainy"];
  node Decision "umbrella" ["take"; "leave"]; node Utility "mood" ["value"]].
Definition umb_factors := [cpt "weather" [] [70#1; 30#1]; cpt "forecast" ["weather"] [70#1; 20#1; 10#1; 15#1; 25#1; 60#1];
  mkNFactor "umbrella" ["forecast"] None [] 0; cpt "mood" ["weather"; "umbrella"] [20#1; 100#1; 70#1; 0#1]].
Definition umb : network xnum := built (net_new "umbrella" "" umb_vars umb_factors).
Definition umb_solved : network xnum := fst (net_solve_policies sched_id umb true).
(** Two utilities with weights 1 and 2. *)
Definition tot_vars := [node Chance "weather" ["sunny"; "rainy"]; node Utility "fun" ["value"]; node Utility "cost" ["value"];
  node Utility "total" ["a"; "b"]].
Definition tot_factors := [cpt "weather" [] [70#1; 30#1]; cpt "fun" ["weather"] [100#1; 10#1]; cpt "cost" ["weather"] [(-5)#1; (-20)#1];
  cpt "total" ["fun"; "cost"] [1#1; 2#1]].
Definition tot : network xnum := built (net_new "total" "" tot_vars tot_factors).

Example spr_wf : wf_network spr. Proof. apply network_b_sound. vm_compute. reflexivity. Qed.
Example spr_complete : complete spr. Proof. apply complete_b_sound. vm_compute. reflexivity. Qed.
Example spr_nonneg : nonnegative spr. Proof. apply nonnegative_b_sound. vm_compute. reflexivity. Qed.
Example umb_wf : wf_network umb. Proof. apply network_b_sound. vm_compute. reflexivity. Qed.
Example umb_solved_wf : wf_network umb_solved. Proof. apply network_b_sound. vm_compute. reflexivity. Qed.
Example umb_complete : complete umb_solved. Proof. apply complete_b_sound. vm_compute. reflexivity. Qed.
Example umb_nonneg : nonnegative umb_solved. Proof. apply nonnegative_b_sound. vm_compute. reflexivity. Qed.
Example tot_wf : wf_network tot. Proof. apply network_b_sound. vm_compute. reflexivity. Qed.

Lemma qeq_false a b : qeq a b = false -> a <> b.
Proof. intros H E. rewrite E, qeq_refl in H. discriminate. Qed.

(** Reading off answers without printing the proofs inside rational numbers *)
Definition shown_answer {S F} (r : S * gores (list (string * list xnum) * F)) : option (list (string * list shown)) :=
  match snd r with Ok (res, _) => Some (map (fun p => (fst p, map xshow (snd p))) res) | _ => None end.
Definition shown_values {S} (r : S * gores (factor xnum)) : option (list shown) :=
  match snd r with Ok f => Some (map xshow (f_data f)) | _ => None end.

(** ** C27: SolveQuery returns the exact posterior *)
Theorem C27_posterior : forall n sc ig ev query, wf_network n -> complete n -> nonnegative n -> valid_observations n ev ->
  (forall q, In q query -> askable n (ignored_by ig ev) ev q) ->
  mass n (ignored_by ig ev) (agrees (n_vars n) ev) <> 0%Qc ->
  exists n' res f, net_solve_query sc n ev query ig = (n', Ok (res, f)) /\
    (forall q, In q query -> sget_map res q =
       Some (map (fun k => Fin (posterior n (ignored_by ig ev) ev q k)) (seq 0 (num_outcomes (n_vars n) q)))) /\
    (forall q, ~ In q query -> sget_map res q = None) /\
    (forall q k, In q query -> (0 <= posterior n (ignored_by ig ev) ev q k)%Qc) /\
    (forall q, In q query -> qsum (map (posterior n (ignored_by ig ev) ev q) (seq 0 (num_outcomes (n_vars n) q))) = 1%Qc).
Proof.
  intros n sc ig ev query Hwf Hco Hnn Hv Hask Hm.
  destruct (query_exact n Hwf sc ig ev query Hco Hv Hask) as (n' & res & f & E & Hres).
  exists n', res, f. split; auto. split; [|split; [|split]].
  - intros q Hq. destruct (proj1 (Hres q) Hq) as (l & El & Hd & _). rewrite El, (Hd Hm). auto.
  - intros q Hq. apply (Hres q). auto.
  - intros q k _. apply posterior_nonneg; auto.
  - intros q Hq. apply posterior_sums; auto.
Qed.

Example C27_hypotheses : valid_observations spr [("grass", "wet")] /\
  (forall q, In q ["rain"; "sprinkler"] -> askable spr (ignored_by false [("grass", "wet")]) [("grass", "wet")] q) /\
  mass spr (ignored_by false [("grass", "wet")]) (agrees (n_vars spr) [("grass", "wet")]) <> 0%Qc.
Proof.
  split; [apply observations_b_sound; vm_compute; reflexivity|]. split; [|apply qeq_false; vm_compute; reflexivity].
  intros q [<-|[<-|[]]]; apply askable_b_sound; vm_compute; reflexivity.
Qed.
Example C27_example : shown_answer (net_solve_query sched_rev spr [("grass", "wet")] ["rain"] false) = Some [("rain", [SFin (891#2491); SFin (1600#2491)])].
Proof. vm_compute. reflexivity. Qed.

(** ** C28: impossible evidence *)
Theorem C28_impossible_evidence : forall n sc ig ev query, wf_network n -> complete n -> nonnegative n -> valid_observations n ev ->
  (forall q, In q query -> askable n (ignored_by ig ev) ev q) ->
  mass n (ignored_by ig ev) (agrees (n_vars n) ev) = 0%Qc ->
  exists n' res f, net_solve_query sc n ev query ig = (n', Ok (res, f)) /\
    forall q, In q query -> sget_map res q = Some (repeat NaN (num_outcomes (n_vars n) q)).
Proof.
  intros n sc ig ev query Hwf Hco Hnn Hv Hask Hm.
  destruct (query_exact n Hwf sc ig ev query Hco Hv Hask) as (n' & res & f & E & Hres).
  exists n', res, f. split; auto. intros q Hq. destruct (proj1 (Hres q) Hq) as (l & El & _ & Hd). rewrite El, (Hd Hnn Hm). auto.
Qed.

(** Wet grass without rain and sprinkler. *)
Definition impossible := [("rain", "no"); ("sprinkler", "off"); ("grass", "wet")].
Definition spr3_vars := (spr_vars ++ [node Chance "shoes" ["clean"; "dirty"]]).
Definition spr3 : network xnum := built (net_new "" "" spr3_vars (spr_factors ++ [cpt "shoes" ["grass"] [1#2; 1#2; 9#10; 1#10]])).
Example C28_hypotheses : wf_network spr3 /\ complete spr3 /\ nonnegative spr3 /\ valid_observations spr3 impossible /\
  askable spr3 (ignored_by false impossible) impossible "shoes" /\
  mass spr3 (ignored_by false impossible) (agrees (n_vars spr3) impossible) = 0%Qc.
Proof.
  split; [apply network_b_sound; vm_compute; reflexivity|]. split; [apply complete_b_sound; vm_compute; reflexivity|].
  split; [apply nonnegative_b_sound; vm_compute; reflexivity|]. split; [apply observations_b_sound; vm_compute; reflexivity|].
  split; [|apply qeq_spec; vm_compute; reflexivity]. split; [eexists; split; [reflexivity|discriminate]|]. split.
  - left. eexists. split; [vm_compute; right; right; right; left; reflexivity|simpl; auto].
  - simpl. intros [E|[E|[E|[]]]]; discriminate.
Qed.
Example C28_example : shown_answer (net_solve_query sched_id spr3 impossible ["shoes"] false) = Some [("shoes", [SNaN; SNaN])].
Proof. vm_compute. reflexivity. Qed.

(** ** C29: the probability mass is one *)
Theorem C29_probability_of_evidence : forall n sc ev, wf_network n -> causal n (fun _ => false) [] -> valid_observations n ev ->
  exists n' f, net_solve_query sc n ev [] false = (n', Ok ([], f)) /\ f_vars f = [] /\
    f_data f = [Fin (mass n (fun _ => false) (agrees (n_vars n) ev))] /\
    (ev = [] -> mass n (fun _ => false) (agrees (n_vars n) ev) = 1%Qc) /\
    (nonnegative n -> (0 <= mass n (fun _ => false) (agrees (n_vars n) ev) <= 1)%Qc).
Proof.
  intros n sc ev Hwf Hc Hv. destruct (probability_of_evidence n Hwf sc ev Hc Hv) as (n' & f & E & Ef & Ed & Hb).
  exists n', f. do 3 (split; auto). split; auto. intros ->. apply mass_one; auto.
Qed.

Example C29_hypotheses : causal umb_solved (fun _ => false) [].
Proof.
  apply causal_b_sound with (rank := fun x => position x ["weather"; "forecast"; "umbrella"]); [apply umb_solved_wf|].
  vm_compute. reflexivity.
Qed.
Example C29_example : match snd (net_solve_query sched_id umb_solved [("umbrella", "take"); ("weather", "rainy")] [] false) with
  Ok (_, f) => map xshow (f_data f) | _ => [] end = [SFin (9#50)].
Proof. vm_compute. reflexivity. Qed.

(** ** C30: scaling table rows *)
Theorem C30_row_scale : forall n n', wf_network n -> wf_network n' -> rescaled n n' ->
  (forall sc ev query ig, snd (net_solve_query sc n' ev query ig) = snd (net_solve_query sc n ev query ig)) /\
  (forall sc ev query u ig, snd (net_solve_utility sc n' ev query u ig) = snd (net_solve_utility sc n ev query u ig)).
Proof. intros n n' H H' Hr. split; intros; [apply rescaled_query|apply rescaled_utility]; auto. Qed.

(** The sprinkler's row for rain in percent, its other row per mille. *)
Definition spr_scaled : network xnum := built (net_new "sprinkler" "" spr_vars
  [cpt "rain" [] [1#5; 4#5]; cpt "sprinkler" ["rain"] [1#1; 99#1; 400#1; 600#1];
   cpt "grass" ["rain"; "sprinkler"] [99#100; 1#100; 4#5; 1#5; 9#10; 1#10; 0#1; 1#1]]).
Definition spr_unit (s : nstate) : Qc := if (s "rain" =? 0)%nat then 1%Qc else qc 10.
Example C30_hypotheses : wf_network spr_scaled /\ rescaled spr spr_scaled.
Proof.
  split; [apply network_b_sound; vm_compute; reflexivity|].
  assert (Hnd : NoDup (map nv_name (n_vars spr))) by apply spr_wf.
  split; try reflexivity.
  - constructor; [left; reflexivity|]. constructor; [right|constructor; [left; reflexivity|constructor]]. split; [right; left; reflexivity|].
    apply scaled_b_sound with (c := spr_unit); auto.
    + intros s. unfold spr_unit. destruct (s "rain" =? 0)%nat; reflexivity.
    + intros s s' H. unfold spr_unit. rewrite (H "rain"); simpl; auto.
  - intros f s Hf. apply zero_rows_b_sound; auto.
    repeat (destruct Hf as [<-|Hf]; [vm_compute; reflexivity|]). destruct Hf.
Qed.

(** ** C31: wrong names are errors *)
Theorem C31_bad_names : forall n sc ev query ig, wf_network n ->
  (exists x o, In (x, o) ev /\ bad_observation n x o) \/ (exists q, In q query /\ bad_name n q) ->
  (exists e, snd (net_solve_query sc n ev query ig) = Err e) /\
  forall u, exists e, snd (net_solve_utility sc n ev query u ig) = Err e.
Proof.
  intros n sc ev query ig Hwf H. split; [apply bad_names_query_err; auto|].
  intros u. apply bad_names_err; tauto.
Qed.
Theorem C31_bad_utility : forall n sc ev query ig u, wf_network n -> u <> "" -> bad_name n u ->
  exists e, snd (net_solve_utility sc n ev query u ig) = Err e.
Proof. intros n sc ev query ig u Hwf Hu Hb. apply bad_names_err; auto. Qed.

Example C31_example : bad_observation spr "grass" "soaked" /\ bad_observation spr "snow" "yes" /\ bad_name spr "snow" /\ bad_name tot "total".
Proof.
  split; [|split; [|split]].
  - right. eexists. split; [reflexivity|]. simpl. intros [E|[E|[]]]; discriminate.
  - left. left. reflexivity.
  - left. reflexivity.
  - right. reflexivity.
Qed.

(** ** C32: asking for an observed variable *)

(** False of the code: whenever a query variable is also evidence, SolveQuery panics. The
    same happens for variables that no probability table mentions. *)
Theorem C32_query_evidence_panics_refuted : forall n sc ig ev query q, wf_network n -> complete n ->
  valid_observations n ev -> valid_query n query -> In q query ->
  In q (map fst ev) \/ ~ mentioned n (ignored_by ig ev) q ->
  exists p, snd (net_solve_query sc n ev query ig) = Panic p.
Proof. intros n sc ig ev query q Hwf. apply missing_panics; auto. Qed.

(** What holds: no panic, for every query that avoids the evidence and asks only for
    variables that occur in a probability table or in a policy that applies. *)
Theorem C32_no_panic_partial : forall n sc ig ev query, wf_network n -> complete n -> valid_observations n ev ->
  (forall q, In q query -> askable n (ignored_by ig ev) ev q) ->
  exists n' res f, net_solve_query sc n ev query ig = (n', Ok (res, f)).
Proof.
  intros n sc ig ev query Hwf Hco Hv Hask. destruct (query_exact n Hwf sc ig ev query Hco Hv Hask) as (n' & res & f & E & _). eauto.
Qed.

Example C32_example : valid_observations spr [("rain", "yes")] /\ valid_query spr ["rain"] /\
  match snd (net_solve_query sched_id spr [("rain", "yes")] ["rain"] false) with Panic _ => True | _ => False end.
Proof.
  split; [apply observations_b_sound; vm_compute; reflexivity|]. split; [|vm_compute; exact I].
  intros q [<-|[]]. eexists. split; [reflexivity|discriminate].
Qed.

(** ** C33: answers do not depend on earlier calls *)

(** After any history of calls, the answer to a query is the answer right after the last
    call of SolvePolicies in that history; SolvePolicies itself always gives the same
    result. [after] runs the calls; any arithmetic. *)
Theorem C33_query_history : forall A (N : NumOps A) (n : network A) (history : list call) sc ev query ig,
  snd (net_solve_query sc (after n history) ev query ig) = snd (net_solve_query sc (after n (last_policies history)) ev query ig).
Proof. intros. apply history_query. Qed.
Theorem C33_utility_history : forall A (N : NumOps A) (n : network A) (history : list call) sc ev query u ig,
  snd (net_solve_utility sc (after n history) ev query u ig) = snd (net_solve_utility sc (after n (last_policies history)) ev query u ig).
Proof. intros. apply history_utility. Qed.
Theorem C33_policies_history : forall A (N : NumOps A) (n : network A) (history : list call) sc stepwise,
  snd (net_solve_policies sc (after n history) stepwise) = snd (net_solve_policies sc n stepwise) /\
  n_policies (fst (net_solve_policies sc (after n history) stepwise)) = n_policies (fst (net_solve_policies sc n stepwise)).
Proof. intros. apply history_policies. Qed.

Definition umb_history : list (call (A := xnum)) :=
  [CSolveQuery sched_id [] ["weather"] false; CSolvePolicies sched_rev true; CSolveUtility sched_id [("umbrella", "take")] [] "" true;
   CToEvidence "weather" "rainy"; CSolveQuery sched_rev [("weather", "hail")] [] false].
Example C33_example : last_policies umb_history = [CSolvePolicies sched_rev true] /\
  shown_answer (net_solve_query sched_id (after umb umb_history) [] ["umbrella"] false) = Some [("umbrella", [SFin (1#4); SFin (3#4)])] /\
  shown_answer (net_solve_query sched_id umb [] ["umbrella"] false) = None.
Proof. split; [reflexivity|]. split; vm_compute; reflexivity. Qed.

(** ** C34: ignoring policies *)

(** With ignorePolicies the answers are the posteriors in the network from which the policies
    of the observed decisions were removed; the other policies still apply. *)
Theorem C34_intervention : forall n sc ev query, wf_network n -> complete n -> nonnegative n -> valid_observations n ev ->
  (forall q, In q query -> askable n (ignored_by true ev) ev q) ->
  let fixed := with_policies n (filter (fun dp => negb (has_key ev (fst dp))) (n_policies n)) in
  let none := fun _ : string => false in
  mass fixed none (agrees (n_vars n) ev) <> 0%Qc ->
  exists n' res f, net_solve_query sc n ev query true = (n', Ok (res, f)) /\
    forall q, In q query -> sget_map res q =
      Some (map (fun k => Fin (posterior fixed none ev q k)) (seq 0 (num_outcomes (n_vars n) q))).
Proof.
  intros n sc ev query Hwf Hco Hnn Hv Hask fixed none Hm.
  destruct (C27_posterior n sc true ev query Hwf Hco Hnn Hv Hask) as (n' & res & f & E & Hr & _).
  { rewrite (without_mass n ev). exact Hm. }
  exists n', res, f. split; auto. intros q Hq. rewrite (Hr q Hq). f_equal. apply map_ext. intros k. f_equal.
  unfold posterior. rewrite !(without_mass n ev). reflexivity.
Qed.

(** If all the evidence is about decisions and everything else has a distribution, no
    normalisation is involved: the answers are the probabilities of the truncated product,
    which is what fixing the decisions from outside means. *)
Theorem C34_truncated_product : forall n ev q k, wf_network n -> valid_observations n ev ->
  causal n (ignored_by true ev) (map fst ev) ->
  posterior n (ignored_by true ev) ev q k = mass n (ignored_by true ev) (fun s => agrees (n_vars n) ev s && (s q =? k)%nat).
Proof.
  intros n ev q k Hwf Hv Hc. unfold posterior.
  assert (Hm : mass n (ignored_by true ev) (agrees (n_vars n) ev) = 1%Qc).
  { rewrite <- (causal_mass n Hwf (ignored_by true ev) (map fst ev) ev [] nowhere Hc Hv).
    - unfold mass. do 2 f_equal. apply filter_ext. intros s. cbn [same_on forallb]. rewrite andb_true_r. auto.
    - intros v Hin. pose proof (wn_outcomes n Hwf v Hin) as H. unfold zlen, nowhere in *. lia.
    - constructor.
    - intros x. simpl. tauto.
    - intros x []. }
  rewrite Hm. unfold Qcdiv. change (/ 1)%Qc with 1%Qc. apply Qcmult_1_r.
Qed.

(** Seeing the umbrella taken says something about the weather, taking it does not. *)
Example C34_hypotheses : valid_observations umb_solved [("umbrella", "take")] /\
  causal umb_solved (ignored_by true [("umbrella", "take")]) ["umbrella"] /\
  askable umb_solved (ignored_by true [("umbrella", "take")]) [("umbrella", "take")] "weather".
Proof.
  split; [apply observations_b_sound; vm_compute; reflexivity|]. split.
  - apply causal_b_sound with (rank := fun x => position x ["weather"; "forecast"; "umbrella"]); [apply umb_solved_wf|]. vm_compute. reflexivity.
  - apply askable_b_sound. vm_compute. reflexivity.
Qed.
Example C34_example :
  shown_answer (net_solve_query sched_id umb_solved [("umbrella", "take")] ["weather"] true) = Some [("weather", [SFin (7#10); SFin (3#10)])] /\
  shown_answer (net_solve_query sched_id umb_solved [("umbrella", "take")] ["weather"] false) = Some [("weather", [SFin (7#25); SFin (18#25)])].
Proof. split; vm_compute; reflexivity. Qed.

(** ** C35: construction *)

(** New succeeds exactly on valid structures (and then keeps the input, links every variable
    to the first factor for it, and finds the total utility node). On others it returns an
    error, but panics for some utility nodes without a factor. *)
Theorem C35_new : forall A name info vars (factors : list (nfactor A)), (forall v, In v vars -> nv_factor v = None) ->
  (valid_structure vars factors <-> exists n, net_new name info vars factors = Ok n) /\
  (forall p, net_new name info vars factors = Panic p ->
     exists v, In v vars /\ nv_type v = Utility /\ factor_for factors (nv_name v) = None) /\
  (forall n, net_new name info vars factors = Ok n ->
     n_name n = name /\ n_info n = info /\ n_policies n = [] /\ n_ve n = None /\
     Forall2 same_variable vars (n_vars n) /\ Forall2 same_factor factors (n_factors n) /\
     (forall v f, In v vars -> factor_for factors (nv_name v) = Some f ->
        exists v' k, var_named (n_vars n) (nv_name v) = Some v' /\ nv_factor v' = Some k /\
          nth_error factors k = Some f /\ nth_error (n_factors n) k = Some (linked_factor vars f)) /\
     total_index vars factors (n_tui n)).
Proof. intros A name info vars factors H. apply new_api; auto. Qed.

(** New does not check the remaining conditions for well-formed networks. Input that meets
    them gives a well-formed network. *)
Theorem C35_new_wf : forall name info vars factors n, good_input vars factors ->
  net_new name info vars factors = Ok n -> wf_network n.
Proof. intros name info vars factors n. apply new_wf. Qed.

Example C35_example : net_new "umbrella" "" umb_vars umb_factors = Ok umb /\ n_tui umb = -1 /\
  net_new "total" "" tot_vars tot_factors = Ok tot /\ n_tui tot = 3 /\
  (exists e, net_new "" "" (spr_vars ++ [node Chance "rain" ["a"]]) spr_factors = Err e) /\
  (exists e, net_new "" "" spr_vars [cpt "rain" ["snow"] []] = Err e) /\
  (exists e, net_new "" "" (tot_vars ++ [node Utility "more" ["a"]]) (tot_factors ++ [cpt "more" ["fun"] []]) = Err e) /\
  (exists e, net_new "" "" (umb_vars ++ [node Utility "mixed" ["a"]]) (umb_factors ++ [cpt "mixed" ["mood"; "weather"] []]) = Err e) /\
  net_new "" "" (umb_vars ++ [node Utility "alone" ["a"]]) umb_factors = Panic PNil.
Proof. do 4 (split; [reflexivity|]). do 4 (split; [eexists; reflexivity|]). reflexivity. Qed.

Example C35_good : good_input tot_vars tot_factors.
Proof.
  assert (Hc : forall v, In v tot_vars -> collects tot_vars tot_factors v -> nv_name v = "total").
  { intros v Hv (Hu & f & Hf & _ & Hk). simpl in Hv. repeat (destruct Hv as [<-|Hv]; [try discriminate Hu|]); try reflexivity; [..|destruct Hv];
      injection Hf as <-; specialize (Hk "weather" (or_introl eq_refl)); discriminate Hk. }
  split.
  - intros v Hv. simpl in Hv. repeat (destruct Hv as [<-|Hv]; [reflexivity|]). destruct Hv.
  - intros v Hv. simpl in Hv. repeat (destruct Hv as [<-|Hv]; [discriminate|]). destruct Hv.
  - unfold zlen. simpl. lia.
  - intros v Hv. simpl in Hv. repeat (destruct Hv as [<-|Hv]; [split; [unfold zlen; simpl; lia|apply string_nodup_b; reflexivity]|]). destruct Hv.
  - intros f Hf. simpl in Hf. destruct Hf as [<-|[<-|[<-|[<-|[]]]]]; eexists.
    + split; [left; reflexivity|reflexivity].
    + split; [right; left; reflexivity|reflexivity].
    + split; [right; right; left; reflexivity|reflexivity].
    + split; [right; right; right; left; reflexivity|reflexivity].
  - assert (Ht : forall l, forallb fin_b l = true -> exists l', Some l = Some (map Fin l') /\ List.length l' = List.length l).
    { intros l Hl. destruct (fin_b_map l Hl) as (l' & ->). exists l'. rewrite map_length. auto. }
    intros f v Hf Hv E Hn. simpl in Hf. destruct Hf as [<-|[<-|[<-|[<-|[]]]]].
    1-3: (split; [apply string_nodup_b; reflexivity|split; [intros g Hg; simpl in Hg; destruct Hg as [<-|[]] || destruct Hg; left; reflexivity|intros _; apply Ht; reflexivity]]).
    exfalso. apply Hn. simpl in Hv. repeat (destruct Hv as [<-|Hv]; [try discriminate E|]); [|destruct Hv].
    split; [reflexivity|]. eexists. split; [reflexivity|]. split; [discriminate|]. intros h Hh. simpl in Hh. destruct Hh as [<-|[<-|[]]]; reflexivity.
  - intros f v Hv Hco Hf. pose proof (Hc v Hv Hco) as E. rewrite E in Hf. injection Hf as <-. split.
    + eexists [_; _]. split; [reflexivity|]. simpl. lia.
    + intros u Hu Ht Hne. simpl in Hu. repeat (destruct Hu as [<-|Hu]; [try discriminate Ht; simpl; auto|]); [|destruct Hu].
      exfalso. apply Hne. simpl in Hv. repeat (destruct Hv as [<-|Hv]; [try discriminate E; try reflexivity|]). destruct Hv.
Qed.

(** ** C36: cyclic graphs *)
Definition acyclic {A} (vars : list nvar) (factors : list (nfactor A)) : Prop :=
  exists rank : string -> nat, forall v f g, In v vars -> factor_for factors (nv_name v) = Some f -> In g (nf_given f) ->
    (rank g < rank (nv_name v))%nat.
Definition loop_vars := [node Chance "a" ["0"; "1"]; node Chance "b" ["0"; "1"]].
Definition loop_factors := [cpt "a" ["b"] [1#2; 1#2; 1#4; 3#4]; cpt "b" ["a"] [1#2; 1#2; 1#4; 3#4]].

(** False of the code: a cycle of two variables is accepted, and queries are answered. The
    mass of all states is not one. *)
Theorem C36_cycle_accepted_refuted : ~ acyclic loop_vars loop_factors /\
  exists n, net_new "" "" loop_vars loop_factors = Ok n /\ wf_network n /\
    shown_answer (net_solve_query sched_id n [] ["a"] false) = Some [("a", [SFin (6#17); SFin (11#17)])] /\
    mass n (fun _ => false) (fun _ => true) <> 1%Qc.
Proof.
  split.
  - intros (rank & H).
    pose proof (H (node Chance "a" ["0"; "1"]) (cpt "a" ["b"] [1#2; 1#2; 1#4; 3#4]) "b" (or_introl eq_refl) eq_refl (or_introl eq_refl)) as H1.
    pose proof (H (node Chance "b" ["0"; "1"]) (cpt "b" ["a"] [1#2; 1#2; 1#4; 3#4]) "a" (or_intror (or_introl eq_refl)) eq_refl (or_introl eq_refl)) as H2.
    simpl in *. lia.
  - eexists. split; [reflexivity|]. split; [apply network_b_sound; vm_compute; reflexivity|]. split; [vm_compute; reflexivity|].
    apply qeq_false. vm_compute. reflexivity.
Qed.

(** ** C37: rows of tables *)

(** False of the code: for two parents' configurations the rows overlap. *)
Definition forecast_factor : nfactor xnum := nth 1 (n_factors umb) (cpt "" [] []).
Theorem C37_row_refuted :
  nf_table forecast_factor = Some (lit [70#1; 20#1; 10#1; 15#1; 25#1; 60#1]) /\ nf_outcomes forecast_factor = [2] /\ nf_columns forecast_factor = 3 /\
  nf_row forecast_factor [1] = Ok (lit [20#1; 10#1; 15#1], true) /\
  map xshow (table_row (lit [70#1; 20#1; 10#1; 15#1; 25#1; 60#1]) 3 (row_number [2] [1])) = [SFin (15#1); SFin (25#1); SFin (60#1)].
Proof. do 4 (split; [reflexivity|]). vm_compute. reflexivity. Qed.

(** What holds: the row number is right, but the row returned starts at that entry; so the
    first row is right, and so is every row of a table with one column. *)
Theorem C37_row_partial : forall A (f : nfactor A) indices table, Forall2 (fun o i => 0 <= i < o) (nf_outcomes f) indices ->
  nf_table f = Some table -> 1 <= nf_columns f -> zlen table = fold_right Z.mul 1 (nf_outcomes f) * nf_columns f ->
  nf_row f indices = Ok (firstn (Z.to_nat (nf_columns f)) (skipn (Z.to_nat (row_number (nf_outcomes f) indices)) table), true) /\
  (row_number (nf_outcomes f) indices = 0 \/ nf_columns f = 1 ->
   nf_row f indices = Ok (table_row table (nf_columns f) (row_number (nf_outcomes f) indices), true)).
Proof.
  intros A f indices table H Ht Hc Hl. destruct (row_number_bounds _ _ H) as [Hb Hx].
  split; [|apply row_partial; auto]. rewrite (row_spec f indices table); auto; try nia.
  unfold zlen. clear - H. induction H; simpl; lia.
Qed.
Theorem C37_row_missing : forall A (f : nfactor A) indices, zlen indices = zlen (nf_outcomes f) -> (exists i, In i indices /\ i < 0) ->
  nf_row f indices = Ok ([], false).
Proof. intros A f indices. apply row_missing. Qed.
Example C37_example : nf_row forecast_factor [0] = Ok (lit [70#1; 20#1; 10#1], true) /\ nf_row forecast_factor [-1] = Ok ([], false).
Proof. split; reflexivity. Qed.

(** ** C38: evidence vectors *)
Theorem C38_one_hot : forall n sc ev query ig u x v o, wf_network n -> is_total n x = false -> var_named (n_vars n) x = Some v -> In o (nv_outcomes v) ->
  let one_hot := map (fun o' => if String.eqb o' o then Fin 1%Qc else Fin 0%Qc) (nv_outcomes v) in
  net_to_evidence (N := xnum_ops) (fst (net_solve_query sc n ev query ig)) x o = Ok one_hot /\
  net_to_evidence (N := xnum_ops) (fst (net_solve_utility sc n ev query u ig)) x o = Ok one_hot.
Proof.
  intros n sc ev query ig u x v o Hwf Ht Hv Ho one_hot.
  split; apply (to_evidence_ok n Hwf); auto; [apply solve_names_kept; auto|apply utility_names_kept; auto].
Qed.
Theorem C38_errors : forall n sc ev query ig u x o, wf_network n -> bad_observation n x o ->
  (exists e, net_to_evidence (N := xnum_ops) (fst (net_solve_query sc n ev query ig)) x o = Err e) /\
  (exists e, net_to_evidence (N := xnum_ops) (fst (net_solve_utility sc n ev query u ig)) x o = Err e).
Proof.
  intros n sc ev query ig u x o Hwf Hb.
  split; apply (to_evidence_err n Hwf); auto; [apply solve_names_kept; auto|apply utility_names_kept; auto].
Qed.
Example C38_example :
  net_to_evidence (fst (net_solve_query sched_id umb [] ["weather"] false)) "forecast" "cloudy" = Ok (lit [0#1; 1#1; 0#1]) /\
  (exists e, net_to_evidence (fst (net_solve_query sched_id umb [] ["weather"] false)) "forecast" "hail" = Err e) /\
  (exists e, net_to_evidence umb "forecast" "cloudy" = Err e).
Proof. split; [reflexivity|]. split; eexists; reflexivity. Qed.

(** ** C39: rearranging by names *)
Theorem C39_rearrange : forall n sc ig ev query u n' (f : factor xnum) names, wf_network n -> complete n -> valid_observations n ev -> valid_query n query ->
  (exists res, net_solve_query sc n ev query ig = (n', Ok (res, f))) \/
  (net_solve_utility sc n ev query u ig = (n', Ok f) /\
   (u = "" /\ plain_utilities n /\ some_utility n \/
    exists v, var_named (n_vars n) u = Some v /\ nv_type v = Utility /\ is_total n u = false /\ List.length (nv_outcomes v) = 1%nat)) ->
  names <> [] -> NoDup names -> incl names (factor_names n f) ->
  exists n'' g, net_rearrange n' f names = Ok (n'', g) /\ wf_factor g /\
    factor_names n g = removelast names ++ filter (fun x => negb (existsb (String.eqb x) names)) (factor_names n f) ++ [last names ""] /\
    forall s, proper_state n s -> get_at g (positions (n_vars n) s) = get_at f (positions (n_vars n) s).
Proof.
  intros n sc ig ev query u n' f names Hwf Hco Hv Hq Hs Hne Hnd Hi.
  assert (H : n_names n' = name_map (entries n) /\ n_ve n' <> None /\ wf_factor f /\ incl (f_vars f) (net_vars n)).
  { destruct Hs as [(res & E)|[E Hu]]; [eapply (query_leaves n Hwf); eauto|eapply (utility_leaves n Hwf); eauto]. }
  destruct H as (H1 & H2 & H3 & H4). apply (rearrange_ok n Hwf); auto.
Qed.
Definition shown_factor (n : network xnum) {S} (r : gores (S * factor xnum)) : option (list string * list shown) :=
  match r with Ok (_, f) => Some (factor_names n f, map xshow (f_data f)) | _ => None end.
Example C39_example :
  match net_solve_query sched_id spr3 [("rain", "no")] ["sprinkler"; "grass"; "shoes"] false with
  | (n', Ok (_, f)) => (factor_names spr3 f, shown_factor spr3 (net_rearrange n' f ["shoes"; "sprinkler"]))
  | _ => ([], None)
  end = (["grass"; "shoes"; "sprinkler"],
         Some (["shoes"; "grass"; "sprinkler"], [SFin (18#125); SFin (0#1); SFin (18#625); SFin (54#125); SFin (18#125); SFin (0#1); SFin (2#625); SFin (6#125)])).
Proof. vm_compute. reflexivity. Qed.

(** ** C40: total utility nodes *)

(** The utility factor sums the weighted utilities ([utility_of], [net_weight]). *)
Theorem C40_weighted : forall n sc ig ev query, wf_network n -> complete n -> plain_utilities n -> some_utility n ->
  valid_observations n ev -> valid_query n query ->
  exists n' f, net_solve_utility sc n ev query "" ig = (n', Ok f) /\
    result_factor n ev query [] (relevant n (ignored_by ig ev)) (fun s => joint n (ignored_by ig ev) s * utility_of n s)%Qc f.
Proof. intros n sc ig ev query Hwf. apply solve_utility_factor; auto. Qed.
Theorem C40_missing_parent : forall n u, forgetful_total n u -> forall sc ev query uv ig,
  (exists e, snd (net_solve_utility sc n ev query uv ig) = Err e) /\
  (exists e, snd (net_solve_query sc n ev query ig) = Err e) /\
  (forall stepwise, exists e, snd (net_solve_policies sc n stepwise) = Err e).
Proof. apply forgetful_err. Qed.

(** Fun counts once, cost twice; 0.7 * (100 - 10) + 0.3 * (10 - 40). *)
Example C40_example : shown_values (net_solve_utility sched_id tot [] [] "" false) = Some [SFin (54#1)] /\
  net_weight tot "fun" = 1%Qc /\ net_weight tot "cost" = qc (2#1).
Proof. split; [vm_compute; reflexivity|]. split; apply qeq_spec; vm_compute; reflexivity. Qed.
Definition forgetful : network xnum := built (net_new "" "" (tot_vars ++ [node Utility "extra" ["v"]]) (tot_factors ++ [cpt "extra" ["weather"] [1#1; 2#1]])).
Example C40_missing_example : forgetful_total forgetful "extra".
Proof. apply forgetful_b_sound. vm_compute. reflexivity. Qed.

(** ** C64: numbers of outcomes *)

(** False of the code: with 65536 outcomes or more, no query works. *)
Theorem C64_many_outcomes_refuted : forall A (N : NumOps A) sc v (t : list A), nv_type v = Chance -> nv_name v <> "" ->
  65536 <= zlen (nv_outcomes v) -> zlen t = zlen (nv_outcomes v) ->
  let n := mkNet "" "" [v] [mkNFactor (nv_name v) [] (Some t) [] (zlen (nv_outcomes v))] [] None [] (-1) in
  forall ev query ig, exists p, snd (net_solve_query sc n ev query ig) = Panic p.
Proof. intros A N sc v t H1 H2 H3 H4. apply too_many_outcomes; auto. Qed.
(** Up to 65535 outcomes (part of [wf_network]) every answer has one entry per outcome. *)
Theorem C64_outcomes_partial : forall n sc ig ev query, wf_network n -> complete n -> nonnegative n -> valid_observations n ev ->
  (forall q, In q query -> askable n (ignored_by ig ev) ev q) ->
  exists n' res f, net_solve_query sc n ev query ig = (n', Ok (res, f)) /\
    forall q v, In q query -> var_named (n_vars n) q = Some v -> exists l, sget_map res q = Some l /\ List.length l = List.length (nv_outcomes v).
Proof.
  intros n sc ig ev query Hwf Hco Hnn Hv Hask.
  destruct (qeq (mass n (ignored_by ig ev) (agrees (n_vars n) ev)) 0) eqn:E.
  - apply qeq_spec in E. destruct (C28_impossible_evidence n sc ig ev query Hwf Hco Hnn Hv Hask E) as (n' & res & f & Er & H).
    exists n', res, f. split; auto. intros q v Hq Hvn. eexists. split; [apply H; auto|]. rewrite repeat_length. unfold num_outcomes. rewrite Hvn. auto.
  - apply qeq_false in E. destruct (C27_posterior n sc ig ev query Hwf Hco Hnn Hv Hask E) as (n' & res & f & Er & H & _).
    exists n', res, f. split; auto. intros q v Hq Hvn. eexists. split; [apply H; auto|]. rewrite map_length, seq_length. unfold num_outcomes. rewrite Hvn. auto.
Qed.
Example C64_example : exists v : nvar, exists t : list xnum, nv_type v = Chance /\ nv_name v <> "" /\ 65536 <= zlen (nv_outcomes v) /\ zlen t = zlen (nv_outcomes v).
Proof.
  exists (node Chance "x" (repeat "" (Z.to_nat 65536))), (repeat NaN (Z.to_nat 65536)). unfold zlen. cbn [nv_type nv_name nv_outcomes node].
  rewrite !repeat_length. split; auto. split; [discriminate|]. lia.
Qed.

(** ** C66: conditional expected utilities *)
Theorem C66_conditional_utility : forall n sc1 sc2 ig ev query u, wf_network n -> complete n -> valid_observations n ev ->
  (forall q, In q query -> askable n (ignored_by ig ev) ev q) ->
  (u = "" /\ plain_utilities n /\ some_utility n \/
   exists v, var_named (n_vars n) u = Some v /\ nv_type v = Utility /\ is_total n u = false /\ List.length (nv_outcomes v) = 1%nat) ->
  exists n1 res fp n2 fu n3 g, net_solve_query sc1 n ev query ig = (n1, Ok (res, fp)) /\
    net_solve_utility sc2 n1 ev query u ig = (n2, Ok fu) /\ net_normalize_utility n2 fu fp = Ok (n3, g) /\ wf_factor g /\
    (forall q, In q query -> In q (factor_names n g)) /\
    forall s, proper_state n s ->
      let event := fun s' => agrees (n_vars n) ev s' && same_on (factor_names n g) s s' in
      let m := mass n (ignored_by ig ev) event in
      let utility := if String.eqb u "" then utility_of n else one_utility n u in
      (m <> 0%Qc -> get_at g (positions (n_vars n) s) =
         Ok (Fin (sum_over n (fun s => joint n (ignored_by ig ev) s * utility s)%Qc event / m))) /\
      (nonnegative n -> m = 0%Qc -> get_at g (positions (n_vars n) s) = Ok NaN).
Proof. intros n sc1 sc2 ig ev query u Hwf. apply (normalized_utility n Hwf). Qed.

(** Leaving the umbrella at home without rain and with rain. *)
Example C66_example :
  match net_solve_query sched_id umb_solved [("umbrella", "leave")] ["weather"] true with
  | (n1, Ok (_, fp)) =>
      match net_solve_utility sched_id n1 [("umbrella", "leave")] ["weather"] "mood" true with
      | (n2, Ok fu) => shown_factor umb (net_normalize_utility n2 fu fp)
      | _ => None
      end
  | _ => None
  end = Some (["weather"; "mood"], [SFin (100#1); SFin (0#1)]) /\
  plain_utilities umb_solved /\ some_utility umb_solved.
Proof.
  split; [vm_compute; reflexivity|]. split; [apply plain_b_sound|apply some_utility_b_sound]; vm_compute; reflexivity.
Qed.

Print Assumptions C27_posterior.
Print Assumptions C28_impossible_evidence.
Print Assumptions C29_probability_of_evidence.
Print Assumptions C30_row_scale.
Print Assumptions C31_bad_names.
Print Assumptions C31_bad_utility.
Print Assumptions C32_query_evidence_panics_refuted.
Print Assumptions C32_no_panic_partial.
Print Assumptions C33_query_history.
Print Assumptions C33_utility_history.
Print Assumptions C33_policies_history.
Print Assumptions C34_intervention.
Print Assumptions C34_truncated_product.
Print Assumptions C35_new.
Print Assumptions C35_new_wf.
Print Assumptions C36_cycle_accepted_refuted.
Print Assumptions C37_row_refuted.
Print Assumptions C37_row_partial.
Print Assumptions C37_row_missing.
Print Assumptions C38_one_hot.
Print Assumptions C38_errors.
Print Assumptions C39_rearrange.
Print Assumptions C40_weighted.
Print Assumptions C40_missing_parent.
Print Assumptions C64_many_outcomes_refuted.
Print Assumptions C64_outcomes_partial.
Print Assumptions C66_conditional_utility.
