(** Property C95: nodes with a logic operator in queries.
    Specification vocabulary: SpecOperators.v, SpecDoc.v, SpecNet.v. *)
From Coq Require Import ZArith QArith Qcanon List Bool String Ascii Lia.
From Verif Require Import Num GoBase GoFacts VarModel VEModel NetModel SpecNet NetCheck LogicModel SpecLogic LogicShape TextModel DocModel SpecDoc TextFacts DocFacts SpecOperators NetLogic
  Props_VE Props_Net Props_Doc.
Import ListNotations.
Open Scope string_scope.
Open Scope list_scope.
Open Scope Z_scope.

(** [n] was loaded from the document, after loading any other ones; since then only policies were
    solved. *)
Definition loaded (d : ydoc xnum) (n : network xnum) : Prop :=
  exists docs m, fst (from_yaml (after_loading docs) d) = Ok m /\ n_vars n = n_vars m /\ n_factors n = n_factors m.
(** A chance node of the document with an operator and arguments *)
Definition logic_node (d : ydoc xnum) (v : yvar xnum) (op : string) (args : list Z) : Prop :=
  In v (yd_vars d) /\ type_text (y_type v) Chance /\ y_logic v <> "" /\ y_table v = [] /\ logic_text (y_logic v) op args.

(** The probability of each outcome of the node is the probability that the operator gives this
    outcome for the parents, with any evidence for other variables. *)
Theorem C95_asked : forall d n v op args F sc ig ev, loaded d n -> wf_network n -> nonnegative n -> logic_node d v op args ->
  operator_value op args (map (num_outcomes (n_vars n)) (y_given v)) F -> valid_observations n ev -> ~ In (y_name v) (map fst ev) ->
  let weight := mass n (ignored_by ig ev) in let known := agrees (n_vars n) ev in weight known <> 0%Qc ->
  exists n' res fac, net_solve_query sc n ev [y_name v] ig = (n', Ok (res, fac)) /\
    sget_map res (y_name v) = Some (map (fun k => Fin (weight (fun s => known s && (F (map s (y_given v)) =? k)%nat) / weight known)%Qc) (seq 0 (num_outcomes (n_vars n) (y_name v)))).
Proof.
  intros d n v op args F sc ig ev (docs & m & Hm & Ev & Ef) Hwf Hnn (H1 & H2 & H3 & H4 & H5) HF Hev Hx weight known Hw.
  exact (logic_query _ d m n v op args F sc ig ev (after_loading_like docs) Hm Ev Ef Hwf Hnn H1 H2 H3 H4 H5 HF Hev Hx Hw).
Qed.

(** To observe the node is to learn what the operator gives for the parents: answers for other
    variables are their probabilities given that. *)
Theorem C95_observed : forall d n v op args F sc ig ev query o j, loaded d n -> wf_network n -> nonnegative n -> logic_node d v op args ->
  operator_value op args (map (num_outcomes (n_vars n)) (y_given v)) F -> nth_error (y_outcomes v) j = Some o ->
  let ev' := ev ++ [(y_name v, o)] in valid_observations n ev' -> (forall q, In q query -> askable n (ignored_by ig ev') ev' q) ->
  let weight := mass n (ignored_by ig ev') in let known := fun s => agrees (n_vars n) ev s && (F (map s (y_given v)) =? j)%nat in weight known <> 0%Qc ->
  exists n' res fac, net_solve_query sc n ev' query ig = (n', Ok (res, fac)) /\
    forall q, In q query -> sget_map res q = Some (map (fun k => Fin (weight (fun s => known s && (s q =? k)%nat) / weight known)%Qc) (seq 0 (num_outcomes (n_vars n) q))).
Proof.
  intros d n v op args F sc ig ev query o j (docs & m & Hm & Ev & Ef) Hwf Hnn (H1 & H2 & H3 & H4 & H5) HF Ho ev' Hev Hask weight known Hw.
  exact (logic_evidence _ d m n v op args F sc ig ev query o j (after_loading_like docs) Hm Ev Ef Hwf Hnn H1 H2 H3 H4 H5 HF Ho Hev Hask Hw).
Qed.

(** Conditions: if the premise is observed, the consequence is certain; if the node is observed
    not to be the consequence, the premise is impossible. *)
Theorem C95_condition : forall d n v op b c g sc ig ev, loaded d n -> wf_network n -> nonnegative n -> logic_node d v op [] ->
  In (op, (b, c)) implications -> y_given v = [g] -> num_outcomes (n_vars n) g = 2%nat ->
  valid_observations n ev -> mass n (ignored_by ig ev) (agrees (n_vars n) ev) <> 0%Qc ->
  (forall w o, ~ In (y_name v) (map fst ev) -> var_named (n_vars n) g = Some w -> nth_error (nv_outcomes w) (outcome_of b) = Some o -> In (g, o) ev ->
     exists n' res fac, net_solve_query sc n ev [y_name v] ig = (n', Ok (res, fac)) /\ sget_map res (y_name v) = Some (truth c)) /\
  (forall w o, ~ In g (map fst ev) -> var_named (n_vars n) (y_name v) = Some w -> nth_error (nv_outcomes w) (outcome_of (negb c)) = Some o -> In (y_name v, o) ev ->
     exists n' res fac, net_solve_query sc n ev [g] ig = (n', Ok (res, fac)) /\ sget_map res g = Some (truth (negb b))).
Proof.
  intros d n v op b c g sc ig ev (docs & m & Hm & Ev & Ef) Hwf Hnn (H1 & H2 & H3 & H4 & H5) Hop Hg Hg2 Hev Hw. split; intros w o Hx Hvar Ho Hin.
  - exact (condition_forward _ d m n v op b c g sc ig ev o w (after_loading_like docs) Hm Ev Ef Hwf Hnn H1 H2 H3 H4 H5 Hop Hg Hg2 Hev Hw Hx Hvar Ho Hin).
  - exact (condition_backward _ d m n v op b c g sc ig ev o w (after_loading_like docs) Hm Ev Ef Hwf Hnn H1 H2 H3 H4 H5 Hop Hg Hg2 Hev Hw Hx Hvar Ho Hin).
Qed.

(** ** Cases *)

(** Two switches, and nodes for both of them, for the number of them that are on, and a lamp that
    is on if the first switch is. *)
Definition lamp_node := mkYVar (A := xnum) "lamp" ["a"] "" ["on"; "off"] (0, 0) "" "If-Then" [].
Definition both_node := mkYVar (A := xnum) "both" ["a"; "b"] "" ["yes"; "no"] (0, 0) "" "AND" [].
Definition count_node := mkYVar (A := xnum) "count" ["a"; "b"] "nature" ["0"; "1"; "2"] (0, 0) "" "count-true" [].
Definition switch_doc : ydoc xnum := mkYDoc "switches" "" [mkYVar "a" [] "" ["on"; "off"] (0, 0) "" "" [lit [1#2; 1#2]]; mkYVar "b" ["a"] "" ["on"; "off"] (0, 0) "" "" [lit [3#4; 1#4]; lit [1#5; 4#5]];
  both_node; count_node; lamp_node].
Definition switches : network xnum := built (fst (from_yaml factors switch_doc)).
Example switches_loaded : loaded switch_doc switches.
Proof. exists [], switches. split; [reflexivity|]. split; reflexivity. Qed.
Example switches_wf : wf_network switches. Proof. apply network_b_sound. vm_compute. reflexivity. Qed.
Example switches_nonneg : nonnegative switches. Proof. apply nonnegative_b_sound. vm_compute. reflexivity. Qed.
Lemma plain_text s op : split " " s = [s] -> to_lower s = op -> logic_text s op [].
Proof. intros Hs Ho. exists s, []. split; [apply parts_by_split; auto|]. split; [congruence|constructor]. Qed.
Example both_is_logic : logic_node switch_doc both_node "and" [] /\ operator_value "and" [] (map (num_outcomes (n_vars switches)) (y_given both_node)) (fun p => outcome_of (parent 0 (truths p) && parent 1 (truths p))).
Proof.
  split.
  - split; [right; right; left; reflexivity|]. split; [left; reflexivity|]. split; [discriminate|]. split; [reflexivity|]. apply plain_text; reflexivity.
  - apply (val_binary "and" (fun a b => a && b)). left. reflexivity.
Qed.
Example count_is_logic : logic_node switch_doc count_node "count-true" [] /\ operator_value "count-true" [] (map (num_outcomes (n_vars switches)) (y_given count_node)) (fun p => Z.to_nat (count_true (truths p))).
Proof.
  split.
  - split; [right; right; right; left; reflexivity|]. split; [right; reflexivity|]. split; [discriminate|]. split; [reflexivity|]. apply plain_text; reflexivity.
  - apply (val_count_true 2). unfold fits. cbn. lia.
Qed.
Example lamp_is_condition : logic_node switch_doc lamp_node "if-then" [] /\ In ("if-then", (true, true)) implications.
Proof.
  split; [|left; reflexivity]. split; [right; right; right; right; left; reflexivity|]. split; [left; reflexivity|]. split; [discriminate|]. split; [reflexivity|]. apply plain_text; reflexivity.
Qed.
Example C95_hypotheses : valid_observations switches [("lamp", "on")] /\ mass switches (ignored_by false [("lamp", "on")]) (agrees (n_vars switches) [("lamp", "on")]) <> 0%Qc /\
  valid_observations switches ([("lamp", "on")] ++ [("count", "1")]) /\
  mass switches (ignored_by false [("lamp", "on"); ("count", "1")]) (fun s => agrees (n_vars switches) [("lamp", "on")] s && (Z.to_nat (count_true (truths (map s ["a"; "b"]))) =? 1)%nat) <> 0%Qc /\
  askable switches (ignored_by false [("lamp", "on"); ("count", "1")]) [("lamp", "on"); ("count", "1")] "b".
Proof.
  split; [apply observations_b_sound; vm_compute; reflexivity|]. split; [apply qeq_false; vm_compute; reflexivity|]. split; [apply observations_b_sound; vm_compute; reflexivity|].
  split; [apply qeq_false; vm_compute; reflexivity|]. apply askable_b_sound. vm_compute. reflexivity.
Qed.
Example C95_example :
  shown_answer (net_solve_query sched_id switches [("lamp", "on")] ["both"] false) = Some [("both", [SFin (1#2); SFin (1#2)])] /\
  shown_answer (net_solve_query sched_id switches [("lamp", "on")] ["count"] false) = Some [("count", [SFin (4#15); SFin (7#30); SFin (1#2)])] /\
  shown_answer (net_solve_query sched_id switches [("lamp", "on"); ("count", "1")] ["b"] false) = Some [("b", [SFin (2#7); SFin (5#7)])] /\
  shown_answer (net_solve_query sched_id switches [("a", "on")] ["lamp"] false) = Some [("lamp", [SFin 1; SFin 0])] /\
  shown_answer (net_solve_query sched_id switches [("lamp", "off")] ["a"] false) = Some [("a", [SFin 0; SFin 1])].
Proof. repeat split; vm_compute; reflexivity. Qed.

Print Assumptions C95_asked.
Print Assumptions C95_observed.
Print Assumptions C95_condition.
