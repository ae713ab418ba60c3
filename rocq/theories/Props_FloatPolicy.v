(** Property C98: SolvePolicies with float64 numbers (network.go:232-290, ve/).
    Specification vocabulary: SpecNetPolicy.v, SpecRound.v, SpecFloatUtility.v and SpecFloatPolicy.v. *)
From Coq Require Import ZArith List Bool String Lia Permutation QArith Qcanon Qcabs.
From Coq Require Import Floats.SpecFloat.
From Verif Require Import Num GoBase VarModel GoFacts SpecFactor FactorFacts FactorAt XnumFacts VEModel SpecVE NetModel SpecNet SpecNetPolicy SpecRound SpecFloatUtility SpecFloatPolicy
  NetVars NetFactors NetQuery NetExtra NetCheck NetUtil NetPolicyThms RoundNet RoundQuery RoundCalls RoundCheck RoundPolicyAll Props_VE Props_Net Props_Policy Props_Float Props_FloatUtility.
Import ListNotations.
Open Scope string_scope.
Open Scope list_scope.
Open Scope Z_scope.

(** What the theorems below need to know about a network: it is a decision problem in which later
    decisions remember what earlier ones observed, and no number is out of range. *)
Record float_policy_setting (n : network f64) (b : string -> nat) (s e : nat) : Prop := {
  fps_float : float_network n;
  fps_decisions : decision_network (exact_net n);
  fps_memory : no_forgetting (exact_net n);
  fps_range : policies_in_range (exact_net n) b s e;
  fps_steps : Z.of_nat (policy_rounding_steps (exact_net n)) <= 2 ^ 50
}.

(** ** Example networks *)
(** Whether to test for oil and to drill, with decimal numbers that are not exact in binary. *)
Definition oil64 : network f64 := built64 (net_new "oil" "" oil_vars
  [cpt64 "oil" [] [(7, 1); (3, 1)]; cpt64 "report" ["oil"; "test"] [(1, 1); (9, 1); (0, 0); (0, 0); (0, 0); (1, 0); (8, 1); (2, 1); (0, 0); (0, 0); (0, 0); (1, 0)];
   mkNFactor "test" [] None [] 0; mkNFactor "drill" ["test"; "report"] None [] 0; cpt64 "cost" ["test"] [(-101, 1); (0, 0)];
   cpt64 "gain" ["oil"; "drill"] [(-703, 1); (0, 0); (1302, 1); (0, 0)]]).
(** Two options with the same expected utility: one for each of ten cases, or ten for one of them. *)
Definition tie64 : network f64 := built64 (net_new "tie" ""
  [node Chance "case" ["0"; "1"; "2"; "3"; "4"; "5"; "6"; "7"; "8"; "9"]; node Decision "bet" ["all"; "first"]; node Utility "win" ["w"]]
  [cpt64 "case" [] (repeat (1, 0) 10); mkNFactor "bet" [] None [] 0;
   cpt64 "win" ["case"; "bet"] ([(1, 0); (10, 0)] ++ flat_map (fun _ => [(1, 0); (0, 0)]) (seq 0 9))]).

Definition options_b (n : network xnum) (b : string -> nat) (s e : nat) : bool :=
  forallb (fun d => Z.of_nat (num_outcomes (n_vars n) d) <=? 2 ^ Z.of_nat (b d)) (decisions n) &&
  (list_sum (map (fun f => b (nf_for f)) (chance_factors n)) + list_sum (map b (decisions n)) + s + 3 * e <=? 1000)%nat.
Lemma policies_b_sound n b s e : NoDup (map nv_name (n_vars n)) -> range_b (with_policies n []) b s = true -> utilities_b (with_policies n []) b s e = true ->
  options_b n b s e = true -> policies_in_range n b s e.
Proof.
  intros Hn H1 H2 H3. unfold options_b in H3. apply andb_prop in H3. destruct H3 as [H3 H4]. rewrite forallb_forall in H3. constructor.
  - apply range_b_sound; auto.
  - apply utilities_b_sound; auto.
  - intros d Hd. apply Z.leb_le. auto.
  - apply Nat.leb_le. auto.
Qed.
Ltac float_policy_checked rank :=
  split; [apply float_b_sound; vm_compute; reflexivity | apply (decision_network_b_sound _ rank); vm_compute; reflexivity
    | apply no_forgetting_b_sound; vm_compute; reflexivity
    | apply policies_b_sound; [apply string_nodup_b; vm_compute; reflexivity | vm_compute; reflexivity | vm_compute; reflexivity | vm_compute; reflexivity]
    | vm_compute; intros H; discriminate H].
Example oil64_setting : float_policy_setting oil64 (fun _ => 20%nat) 5 10.
Proof. float_policy_checked (fun x => position x ["oil"; "test"; "report"; "drill"]). Qed.
Example umb64_policy_setting : float_policy_setting umb64 (fun _ => 20%nat) 4 10.
Proof. float_policy_checked (fun x => position x ["weather"; "forecast"; "umbrella"]). Qed.
Example tie64_setting : float_policy_setting tie64 (fun _ => 20%nat) 5 10.
Proof. float_policy_checked (fun x => position x ["case"; "bet"]). Qed.

(** ** C98: the policies computed with float64 numbers are nearly the best ones *)

(** For every order in which Go visits its maps, SolvePolicies(true) succeeds and returns a table
    for each decision. The entries of a table are the float64 numbers closest to an even choice
    among the recommended options. No combination of policies has an expected utility that
    exceeds that of the returned ones by more than the loss. *)
Theorem C98_nearly_best : forall n b s e sc u, float_policy_setting n b s e ->
  let N := exact_net n in
  utilities_at_most N u ->
  exists n' tables, net_solve_policies sc n true = (n', Ok tables) /\
    (forall d, In d (decisions N) -> exists f, sget_map tables d = Some f /\ returned_float_policy N d f) /\
    (forall d, ~ In d (decisions N) -> sget_map tables d = None) /\
    forall policies, (forall d, In d (decisions N) -> policy_for N d (policies d)) ->
      (expected_value N policies <= expected_value N (even_policy (n_vars N) tables) + policy_loss N u)%Qc.
Proof. intros n b s e sc u [H1 H2 H3 H4 H5] N Hu. exact (float_policies_ok n b s e H2 H3 H1 H4 H5 sc true u (or_introl eq_refl) Hu). Qed.

(** The same without [stepwise], for networks with at most one decision. *)
Theorem C98_one_decision : forall n b s e sc u stepwise, float_policy_setting n b s e ->
  let N := exact_net n in
  utilities_at_most N u -> (List.length (decisions N) <= 1)%nat ->
  exists n' tables, net_solve_policies sc n stepwise = (n', Ok tables) /\
    (forall d, In d (decisions N) -> exists f, sget_map tables d = Some f /\ returned_float_policy N d f) /\
    (forall d, ~ In d (decisions N) -> sget_map tables d = None) /\
    forall policies, (forall d, In d (decisions N) -> policy_for N d (policies d)) ->
      (expected_value N policies <= expected_value N (even_policy (n_vars N) tables) + policy_loss N u)%Qc.
Proof. intros n b s e sc u stepwise [H1 H2 H3 H4 H5] N Hu Hl. exact (float_policies_ok n b s e H2 H3 H1 H4 H5 sc stepwise u (or_intror Hl) Hu). Qed.

Lemma even_policy_for n tables d f : sget_map tables d = Some f -> returned_float_policy n d f -> policy_for n d (even_policy (n_vars n) tables d).
Proof. intros E H. destruct (fr_policy _ _ _ H) as [p1 p2 p3]. unfold even_policy. rewrite E. constructor; auto. Qed.

(** Two calls that visit Go's maps in different orders return policies with nearly the same
    expected utility. *)
Theorem C98_orders : forall n b s e sc1 sc2 u n1 t1 n2 t2, float_policy_setting n b s e ->
  let N := exact_net n in
  utilities_at_most N u -> net_solve_policies sc1 n true = (n1, Ok t1) -> net_solve_policies sc2 n true = (n2, Ok t2) ->
  (Qcabs (expected_value N (even_policy (n_vars N) t1) - expected_value N (even_policy (n_vars N) t2)) <= policy_loss N u)%Qc.
Proof.
  intros n b s e sc1 sc2 u n1 t1 n2 t2 H N Hu E1 E2.
  destruct (C98_nearly_best n b s e sc1 u H Hu) as (m1 & u1 & F1 & A1 & _ & B1). rewrite E1 in F1. injection F1 as <- <-.
  destruct (C98_nearly_best n b s e sc2 u H Hu) as (m2 & u2 & F2 & A2 & _ & B2). rewrite E2 in F2. injection F2 as <- <-. fold N in A1, A2, B1, B2.
  specialize (B1 (even_policy (n_vars N) t2)). specialize (B2 (even_policy (n_vars N) t1)).
  assert (C1 := B1 (fun d Hd => let '(ex_intro _ f (conj E R)) := A2 d Hd in even_policy_for N t2 d f E R)).
  assert (C2 := B2 (fun d Hd => let '(ex_intro _ f (conj E R)) := A1 d Hd in even_policy_for N t1 d f E R)).
  apply Qcabs_Qcle_condition. split; apply Qcle_minus_iff.
  - apply Qcle_minus_iff in C1. match goal with |- (_ <= ?x)%Qc => match type of C1 with (_ <= ?y)%Qc => replace x with y by ring end end. exact C1.
  - apply Qcle_minus_iff in C2. match goal with |- (_ <= ?x)%Qc => match type of C2 with (_ <= ?y)%Qc => replace x with y by ring end end. exact C2.
Qed.

(** ** The hypotheses hold for the example networks, and what is returned for them *)
Definition top (l : list Qc) : Qc := fold_right (fun x m => if qle x m then m else x) 0%Qc l.
Lemma top_ok l x : In x l -> (x <= top l)%Qc.
Proof.
  induction l as [|y l IH]; cbn [In top fold_right]; [tauto|]. fold (top l). destruct (qle y (top l)) eqn:E.
  - apply qle_sound in E. intros [<-|H]; auto.
  - assert (Hle : (top l <= y)%Qc). { apply Qcnot_lt_le. intros Hc. apply Qclt_le_weak in Hc. unfold qle in E. apply Qle_bool_iff in Hc. congruence. }
    intros [<-|H]; [apply Qcle_refl|]. eapply Qcle_trans; [apply IH; auto|auto].
Qed.
Definition top_utility (n : network xnum) : Qc :=
  qsum (map (fun f => Qcabs (net_weight n (nf_for f)) * top (map (fun w => Qcabs (entry (n_vars n) f w)) (table_states (n_vars n) f)))%Qc (utility_tables n)).
Lemma top_utility_ok n u : wf_network n -> qle (top_utility n) u = true -> utilities_at_most n u.
Proof.
  intros Hwf Hu x Hx. eapply Qcle_trans; [|apply qle_sound; apply Hu]. unfold utility_magnitude, top_utility. apply VEShadow.qsum_le. intros f Hf.
  rewrite !(Qcmult_comm (Qcabs (net_weight n (nf_for f)))). apply Qcmult_le_compat_r; [|apply Qcabs_nonneg].
  apply (in_table_cases (n_vars n) f (fun x => (Qcabs (entry (n_vars n) f x) <= top (map (fun w => Qcabs (entry (n_vars n) f w)) (table_states (n_vars n) f)))%Qc)); [apply Hwf| | |].
  - intros w w' E. rewrite (entry_ext _ _ _ _ E). auto.
  - intros w Hw. apply top_ok. apply in_map_iff. eauto.
  - intros y Hy. apply (utility_table_in n Hwf) in Hf. destruct Hf as (Hf & Ht & Hk & Hwt).
    destruct (proj2 (table_names n f Ht Hwt y Hy)) as (v & Ev). unfold num_outcomes. rewrite Ev. apply (var_named_in n Hwf) in Ev. destruct Ev as [Hv <-]. apply Hx; auto.
Qed.

Example oil64_utilities : utilities_at_most (exact_net oil64) (qc (141#1)) /\ decisions (exact_net oil64) = ["test"; "drill"].
Proof. split; [apply top_utility_ok; [apply (dn_wf _ (fps_decisions _ _ _ _ oil64_setting))|vm_compute; reflexivity]|vm_compute; reflexivity]. Qed.
Example umb64_utilities : utilities_at_most (exact_net umb64) (qc (100#1)) /\ decisions (exact_net umb64) = ["umbrella"].
Proof. split; [apply top_utility_ok; [apply (dn_wf _ (fps_decisions _ _ _ _ umb64_policy_setting))|vm_compute; reflexivity]|vm_compute; reflexivity]. Qed.
(** The loss is less than a billionth. *)
Example oil64_loss : qle (policy_loss (exact_net oil64) (qc (141#1))) (qc (1#1000000000)) = true.
Proof. vm_compute. reflexivity. Qed.

(** The tables as exact numbers. *)
Definition shown_tables64 (r : network f64 * gores (list (string * nfactor f64))) : option (list (string * list string * list shown)) :=
  match r with
  | (_, Ok t) => Some (map (fun df => (fst df, nf_given (snd df), map (fun x => xshow (f64_exact x)) (slice_of (nf_table (snd df))))) t)
  | _ => None
  end.
(** Test, and drill after report "closed". *)
Example C98_example : shown_tables64 (net_solve_policies sched_id oil64 true) =
  Some [("drill", ["test"; "report"], [SFin (1#1); SFin (0#1); SFin (0#1); SFin (1#1); SFin (1#2); SFin (1#2);
           SFin (1#2); SFin (1#2); SFin (1#2); SFin (1#2); SFin (0#1); SFin (1#1)]);
        ("test", [], [SFin (1#1); SFin (0#1)])].
Proof. vm_compute. reflexivity. Qed.
(** Rounding can break a tie: with exact numbers both options are as good, and the sum of ten
    times 0.1 is rounded to less than one. *)
Example C98_tie : shown_tables64 (net_solve_policies sched_id tie64 true) = Some [("bet", [], [SFin (0#1); SFin (1#1)])] /\
  shown_tables (net_solve_policies sched_id (exact_net tie64) true) = Some [("bet", [], [SFin (1#2); SFin (1#2)])].
Proof. split; vm_compute; reflexivity. Qed.

Print Assumptions C98_nearly_best.
Print Assumptions C98_one_decision.
Print Assumptions C98_orders.
