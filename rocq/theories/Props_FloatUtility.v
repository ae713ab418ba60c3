(** Property C96: accuracy of SolveUtility with float64 numbers (network.go, ve/).
    Specification vocabulary: SpecNet.v, SpecRound.v and SpecFloatUtility.v. *)
From Coq Require Import ZArith List Bool String Lia Permutation QArith Qcanon Qcabs.
From Coq Require Import Floats.SpecFloat.
From Verif Require Import Num GoBase VarModel GoFacts SpecFactor FactorFacts FactorAt XnumFacts VEModel SpecVE NetModel SpecNet SpecRound SpecFloatUtility
  NetVars NetFactors NetQuery NetExtra NetCheck NetUtil RoundNet RoundQuery RoundCalls RoundCheck Props_VE Props_Net Props_Float.
Import ListNotations.
Open Scope string_scope.
Open Scope list_scope.
Open Scope Z_scope.

(** What the theorems below need to know about a network: its structure is sound, no
    probability is negative, utilities have single outcomes and tables, and no number is out of
    range. *)
Record float_utility_setting (n : network f64) (b : string -> nat) (s e : nat) : Prop := {
  fus_setting : float_setting n b s;
  fus_plain : plain_utilities (exact_net n);
  fus_some : some_utility (exact_net n);
  fus_range : utilities_in_range (exact_net n) b s e;
  fus_steps : Z.of_nat (utility_steps (exact_net n)) <= 2 ^ 50
}.

(** ** Example networks *)
(** Two weighted utilities that nearly cancel. The decimal numbers are not exact in binary. *)
Definition tot64 : network f64 := built64 (net_new "total" "" tot_vars
  [cpt64 "weather" [] [(7, 1); (3, 1)]; cpt64 "fun" ["weather"] [(3, 1); (1, 1)]; cpt64 "cost" ["weather"] [(-1, 1); (-35, 2)];
   cpt64 "total" ["fun"; "cost"] [(1, 0); (24, 1)]]).
Ltac float_utility_checked :=
  split; [float_network_checked | apply plain_b_sound; vm_compute; reflexivity | apply some_utility_b_sound; vm_compute; reflexivity
    | apply utilities_b_sound; [apply string_nodup_b; vm_compute; reflexivity | vm_compute; reflexivity]
    | vm_compute; intros H; discriminate H].
Example tot64_setting : float_utility_setting tot64 (fun _ => 20%nat) 2 10.
Proof. float_utility_checked. Qed.
Example umb64_utility_setting : float_utility_setting umb64 (fun _ => 20%nat) 4 10.
Proof. float_utility_checked. Qed.

(** ** C96: the utilities returned by SolveUtility are close to the exact sums *)

(** For every order in which Go visits its maps, SolveUtility succeeds. Each entry of the
    factor differs from the exact sum of probability times weighted utility by at most the
    number of roundings times 2^-52, relative to the sum of the absolute values. *)
Theorem C96_total_utility : forall n b s e sc ig ev query, float_utility_setting n b s e ->
  valid_observations (exact_net n) ev -> valid_query (exact_net n) query ->
  let N := exact_net n in
  exists n' f, net_solve_utility sc n ev query "" ig = (n', Ok f) /\
    float_result N ev query [] (relevant N (ignored_by ig ev))
      (fun x => joint N (ignored_by ig ev) x * utility_of N x)%Qc
      (fun x => joint N (ignored_by ig ev) x * utility_magnitude N x)%Qc (utility_steps N) f.
Proof.
  intros n b s e sc ig ev query [[Hfl Hwf Hco Hnn Hr _] Hpl Hs Hu Hk] Hv Hq N. apply (float_utility n Hfl Hwf b s e Hr Hu Hnn Hk); auto.
Qed.

(** The same for one utility node with one table. *)
Theorem C96_one_utility : forall n b s e sc ig ev query u, float_utility_setting n b s e ->
  valid_observations (exact_net n) ev -> valid_query (exact_net n) query ->
  let N := exact_net n in
  plain_utility N u -> (List.length (filter (fun f => String.eqb (nf_for f) u) (utility_tables N)) <= 1)%nat ->
  exists n' f, net_solve_utility sc n ev query u ig = (n', Ok f) /\
    float_result N ev query [u] (relevant_to N (ignored_by ig ev) u)
      (fun x => joint N (ignored_by ig ev) x * one_utility N u x)%Qc
      (fun x => joint N (ignored_by ig ev) x * Qcabs (one_utility N u x))%Qc (utility_steps N) f.
Proof.
  intros n b s e sc ig ev query u [[Hfl Hwf Hco Hnn Hr _] Hpl Hs Hu Hk] Hv Hq N Hp H1. apply (float_one_utility n Hfl Hwf b s e Hr Hu Hnn Hk); auto.
Qed.

(** A solved network with nothing asked for: SolveUtility returns a single number, which is
    close to the sum of probability times utility over all states that agree with the
    evidence. Without evidence that is the expected utility of the policies. *)
Theorem C96_expected_utility : forall n b s e sc ig ev, float_utility_setting n b s e ->
  let N := exact_net n in
  valid_observations N ev -> (forall d, ~ open_decision N d) ->
  (forall v, In v (n_vars n) -> nv_type v <> Utility -> ~ In (nv_name v) (map fst ev) -> relevant N (ignored_by ig ev) (nv_name v)) ->
  exists n' f x r, net_solve_utility sc n ev [] "" ig = (n', Ok f) /\ f_vars f = [] /\ f_data f = [x] /\ f64_exact x = Fin r /\
    (Qcabs (r - sum_over N (fun y => joint N (ignored_by ig ev) y * utility_of N y) (agrees (n_vars n) ev)) <=
     error_of (utility_steps N) * sum_over N (fun y => joint N (ignored_by ig ev) y * utility_magnitude N y) (agrees (n_vars n) ev))%Qc.
Proof.
  intros n b s e sc ig ev Hset N Hv Hno Hrel.
  destruct (C96_total_utility n b s e sc ig ev [] Hset Hv) as (n' & f & E & [Fwf _ Fn (c & Hc & Hone & Hval)]). { intros q []. }
  fold N in Fn, Hval, Hone. rewrite (Hone Hrel) in Hval. clear Hone Hc c.
  assert (En : names_of N f = []).
  { destruct (names_of N f) as [|x l] eqn:En; auto. exfalso. destruct (Fn x) as (_ & _ & t & _ & [[_ []]|[_ [[]|[H|(g & _ & H & _)]]]]); [simpl; auto| |]; eapply Hno; eauto. }
  assert (Ef : f_vars f = []). { unfold names_of, factor_names in En. cbn [exact_factor f_vars] in En. apply map_eq_nil in En. auto. }
  assert (Hp : proper_state N (fun _ => 0%nat)).
  { intros v Hin. pose proof (wn_outcomes N (fs_wf _ _ _ (fus_setting _ _ _ _ Hset)) v Hin) as Ho. unfold zlen in Ho. lia. }
  destruct (Hval _ Hp) as (x & r & Eg & Er & Hle).
  destruct Fwf as [_ Hlen]. rewrite Ef in Hlen. destruct (f_data f) as [|y [|z l]] eqn:Ed; try discriminate Hlen.
  assert (y = x). { unfold get_at, f_get, f_index in Eg. rewrite Ef, Ed in Eg. vm_compute in Eg. injection Eg as Eg. exact Eg. } subst y.
  exists n', f, x, r. split; [auto|]. split; [auto|]. split; [auto|]. split; [auto|].
  rewrite En in Hle. replace (1 * r)%Qc with r in Hle by ring.
  assert (Es : forall F, sum_over N F (fun s' => agrees (n_vars N) ev s' && same_on [] (fun _ => 0%nat) s') = sum_over N F (agrees (n_vars n) ev)).
  { intros F. unfold sum_over. f_equal. f_equal. apply filter_ext. intros a. simpl. apply andb_true_r. }
  rewrite !Es in Hle. exact Hle.
Qed.

(** Two calls that visit Go's maps in different orders agree up to twice that error. *)
Theorem C96_orders : forall n b s e sc1 sc2 ig ev n1 f1 n2 f2, float_utility_setting n b s e ->
  let N := exact_net n in
  valid_observations N ev -> (forall d, ~ open_decision N d) ->
  (forall v, In v (n_vars n) -> nv_type v <> Utility -> ~ In (nv_name v) (map fst ev) -> relevant N (ignored_by ig ev) (nv_name v)) ->
  net_solve_utility sc1 n ev [] "" ig = (n1, Ok f1) -> net_solve_utility sc2 n ev [] "" ig = (n2, Ok f2) ->
  exists x1 x2 r1 r2, f_data f1 = [x1] /\ f_data f2 = [x2] /\ f64_exact x1 = Fin r1 /\ f64_exact x2 = Fin r2 /\
    (Qcabs (r1 - r2) <= Q2Qc 2 * error_of (utility_steps N) *
      sum_over N (fun y => joint N (ignored_by ig ev) y * utility_magnitude N y) (agrees (n_vars n) ev))%Qc.
Proof.
  intros n b s e sc1 sc2 ig ev n1 f1 n2 f2 Hset N Hv Hno Hrel E1 E2.
  destruct (C96_expected_utility n b s e sc1 ig ev Hset Hv Hno Hrel) as (m1 & g1 & x1 & r1 & G1 & _ & D1 & X1 & L1).
  destruct (C96_expected_utility n b s e sc2 ig ev Hset Hv Hno Hrel) as (m2 & g2 & x2 & r2 & G2 & _ & D2 & X2 & L2).
  assert (g1 = f1) by congruence. assert (g2 = f2) by congruence. subst g1 g2.
  exists x1, x2, r1, r2. do 4 (split; [auto|]). fold N in L1, L2.
  match type of L1 with (Qcabs (_ - ?q) <= _)%Qc => set (q0 := q) in *; replace (r1 - r2)%Qc with ((r1 - q0) + - (r2 - q0))%Qc by ring end.
  eapply Qcle_trans; [apply Qcabs_triangle|]. rewrite Qcabs_opp.
  match goal with |- (_ <= Q2Qc 2 * ?x * ?y)%Qc => replace (Q2Qc 2 * x * y)%Qc with (x * y + x * y)%Qc end.
  - apply Qcplus_le_compat; auto.
  - assert (E : Q2Qc 2 = (1 + 1)%Qc) by (apply Qc_is_canon; vm_compute; reflexivity). rewrite E. ring.
Qed.

(** The computed number is not the exact one: rounding matters. *)
Definition differs (f : gores (factor f64)) (q : Qc) : bool :=
  match f with Ok f => match map f64_exact (f_data f) with [Fin r] => negb (qeq r q) | _ => false end | _ => false end.
Example C96_rounded : differs (snd (net_solve_utility sched_id tot64 [] [] "" false))
  (sum_over (exact_net tot64) (fun y => joint (exact_net tot64) (ignored_by false []) y * utility_of (exact_net tot64) y)%Qc (agrees (n_vars tot64) [])) = true.
Proof. vm_compute. reflexivity. Qed.
(** The hypotheses hold for both networks. *)
Lemma no_open_decision n : forallb (fun v => negb (is_kind Decision v) || has_key (n_policies n) (nv_name v)) (n_vars n) = true ->
  forall d, ~ open_decision n d.
Proof.
  intros H d [H1 H2]. unfold kind in H1. destruct (var_named (n_vars n) d) as [v|] eqn:Ev; [|discriminate H1]. injection H1 as H1.
  unfold var_named in Ev. pose proof (find_some _ _ Ev) as [Hin Hn]. apply String.eqb_eq in Hn. rewrite forallb_forall in H. specialize (H v Hin).
  unfold is_kind in H. rewrite H1, Hn, H2 in H. discriminate H.
Qed.
Lemma all_relevant n ign ev : forallb (fun v => is_kind Utility v || existsb (fun f => existsb (String.eqb (nv_name v)) (nf_given f ++ [nf_for f])) (chance_factors n)
    || existsb (fun f => existsb (String.eqb (nv_name v)) (nf_given f ++ [nf_for f])) (utility_tables n)) (n_vars n) = true ->
  forall v, In v (n_vars n) -> nv_type v <> Utility -> ~ In (nv_name v) (map fst (ev : list (string * string))) -> relevant n ign (nv_name v).
Proof.
  intros H v Hin Ht _. rewrite forallb_forall in H. specialize (H v Hin). rewrite !orb_true_iff in H. destruct H as [[H|H]|H].
  - exfalso. apply Ht. unfold is_kind in H. destruct (nv_type v); auto; discriminate H.
  - left. left. apply existsb_exists in H. destruct H as (f & Hf & H). exists f. split; auto. apply exists_eqb in H. auto.
  - right. apply existsb_exists in H. destruct H as (f & Hf & H). exists f. split; auto. apply exists_eqb in H. auto.
Qed.
Example C96_hypotheses : valid_observations (exact_net umb64) [("forecast", "sunny")] /\ (forall d, ~ open_decision (exact_net umb64) d) /\
  (forall v, In v (n_vars (exact_net umb64)) -> nv_type v <> Utility -> ~ In (nv_name v) (map fst [("forecast", "sunny")]) ->
     relevant (exact_net umb64) (ignored_by false [("forecast", "sunny")]) (nv_name v)) /\
  valid_query (exact_net umb64) ["weather"] /\ plain_utility (exact_net tot64) "cost" /\
  (List.length (filter (fun f => String.eqb (nf_for f) "cost") (utility_tables (exact_net tot64))) <= 1)%nat.
Proof.
  split; [apply observations_b_sound; vm_compute; reflexivity|]. split; [apply no_open_decision; vm_compute; reflexivity|].
  split; [intros v H1 H2 H3; refine (all_relevant (exact_net umb64) _ [("forecast", "sunny")] _ v H1 H2 H3); vm_compute; reflexivity|]. split.
  { intros q [<-|[]]. eexists. split; [vm_compute; reflexivity|discriminate]. }
  split; [eexists; split; [vm_compute; reflexivity|]; repeat split; vm_compute; reflexivity|]. vm_compute. lia.
Qed.

Print Assumptions C96_total_utility.
Print Assumptions C96_one_utility.
Print Assumptions C96_expected_utility.
Print Assumptions C96_orders.
