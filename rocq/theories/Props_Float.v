(** Properties C83-C84: accuracy of SolveQuery with float64 numbers (network.go, ve/).
    Specification vocabulary: SpecNet.v and SpecRound.v. *)
From Coq Require Import ZArith List Bool String Lia Permutation QArith Qcanon.
From Coq Require Import Floats.SpecFloat.
From Verif Require Import Num GoBase VarModel GoFacts SpecFactor XnumFacts VEModel SpecVE NetModel SpecNet SpecRound
  NetVars NetFactors NetQuery NetExtra NetCheck RoundNet RoundQuery RoundCheck Props_VE Props_Net.
Import ListNotations.
Open Scope string_scope.
Open Scope list_scope.
Open Scope Z_scope.

(** What every theorem below needs to know about a network of float64 numbers: its structure is
    sound, no probability is negative, and no number is out of range. *)
Record float_setting (n : network f64) (b : string -> nat) (s : nat) : Prop := {
  fs_float : float_network n;
  fs_wf : wf_network (exact_net n);
  fs_complete : complete (exact_net n);
  fs_nonneg : nonnegative (exact_net n);
  fs_range : in_float_range (exact_net n) b s;
  fs_steps : Z.of_nat (rounding_steps (exact_net n)) <= 2 ^ 50
}.

(** The bound on the number of roundings for a query answered with the joint table [f]. *)
Definition query_steps (n : network f64) (f : factor f64) : nat :=
  (2 * rounding_steps (exact_net n) + 3 * List.length (f_data f) + 1)%nat.

(** ** Example networks *)
Definition built64 (r : gores (network f64)) : network f64 := match r with Ok n => n | _ => mkNet "" "" [] [] [] None [] (-1) end.
Definition cpt64 (name : string) (given : list string) (table : list (Z * Z)) : nfactor f64 :=
  mkNFactor name given (Some (map (fun '(m, k) => f64_dec m k) table)) [] 0.
(** Rain, sprinkler, wet grass. The decimal numbers are not exact in binary. *)
Definition spr64 : network f64 := built64 (net_new "sprinkler" "" spr_vars
  [cpt64 "rain" [] [(2, 1); (8, 1)]; cpt64 "sprinkler" ["rain"] [(1, 0); (99, 0); (40, 0); (60, 0)];
   cpt64 "grass" ["rain"; "sprinkler"] [(99, 2); (1, 2); (8, 1); (2, 1); (9, 1); (1, 1); (0, 0); (1, 0)]]).
(** The umbrella network with its decision solved in float64 numbers. *)
Definition umb64 : network f64 := fst (net_solve_policies sched_id (built64 (net_new "umbrella" "" umb_vars
  [cpt64 "weather" [] [(7, 1); (3, 1)]; cpt64 "forecast" ["weather"] [(7, 1); (2, 1); (1, 1); (15, 2); (25, 2); (6, 1)];
   mkNFactor "umbrella" ["forecast"] None [] 0; cpt64 "mood" ["weather"; "umbrella"] [(20, 0); (100, 0); (70, 0); (0, 0)]])) true).

Ltac float_network_checked :=
  split; [apply float_b_sound; vm_compute; reflexivity | apply network_b_sound; vm_compute; reflexivity
    | apply complete_b_sound; vm_compute; reflexivity | apply nonnegative_b_sound; vm_compute; reflexivity
    | apply range_b_sound; [apply string_nodup_b; vm_compute; reflexivity | vm_compute; reflexivity]
    | vm_compute; intros H; discriminate H].
Example spr64_setting : float_setting spr64 (fun _ => 20%nat) 3.
Proof. float_network_checked. Qed.
Example umb64_setting : float_setting umb64 (fun _ => 20%nat) 4.
Proof. float_network_checked. Qed.
Example umb64_policy : List.length (n_policies umb64) = 1%nat.
Proof. vm_compute. reflexivity. Qed.

(** ** C83: the probabilities returned by SolveQuery are close to the exact posterior *)

(** For every order in which Go visits its maps, the query succeeds and each probability
    differs from the exact conditional probability only by a relative error of at most the
    number of roundings times 2^-52. The table of the result must have at most 2^49 entries. *)
Theorem C83_accurate : forall n b s sc ig ev query, float_setting n b s -> valid_observations (exact_net n) ev ->
  (forall q, In q query -> askable (exact_net n) (ignored_by ig ev) ev q) ->
  mass (exact_net n) (ignored_by ig ev) (agrees (n_vars n) ev) <> 0%Qc ->
  exists n' res f, net_solve_query sc n ev query ig = (n', Ok (res, f)) /\
    (forall q, ~ In q query -> sget_map res q = None) /\
    (zlen (f_data f) <= 2 ^ 49 -> forall q, In q query -> exists ps, sget_map res q = Some ps /\
       List.length ps = num_outcomes (n_vars n) q /\
       forall i p, nth_error ps i = Some p ->
         close_to (query_steps n f) p (posterior (exact_net n) (ignored_by ig ev) ev q i)).
Proof.
  intros n b s sc ig ev query [H1 H2 H3 H4 H5 H6] Hv Hask Hm.
  destruct (float_query n H1 H2 b s H5 H4 H6 sc ig ev query H3 Hv Hask) as (n' & res & f & E & Hres & Hno).
  exists n', res, f. split; auto. split; auto. intros Hl q Hq. destruct (Hres Hl q Hq) as (ps & Ep & Hlen & Hd & _).
  exists ps. split; [exact Ep|]. split; [exact Hlen|]. intros i p Hp. exact (Hd Hm i p Hp).
Qed.

(** With impossible evidence every probability is NaN, whatever the rounding. *)
Theorem C83_impossible_evidence : forall n b s sc ig ev query, float_setting n b s -> valid_observations (exact_net n) ev ->
  (forall q, In q query -> askable (exact_net n) (ignored_by ig ev) ev q) ->
  mass (exact_net n) (ignored_by ig ev) (agrees (n_vars n) ev) = 0%Qc ->
  exists n' res f, net_solve_query sc n ev query ig = (n', Ok (res, f)) /\
    (zlen (f_data f) <= 2 ^ 49 -> forall q, In q query ->
       sget_map res q = Some (repeat S754_nan (num_outcomes (n_vars n) q))).
Proof.
  intros n b s sc ig ev query [H1 H2 H3 H4 H5 H6] Hv Hask Hm.
  destruct (float_query n H1 H2 b s H5 H4 H6 sc ig ev query H3 Hv Hask) as (n' & res & f & E & Hres & Hno).
  exists n', res, f. split; auto. intros Hl q Hq. destruct (Hres Hl q Hq) as (ps & Ep & _ & _ & Hd).
  rewrite Ep, (Hd Hm). auto.
Qed.

Lemma qsum_cons x l : qsum (x :: l) = (x + qsum l)%Qc.
Proof. reflexivity. Qed.
Lemma exact_list k ps (g : nat -> Qc) i0 : (forall i p, nth_error ps i = Some p -> close_to k p (g (i0 + i)%nat)) ->
  exists rs, map f64_exact ps = map Fin rs /\
    (qsum (map g (seq i0 (List.length ps))) - qsum (map g (seq i0 (List.length ps))) * error_of k <= qsum rs)%Qc /\
    (qsum rs <= qsum (map g (seq i0 (List.length ps))) + qsum (map g (seq i0 (List.length ps))) * error_of k)%Qc /\
    forall r, In r rs -> exists i, (g i - g i * error_of k <= r)%Qc.
Proof.
  revert i0. induction ps as [|p ps IH]; intros i0 H.
  - exists []. cbn. split; auto. rewrite Qcmult_0_l. repeat split; try (intros r []); apply Qcle_refl.
  - destruct (H 0%nat p eq_refl) as (r & Er & Hr1 & Hr2). rewrite Nat.add_0_r in Hr1, Hr2.
    destruct (IH (S i0)) as (rs & Ers & Hs1 & Hs2 & Hs3).
    { intros i p' Hp. replace (S i0 + i)%nat with (i0 + S i)%nat by lia. apply (H (S i) p' Hp). }
    exists (r :: rs). cbn [map List.length seq]. rewrite Er, Ers. split; auto. rewrite !qsum_cons.
    set (T := qsum (map g (seq (S i0) (List.length ps)))) in *. set (e := error_of k) in *. split; [|split].
    + replace (g i0 + T - (g i0 + T) * e)%Qc with ((g i0 - g i0 * e) + (T - T * e))%Qc by ring. apply Qcplus_le_compat; auto.
    + replace (g i0 + T + (g i0 + T) * e)%Qc with ((g i0 + g i0 * e) + (T + T * e))%Qc by ring. apply Qcplus_le_compat; auto.
    + intros r' [<-|Hr]; eauto.
Qed.

(** The probabilities are finite, not negative, and add up to one up to the same error. *)
Theorem C83_normalized : forall n b s sc ig ev query n' res f q ps, float_setting n b s -> valid_observations (exact_net n) ev ->
  (forall q, In q query -> askable (exact_net n) (ignored_by ig ev) ev q) ->
  mass (exact_net n) (ignored_by ig ev) (agrees (n_vars n) ev) <> 0%Qc ->
  net_solve_query sc n ev query ig = (n', Ok (res, f)) -> zlen (f_data f) <= 2 ^ 49 -> In q query -> sget_map res q = Some ps ->
  exists rs, map f64_exact ps = map Fin rs /\ (forall r, In r rs -> 0 <= r)%Qc /\
    (1 - error_of (query_steps n f) <= qsum rs)%Qc /\ (qsum rs <= 1 + error_of (query_steps n f))%Qc.
Proof.
  intros n b s sc ig ev query n' res f q ps Hset Hv Hask Hm E Hl Hq Hps.
  destruct (C83_accurate n b s sc ig ev query Hset Hv Hask Hm) as (n2 & res2 & f2 & E2 & _ & H). rewrite E in E2. injection E2 as <- <- <-.
  destruct (H Hl q Hq) as (ps2 & Eps & Hlen & Hc). rewrite Hps in Eps. injection Eps as <-.
  destruct (exact_list (query_steps n f) ps (posterior (exact_net n) (ignored_by ig ev) ev q) 0 Hc) as (rs & Ers & H1 & H2 & H3).
  rewrite Hlen in H1, H2. change (num_outcomes (n_vars n) q) with (num_outcomes (n_vars (exact_net n)) q) in H1, H2.
  rewrite (posterior_sums (exact_net n) (fs_wf _ _ _ Hset) _ _ _ Hv (Hask q Hq) Hm) in H1, H2. rewrite Qcmult_1_l in H1, H2.
  exists rs. split; auto. split; auto. intros r Hr. destruct (H3 r Hr) as (i & Hi).
  eapply Qcle_trans; [|exact Hi]. set (p := posterior _ _ _ _ _). assert (Hp : (0 <= p)%Qc) by (apply posterior_nonneg; [apply (fs_nonneg _ _ _ Hset)|exact Hm]).
  assert (He : (error_of (query_steps n f) <= 1)%Qc).
  { apply error_le_one. unfold query_steps. unfold zlen in Hl. pose proof (fs_steps _ _ _ Hset). lia. }
  replace (p - p * error_of (query_steps n f))%Qc with (p * (1 - error_of (query_steps n f)))%Qc by ring.
  rewrite <- (Qcmult_0_l (1 - error_of (query_steps n f))). apply Qcmult_le_compat_r; auto.
  replace 0%Qc with (1 - 1)%Qc by ring. unfold Qcminus. apply Qcplus_le_compat; [apply Qcle_refl|]. apply Qcopp_le_compat. auto.
Qed.

(** What the bound means for the sprinkler network: the answer has an error below 10^-13, and the
    numbers that come out are not exact. *)
Example C83_hypotheses : valid_observations (exact_net spr64) [("grass", "wet")] /\
  (forall q, In q ["rain"; "sprinkler"] -> askable (exact_net spr64) (ignored_by false [("grass", "wet")]) [("grass", "wet")] q) /\
  mass (exact_net spr64) (ignored_by false [("grass", "wet")]) (agrees (n_vars spr64) [("grass", "wet")]) <> 0%Qc.
Proof.
  split; [apply observations_b_sound; vm_compute; reflexivity|]. split; [|apply qeq_false; vm_compute; reflexivity].
  intros q [<-|[<-|[]]]; apply askable_b_sound; vm_compute; reflexivity.
Qed.
Definition float_answers (r : network f64 * gores (list (string * list f64) * factor f64)) : option (list (string * list f64) * nat) :=
  match snd r with Ok (res, f) => Some (res, List.length (f_data f)) | _ => None end.
Example C83_example :
  float_answers (net_solve_query sched_id spr64 [("grass", "wet")] ["rain"; "sprinkler"] false) =
    Some ([("rain", [S754_finite false 6443528330770151 (-54); S754_finite false 5785435089355917 (-53)]);
           ("sprinkler", [S754_finite false 5825209955595238 (-53); S754_finite false 6363978598291507 (-54)])], 4%nat) /\
  rounding_steps (exact_net spr64) = 21%nat /\ qle (error_of (2 * 21 + 3 * 4 + 1)) (Q2Qc (1 # 10 ^ 13)) = true.
Proof. repeat match goal with |- _ /\ _ => split end; vm_compute; reflexivity. Qed.
Example C83_decision_hypotheses : valid_observations (exact_net umb64) [("weather", "rainy")] /\
  (forall q, In q ["umbrella"] -> askable (exact_net umb64) (ignored_by false [("weather", "rainy")]) [("weather", "rainy")] q) /\
  mass (exact_net umb64) (ignored_by false [("weather", "rainy")]) (agrees (n_vars umb64) [("weather", "rainy")]) <> 0%Qc.
Proof.
  split; [apply observations_b_sound; vm_compute; reflexivity|]. split; [|apply qeq_false; vm_compute; reflexivity].
  intros q [<-|[]]. apply policy_askable_b_sound. vm_compute. reflexivity.
Qed.
(** Wet grass without rain and sprinkler, asking for the shoes. *)
Definition spr364 : network f64 := built64 (net_new "" "" spr3_vars
  [cpt64 "rain" [] [(2, 1); (8, 1)]; cpt64 "sprinkler" ["rain"] [(1, 0); (99, 0); (40, 0); (60, 0)];
   cpt64 "grass" ["rain"; "sprinkler"] [(99, 2); (1, 2); (8, 1); (2, 1); (9, 1); (1, 1); (0, 0); (1, 0)];
   cpt64 "shoes" ["grass"] [(5, 1); (5, 1); (9, 1); (1, 1)]]).
Example C83_impossible_hypotheses : float_setting spr364 (fun _ => 20%nat) 4 /\ valid_observations (exact_net spr364) impossible /\
  askable (exact_net spr364) (ignored_by false impossible) impossible "shoes" /\
  mass (exact_net spr364) (ignored_by false impossible) (agrees (n_vars spr364) impossible) = 0%Qc.
Proof.
  split; [float_network_checked|]. split; [apply observations_b_sound; vm_compute; reflexivity|].
  split; [apply askable_b_sound; vm_compute; reflexivity|]. apply qeq_spec. vm_compute. reflexivity.
Qed.

(** ** C84: repeating a query gives the same probabilities up to rounding *)

(** Go visits maps in a different order in every run, and float64 results then differ (see C21).
    Any two runs differ at most by the sum of their two error bounds. *)
Theorem C84_orders : forall n b s sc1 sc2 ig ev query n1 res1 f1 n2 res2 f2 q ps1 ps2 i p1 p2, float_setting n b s ->
  valid_observations (exact_net n) ev -> (forall q, In q query -> askable (exact_net n) (ignored_by ig ev) ev q) ->
  mass (exact_net n) (ignored_by ig ev) (agrees (n_vars n) ev) <> 0%Qc ->
  net_solve_query sc1 n ev query ig = (n1, Ok (res1, f1)) -> zlen (f_data f1) <= 2 ^ 49 ->
  net_solve_query sc2 n ev query ig = (n2, Ok (res2, f2)) -> zlen (f_data f2) <= 2 ^ 49 ->
  In q query -> sget_map res1 q = Some ps1 -> sget_map res2 q = Some ps2 -> nth_error ps1 i = Some p1 -> nth_error ps2 i = Some p2 ->
  exists r1 r2, f64_exact p1 = Fin r1 /\ f64_exact p2 = Fin r2 /\
    (r1 - r2 <= error_of (query_steps n f1) + error_of (query_steps n f2))%Qc /\
    (r2 - r1 <= error_of (query_steps n f1) + error_of (query_steps n f2))%Qc.
Proof.
  intros n b s sc1 sc2 ig ev query n1 res1 f1 n2 res2 f2 q ps1 ps2 i p1 p2 Hset Hv Hask Hm E1 L1 E2 L2 Hq G1 G2 N1 N2.
  assert (A : forall sc n' res f ps p, net_solve_query sc n ev query ig = (n', Ok (res, f)) -> zlen (f_data f) <= 2 ^ 49 ->
    sget_map res q = Some ps -> nth_error ps i = Some p ->
    close_to (query_steps n f) p (posterior (exact_net n) (ignored_by ig ev) ev q i) /\ (i < num_outcomes (n_vars n) q)%nat).
  { intros sc n' res f ps p E L G H.
    destruct (C83_accurate n b s sc ig ev query Hset Hv Hask Hm) as (m & r & g & E' & _ & Hc). rewrite E in E'. injection E' as <- <- <-.
    destruct (Hc L q Hq) as (ps' & G' & Hl & Hp). rewrite G in G'. injection G' as <-. split; [auto|].
    rewrite <- Hl. apply nth_error_Some. rewrite H. discriminate. }
  destruct (A _ _ _ _ _ _ E1 L1 G1 N1) as [(r1 & F1 & B1 & C1) Hi]. destruct (A _ _ _ _ _ _ E2 L2 G2 N2) as [(r2 & F2 & B2 & C2) _].
  exists r1, r2. split; auto. split; auto.
  set (p := posterior (exact_net n) (ignored_by ig ev) ev q i) in *.
  assert (Hp : (0 <= p)%Qc) by (apply posterior_nonneg; [apply (fs_nonneg _ _ _ Hset)|exact Hm]).
  assert (Hp1 : (p <= 1)%Qc).
  { rewrite <- (posterior_sums (exact_net n) (fs_wf _ _ _ Hset) _ _ _ Hv (Hask q Hq) Hm). apply qsum_ge_member.
    - intros y Hy. apply in_map_iff in Hy. destruct Hy as (k & <- & _). apply posterior_nonneg; [apply (fs_nonneg _ _ _ Hset)|exact Hm].
    - apply in_map. apply in_seq. split; [lia|]. exact Hi. }
  assert (He : forall k, (p * error_of k <= error_of k)%Qc).
  { intros k. rewrite <- (Qcmult_1_l (error_of k)) at 2. apply Qcmult_le_compat_r; auto. apply error_nonneg. }
  split; [apply two_close with p; auto|]. rewrite (Qcplus_comm (error_of (query_steps n f1))). apply two_close with p; auto.
Qed.

(** The two map orders of the examples give different float64 numbers for the same query. *)
Example C84_example :
  float_answers (net_solve_query sched_rev spr64 [("grass", "wet")] ["rain"; "sprinkler"] false) =
    Some ([("rain", [S754_finite false 6443528330770152 (-54); S754_finite false 5785435089355916 (-53)]);
           ("sprinkler", [S754_finite false 5825209955595238 (-53); S754_finite false 6363978598291508 (-54)])], 4%nat).
Proof. vm_compute. reflexivity. Qed.
Print Assumptions C83_accurate.
Print Assumptions C83_impossible_evidence.
Print Assumptions C83_normalized.
Print Assumptions C84_orders.
