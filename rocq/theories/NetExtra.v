(** Consequences for the API: distributions, interventions, conditional expected utility,
    total utility nodes, large outcome counts, rows of tables. *)
From Coq Require Import ZArith List Bool String Lia Permutation QArith Qcanon.
From Verif Require Import Num GoBase VarModel GoFacts Tuples SpecFactor FactorFacts FactorAt XnumFacts ExactFactor FactorThms
  VEModel SpecVE VEWorlds VEFacts VESolve VEThms NetModel SpecNet NetVars NetFactors NetVE NetSums NetQuery NetUtil NetHistory NetMass NetCor.
Import ListNotations.
Open Scope string_scope.
Open Scope list_scope.
Open Scope Z_scope.

Lemma Qcle_div_nonneg a b : (0 <= a)%Qc -> (0 <= b)%Qc -> b <> 0%Qc -> (0 <= a / b)%Qc.
Proof.
  intros Ha Hb Hn. assert (Hlt : (0 < this b)%Q).
  { apply Qle_lt_or_eq in Hb. destruct Hb as [Hb|Hb]; auto. exfalso. apply Hn. apply Qc_is_canon. symmetry. exact Hb. }
  unfold Qcle, Qcdiv, Qcmult, Qcinv, Q2Qc. cbn [this]. rewrite !Qred_correct. change (this 0%Qc) with 0%Q in *.
  apply Qle_shift_div_l; auto. rewrite Qmult_0_l. exact Ha.
Qed.

Section NX.
Variable n : network xnum.
Hypothesis Hwf : wf_network n.
Notation vars := (n_vars n).
Notation vv := (vv n).
Notation known := (known n).
Notation V := (net_vars n).

Lemma askable_known' ign ev q : askable n ign ev q -> known q /\ v_type (vv q) <> Utility.
Proof. apply (askable_known n Hwf). Qed.

Theorem posterior_sums ign ev q : valid_observations n ev -> askable n ign ev q -> mass n ign (agrees vars ev) <> 0%Qc ->
  qsum (map (posterior n ign ev q) (seq 0 (num_outcomes vars q))) = 1%Qc.
Proof.
  intros Hv Ha Hm. destruct (askable_known' _ _ _ Ha) as [Hk Ht]. destruct Ha as (_ & _ & Hne).
  unfold posterior. unfold Qcdiv. rewrite qsum_scale_r, <- (proj1 (vv_outcomes n Hwf q Hk)).
  rewrite <- (mass_split n Hwf ign ev q); auto. apply Qcmult_inv_r. auto.
Qed.

Theorem posterior_nonneg ign ev q k : nonnegative n -> mass n ign (agrees vars ev) <> 0%Qc -> (0 <= posterior n ign ev q k)%Qc.
Proof.
  intros Hnn Hm. unfold posterior. set (a := mass n ign (fun s => _ && _)). 
  assert (Ha : (0 <= a)%Qc) by (apply (mass_nonneg n); auto).
  assert (Hb : (0 <= mass n ign (agrees vars ev))%Qc) by (apply (mass_nonneg n); auto).
  set (b := mass n ign (agrees vars ev)) in *. apply Qcle_div_nonneg; auto.
Qed.

(** ** Leaving out policies *)
Definition without_policies (ev : list (string * string)) : network xnum :=
  with_policies n (filter (fun dp => negb (has_key ev (fst dp))) (n_policies n)).

Lemma without_joint ev s : joint n (ignored_by true ev) s = joint (without_policies ev) (fun _ => false) s.
Proof.
  unfold joint, without_policies, ignored_by. cbn [n_vars n_policies with_policies]. f_equal. f_equal.
  assert (E : forall l : list (string * factor xnum), filter (fun dp => negb false) l = l) by (intros l; induction l as [|x l IH]; simpl; [auto|f_equal; exact IH]).
  change (fun dp : string * factor xnum => negb ((fun _ : string => false) (fst dp))) with (fun dp : string * factor xnum => negb false).
  rewrite E. reflexivity.
Qed.

Lemma without_mass ev event : mass n (ignored_by true ev) event = mass (without_policies ev) (fun _ => false) event.
Proof. unfold mass, worlds_of. cbn [n_vars without_policies with_policies]. f_equal. apply map_ext. intros s. apply without_joint. Qed.

(** ** The calls in sequence *)
Lemma query_then sc sc' ev query ig n1 res f u uv (g : bool) : net_solve_query sc n ev query ig = (n1, Ok (res, f)) ->
  (exists m, net_solve sc n ev query false "" ig = (m, Ok f)) /\
  (forall m r, net_solve sc' n ev query u uv g = (m, Ok r) -> net_solve sc' n1 ev query u uv g = (m, Ok r)).
Proof.
  intros E. split.
  - unfold net_solve_query in E. destruct (net_solve sc n ev query false "" ig) as [m [h|e|p]]; try discriminate.
    destruct (query_marginals m h query) as [[m' r]|e|p]; inversion E; subst. eauto.
  - intros m r. rewrite net_solve_query_core in E. injection E as E1 _. destruct (put_shape n (fst (query_core sc (to_ve sc 0 n (if ig then ev else [])) ev query))) as (a & b & Hp).
    rewrite Hp in E1. subst n1. rewrite !net_solve_core, to_ve_solver. cbv zeta. 
    set (c := solve_core sc' (to_ve sc' 0 n (if g then ev else [])) ev query u uv).
    intros E. injection E as Em Er. rewrite Er. f_equal. rewrite <- Em.
    unfold c, solve_core in *. destruct (to_ve sc' 0 n (if g then ev else [])) as [[s nm]| |]; cbn [fst snd] in *; try discriminate.
    destruct (solve_names sc' s nm ev query u uv) as [[s' f']| |]; cbn [fst snd put] in *; try discriminate; auto.
Qed.

Definition asked_utility (u : string) : nstate -> Qc := if String.eqb u "" then utility_of n else one_utility n u.

Theorem normalized_utility sc1 sc2 ig ev query u : complete n -> valid_observations n ev ->
  (forall q, In q query -> askable n (ignored_by ig ev) ev q) ->
  (u = "" /\ plain_utilities n /\ some_utility n \/ plain_utility n u) ->
  exists n1 res fp n2 fu n3 g, net_solve_query sc1 n ev query ig = (n1, Ok (res, fp)) /\
    net_solve_utility sc2 n1 ev query u ig = (n2, Ok fu) /\ net_normalize_utility n2 fu fp = Ok (n3, g) /\ wf_factor g /\
    (forall q, In q query -> In q (factor_names n g)) /\
    forall s, proper_state n s ->
      let event := fun s' => agrees vars ev s' && same_on (factor_names n g) s s' in
      let m := mass n (ignored_by ig ev) event in
      (m <> 0%Qc -> get_at g (positions vars s) = Ok (Fin (sum_over n (fun s => joint n (ignored_by ig ev) s * asked_utility u s)%Qc event / m))) /\
      (nonnegative n -> m = 0%Qc -> get_at g (positions vars s) = Ok NaN).
Proof.
  intros Hco Hv Hask Hu.
  assert (Hvq : valid_query n query) by (intros q Hq; apply (Hask q Hq)).
  destruct (query_exact n Hwf sc1 ig ev query Hco Hv Hask) as (n1 & res & fp & Eq & _).
  destruct (solve_query_raw n Hwf sc1 ig ev query Hco Hv Hvq) as (s0 & fp' & vs1 & fs1 & E0 & HV0 & Hcr1 & Hs1).
  destruct (query_then sc1 sc2 ev query ig n1 res fp true u ig Eq) as [(m & Em) Hnext].
  rewrite E0 in Em. injection Em as _ <-.
  destruct Hu as [(-> & Hpl & Hsome)|Hpl].
  - destruct (solve_utility_raw n Hwf sc2 ig ev query Hco Hpl Hsome Hv Hvq) as (s1 & fu & vs2 & fs2 & E2 & HV2 & Hcr2 & Hs2).
    unfold asked_utility. cbn [String.eqb].
    destruct (normalize_utility_raw n Hwf ig ev query [] fu fp' vs1 fs1 _ _ (utility_of n) s1 Hv HV2 Hcr1 Hs1 Hs2) as (n3 & g & E3 & Hw & Hnames & Hval).
    + apply utility_of_proper.
    + apply (util_matches n Hwf ig ev vs2 fs2); auto.
    + intros x Hk Hm. apply (occurs_mentioned n Hwf ig ev vs2 fs2 x); auto. left. auto.
    + exists n1, res, fp', (with_state n s1), fu, n3, g. split; auto. split; [apply Hnext; auto|]. split; auto. split; auto. split; auto.
      intros q Hq. apply Hnames. destruct (solve_utility_factor n Hwf sc2 ig ev query Hco Hpl Hsome Hv Hvq) as (m' & f' & E' & Hrf).
      rewrite E2 in E'. injection E' as _ <-. destruct (Hask q Hq) as (_ & Hm & Hne). apply (rf_query _ _ _ _ _ _ _ Hrf); auto. left. auto.
  - assert (Hne : String.eqb u "" = false). { apply String.eqb_neq. apply (plain_utility_vv n Hwf u Hpl). }
    unfold asked_utility. rewrite Hne.
    destruct (plain_utility_vv n Hwf u Hpl) as (Hku & Htu & _).
    destruct (solve_one_utility_raw n Hwf sc2 ig ev query u Hco Hpl Hv Hvq) as (s1 & fu & vs2 & fs2 & E2 & HV2 & Hcr2 & Hs2).
    destruct (normalize_utility_raw n Hwf ig ev query [u] fu fp' vs1 fs1 _ _ (one_utility n u) s1 Hv HV2 Hcr1 Hs1 Hs2) as (n3 & g & E3 & Hw & Hnames & Hval).
    + intros s s' Hs. unfold one_utility. f_equal. apply map_ext. intros f. apply entry_proper. auto.
    + apply (one_matches n Hwf ig ev vs2 fs2); auto.
    + intros x Hk Hm. apply (one_occurs n Hwf ig ev vs2 fs2 u x); auto. left. auto.
    + exists n1, res, fp', (with_state n s1), fu, n3, g. split; auto. split; [apply Hnext; auto|]. split; auto. split; auto. split; auto.
      intros q Hq. apply Hnames. destruct (solve_one_utility_factor n Hwf sc2 ig ev query u Hco Hpl Hv Hvq) as (m' & f' & E' & Hrf).
      rewrite E2 in E'. injection E' as _ <-. destruct (Hask q Hq) as (_ & Hm & Hn'). apply (rf_query _ _ _ _ _ _ _ Hrf); auto. left. auto.
Qed.

(** ** The solver kept after a call *)
Lemma utility_names_kept sc ev query u ig : n_names (fst (net_solve_utility sc n ev query u ig)) = name_map (entries n).
Proof.
  unfold net_solve_utility. rewrite net_solve_core. cbn [fst]. destruct (to_ve_ok n Hwf sc 0 (if ig then ev else [])) as (vs & fs & E & _). rewrite E.
  cbn [solve_core]. destruct (solve_names _ _ _ _ _ _ _) as [[s' f]| |]; auto.
Qed.

Lemma query_leaves sc ig ev query n' res f : complete n -> valid_observations n ev -> valid_query n query ->
  net_solve_query sc n ev query ig = (n', Ok (res, f)) ->
  n_names n' = name_map (entries n) /\ n_ve n' <> None /\ wf_factor f /\ incl (f_vars f) V.
Proof.
  intros Hco Hv Hq E. split; [rewrite <- (solve_names_kept n Hwf sc ev query ig), E; auto|].
  destruct (solve_query_raw n Hwf sc ig ev query Hco Hv Hq) as (s & g & vs & fs & E2 & _ & _ & Hr).
  unfold net_solve_query in E. rewrite E2 in E. unfold NetUtil.with_state in E. rewrite query_marginals_core in E. cbn [n_names n_ve with_solver] in E.
  destruct (marginals_core _ (Some s) g query) as [[ve' r]| |] eqn:Em; try discriminate. cbn [gbind] in E. injection E as <- <- <-.
  split; [|split; apply Hr]. cbn [n_ve with_solver].
  assert (Hso : forall X (ve : option (vestate xnum)) (op : vstate -> gores (vstate * X)) v x, on_solver ve op = Ok (v, x) -> v <> None).
  { intros X ve op v x. unfold on_solver. destruct ve as [s0|]; [|discriminate]. destruct (op (ve_vs s0)) as [[a b]| |]; try discriminate.
    cbn [gbind]. intros H. injection H as <- _. discriminate. }
  clear E2 Hr Hq. revert Em. unfold marginals_core. generalize (@nil (string * list xnum)) as r0.
  assert (Hs : Some s <> None) by discriminate. revert Hs. generalize (Some s) as v0. revert ve' r.
  induction query as [|q l IH]; cbn [foldM]; intros ve' r v0 Hs r0 Em.
  - injection Em as <- _. auto.
  - destruct (sget_map (name_map (entries n)) q) as [e|]; [|discriminate].
    destruct (on_solver v0 (fun vs => marginal vs g (en_ve e))) as [[v1 m]| |]; cbn [gbind] in Em; try discriminate.
    destruct (on_solver v1 (fun vs => normalize vs m)) as [[v2 m2]| |] eqn:E3; cbn [gbind] in Em; try discriminate.
    eapply IH; [exact (Hso _ _ _ _ _ E3)|exact Em].
Qed.

Lemma utility_leaves sc ig ev query u n' f : complete n -> valid_observations n ev -> valid_query n query ->
  (u = "" /\ plain_utilities n /\ some_utility n \/ plain_utility n u) ->
  net_solve_utility sc n ev query u ig = (n', Ok f) ->
  n_names n' = name_map (entries n) /\ n_ve n' <> None /\ wf_factor f /\ incl (f_vars f) V.
Proof.
  intros Hco Hv Hq [(-> & Hp & Hs)|Hp] E.
  - destruct (solve_utility_raw n Hwf sc ig ev query Hco Hp Hs Hv Hq) as (s & g & vs & fs & E2 & _ & _ & Hr). rewrite E2 in E. injection E as <- <-.
    split; auto. split; [discriminate|]. split; apply Hr.
  - destruct (solve_one_utility_raw n Hwf sc ig ev query u Hco Hp Hv Hq) as (s & g & vs & fs & E2 & _ & _ & Hr). rewrite E2 in E. injection E as <- <-.
    split; auto. split; [discriminate|]. split; apply Hr.
Qed.
End NX.
