(** SolvePolicies with inexact numbers: what nearly optimal choices are worth. *)
From Coq Require Import ZArith List Bool String Lia Permutation QArith Qcanon.
From Verif Require Import Num GoBase VarModel GoFacts Tuples SpecFactor FactorFacts FactorAt XnumFacts ExactFactor FactorThms
  VEModel SpecVE VEWorlds VEFacts VEHidden VESolve VEThms VEUtil VEShadow VEOrder SpecPolicy VEPolicy VEOptimal NetModel SpecNet NetVars NetFactors NetVE NetSums
  NetQuery NetEvents NetUtil NetMass NetMarkov SpecNetPolicy NetPolicy NetPolicyStep.
Import ListNotations.
Open Scope string_scope.
Open Scope list_scope.
Open Scope Z_scope.

Lemma step_near V H d Wt U1 U2 (g p q : asg -> Qc) (L : list variable) :
  wf_vars V -> In d V -> incl H V -> incl L V -> wf_vars (L ++ d :: H) ->
  proper Wt -> proper U1 -> proper U2 -> proper g -> proper p -> proper q ->
  (forall a, in_range V a -> (0 <= g a)%Qc) -> ignores g (v_id d) ->
  (forall v, In v H -> ignores g (v_id v) /\ ignores p (v_id v) /\ ignores q (v_id v)) ->
  (forall a, in_range V a -> (0 <= p a)%Qc) ->
  (forall a, in_range V a -> qsum (map (fun k => p (upd a (v_id d) k)) (seq 0 (v_outcomes d))) = 1%Qc) ->
  (let R U := total (fun x => Wt x * U x)%Qc H in
   forall a k, in_range V a -> (k < v_outcomes d)%nat ->
     (R U1 (upd a (v_id d) k) <= qsum (map (fun j => q (upd a (v_id d) j) * R U2 (upd a (v_id d) j)) (seq 0 (v_outcomes d))))%Qc) ->
  forall a, in_range V a ->
    (total (fun x => Wt x * (g x * p x) * U1 x) (L ++ d :: H) a <= total (fun x => Wt x * (g x * q x) * U2 x) (L ++ d :: H) a)%Qc.
Proof.
  intros HV Hd HH HL Hwf HWp HUp HUp2 Hgp Hpp Hqp Hg Hgd Hig Hp Hrows HR a Ha.
  set (R := fun U => total (fun x => Wt x * U x)%Qc H) in *. cbv zeta in HR.
  rewrite 2 total_app. apply (total_le _ _ V); auto. clear a Ha. intros a Ha.
  assert (E : forall U (r : asg -> Qc), (forall v, In v H -> ignores r (v_id v)) ->
    (total (fun x => Wt x * (g x * r x) * U x) (d :: H) a =
     g a * qsum (map (fun k => r (upd a (v_id d) k) * R U (upd a (v_id d) k)) (seq 0 (v_outcomes d))))%Qc).
  { intros U r Hr. rewrite total_cons, <- qsum_scale. apply qsum_ext. intros k _.
    rewrite (total_ext _ (fun x => ((g x * r x) * (Wt x * U x))%Qc)).
    2: { intros w _. ring. }
    rewrite (VEWorlds.total_factor (fun x => (g x * r x)%Qc)).
    2: { intros v Hv. destruct (Hig v Hv) as (h1 & _ & _). apply ignores_mult; auto. }
    rewrite Hgd. unfold R. ring. }
  rewrite 2 E; try (intros v Hv; apply (Hig v Hv)). clear E.
  rewrite 2 (Qcmult_comm (g a)). apply Qcmult_le_compat_r; auto.
  set (M := qsum (map (fun j => (q (upd a (v_id d) j) * R U2 (upd a (v_id d) j))%Qc) (seq 0 (v_outcomes d)))).
  replace M with (qsum (map (fun k => (p (upd a (v_id d) k) * M)%Qc) (seq 0 (v_outcomes d)))).
  2: { rewrite (qsum_ext _ (fun k => (M * p (upd a (v_id d) k))%Qc)) by (intros; ring). rewrite qsum_scale, Hrows by auto. ring. }
  apply qsum_le. intros k Hk. apply in_seq in Hk. rewrite 2 (Qcmult_comm (p _)).
  apply Qcmult_le_compat_r.
  - apply HR; auto. lia.
  - apply Hp. apply in_range_upd'; auto. lia.
Qed.

Section NS.
Variable n : network xnum.
Notation vars := (n_vars n).
Notation vv := (vv n).
Notation by_name := (by_name n).
Notation known := (known n).
Notation V := (net_vars n).
Hypothesis Hps : partly_solved n.
Let Hdn := ps_net n Hps.
Let Hwf : wf_network n := dn_wf _ Hdn.
Notation open_plus := (open_plus n Hps).
Notation has_key_plus := (has_key_plus n).
Notation sp_open := (sp_open n).
Notation sp_vars := (sp_vars n).
Notation sp_last := (sp_last n).
Notation policy_proper' := (policy_proper' n).
Notation plus := (plus n).
Notation step_policy := (step_policy n).
Notation valid_strategy := (valid_strategy n).
Notation worlds_total := (worlds_total n Hps).
Notation zero_range := (zero_range n Hps).
Notation policy_prob_by_name := (policy_prob_by_name n Hps).

(** The sum of [u] over all states, weighted with the probability of the state if open
    decisions follow [sigma]. *)
Definition mixed_sum (n : network xnum) (sigma : string -> nstate -> Qc) (u : nstate -> Qc) : Qc :=
  qsum (map (fun s => joint n (fun _ => false) s * qprod (map (fun d => sigma d s) (open_ones n)) * u s)%Qc (worlds_of n)).
Lemma mixed_sum_plus sigma d pol u : mixed_sum (plus d pol) sigma u =
  qsum (map (fun s => joint n (fun _ => false) s * (qprod (map (fun d => sigma d s) (open_ones (plus d pol))) * policy_prob vars pol s) * u s)%Qc (worlds_of n)).
Proof. unfold mixed_sum. apply qsum_ext. intros s _. rewrite joint_plus. ring. Qed.
Lemma mixed_sum_open sigma d pol u : In d (open_ones n) -> mixed_sum n sigma u =
  qsum (map (fun s => joint n (fun _ => false) s * (qprod (map (fun d => sigma d s) (open_ones (plus d pol))) * sigma d s) * u s)%Qc (worlds_of n)).
Proof.
  intros H. unfold mixed_sum. apply qsum_ext. intros s _. rewrite (qprod_perm_map _ _ _ (open_plus d pol H)). simpl. ring.
Qed.

Section Solve.
Variables (vs : vstate) (fs : list (factor xnum)).
Hypothesis Hcr : created n [] vs fs.
Notation weight_by_name := (weight_by_name n Hps vs fs Hcr).

Theorem step_nearly d pol sigma (u1 u2 : nstate -> Qc) (w1 w2 : asg -> Qc) : step_policy d pol -> valid_strategy sigma ->
  nproper u1 -> nproper u2 -> proper w1 -> proper w2 ->
  (forall a, in_range V a -> w1 a = u1 (by_name a)) -> (forall a, in_range V a -> w2 a = u2 (by_name a)) ->
  (let R w := total (fun x => weight_of (prob_factors fs) x * w x)%Qc (unobserved V (net_deps n) (vv d)) in
    forall a k, in_range V a -> (k < v_outcomes (vv d))%nat ->
       (R w1 (upd a (v_id (vv d)) k) <= qsum (map (fun j => value pol (upd a (v_id (vv d)) j) * R w2 (upd a (v_id (vv d)) j))%Qc (seq 0 (v_outcomes (vv d)))))%Qc) ->
  (mixed_sum n sigma u1 <= mixed_sum (plus d pol) sigma u2)%Qc.
Proof.
  intros Hsp Hsig Hu1 Hu2 Hw1p Hw2p Hw1 Hw2 HR. pose proof (sp_open _ _ Hsp) as Ho. rewrite (mixed_sum_open sigma d pol u1 Ho), mixed_sum_plus.
  pose proof Ho as Hot. apply (open_type n Hps) in Hot. destruct Hot as [Hdk Hdt].
  assert (Hdd : In d (decisions n)) by (unfold open_ones in Ho; apply filter_In in Ho; tauto).
  set (rest := open_ones (plus d pol)). 
  assert (Hrest : forall e, In e rest -> In e (open_ones n) /\ e <> d /\ In e (decisions n)).
  { intros e He. assert (H1 : In e (open_ones n)) by (eapply Permutation_in; [apply Permutation_sym; apply (open_plus d pol Ho)|simpl; auto]).
    split; auto. split; [|unfold open_ones in H1; apply filter_In in H1; tauto]. intros ->. unfold rest, open_ones in He. apply filter_In in He.
    destruct He as [_ He]. rewrite has_key_plus, String.eqb_refl, orb_true_r in He. discriminate. }
  assert (HgP : nproper (fun s => qprod (map (fun e => sigma e s) rest))).
  { rewrite <- (map_id rest). intros s s' Hs. rewrite map_id.
    assert (E : forall e, In e rest -> sigma e s = sigma e s') by (intros e He; apply (policy_proper' e (sigma e)); auto; apply Hsig; apply Hrest; auto).
    f_equal. apply map_ext_in. auto. }
  assert (HjP : nproper (joint n (fun _ => false))) by apply joint_proper.
  assert (HdP : nproper (sigma d)) by (apply (policy_proper' d); apply Hsig; auto).
  assert (HpP : nproper (policy_prob vars pol)) by apply policy_proper.
  rewrite !worlds_total; [| |].
  2,3: (intros s s' Hs; rewrite (HjP s s' Hs), (HgP s s' Hs), ?(Hu1 s s' Hs), ?(Hu2 s s' Hs), ?(HdP s s' Hs), ?(HpP s s' Hs); auto).
  set (H := unobserved V (net_deps n) (vv d)) in *.
  set (inH := fun v => nodeType_eqb (v_type v) Chance && negb (observes (net_deps n) (vv d) v)).
  set (L := filter (fun v => negb (v_id v =? v_id (vv d)) && negb (inH v)) (worldly n)).
  assert (HHin : forall v, In v H <-> In v V /\ v_type v = Chance /\ observes (net_deps n) (vv d) v = false).
  { intros v. unfold H, unobserved. rewrite filter_In, andb_true_iff, nodeType_eqb_spec, negb_true_iff. tauto. }
  assert (HdW : In (vv d) (worldly n)) by (apply (worldly_known n Hwf); auto; rewrite Hdt; discriminate).
  assert (Hperm : Permutation (worldly n) (L ++ vv d :: H)).
  { apply NoDup_Permutation.
    - apply wf_NoDup. apply (worldly_wf n).
    - assert (HndL : NoDup L) by (apply NoDup_filter, wf_NoDup, (worldly_wf n)).
      apply NoDup_app_intro; auto.
      + constructor; [|apply NoDup_filter, wf_NoDup, net_vars_wf]. intros Hc. apply HHin in Hc. destruct Hc as (_ & Hc & _). congruence.
      + intros v Hv [E|Hv2]; apply filter_In in Hv; destruct Hv as [_ Hv]; apply andb_prop in Hv; destruct Hv as [H1 H2].
        * subst v. rewrite Z.eqb_refl in H1. discriminate.
        * apply filter_In in Hv2. destruct Hv2 as [_ Hv2]. fold (inH v) in Hv2. rewrite Hv2 in H2. discriminate.
    - intros v. rewrite in_app_iff. simpl. unfold L. rewrite filter_In, andb_true_iff. split.
      + intros Hv. destruct (Z.eqb_spec (v_id v) (v_id (vv d))) as [E|E].
        * right. left. apply (wf_vars_inj (worldly n)); auto. apply (worldly_wf n).
        * destruct (inH v) eqn:EH; [|left; auto]. right. right. apply filter_In. split; auto. apply (in_worldly n) in Hv. tauto.
      + intros [[Hv _]|[<-|Hv]]; auto. apply HHin in Hv. apply (in_worldly n). destruct Hv as (Hv & Ht & _). split; auto. rewrite Ht. discriminate. }
  assert (HV : wf_vars V) by apply net_vars_wf.
  assert (HVd : In (vv d) V) by (apply (vv_in n Hwf); auto).
  assert (HLV : incl L V). { intros v Hv. apply filter_In in Hv. destruct Hv as [Hv _]. apply (in_worldly n) in Hv. tauto. }
  assert (HHV : incl H V). { intros v Hv. apply HHin in Hv. tauto. }
  assert (Hall : incl (L ++ vv d :: H) V). { intros v Hv. apply in_app_iff in Hv. destruct Hv as [Hv|[<-|Hv]]; auto. }
  assert (Hpb : forall F : nstate -> Qc, nproper F -> proper (fun a => F (by_name a))).
  { intros F HF a b Hab. apply HF. apply (by_name_proper n). auto. }
  (* the transfer to assignments *)
  assert (T : forall q qa u w, nproper q -> nproper u -> (forall a, in_range V a -> w a = u (by_name a)) -> (forall a, in_range V a -> qa a = q (by_name a)) ->
     total (fun a => (joint n (fun _ => false) (by_name a) * (qprod (map (fun e => sigma e (by_name a)) rest) * q (by_name a)) * u (by_name a))%Qc) (worldly n) zero_asg
     = total (fun x => weight_of (prob_factors fs) x * (qprod (map (fun e => sigma e (by_name x)) rest) * qa x) * w x)%Qc (L ++ vv d :: H) zero_asg).
  { intros q qa u wt Hq HuP Hwt Hqa. rewrite (total_perm (fun a => (joint n (fun _ => false) (by_name a) * (qprod (map (fun e => sigma e (by_name a)) rest) * q (by_name a)) * u (by_name a))%Qc) (worldly n) (L ++ vv d :: H)); auto.
    2:{ intros a b Hab. pose proof (by_name_proper n a b Hab) as Hs. rewrite (HjP _ _ Hs), (HgP _ _ Hs), (HuP _ _ Hs), (Hq _ _ Hs). auto. }
    2:{ apply (worldly_wf n). }
    apply (total_weight_range n); auto. apply zero_range. intros w Hw. rewrite weight_by_name, Hwt, Hqa by auto. auto. }
  rewrite (T (sigma d) (fun a => sigma d (by_name a)) u1 w1) by auto.
  rewrite (T (policy_prob vars pol) (value pol) u2 w2); auto.
  2:{ intros a Ha. symmetry. apply policy_prob_by_name. intros v Hv. destruct (sp_vars _ _ Hsp v Hv) as (x & -> & Hk & _). eauto. }
  assert (Hout : v_outcomes (vv d) = num_outcomes vars d) by apply (vv_outcomes n Hwf d Hdk).
  (* ignoring *)
  assert (Hig : forall e p v, policy_for n e p -> (forall x, v = vv x -> known x -> x <> e /\ ~ In x (observed_by n e)) -> In v V ->
     ignores (fun a => p (by_name a)) (v_id v)).
  { intros e p v Hp Hx HvV a k. destruct (vv_surj n Hwf v HvV) as (x & Hk & ->). destruct (Hx x eq_refl Hk) as [N1 N2].
    apply (pf_observed _ _ _ Hp). intros y Hy. rewrite (by_name_upd n Hwf) by auto. apply nupd_other. intros ->. destruct Hy as [->|Hy]; auto. }
  assert (Hnf : forall e, In e rest -> In e (observed_by n d) /\ incl (observed_by n e) (observed_by n d)).
  { intros e He. destruct (Hrest e He) as (He1 & Hne & Hed). destruct (ps_forget n Hps d e Hdd Hed) as [[Hc _]|Hc]; auto. exfalso. apply (sp_last _ _ Hsp e He1). auto. }
  assert (HgH : forall e v, In e rest -> In v H -> ignores (fun a => sigma e (by_name a)) (v_id v)).
  { intros e v He Hv. destruct (Hrest e He) as (He1 & Hne & Hed). apply (Hig e); auto.
    intros x -> Hxk. apply HHin in Hv. destruct Hv as (_ & Ht & Hob). split.
    - intros ->. apply (open_type n Hps) in He1. destruct He1. congruence.
    - intros Hin. apply (Hnf e He) in Hin. apply (observes_spec n Hps d x Ho Hxk) in Hin. congruence. }
  assert (Hqi : forall rr v, (forall e, In e rr -> ignores (fun a => sigma e (by_name a)) v) -> ignores (fun a => qprod (map (fun e => sigma e (by_name a)) rr)) v).
  { induction rr as [|e rr IH]; intros v Hr a k; simpl; auto. rewrite (IH v) by (intros; apply Hr; simpl; auto). f_equal. apply (Hr e). simpl; auto. }
  apply (step_near V H (vv d) (weight_of (prob_factors fs)) w1 w2 (fun a => qprod (map (fun e => sigma e (by_name a)) rest)) (fun a => sigma d (by_name a)) (value pol)); auto.
  - eapply wf_perm; [apply Hperm|apply (worldly_wf n)].
  - apply weight_proper.
  - apply (Hpb _ HgP).
  - intros a b Hab. apply value_proper. auto.
  - intros a Ha. apply qprod_nonneg. intros x Hx. apply in_map_iff in Hx. destruct Hx as (e & <- & He). destruct (Hrest e He) as (_ & _ & Hed).
    apply (pf_nonneg _ _ _ (Hsig e Hed)). apply (by_name_state n Hwf). auto.
  - apply Hqi. intros e He. destruct (Hrest e He) as (He1 & Hne & Hed). apply (Hig e); auto. intros x Ex Hk.
    assert (x = d) by (apply (vv_inj n Hwf); auto; congruence). subst x. split; auto. apply (sp_last _ _ Hsp). auto.
  - intros v Hv. split; [|split].
    + apply Hqi. intros e He. apply HgH; auto.
    + apply (Hig d); auto. intros x -> Hxk. apply HHin in Hv. destruct Hv as (_ & Ht & Hob). split.
      * intros ->. congruence.
      * intros Hin. apply (observes_spec n Hps d x Ho Hxk) in Hin. congruence.
    + intros a k. apply value_agree. intros u Hu. apply upd_other. intros Eu. destruct (sp_vars _ _ Hsp u Hu) as (x & -> & Hk & _ & Hor).
      apply HHin in Hv. destruct Hv as (HvV & Ht & Hob). assert (v = vv x) by (apply (wf_vars_inj V); auto; apply (vv_in n Hwf); auto). subst v.
      destruct Hor as [->|Hin]; [congruence|]. apply (observes_spec n Hps d x Ho Hk) in Hin. congruence.
  - intros a Ha. apply (pf_nonneg _ _ _ (Hsig d Hdd)). apply (by_name_state n Hwf). auto.
  - intros a Ha. rewrite Hout, <- (pf_rows _ _ _ (Hsig d Hdd) (by_name a)) by (apply (by_name_state n Hwf); auto). apply qsum_ext. intros k _. apply HdP.
    apply (by_name_upd n Hwf). auto.
  - apply zero_range.
Qed.

End Solve.

(** ** The weights of all states sum to one *)
Theorem mixed_mass sigma : valid_strategy sigma -> mixed_sum n sigma (fun _ => 1%Qc) = 1%Qc.
Proof.
  intros Hsig. unfold mixed_sum.
  set (L := conds n (fun _ => false) ++ map (fun d => (d, sigma d)) (open_ones n)).
  assert (Hod : forall d, In d (open_ones n) -> In d (decisions n) /\ known d /\ v_type (vv d) = Decision).
  { intros d Hd. split; [unfold open_ones in Hd; apply filter_In in Hd; tauto|]. apply (open_type n Hps). auto. }
  assert (HpL : forall c, In c L -> nproper (snd c)).
  { intros c Hc. apply in_app_iff in Hc. destruct Hc as [Hc|Hc].
    - apply in_app_iff in Hc. destruct Hc as [Hc|Hc]; apply in_map_iff in Hc; destruct Hc as (f & <- & Hf); simpl.
      + intros s s' E. apply (cond_prob_proper n). auto.
      + apply policy_proper.
    - apply in_map_iff in Hc. destruct Hc as (d & <- & Hd). apply (policy_proper' d). apply Hsig. apply Hod. auto. }
  assert (HkL : forall c, In c L -> known (fst c) /\ v_type (vv (fst c)) <> Utility).
  { intros [x F] Hc. apply in_app_iff in Hc. destruct Hc as [Hc|Hc].
    - apply (conds_known n Hwf (fun _ => false) x F Hc).
    - apply in_map_iff in Hc. destruct Hc as (d & E & Hd). injection E as <- <-. destruct (Hod d Hd) as (_ & Hk & Ht). split; auto. simpl. rewrite Ht. discriminate. }
  assert (EL : forall s, qprod (map (fun c => snd c s) L) = (joint n (fun _ => false) s * qprod (map (fun d => sigma d s) (open_ones n)) * 1)%Qc).
  { intros s. unfold L. rewrite map_app, qprod_app. rewrite (conds_joint n). rewrite map_map. cbn [snd]. ring. }
  rewrite (qsum_ext _ (fun s => qprod (map (fun c => snd c s) L))) by (intros s _; symmetry; apply EL).
  assert (HP : nproper (fun s => qprod (map (fun c => snd c s) L))).
  { intros s s' E. f_equal. apply map_ext_in. intros c Hc. apply (HpL c Hc). auto. }
  rewrite worlds_total by exact HP.
  set (C := map (fun c => (vv (fst c), fun a => snd c (by_name a))) L).
  assert (Hfst : map fst C = map vv (map fst L)) by (unfold C; rewrite !map_map; reflexivity).
  assert (Hnames : map fst L = conditionals n (fun _ => false) ++ open_ones n).
  { unfold L. rewrite map_app, (conds_names n), map_map. cbn [fst]. rewrite map_id. auto. }
  assert (HnL : NoDup (map fst L)).
  { rewrite Hnames. apply NoDup_app_intro.
    - apply (conditionals_nodup n Hps).
    - apply NoDup_filter. apply (decisions_nodup n Hps).
    - intros x H1 H2. apply (conditional_chance n Hps) in H1. destruct (Hod x H2) as (_ & _ & Ht). destruct H1. congruence. }
  assert (HkF : forall x, In x (map fst L) -> known x /\ v_type (vv x) <> Utility).
  { intros x Hx. apply in_map_iff in Hx. destruct Hx as (c & <- & Hc). auto. }
  assert (HwC : wf_vars (map fst C)) by (rewrite Hfst; apply (wf_vars_vv n Hwf); auto; apply HkF).
  assert (HiC : incl (map fst C) V).
  { rewrite Hfst. intros v Hv. apply in_map_iff in Hv. destruct Hv as (x & <- & Hx). apply (vv_in n Hwf). apply HkF. auto. }
  assert (Hperm : Permutation (worldly n) (map fst C)).
  { apply NoDup_Permutation.
    - apply wf_NoDup. apply (worldly_wf n).
    - apply wf_NoDup. auto.
    - intros v. rewrite Hfst, in_map_iff. split.
      + intros Hv. apply (in_worldly n) in Hv. destruct Hv as [Hv Hu]. destruct (vv_surj n Hwf v Hv) as (x & Hk & ->). exists x. split; auto.
        rewrite Hnames. apply in_app_iff. destruct (v_type (vv x)) eqn:Et; [left|right|congruence].
        * apply (conditional_chance n Hps). auto.
        * apply (open_type n Hps). auto.
      + intros (x & <- & Hx). apply (worldly_known n Hwf); apply HkF; auto. }
  rewrite (total_perm _ (worldly n) (map fst C)); auto.
  2:{ intros a b Hab. apply HP. apply (by_name_proper n). auto. }
  2:{ apply (worldly_wf n). }
  destruct (dn_order _ Hdn) as (rank & Hrank).
  rewrite (total_ext _ (fun a => qprod (map (fun c => snd c a) C))).
  2:{ intros a _. unfold C. rewrite map_map. reflexivity. }
  assert (Hobs : forall d y, In d (decisions n) -> In y (observed_by n d) -> (rank y < rank d)%nat).
  { intros d y Hd Hy. destruct (observed_in n y d Hy) as (f & Hf & <- & Hg). apply (Hrank f y); auto.
    apply (decision_known n Hps) in Hd. destruct Hd as [_ Hd]. rewrite Hd. discriminate. }
  apply (conditionals_one V (wide_rank n rank) (net_vars_wf n) (List.length C)); auto.
  - intros v F Hin. unfold C in Hin. apply in_map_iff in Hin. destruct Hin as (c & E & Hc). injection E as <- <-. split.
    + intros a b E. apply (HpL c Hc). apply (by_name_proper n). auto.
    + intros a Ha. destruct (HkL c Hc) as [Hk _]. destruct (vv_outcomes n Hwf _ Hk) as [-> _].
      rewrite (qsum_ext _ (fun k => snd c (nupd (by_name a) (fst c) k))) by (intros k _; apply (HpL c Hc); apply (by_name_upd n Hwf); auto).
      pose proof (by_name_state n Hwf a Ha) as Hst.
      apply in_app_iff in Hc. destruct Hc as [Hc|Hc].
      * apply in_app_iff in Hc. destruct Hc as [Hc|Hc]; apply in_map_iff in Hc; destruct Hc as (f & <- & Hf); cbn [fst snd].
        -- apply cond_prob_sum. apply (dn_rows _ Hdn); auto.
        -- apply filter_In in Hf. destruct Hf as [Hf _]. destruct f as [d p]. apply (pf_rows _ _ _ (proj1 (ps_policy n Hps d p Hf))); auto.
      * apply in_map_iff in Hc. destruct Hc as (d & <- & Hd). cbn [fst snd]. apply (pf_rows _ _ _ (Hsig d (proj1 (Hod d Hd)))). auto.
  - intros v F w Hin Hw Hne Hle a k. unfold C in Hin. apply in_map_iff in Hin. destruct Hin as (c & E & Hc). injection E as <- <-.
    rewrite Hfst in Hw. apply in_map_iff in Hw. destruct Hw as (y & <- & Hy). destruct (HkF y Hy) as [Hky _]. destruct (HkL c Hc) as [Hkx _].
    rewrite !(wide_rank_vv n Hwf) in Hle by auto. rewrite (HpL c Hc _ _ (by_name_upd n Hwf a y k Hky)).
    assert (Hxy : fst c <> y) by congruence.
    apply in_app_iff in Hc. destruct Hc as [Hc|Hc].
    + apply in_app_iff in Hc. destruct Hc as [Hc|Hc]; apply in_map_iff in Hc; destruct Hc as (f & <- & Hf); cbn [fst snd] in *.
      * apply (cond_prob_ignores n). intros H. apply in_app_iff in H. destruct H as [H|[H|[]]]; auto.
        destruct (chance_in n Hwf f Hf) as (Hfn & Hkf & _). specialize (Hrank f y Hfn). rewrite Hkf in Hrank. assert (rank y < rank (nf_for f))%nat by (apply Hrank; auto; discriminate). lia.
      * apply filter_In in Hf. destruct Hf as [Hf _]. destruct f as [d p]. cbn [fst snd] in *.
        apply (policy_ignores n Hwf d p); auto. intros H. destruct (ps_policy n Hps d p Hf) as [_ Hi]. apply Hi in H. destruct H as [H|H]; auto.
        apply Hobs in H; [lia|]. apply (policy_decision n Hps d p). auto.
    + apply in_map_iff in Hc. destruct Hc as (d & <- & Hd). cbn [fst snd] in *. apply (pf_observed _ _ _ (Hsig d (proj1 (Hod d Hd)))).
      intros z Hz. apply nupd_other. intros ->. destruct Hz as [Hz|Hz]; auto. apply Hobs in Hz; [lia|]. apply Hod. auto.
  - apply zero_range.
Qed.

Lemma weight_nonneg sigma s : valid_strategy sigma -> proper_state n s ->
  (0 <= joint n (fun _ => false) s * qprod (map (fun d => sigma d s) (open_ones n)))%Qc.
Proof.
  intros Hsig Hs. rewrite <- (conds_joint n), <- qprod_app. apply qprod_nonneg. intros x Hx. apply in_app_iff in Hx. destruct Hx as [Hx|Hx]; apply in_map_iff in Hx.
  - destruct Hx as (c & <- & Hc). apply in_app_iff in Hc. destruct Hc as [Hc|Hc]; apply in_map_iff in Hc; destruct Hc as (f & <- & Hf); cbn [snd].
    + apply cond_prob_nonneg. intros s'. apply (dn_nonneg _ Hdn). auto.
    + apply filter_In in Hf. destruct Hf as [Hf _]. destruct f as [d p]. apply (pf_nonneg _ _ _ (proj1 (ps_policy n Hps d p Hf))). auto.
  - destruct Hx as (d & <- & Hd). unfold open_ones in Hd. apply filter_In in Hd. apply (pf_nonneg _ _ _ (Hsig d (proj1 Hd))). auto.
Qed.
Lemma mixed_sum_le sigma u v : valid_strategy sigma -> (forall s, proper_state n s -> (u s <= v s)%Qc) -> (mixed_sum n sigma u <= mixed_sum n sigma v)%Qc.
Proof.
  intros Hsig H. unfold mixed_sum. apply VEShadow.qsum_le. intros s Hs. pose proof (world_proper n Hwf s Hs) as Hst.
  rewrite 2 (Qcmult_comm _ (_ s)). apply Qcmult_le_compat_r; auto. apply weight_nonneg; auto.
Qed.
Lemma mixed_sum_bound sigma u b : valid_strategy sigma -> (forall s, proper_state n s -> (u s <= b)%Qc) -> (mixed_sum n sigma u <= b)%Qc.
Proof.
  intros Hsig H. eapply Qcle_trans; [apply (mixed_sum_le sigma u (fun _ => b)); auto|].
  assert (E : mixed_sum n sigma (fun _ => b) = (b * mixed_sum n sigma (fun _ => 1%Qc))%Qc).
  { unfold mixed_sum. rewrite <- qsum_scale. apply qsum_ext. intros; ring. }
  rewrite E, (mixed_mass sigma Hsig), Qcmult_1_r. apply Qcle_refl.
Qed.
End NS.
