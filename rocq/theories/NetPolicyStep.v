(** SolvePolicies on networks: adding one policy. *)
From Coq Require Import ZArith List Bool String Lia Permutation QArith Qcanon.
From Verif Require Import Num GoBase VarModel GoFacts Tuples SpecFactor FactorFacts FactorAt XnumFacts ExactFactor FactorThms
  VEModel SpecVE VEWorlds VEFacts VEHidden VESolve VEThms VEUtil SpecPolicy VEPolicy VEOptimal NetModel SpecNet NetVars NetFactors NetVE NetSums
  NetQuery NetEvents NetUtil NetMass SpecNetPolicy NetPolicy.
Import ListNotations.
Open Scope string_scope.
Open Scope list_scope.
Open Scope Z_scope.

Section NS.
Variable n : network xnum.
Notation vars := (n_vars n).
Notation vv := (vv n).
Notation by_name := (by_name n).
Notation known := (known n).
Notation V := (net_vars n).
Hypothesis Hps : partly_solved n.
Let Hdn := ps_net n Hps.
Let Hwf : wf_network n := dn_wf _ Hdn.

(** The network with one more policy. *)
Definition plus (d : string) (pol : factor xnum) : network xnum := with_policies n (n_policies n ++ [(d, pol)]).

Lemma has_key_plus d pol x : has_key (n_policies (plus d pol)) x = has_key (n_policies n) x || String.eqb x d.
Proof.
  apply eq_true_iff_eq. rewrite orb_true_iff, !has_key_spec, String.eqb_eq. cbn [plus with_policies n_policies]. rewrite map_app, in_app_iff. simpl. intuition.
Qed.

Lemma decisions_nodup : NoDup (decisions n).
Proof. apply NoDup_filter_map. apply (wn_names _ Hwf). Qed.

Lemma open_plus d pol : In d (open_ones n) -> Permutation (open_ones n) (d :: open_ones (plus d pol)).
Proof.
  intros Hd. apply NoDup_Permutation.
  - apply NoDup_filter. apply decisions_nodup.
  - constructor; [|apply NoDup_filter; apply decisions_nodup]. intros Hc. apply filter_In in Hc. destruct Hc as [_ Hc]. rewrite has_key_plus, String.eqb_refl, orb_true_r in Hc. discriminate.
  - intros x. unfold open_ones. change (decisions (plus d pol)) with (decisions n). cbn [In]. rewrite !filter_In, has_key_plus. destruct (String.eqb_spec x d).
    + subst. rewrite orb_true_r. simpl. unfold open_ones in Hd. apply filter_In in Hd. intuition.
    + rewrite orb_false_r. intuition. congruence.
Qed.

(** What the solver returns for decision [d]. *)
Record step_policy (d : string) (pol : factor xnum) : Prop := {
  sp_open : In d (open_ones n);
  sp_last : forall e, In e (open_ones n) -> ~ In d (observed_by n e);
  sp_wf : wf_factor pol;
  sp_finite : finite_factor pol;
  sp_own : In (vv d) (f_vars pol);
  sp_vars : forall v, In v (f_vars pol) -> exists x, v = vv x /\ known x /\ v_type (vv x) <> Utility /\ (x = d \/ In x (observed_by n d));
  sp_nonneg : forall a, in_range V a -> (0 <= value pol a)%Qc;
  sp_rows : forall a, in_range V a -> qsum (map (fun k => value pol (upd a (v_id (vv d)) k)) (seq 0 (num_outcomes vars d))) = 1%Qc
}.

Lemma positions_range s : proper_state n s -> in_range V (positions vars s).
Proof.
  intros Hs v Hv. destruct (vv_surj n Hwf v Hv) as (x & Hk & ->). rewrite (positions_vv n Hwf) by auto.
  destruct (vv_outcomes n Hwf x Hk) as [-> _]. destruct Hk as [_ (nv & E)]. unfold num_outcomes. rewrite E. apply (var_named_in n Hwf) in E as [Hi <-]. apply Hs. auto.
Qed.

Lemma known_represents x pol d : known x -> v_type (vv x) <> Utility -> represents (plus d pol) (vv x).
Proof.
  intros Hk Ht. destruct (lookup_known n Hwf x Hk) as (i & nv & Hi & En & Evn & Hit & L).
  assert (E : vv x = en_ve (ve_entry n (Z.of_nat i, nv))) by (unfold NetFactors.vv; rewrite L; auto).
  exists i, nv. rewrite E in *. cbn [ve_entry en_ve v_id v_index v_outcomes v_type fst snd] in *. split; auto. split; auto. split; [|split; [|split]].
  - rewrite Z2Nat.id. auto. unfold ve_index. destruct (Z.leb_spec 0 (n_tui n)); simpl; [|lia]. destruct (Z.ltb_spec (n_tui n) (Z.of_nat i)); lia.
  - apply (u16_outcomes n Hwf). apply nth_error_In in Hi. auto.
  - intros Eu. apply Ht. apply ve_type_utility. auto.
  - unfold ve_type. destruct (nodeType_eqb (nv_type nv) Decision) eqn:Ed; simpl; auto. destruct (has_key (n_policies n) (nv_name nv)) eqn:Ek; auto.
    right. apply nodeType_eqb_spec in Ed. split; auto. split; auto.
    pose proof (has_key_plus d pol (nv_name nv)) as X. rewrite Ek in X. exact X.
Qed.

Lemma represents_plus v d pol : represents n v -> represents (plus d pol) v.
Proof.
  intros (i & nv & Hi & E1 & E2 & E3 & Ht & E4). exists i, nv. split; [exact Hi|]. split; auto. split; [exact E2|]. split; auto. split; auto.
  destruct E4 as [E4|(A & B & C)]; auto. right. split; auto. split; auto. rewrite has_key_plus, C. auto.
Qed.

Lemma policy_prob_by_name (pol : factor xnum) a : (forall v, In v (f_vars pol) -> exists x, v = vv x /\ known x) -> policy_prob vars pol (by_name a) = value pol a.
Proof.
  intros H. apply value_agree. intros v Hv. destruct (H v Hv) as (x & -> & Hk). rewrite (positions_vv n Hwf) by auto. apply (by_name_vv n Hwf). auto.
Qed.

Lemma nupd_same s x k : nupd s x k x = k.
Proof. unfold nupd. rewrite String.eqb_refl. auto. Qed.
Lemma nupd_other s x y k : y <> x -> nupd s x k y = s y.
Proof. intros H. unfold nupd. destruct (String.eqb_spec y x); congruence. Qed.

Lemma vv_id_ne x y : known x -> known y -> x <> y -> v_id (vv x) <> v_id (vv y).
Proof. intros Hx Hy Hne E. apply Hne. apply (vv_inj n Hwf); auto. Qed.

Lemma step_policy_for d pol : step_policy d pol -> policy_for n d (policy_prob vars pol).
Proof.
  intros Hsp. constructor.
  - intros s Hs. apply (sp_nonneg _ _ Hsp). apply positions_range. auto.
  - intros s Hs. rewrite <- (sp_rows _ _ Hsp (positions vars s)) by (apply positions_range; auto). apply qsum_ext. intros k _.
    apply value_agree. intros v Hv. destruct (sp_vars _ _ Hsp v Hv) as (x & -> & Hk & _). rewrite (positions_vv n Hwf) by auto.
    pose proof (sp_open _ _ Hsp) as Ho. apply (open_type n Hps) in Ho. destruct Ho as [Hdk _].
    destruct (String.eqb_spec x d) as [->|Hne]. { rewrite nupd_same, upd_same. auto. }
    rewrite nupd_other, upd_other by (auto using vv_id_ne). symmetry. apply (positions_vv n Hwf). auto.
  - intros s s' H. apply value_agree. intros v Hv. destruct (sp_vars _ _ Hsp v Hv) as (x & -> & Hk & _ & Hor).
    rewrite !(positions_vv n Hwf) by auto. apply H. auto.
Qed.

Lemma step_names d pol x : step_policy d pol -> In x (factor_names n pol) -> x = d \/ In x (observed_by n d).
Proof.
  intros Hsp Hx. unfold factor_names in Hx. apply in_map_iff in Hx. destruct Hx as (v & <- & Hv). destruct (sp_vars _ _ Hsp v Hv) as (y & -> & Hk & _ & Hor).
  rewrite (name_at n Hwf) by auto. auto.
Qed.

Lemma step_wf d pol : step_policy d pol -> wf_network (plus d pol).
Proof.
  intros Hsp. pose proof (sp_open _ _ Hsp) as Ho. assert (Hd : In d (decisions n) /\ has_key (n_policies n) d = false).
  { unfold open_ones in Ho. apply filter_In in Ho. rewrite negb_true_iff in Ho. auto. }
  destruct Hd as [Hd Hk]. apply (decision_known n Hps) in Hd. destruct Hd as [Hdk Hd].
  destruct Hwf as [w1 w2 w3 w4 w5 w6 w7 w8 w9]. constructor; auto.
  - intros f Hf Ht. destruct (w6 f Hf Ht) as [a b c e g]. constructor; auto.
  - cbn [plus with_policies n_policies]. rewrite map_app. simpl. apply NoDup_app_single; auto. intros Hc. apply has_key_spec in Hc. congruence.
  - intros x p Hin. cbn [plus with_policies n_policies] in Hin. apply in_app_iff in Hin. destruct Hin as [Hin|[Hin|[]]].
    + destruct (w9 x p Hin) as [a b c e g]. constructor; auto. intros v Hv. apply represents_plus. auto.
    + injection Hin as <- <-. constructor; auto; try apply Hsp.
      * intros v Hv. destruct (sp_vars _ _ Hsp v Hv) as (x & -> & Hxk & Ht & _). apply known_represents; auto.
      * destruct (lookup_known n Hwf d Hdk) as (i & nv & Hi & En & Evn & Hit & L). exists i, nv, (vv d). split; [exact Hi|]. split; auto. split; [apply Hsp|].
        unfold NetFactors.vv. rewrite L. auto.
Qed.

Lemma step_solved d pol : step_policy d pol -> partly_solved (plus d pol).
Proof.
  intros Hsp. pose proof (step_wf d pol Hsp) as Hwf1. constructor.
  - destruct Hdn as [a1 a2 a3 a4 a5 a6 a7 a8]. constructor; auto.
  - apply (ps_forget n Hps).
  - intros e p Hin. cbn [plus with_policies n_policies] in Hin. apply in_app_iff in Hin. destruct Hin as [Hin|[Hin|[]]].
    + destruct (ps_policy n Hps e p Hin) as [[q1 q2 q3] Hi]. split; auto. constructor; auto.
    + injection Hin as <- <-. destruct (step_policy_for d pol Hsp) as [q1 q2 q3]. split; [constructor; auto|].
      intros x Hx. destruct (step_names d pol x Hsp Hx); simpl; auto.
  - intros x e Hx He Hk. rewrite has_key_plus in Hx, Hk. apply orb_false_elim in Hk. destruct Hk as [Hk Hne].
    change (observed_by (plus d pol) e) with (observed_by n e). apply orb_prop in Hx. destruct Hx as [Hx|Hx].
    + apply (ps_closed n Hps); auto.
    + apply String.eqb_eq in Hx. subst x. apply (sp_last _ _ Hsp). unfold open_ones. apply filter_In. split; auto. rewrite Hk. auto.
Qed.

Lemma joint_plus d pol s : joint (plus d pol) (fun _ => false) s = (joint n (fun _ => false) s * policy_prob vars pol s)%Qc.
Proof.
  unfold joint. change (chance_factors (plus d pol)) with (chance_factors n). change (n_vars (plus d pol)) with vars.
  rewrite !filter_all by auto. cbn [plus with_policies n_policies]. rewrite map_app, qprod_app. simpl. ring.
Qed.

Lemma qprod_perm_map {X} (F : X -> Qc) l l' : Permutation l l' -> qprod (map F l) = qprod (map F l').
Proof. intros H. apply qprod_perm. apply Permutation_map. auto. Qed.

Lemma mixed_plus sigma d pol : mixed_value (plus d pol) sigma =
  qsum (map (fun s => joint n (fun _ => false) s * (qprod (map (fun d => sigma d s) (open_ones (plus d pol))) * policy_prob vars pol s) * utility_of n s)%Qc (worlds_of n)).
Proof.
  unfold mixed_value. change (worlds_of (plus d pol)) with (worlds_of n). apply qsum_ext. intros s _. rewrite joint_plus. 
  change (utility_of (plus d pol) s) with (utility_of n s). ring.
Qed.

Lemma mixed_open sigma d pol : In d (open_ones n) -> mixed_value n sigma =
  qsum (map (fun s => joint n (fun _ => false) s * (qprod (map (fun d => sigma d s) (open_ones (plus d pol))) * sigma d s) * utility_of n s)%Qc (worlds_of n)).
Proof.
  intros Hd. unfold mixed_value. apply qsum_ext. intros s _. rewrite (qprod_perm_map _ _ _ (open_plus d pol Hd)). simpl. ring.
Qed.

(** [sigma] gives a policy for every decision. *)
Definition valid_strategy (sigma : string -> nstate -> Qc) : Prop := forall d, In d (decisions n) -> policy_for n d (sigma d).

Lemma policy_proper' d p : policy_for n d p -> nproper p.
Proof. intros Hp s s' H. apply (pf_observed _ _ _ Hp). auto. Qed.

Lemma qprod_proper (L : list (nstate -> Qc)) : (forall F, In F L -> nproper F) -> nproper (fun s => qprod (map (fun F => F s) L)).
Proof.
  intros H s s' Hs. induction L as [|F L IH]; simpl; auto. rewrite IH by (intros; apply H; simpl; auto).
  rewrite (H F (or_introl eq_refl) s s' Hs). auto.
Qed.

Lemma zero_range : in_range V zero_asg.
Proof. intros v Hv. destruct (vv_surj n Hwf v Hv) as (x & Hk & ->). destruct (vv_outcomes n Hwf x Hk). auto. Qed.

Section Solve.
Variables (vs : vstate) (fs : list (factor xnum)).
Hypothesis Hcr : created n [] vs fs.

Lemma utility_by_name a : in_range V a -> utility_in V (weights n) fs a = utility_of n (by_name a).
Proof.
  intros Ha. unfold utility_in. change (qsum (map (total_utility V (weights n) fs) (worlds (utilities_of V) a))) with (total (total_utility V (weights n) fs) (utilities_of V) a).
  rewrite total_single.
  - apply (total_utility_of n Hwf false [] vs fs); auto.
  - apply total_utility_proper.
  - intros u Hu. apply (utilities_V n) in Hu. destruct Hu as [Hu Ht]. destruct (vv_surj n Hwf u Hu) as (x & Hk & ->).
    destruct (plain_vv n Hwf x (proj1 (dn_utilities _ Hdn)) Hk Ht) as [Eo _]. split; auto. specialize (Ha _ Hu). lia.
Qed.

Lemma weight_by_name a : in_range V a -> weight_of (prob_factors fs) a = joint n (fun _ => false) (by_name a).
Proof. intros Ha. apply (weight_joint n Hwf false [] vs fs Hcr a Ha). Qed.

Lemma worlds_total F : nproper F -> qsum (map F (worlds_of n)) = total (fun a => F (by_name a)) (worldly n) zero_asg.
Proof.
  intros HF. rewrite (worldly_net n Hwf). apply (joint_states_total n Hwf); auto.
  - intros v Hv. apply (non_utility_not_total n Hwf). auto.
  - intros y. unfold NetFactors.by_name. destruct (lookup n y); auto.
Qed.

Theorem step_improves d pol sigma : step_policy d pol -> valid_strategy sigma ->
  (let R := total (fun x => weight_of (prob_factors fs) x * utility_in V (weights n) fs x)%Qc (unobserved V (net_deps n) (vv d)) in
    forall a k, in_range V a -> (k < v_outcomes (vv d))%nat ->
       (R (upd a (v_id (vv d)) k) <= qsum (map (fun j => value pol (upd a (v_id (vv d)) j) * R (upd a (v_id (vv d)) j))%Qc (seq 0 (v_outcomes (vv d)))))%Qc) ->
  (mixed_value n sigma <= mixed_value (plus d pol) sigma)%Qc.
Proof.
  intros Hsp Hsig HR. pose proof (sp_open _ _ Hsp) as Ho. rewrite (mixed_open sigma d pol Ho), mixed_plus.
  pose proof Ho as Hot. apply (open_type n Hps) in Hot. destruct Hot as [Hdk Hdt].
  assert (Hdd : In d (decisions n)) by (unfold open_ones in Ho; apply filter_In in Ho; tauto).
  set (rest := open_ones (plus d pol)). 
  assert (Hrest : forall e, In e rest -> In e (open_ones n) /\ e <> d /\ In e (decisions n)).
  { intros e He. assert (H1 : In e (open_ones n)) by (eapply Permutation_in; [apply Permutation_sym; apply (open_plus d pol Ho)|simpl; auto]).
    split; auto. split; [|unfold open_ones in H1; apply filter_In in H1; tauto]. intros ->. unfold rest, open_ones in He. apply filter_In in He.
    destruct He as [_ He]. rewrite has_key_plus, String.eqb_refl, orb_true_r in He. discriminate. }
  assert (HgP : nproper (fun s => qprod (map (fun e => sigma e s) rest))).
  { rewrite <- (map_id rest). intros s s' Hs. rewrite map_id.
    assert (E : forall e, In e rest -> sigma e s = sigma e s') by (intros e He; apply (policy_proper' e (sigma e)); auto; apply Hsig; apply Hrest; auto).
    f_equal. apply map_ext_in. auto. }
  assert (HjP : nproper (joint n (fun _ => false))) by apply joint_proper.
  assert (HuP : nproper (utility_of n)) by apply utility_of_proper.
  assert (HdP : nproper (sigma d)) by (apply (policy_proper' d); apply Hsig; auto).
  assert (HpP : nproper (policy_prob vars pol)) by apply policy_proper.
  rewrite !worlds_total; [| |].
  2,3: (intros s s' Hs; rewrite (HjP s s' Hs), (HgP s s' Hs), (HuP s s' Hs), ?(HdP s s' Hs), ?(HpP s s' Hs); auto).
  set (H := unobserved V (net_deps n) (vv d)) in *.
  set (inH := fun v => nodeType_eqb (v_type v) Chance && negb (observes (net_deps n) (vv d) v)).
  set (L := filter (fun v => negb (v_id v =? v_id (vv d)) && negb (inH v)) (worldly n)).
  assert (HHin : forall v, In v H <-> In v V /\ v_type v = Chance /\ observes (net_deps n) (vv d) v = false).
  { intros v. unfold H, unobserved. rewrite filter_In, andb_true_iff, nodeType_eqb_spec, negb_true_iff. tauto. }
  assert (HdW : In (vv d) (worldly n)) by (apply (worldly_known n Hwf); auto; rewrite Hdt; discriminate).
  assert (Hperm : Permutation (worldly n) (L ++ vv d :: H)).
  { apply NoDup_Permutation.
    - apply wf_NoDup. apply (worldly_wf n).
    - assert (HndL : NoDup L) by (apply NoDup_filter, wf_NoDup, (worldly_wf n)).
      apply NoDup_app_intro; auto.
      + constructor; [|apply NoDup_filter, wf_NoDup, net_vars_wf]. intros Hc. apply HHin in Hc. destruct Hc as (_ & Hc & _). congruence.
      + intros v Hv [E|Hv2]; apply filter_In in Hv; destruct Hv as [_ Hv]; apply andb_prop in Hv; destruct Hv as [H1 H2].
        * subst v. rewrite Z.eqb_refl in H1. discriminate.
        * apply filter_In in Hv2. destruct Hv2 as [_ Hv2]. fold (inH v) in Hv2. rewrite Hv2 in H2. discriminate.
    - intros v. rewrite in_app_iff. simpl. unfold L. rewrite filter_In, andb_true_iff. split.
      + intros Hv. destruct (Z.eqb_spec (v_id v) (v_id (vv d))) as [E|E].
        * right. left. apply (wf_vars_inj (worldly n)); auto. apply (worldly_wf n).
        * destruct (inH v) eqn:EH; [|left; auto]. right. right. apply filter_In. split; auto. apply (in_worldly n) in Hv. tauto.
      + intros [[Hv _]|[<-|Hv]]; auto. apply HHin in Hv. apply (in_worldly n). destruct Hv as (Hv & Ht & _). split; auto. rewrite Ht. discriminate. }
  assert (HV : wf_vars V) by apply net_vars_wf.
  assert (HVd : In (vv d) V) by (apply (vv_in n Hwf); auto).
  assert (HLV : incl L V). { intros v Hv. apply filter_In in Hv. destruct Hv as [Hv _]. apply (in_worldly n) in Hv. tauto. }
  assert (HHV : incl H V). { intros v Hv. apply HHin in Hv. tauto. }
  assert (Hall : incl (L ++ vv d :: H) V). { intros v Hv. apply in_app_iff in Hv. destruct Hv as [Hv|[<-|Hv]]; auto. }
  assert (Hpb : forall F : nstate -> Qc, nproper F -> proper (fun a => F (by_name a))).
  { intros F HF a b Hab. apply HF. apply (by_name_proper n). auto. }
  (* the transfer to assignments *)
  assert (T : forall q qa, nproper q -> (forall a, in_range V a -> qa a = q (by_name a)) ->
     total (fun a => (joint n (fun _ => false) (by_name a) * (qprod (map (fun e => sigma e (by_name a)) rest) * q (by_name a)) * utility_of n (by_name a))%Qc) (worldly n) zero_asg
     = total (fun x => weight_of (prob_factors fs) x * (qprod (map (fun e => sigma e (by_name x)) rest) * qa x) * utility_in V (weights n) fs x)%Qc (L ++ vv d :: H) zero_asg).
  { intros q qa Hq Hqa. rewrite (total_perm (fun a => (joint n (fun _ => false) (by_name a) * (qprod (map (fun e => sigma e (by_name a)) rest) * q (by_name a)) * utility_of n (by_name a))%Qc) (worldly n) (L ++ vv d :: H)); auto.
    2:{ intros a b Hab. pose proof (by_name_proper n a b Hab) as Hs. rewrite (HjP _ _ Hs), (HgP _ _ Hs), (HuP _ _ Hs), (Hq _ _ Hs). auto. }
    2:{ apply (worldly_wf n). }
    apply (total_weight_range n); auto. apply zero_range. intros w Hw. rewrite weight_by_name, utility_by_name, Hqa by auto. auto. }
  rewrite (T (sigma d) (fun a => sigma d (by_name a))) by auto.
  rewrite (T (policy_prob vars pol) (value pol)); auto.
  2:{ intros a Ha. symmetry. apply policy_prob_by_name. intros v Hv. destruct (sp_vars _ _ Hsp v Hv) as (x & -> & Hk & _). eauto. }
  assert (Hout : v_outcomes (vv d) = num_outcomes vars d) by apply (vv_outcomes n Hwf d Hdk).
  (* ignoring *)
  assert (Hig : forall e p v, policy_for n e p -> (forall x, v = vv x -> known x -> x <> e /\ ~ In x (observed_by n e)) -> In v V ->
     ignores (fun a => p (by_name a)) (v_id v)).
  { intros e p v Hp Hx HvV a k. destruct (vv_surj n Hwf v HvV) as (x & Hk & ->). destruct (Hx x eq_refl Hk) as [N1 N2].
    apply (pf_observed _ _ _ Hp). intros y Hy. rewrite (by_name_upd n Hwf) by auto. apply nupd_other. intros ->. destruct Hy as [->|Hy]; auto. }
  assert (Hnf : forall e, In e rest -> In e (observed_by n d) /\ incl (observed_by n e) (observed_by n d)).
  { intros e He. destruct (Hrest e He) as (He1 & Hne & Hed). destruct (ps_forget n Hps d e Hdd Hed) as [[Hc _]|Hc]; auto. exfalso. apply (sp_last _ _ Hsp e He1). auto. }
  assert (HgH : forall e v, In e rest -> In v H -> ignores (fun a => sigma e (by_name a)) (v_id v)).
  { intros e v He Hv. destruct (Hrest e He) as (He1 & Hne & Hed). apply (Hig e); auto.
    intros x -> Hxk. apply HHin in Hv. destruct Hv as (_ & Ht & Hob). split.
    - intros ->. apply (open_type n Hps) in He1. destruct He1. congruence.
    - intros Hin. apply (Hnf e He) in Hin. apply (observes_spec n Hps d x Ho Hxk) in Hin. congruence. }
  assert (Hqi : forall rr v, (forall e, In e rr -> ignores (fun a => sigma e (by_name a)) v) -> ignores (fun a => qprod (map (fun e => sigma e (by_name a)) rr)) v).
  { induction rr as [|e rr IH]; intros v Hr a k; simpl; auto. rewrite (IH v) by (intros; apply Hr; simpl; auto). f_equal. apply (Hr e). simpl; auto. }
  apply (step_optimal V H (vv d) (weight_of (prob_factors fs)) (utility_in V (weights n) fs) (fun a => qprod (map (fun e => sigma e (by_name a)) rest)) (fun a => sigma d (by_name a)) (value pol)); auto.
  - eapply wf_perm; [apply Hperm|apply (worldly_wf n)].
  - apply weight_proper.
  - apply (total_proper (total_utility V (weights n) fs)). apply total_utility_proper.
  - apply (Hpb _ HgP).
  - intros a b Hab. apply value_proper. auto.
  - intros a Ha. apply qprod_nonneg. intros x Hx. apply in_map_iff in Hx. destruct Hx as (e & <- & He). destruct (Hrest e He) as (_ & _ & Hed).
    apply (pf_nonneg _ _ _ (Hsig e Hed)). apply (by_name_state n Hwf). auto.
  - apply Hqi. intros e He. destruct (Hrest e He) as (He1 & Hne & Hed). apply (Hig e); auto. intros x Ex Hk.
    assert (x = d) by (apply (vv_inj n Hwf); auto; congruence). subst x. split; auto. apply (sp_last _ _ Hsp). auto.
  - intros v Hv. split; [|split].
    + apply Hqi. intros e He. apply HgH; auto.
    + apply (Hig d); auto. intros x -> Hxk. apply HHin in Hv. destruct Hv as (_ & Ht & Hob). split.
      * intros ->. congruence.
      * intros Hin. apply (observes_spec n Hps d x Ho Hxk) in Hin. congruence.
    + intros a k. apply value_agree. intros u Hu. apply upd_other. intros Eu. destruct (sp_vars _ _ Hsp u Hu) as (x & -> & Hk & _ & Hor).
      apply HHin in Hv. destruct Hv as (HvV & Ht & Hob). assert (v = vv x) by (apply (wf_vars_inj V); auto; apply (vv_in n Hwf); auto). subst v.
      destruct Hor as [->|Hin]; [congruence|]. apply (observes_spec n Hps d x Ho Hk) in Hin. congruence.
  - intros a Ha. apply (pf_nonneg _ _ _ (Hsig d Hdd)). apply (by_name_state n Hwf). auto.
  - intros a Ha. rewrite Hout, <- (pf_rows _ _ _ (Hsig d Hdd) (by_name a)) by (apply (by_name_state n Hwf); auto). apply qsum_ext. intros k _. apply HdP.
    apply (by_name_upd n Hwf). auto.
  - apply zero_range.
Qed.

(** One step of the solver. *)
Theorem solver_step sc t single : open_ones n <> [] -> single = true \/ List.length (open_ones n) = 1%nat ->
  exists s' d fac pol, ve_solve_policies sc (ve_new t vs fs (net_deps n) (finite_weights (weights n))) single = Ok (s', Some [(vv d, (fac, pol))]) /\
    step_policy d pol /\ forall sigma, valid_strategy sigma -> (mixed_value n sigma <= mixed_value (plus d pol) sigma)%Qc.
Proof.
  intros Hne Hs. destruct (diagram n Hps vs fs Hcr) as (cpt & rank & Hid).
  assert (HV : vs_vars vs = V) by apply Hcr.
  assert (Hone : single = true \/ List.length (decision_vars (vs_vars vs)) = 1%nat).
  { destruct Hs as [Hs|Hs]; auto. right. rewrite HV. rewrite <- Hs. rewrite <- (map_length vv (open_ones n)). apply Permutation_length. apply NoDup_Permutation.
    - apply NoDup_filter, wf_NoDup, net_vars_wf.
    - apply wf_NoDup. apply (wf_vars_vv n Hwf). intros x Hx. apply (open_type n Hps) in Hx. tauto. apply NoDup_filter. apply decisions_nodup.
    - intros v. rewrite (open_dvars n Hps), in_map_iff. split; intros (d & A & B); eauto. }
  destruct (policy_step sc t vs fs (net_deps n) (weights n) single cpt rank Hid) as (s' & dv & fac & pol & E & Hd & Hlast & Hpw & Hpf & Hpi & Hown & Hpv & Hpn & Hpr & HR); auto; rewrite ?HV in *.
  - destruct (dn_utilities _ Hdn) as [_ (u & Hu & Hut & Htot)]. intros Ec. assert (Hin : In (vv (nv_name u)) (utilities_of V)).
    { assert (Hk : known (nv_name u)). { split; auto. exists u. apply (var_named_in n Hwf). auto. }
      apply (utilities_V n). split; [apply (vv_in n Hwf); auto|]. apply (vv_utility n Hwf); auto. unfold kind. rewrite (proj2 (var_named_in n Hwf _ _) (conj Hu eq_refl)). simpl. congruence. }
    rewrite Ec in Hin. destruct Hin.
  - unfold weights. destruct (n_tui n <? 0); auto. rewrite (utilities_net n Hwf), !map_length. auto.
  - intros u Hu. apply in_app_iff in Hu. destruct (cr_split _ _ _ _ Hcr) as (tfs & pfs & pols & Efs & Ht & _ & _).
    assert (G : exists f, In f (filter (is_table n) (n_factors n)) /\ In u (tvars n f)).
    { destruct Hu as [Hu|Hu].
      - apply (utilities_V n) in Hu. destruct Hu as [Hu Hut]. destruct (vv_surj n Hwf u Hu) as (x & Hk & ->).
        destruct (plain_vv n Hwf x (proj1 (dn_utilities _ Hdn)) Hk Hut) as [_ (f & Hf & Ef)]. exists f. rewrite <- (util_tables n) in Hf by auto. apply filter_In in Hf. destruct Hf as [Hf _].
        split; auto. unfold tvars. rewrite <- Ef. apply in_map. apply in_app_iff. simpl; auto.
      - apply (open_dvars n Hps) in Hu. destruct Hu as (d & Hd & ->). assert (Hdd : In d (decisions n)) by (unfold open_ones in Hd; apply filter_In in Hd; tauto).
        destruct (dn_used _ Hdn d Hdd) as (f & Hf & Htot & Hk & Hg). exists f. split.
        + apply filter_In. split; auto. unfold is_table. rewrite Htot. simpl. destruct (wt_for _ _ (wn_tables _ Hwf f Hf Htot)) as (v & Ev).
          unfold kind in *. rewrite Ev in *. simpl in *. destruct (nv_type v); auto; congruence.
        + apply in_map. apply in_app_iff. auto. }
    destruct G as (f & Hf & Hin). destruct (Forall2_in_l _ _ _ _ Ht Hf) as (g & Hg & Hb). exists g. split; [rewrite Efs; apply in_app_iff; auto|].
    destruct Hb as (_ & -> & _). auto.
  - destruct (open_ones n) as [|d l] eqn:Eo; [congruence|]. intros Ec. assert (In (vv d) (decision_vars V)) by (apply (open_dvars n Hps); exists d; rewrite Eo; simpl; auto).
    rewrite Ec in H. destruct H.
  - intros d Hd. apply (open_dvars n Hps) in Hd. destruct Hd as (x & Hx & ->). apply (open_type n Hps) in Hx. apply (vv_outcomes n Hwf). tauto.
  - apply (open_dvars n Hps) in Hd. destruct Hd as (d & Hd & ->). exists s', d, fac, pol. split; auto.
    assert (Hdk : known d /\ v_type (vv d) = Decision) by (apply (open_type n Hps); auto). destruct Hdk as [Hdk Hdt].
    assert (Hdd : In d (decisions n)) by (unfold open_ones in Hd; apply filter_In in Hd; tauto).
    assert (Hl : forall e, In e (open_ones n) -> ~ In d (observed_by n e)).
    { intros e He Hc. destruct (observed_in n d e Hc) as (f & Hf & <- & Hg). assert (Hed : In (nf_for f) (decisions n)) by (unfold open_ones in He; apply filter_In in He; tauto).
      apply (Hlast (vv (nf_for f)) (map vv (nf_given f))).
      - apply (deps_in n Hps); auto. unfold open_ones in He. apply filter_In in He. destruct He as [_ He]. apply (decision_known n Hps) in Hed. destruct Hed as [[Ht _] Hkd].
        unfold is_open. rewrite Ht, Hkd, He. auto.
      - apply (open_dvars n Hps). eauto.
      - apply in_map. auto. }
    assert (Hsp : step_policy d pol).
    { constructor; auto.
      - intros v Hv. destruct (vv_surj n Hwf v (Hpi v Hv)) as (x & Hk & ->). exists x. split; auto. split; auto.
        assert (Hor : x = d \/ In x (observed_by n d)).
        { destruct (Hpv _ Hv) as [Ei|[Ho|Ht]].
          - left. apply (vv_inj n Hwf); auto.
          - right. apply (observes_spec n Hps d x Hd Hk). auto.
          - destruct (String.eqb_spec x d) as [->|Hxd]; auto. right. assert (Hxo : In x (open_ones n)) by (apply (open_type n Hps); auto).
            assert (Hxd' : In x (decisions n)) by (unfold open_ones in Hxo; apply filter_In in Hxo; tauto).
            destruct (ps_forget n Hps d x Hdd Hxd') as [[Hc _]|[Hc _]]; auto. exfalso. apply (Hl x Hxo). auto. }
        split; auto. destruct Hor as [->|Hor]; [rewrite Hdt; discriminate|]. destruct (observed_known n Hps d x Hdd Hor) as [_ Hu].
        intros Et. apply Hu. apply (vv_utility n Hwf); auto.
      - destruct (vv_outcomes n Hwf d Hdk) as [<- _]. auto. }
    split; auto. intros sigma Hsig. apply step_improves; auto.
Qed.
End Solve.
End NS.
