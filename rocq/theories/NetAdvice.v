(** Stored policies recommend options that are best in every situation. *)
From Coq Require Import ZArith List Bool String Lia Permutation QArith Qcanon.
From Verif Require Import Num GoBase VarModel GoFacts SpecFactor XnumFacts ExactFactor VEModel SpecVE VEWorlds NetModel SpecNet NetVars NetFactors NetVE NetSums
  NetQuery NetEvents NetUtil NetMass NetHistory NetCor SpecNetPolicy NetPolicy NetPolicyStep NetPolicyLoop NetPolicyThms NetJoint SpecGraph StateSums NetGraph NetMarkov VEHidden.
Import ListNotations.
Open Scope string_scope.
Open Scope list_scope.
Open Scope Z_scope.

(** ** Weighted averages *)

Lemma qsum_le {X} (F G : X -> Qc) l : (forall x, In x l -> (F x <= G x)%Qc) -> (qsum (map F l) <= qsum (map G l))%Qc.
Proof.
  induction l as [|x l IH]; intros H; cbn [map]; [apply Qcle_refl|]. rewrite !qsum_one. apply Qcplus_le_compat; [apply H; simpl; auto|]. apply IH. intros; apply H; simpl; auto.
Qed.
Lemma qsum_plus {X} (F G : X -> Qc) l : qsum (map (fun x => F x + G x)%Qc l) = (qsum (map F l) + qsum (map G l))%Qc.
Proof. induction l as [|x l IH]; cbn [map]; [reflexivity|]. rewrite !qsum_one, IH. ring. Qed.
Lemma qsum_scale {X} (c : Qc) (F : X -> Qc) l : qsum (map (fun x => c * F x)%Qc l) = (c * qsum (map F l))%Qc.
Proof. induction l as [|x l IH]; cbn [map]; [change (qsum []) with 0%Qc; ring|]. rewrite !qsum_one, IH. ring. Qed.
Lemma qsum_nonneg0 {X} (F : X -> Qc) l : (forall x, In x l -> (0 <= F x)%Qc) -> (qsum (map F l) <= 0)%Qc -> forall x, In x l -> F x = 0%Qc.
Proof.
  induction l as [|y l IH]; intros H Hs x Hx; [destruct Hx|]. cbn [map] in Hs. rewrite qsum_one in Hs.
  assert (H0 : (0 <= qsum (map F l))%Qc).
  { replace 0%Qc with (qsum (map (fun _ : X => 0%Qc) l)). apply qsum_le. intros; apply H; simpl; auto. clear. induction l; cbn [map]; auto. rewrite qsum_one, IHl. ring. }
  assert (Hy : (0 <= F y)%Qc) by (apply H; simpl; auto).
  assert (Ey : F y = 0%Qc). { apply Qcle_antisym; auto. apply Qcle_trans with (F y + qsum (map F l))%Qc; auto. rewrite <- (Qcplus_0_r (F y)) at 1. apply Qcplus_le_compat; auto. apply Qcle_refl. }
  destruct Hx as [<-|Hx]; auto. apply IH; auto. { intros; apply H; simpl; auto. } rewrite Ey, Qcplus_0_l in Hs. auto.
Qed.
Lemma max_at (W : nat -> Qc) l : l <> [] -> exists k, In k l /\ forall j, In j l -> (W j <= W k)%Qc.
Proof.
  induction l as [|x l IH]; intros H; [congruence|]. destruct l as [|y l].
  - exists x. split; simpl; auto. intros j [<-|[]]. apply Qcle_refl.
  - destruct IH as (k & Hk & Hm); [discriminate|]. destruct (Qclt_le_dec (W x) (W k)) as [Hl|Hl].
    + exists k. split; [right; auto|]. intros j [<-|Hj]; auto. apply Qclt_le_weak. auto.
    + exists x. split; [left; auto|]. intros j [<-|Hj]; [apply Qcle_refl|]. apply Qcle_trans with (W k); auto.
Qed.
(** A distribution whose average reaches every value is supported by the largest values. *)
Lemma support_best (c W : nat -> Qc) l : (forall k, In k l -> (0 <= c k)%Qc) -> qsum (map c l) = 1%Qc ->
  (forall k, In k l -> (W k <= qsum (map (fun i => c i * W i)%Qc l))%Qc) -> forall i j, In i l -> In j l -> c i <> 0%Qc -> (W j <= W i)%Qc.
Proof.
  intros Hc Hs Hw i j Hi Hj Hci. destruct (max_at W l) as (k & Hk & Hm). { intros ->. destruct Hi. }
  assert (E : (c i * (W k - W i) = 0)%Qc).
  { apply (qsum_nonneg0 (fun i => c i * (W k - W i))%Qc l); auto.
    - intros x Hx. rewrite <- (Qcmult_0_l 0). replace 0%Qc with (0 * (W k - W x))%Qc at 2 by ring. rewrite Qcmult_0_l. replace 0%Qc with (0 * (W k - W x))%Qc by ring.
      apply Qcmult_le_compat_r; auto. unfold Qcminus. rewrite <- (Qcplus_opp_r (W x)). apply Qcplus_le_compat; auto. apply Qcle_refl.
    - replace (qsum (map (fun i => c i * (W k - W i))%Qc l)) with (W k - qsum (map (fun i => c i * W i)%Qc l))%Qc.
      + unfold Qcminus. rewrite <- (Qcplus_opp_r (qsum (map (fun i => c i * W i)%Qc l))). apply Qcplus_le_compat; [auto|apply Qcle_refl].
      + transitivity (qsum (map (fun i => W k * c i + (- (1)) * (c i * W i))%Qc l)).
        * rewrite qsum_plus, !qsum_scale, Hs. ring.
        * f_equal. apply map_ext. intros x. ring. }
  apply Qcmult_integral in E. destruct E as [E|E]; [contradiction|].
  replace (W i) with (W k); auto. transitivity (W k - W i + W i)%Qc; [ring|]. rewrite E. ring.
Qed.

Lemma flag_nonneg b : (0 <= flag b)%Qc.
Proof. destruct b; unfold flag; [discriminate|apply Qcle_refl]. Qed.
Lemma sum_flag m i : (i < m)%nat -> qsum (map (fun j => flag (j =? i)%nat) (seq 0 m)) = 1%Qc.
Proof.
  intros H. assert (G : forall m a, (a <= i < a + m)%nat -> qsum (map (fun j => flag (j =? i)%nat) (seq a m)) = 1%Qc).
  { clear. induction m as [|m IH]; intros a H; [lia|]. cbn [seq map]. rewrite qsum_one. destruct (Nat.eqb_spec a i) as [->|Hne]; unfold flag at 1.
    - replace (qsum (map (fun j => flag (j =? i)%nat) (seq (S i) m))) with 0%Qc; [ring|]. clear. assert (G : forall a, (i < a)%nat -> 0%Qc = qsum (map (fun j => flag (j =? i)%nat) (seq a m))).
      { induction m as [|m IH]; intros a Ha; cbn [seq map]; auto. rewrite qsum_one, <- IH by lia. destruct (Nat.eqb_spec a i); [lia|]. unfold flag. ring. } apply G. lia.
    - rewrite IH by lia. ring. }
  apply G. lia.
Qed.

Section Advice.
Variables n : network xnum.
Hypothesis Hps : partly_solved n.
Hypothesis Hop : open_ones n = [].
Hypothesis Had : advised n.
Notation vars := (n_vars n).
Let Hdn := ps_net n Hps.
Let Hwf : wf_network n := dn_wf _ Hdn.

Lemma all_solved d : In d (decisions n) -> exists p, In (d, p) (n_policies n).
Proof.
  intros Hd. destruct (has_key (n_policies n) d) eqn:E.
  - apply has_key_spec in E. apply in_map_iff in E. destruct E as ([x p] & <- & H). eauto.
  - exfalso. assert (In d (open_ones n)) by (unfold open_ones; apply filter_In; rewrite E; auto). rewrite Hop in H. destruct H.
Qed.

Lemma rank_observed : exists rank : string -> nat, forall d x, In d (decisions n) -> In x (observed_by n d) -> (rank x < rank d)%nat.
Proof.
  destruct (dn_order _ Hdn) as (rank & Hr). exists rank. intros d x Hd Hx. destruct (observed_in n x d Hx) as (f & Hf & Ef & Hg). subst d.
  apply (Hr f x Hf); auto. apply (decision_known n Hps) in Hd. destruct Hd as [_ ->]. discriminate.
Qed.
Lemma not_itself d : In d (decisions n) -> ~ In d (observed_by n d).
Proof. intros Hd H. destruct rank_observed as (rank & Hr). specialize (Hr d d Hd H). lia. Qed.
Lemma not_both d e : In d (decisions n) -> In e (decisions n) -> In d (observed_by n e) -> ~ In e (observed_by n d).
Proof. intros Hd He H H'. destruct rank_observed as (rank & Hr). pose proof (Hr d e Hd H'). pose proof (Hr e d He H). lia. Qed.

(** ** One decision and one situation *)

Variables (d : string) (p : factor xnum) (ev : list (string * string)).
Hypothesis Hd : In (d, p) (n_policies n).
Hypothesis Hev : valid_observations n ev.
Hypothesis Hall : forall x, In x (map fst ev) <-> In x (observed_by n d).

Definition aside (x : string) : bool := has_key ev x || String.eqb x d.
Definition option_value (k : nat) : Qc := sum_over n (fun s => joint n aside s * utility_of n s)%Qc (fun s => agrees vars ev s && (s d =? k)%nat).

Lemma d_decision : In d (decisions n).
Proof. apply (policy_decision n Hps) in Hd. tauto. Qed.
Lemma key_observed x : has_key ev x = true <-> In x (observed_by n d).
Proof. rewrite has_key_spec. apply Hall. Qed.
Lemma d_unobserved : has_key ev d = false.
Proof. apply not_true_iff_false. rewrite key_observed. apply not_itself. apply d_decision. Qed.

Lemma later_perm P : incl P (n_policies n) -> NoDup (map fst P) -> (forall e, has_key P e = true <-> In e (decisions n) /\ In d (observed_by n e)) ->
  Permutation P (filter (fun dp => negb (aside (fst dp))) (n_policies n)).
Proof.
  intros H1 H2 H3. pose proof d_decision as Hdd.
  assert (Hnd : forall (L : list (string * factor xnum)), NoDup (map fst L) -> NoDup L) by (intros L; apply NoDup_map_inv).
  apply NoDup_Permutation; auto. { apply NoDup_filter. apply Hnd. apply (wn_keys _ Hwf). }
  intros [e q]. rewrite filter_In. cbn [fst]. unfold aside. rewrite negb_true_iff, orb_false_iff. split.
  - intros He. split; auto. assert (Hk : has_key P e = true) by (apply has_key_spec; apply (in_map fst) in He; auto). apply H3 in Hk. destruct Hk as [Hde Ho]. split.
    + apply not_true_iff_false. rewrite key_observed. apply not_both; auto.
    + apply String.eqb_neq. intros ->. apply (not_itself d); auto.
  - intros (He & Hk & Hne). apply String.eqb_neq in Hne. assert (Hde : In e (decisions n)) by (apply (policy_decision n Hps) in He; tauto).
    assert (Ho : In d (observed_by n e)).
    { destruct (ps_forget n Hps d e Hdd Hde) as [[H _]|[H _]]; auto. exfalso. apply key_observed in H. congruence. }
    assert (HP : has_key P e = true) by (apply H3; auto). apply has_key_spec, in_map_iff in HP. destruct HP as ([x q'] & Ex & Hin). simpl in Ex. subst x.
    assert (q = q'); [|subst; auto]. apply H1 in Hin. pose proof (wn_keys _ Hwf) as Hnk. clear - Hin He Hnk.
    induction (n_policies n) as [|[y r] L IH]; [destruct He|]. simpl in *. inversion Hnk; subst. destruct He as [He|He], Hin as [Hin|Hin]; try congruence; auto.
    + injection He as -> ->. exfalso. apply H1. apply (in_map fst) in Hin. auto.
    + injection Hin as -> ->. exfalso. apply H1. apply (in_map fst) in He. auto.
Qed.

Section Option.
(** The strategy: the observed decisions are as in the evidence, and [d] is [k] in this situation. *)
Variable k : nat.
Hypothesis Hk : (k < num_outcomes vars d)%nat.
Definition own (e : string) : list (string * string) := filter (fun xo => String.eqb (fst xo) e) ev.
Definition stored (e : string) (s : nstate) : Qc := match sget_map (n_policies n) e with Some q => policy_prob vars q s | None => 0%Qc end.
Definition deviate (e : string) (s : nstate) : Qc :=
  if String.eqb e d then if agrees vars ev s then flag (s d =? k)%nat else policy_prob vars p s
  else if has_key ev e then flag (agrees vars (own e) s) else stored e s.

Lemma agrees_observed l s s' : (forall x, In x (map fst l) -> s x = s' x) -> agrees vars l s = agrees vars l s'.
Proof.
  induction l as [|[x o] l IH]; intros H; auto. unfold agrees in *. cbn [forallb]. rewrite (H x) by (simpl; auto). f_equal. apply IH. intros; apply H; simpl; auto.
Qed.
Lemma own_one e o : In (e, o) ev -> own e = [(e, o)].
Proof.
  intros H. unfold own. apply (filter_single fst ev (e, o)); auto. apply Hev.
Qed.

Lemma deviate_valid : valid_strategy n deviate.
Proof.
  intros e He. destruct (String.eqb_spec e d) as [->|Hne].
  - destruct (ps_policy n Hps d p Hd) as [[p1 p2 p3] _].
    assert (Hag : forall s j, agrees vars ev (nupd s d j) = agrees vars ev s).
    { intros s j. apply agrees_observed. intros x Hx. unfold nupd. destruct (String.eqb_spec x d) as [->|]; auto. exfalso. apply has_key_spec in Hx. rewrite d_unobserved in Hx. discriminate. }
    constructor.
    + intros s Hs. unfold deviate. rewrite String.eqb_refl. destruct (agrees vars ev s); auto. apply flag_nonneg.
    + intros s Hs. unfold deviate. rewrite String.eqb_refl. destruct (agrees vars ev s) eqn:Ea.
      * transitivity (qsum (map (fun j => flag (j =? k)%nat) (seq 0 (num_outcomes vars d)))); [|apply sum_flag; auto]. f_equal. apply map_ext. intros j. rewrite Hag, Ea. unfold nupd. rewrite String.eqb_refl. auto.
      * rewrite <- (p2 s Hs). f_equal. apply map_ext. intros j. rewrite Hag, Ea. auto.
    + intros s s' H. unfold deviate. rewrite String.eqb_refl. rewrite (agrees_observed ev s s'), (p3 s s' H), (H d) by (auto; intros x Hx; apply H; right; apply Hall; auto). auto.
  - unfold deviate. rewrite (proj2 (String.eqb_neq e d) Hne). destruct (has_key ev e) eqn:Ek.
    + apply has_key_spec, in_map_iff in Ek. destruct Ek as ([x o] & Ex & Hin). simpl in Ex. subst x. rewrite (own_one e o Hin).
      destruct (proj2 Hev e o Hin) as (v & Ev & _ & Ho). apply In_nth_error in Ho. destruct Ho as (i & Hi).
      assert (Hlt : (i < num_outcomes vars e)%nat). { unfold num_outcomes. rewrite Ev. apply nth_error_Some. congruence. }
      assert (Hnd : NoDup (nv_outcomes v)) by (apply (var_named_in n Hwf) in Ev; destruct Ev as [Ev _]; apply (wn_distinct _ Hwf v Ev)).
      constructor.
      * intros; apply flag_nonneg.
      * intros s Hs. rewrite <- (sum_flag (num_outcomes vars e) i Hlt). f_equal. apply map_ext_in. intros j Hj. apply in_seq in Hj. f_equal. unfold agrees. cbn [forallb]. rewrite Ev, andb_true_r.
        unfold nupd. rewrite String.eqb_refl. destruct (nth_error (nv_outcomes v) j) as [o'|] eqn:Ej.
        2:{ apply nth_error_None in Ej. unfold num_outcomes in Hj. rewrite Ev in Hj. lia. }
        apply eq_true_iff_eq. rewrite String.eqb_eq, Nat.eqb_eq. split; intros; [|congruence]. subst o'.
        apply (proj1 (NoDup_nth_error _) Hnd); [apply nth_error_Some; congruence|congruence].
      * intros s s' H. f_equal. apply agrees_observed. intros x [<-|[]]. apply H. auto.
    + destruct (all_solved e He) as (q & Hq). assert (Eq : sget_map (n_policies n) e = Some q) by (apply (In_mget _ String.eqb_eq); auto; apply (wn_keys _ Hwf)).
      unfold stored. rewrite Eq. apply (ps_policy n Hps e q Hq).
Qed.

Let weight (s : nstate) : Qc := joint n aside s.

Lemma deviation_gain : (option_value k <= sum_over n (fun s => weight s * utility_of n s * policy_prob vars p s)%Qc (agrees vars ev))%Qc.
Proof.
  destruct (Had d p Hd) as (P & H1 & H2 & H3 & H4). specialize (H4 deviate deviate_valid). pose proof d_decision as Hdd.
  assert (HP : has_key P d = false). { apply not_true_iff_false. rewrite H3. intros [_ H]. apply (not_itself d); auto. }
  set (earl := filter (fun e => has_key ev e) (decisions n)).
  assert (Ekey : forall e, In e (decisions n) -> e <> d -> negb (has_key P e) = has_key ev e).
  { intros e He Hne. apply eq_true_iff_eq. rewrite negb_true_iff, <- not_true_iff_false, H3, key_observed. split.
    - intros H. destruct (ps_forget n Hps d e Hdd He) as [[H' _]|[H' _]]; auto. exfalso. auto.
    - intros H [_ H']. apply (not_both d e); auto. }
  assert (Eo2 : open_ones (with_policies n (P ++ [(d, p)])) = earl).
  { unfold open_ones. cbn [with_policies n_policies]. change (decisions (with_policies n (P ++ [(d, p)]))) with (decisions n). apply filter_ext_in. intros e He.
    replace (has_key (P ++ [(d, p)]) e) with (has_key P e || String.eqb e d).
    2:{ apply eq_true_iff_eq. rewrite orb_true_iff, !has_key_spec, map_app, in_app_iff, String.eqb_eq. simpl. intuition. }
    destruct (String.eqb_spec e d) as [->|Hne]; [rewrite orb_true_r, d_unobserved; auto|]. rewrite orb_false_r. auto. }
  assert (Eo1 : Permutation (open_ones (with_policies n P)) (d :: earl)).
  { pose proof (decisions_nodup n Hps) as Hnd. apply NoDup_Permutation.
    - apply NoDup_filter. auto.
    - constructor; [|apply NoDup_filter; auto]. unfold earl. rewrite filter_In, d_unobserved. intros [_ H]; discriminate.
    - intros e. unfold open_ones, earl. cbn [In with_policies n_policies]. change (decisions (with_policies n P)) with (decisions n). rewrite !filter_In. split.
      + intros [He Hk']. destruct (String.eqb_spec d e) as [|Hne]; auto. right. rewrite <- (Ekey e); auto.
      + intros [<-|[He Hk']]; [rewrite HP; auto|]. split; auto. rewrite Ekey; auto. intros ->. rewrite d_unobserved in Hk'. discriminate. }
  assert (Ej : forall s, qprod (map (fun dp => policy_prob vars (snd dp) s) P) = qprod (map (fun dp => policy_prob vars (snd dp) s) (filter (fun dp => negb (aside (fst dp))) (n_policies n)))).
  { intros s. apply qprod_perm. apply Permutation_map. apply later_perm; auto. }
  set (B := fun s => qprod (map (fun e => deviate e s) earl)).
  assert (HB : forall s, agrees vars ev s = true -> B s = 1%Qc).
  { intros s Hs. unfold B. assert (G : forall e, In e earl -> deviate e s = 1%Qc).
    { intros e He. unfold earl in He. apply filter_In in He. destruct He as [He Hke]. unfold deviate. destruct (String.eqb_spec e d) as [->|]; [rewrite d_unobserved in Hke; discriminate|].
      rewrite Hke. assert (E : agrees vars (own e) s = true); [|rewrite E; auto]. unfold agrees in *. rewrite forallb_forall in *. intros x Hx. apply Hs. unfold own in Hx. apply filter_In in Hx. tauto. }
    clear - G. induction earl as [|e l IH]; auto. cbn [map]. change (qprod (deviate e s :: map (fun e => deviate e s) l)) with (deviate e s * qprod (map (fun e => deviate e s) l))%Qc. rewrite IH by (intros; apply G; simpl; auto). rewrite (G e) by (simpl; auto). ring. }
  set (R := fun s => if agrees vars ev s then 0%Qc else (weight s * utility_of n s * policy_prob vars p s * B s)%Qc).
  assert (E1 : mixed_value (with_policies n P) deviate = (option_value k + qsum (map R (worlds_of n)))%Qc).
  { unfold option_value. rewrite sum_over_if, <- qsum_plus. unfold mixed_value. change (worlds_of (with_policies n P)) with (worlds_of n). f_equal. apply map_ext. intros s.
    change (utility_of (with_policies n P) s) with (utility_of n s). unfold joint at 1. cbn [with_policies n_policies n_vars]. change (chance_factors (with_policies n P)) with (chance_factors n).
    rewrite filter_all by auto. rewrite Ej. change (qprod (map (fun f => cond_prob vars f s) (chance_factors n)) * qprod (map (fun x => policy_prob vars (snd x) s) (filter (fun dp => negb (aside (fst dp))) (n_policies n))))%Qc with (weight s).
    rewrite (qprod_perm _ _ (Permutation_map (fun d => deviate d s) Eo1)). cbn [map]. change (qprod (deviate d s :: map (fun e => deviate e s) earl)) with (deviate d s * B s)%Qc.
    unfold R. unfold deviate at 1. rewrite String.eqb_refl. destruct (agrees vars ev s) eqn:Ea; cbn [andb].
    - rewrite (HB s Ea). fold (weight s). destruct (s d =? k)%nat; unfold flag; ring.
    - ring. }
  assert (E2 : mixed_value (with_policies n (P ++ [(d, p)])) deviate = (sum_over n (fun s => weight s * utility_of n s * policy_prob vars p s)%Qc (agrees vars ev) + qsum (map R (worlds_of n)))%Qc).
  { rewrite sum_over_if, <- qsum_plus. unfold mixed_value. rewrite Eo2. change (worlds_of (with_policies n (P ++ [(d, p)]))) with (worlds_of n). f_equal. apply map_ext. intros s.
    change (utility_of (with_policies n (P ++ [(d, p)])) s) with (utility_of n s). unfold joint at 1. cbn [with_policies n_policies n_vars]. change (chance_factors (with_policies n (P ++ [(d, p)]))) with (chance_factors n).
    rewrite filter_all by auto. rewrite map_app, qprod_app, Ej. cbn [map snd].
    replace (qprod [policy_prob vars p s]) with (policy_prob vars p s) by (change (qprod [policy_prob vars p s]) with (policy_prob vars p s * 1)%Qc; ring).
    rewrite Qcmult_assoc. change (qprod (map (fun f => cond_prob vars f s) (chance_factors n)) * qprod (map (fun x => policy_prob vars (snd x) s) (filter (fun dp => negb (aside (fst dp))) (n_policies n))))%Qc with (weight s).
    fold (B s). unfold R. destruct (agrees vars ev s) eqn:Ea; [rewrite (HB s Ea)|]; ring. }
  rewrite E1, E2 in H4. apply Qcplus_le_compat with (z := (- qsum (map R (worlds_of n)))%Qc) (t := (- qsum (map R (worlds_of n)))%Qc) in H4; [|apply Qcle_refl].
  rewrite <- !Qcplus_assoc, !Qcplus_opp_r, !Qcplus_0_r in H4. exact H4.
Qed.

End Option.

Variable s0 : nstate.
Hypothesis Hs0 : agrees vars ev s0 = true.
Hypothesis Hp0 : proper_state n s0.

Lemma own_outcomes : exists v, In v vars /\ nv_name v = d /\ nv_type v = Decision /\ num_outcomes vars d = List.length (nv_outcomes v).
Proof.
  pose proof d_decision as H. unfold decisions in H. apply in_map_iff in H. destruct H as (v & <- & H). apply filter_In in H. destruct H as [H Ht]. exists v. split; auto. split; auto.
  split. { unfold is_kind in Ht. apply nodeType_eqb_spec in Ht. auto. } unfold num_outcomes. rewrite (proj2 (var_named_in n Hwf _ v)); auto.
Qed.

Lemma average : sum_over n (fun s => joint n aside s * utility_of n s * policy_prob vars p s)%Qc (agrees vars ev) =
  qsum (map (fun i => policy_prob vars p (nupd s0 d i) * option_value i)%Qc (seq 0 (num_outcomes vars d))).
Proof.
  transitivity (qsum (map (fun i => qsum (map (fun s => if agrees vars ev s && (s d =? i)%nat then policy_prob vars p (nupd s0 d i) * (joint n aside s * utility_of n s) else 0)%Qc (worlds_of n))) (seq 0 (num_outcomes vars d)))).
  - rewrite qsum_swap, sum_over_if. apply qsum_ext. intros s Hs. destruct (agrees vars ev s) eqn:Ea; cbn [andb].
    + assert (Hlt : (s d < num_outcomes vars d)%nat).
      { destruct own_outcomes as (v & Hv & <- & _ & ->). apply (world_proper n Hwf s Hs). auto. }
      rewrite <- (Qcmult_1_l (_ * _ * _)), <- (sum_flag (num_outcomes vars d) (s d) Hlt), Qcmult_comm, <- qsum_scale. apply qsum_ext. intros i _. rewrite Nat.eqb_sym.
      destruct (Nat.eqb_spec (s d) i) as [<-|]; unfold flag; [|ring]. rewrite Qcmult_1_r, Qcmult_comm. f_equal.
      apply (pf_observed _ _ _ (proj1 (ps_policy n Hps d p Hd))). intros y [->|Hy]; unfold nupd; [rewrite String.eqb_refl; auto|].
      destruct (String.eqb_spec y d) as [->|]; [exfalso; apply (not_itself d); auto; apply d_decision|]. apply (agrees_same n Hwf ev); auto. apply Hall. auto.
    + symmetry. transitivity (qsum (map (fun _ : nat => 0 * 0)%Qc (seq 0 (num_outcomes vars d)))). apply qsum_ext. intros; ring. rewrite qsum_scale. ring.
  - apply qsum_ext. intros i _. unfold option_value. rewrite sum_over_if, <- qsum_scale. apply qsum_ext. intros s _. destruct (agrees vars ev s && (s d =? i)%nat); ring.
Qed.

(** Options that the policy may choose are best. *)
Theorem chosen_best i j : (i < num_outcomes vars d)%nat -> (j < num_outcomes vars d)%nat -> policy_prob vars p (nupd s0 d i) <> 0%Qc -> (option_value j <= option_value i)%Qc.
Proof.
  intros Hi Hj Hp. destruct (ps_policy n Hps d p Hd) as [[p1 p2 p3] _].
  apply (support_best (fun i => policy_prob vars p (nupd s0 d i)) option_value (seq 0 (num_outcomes vars d))); auto; try (apply in_seq; lia).
  - intros k Hk. apply in_seq in Hk. apply p1. intros v Hv. unfold nupd. destruct (String.eqb_spec (nv_name v) d) as [E|]; [|auto].
    destruct own_outcomes as (w & Hw & Ew & _ & Eo). assert (v = w) as ->; [|rewrite Eo in Hk; lia].
    assert (E1 : var_named vars d = Some v) by (apply (var_named_in n Hwf); auto). assert (E2 : var_named vars d = Some w) by (apply (var_named_in n Hwf); auto). congruence.
  - intros k Hk. apply in_seq in Hk. rewrite <- average. apply deviation_gain. lia.
Qed.

(** ** All options are tried in equally likely situations *)

Definition set_aside : list string := filter aside (decisions n).

Lemma causal_aside : causal n (fun _ => false) [] -> causal n aside set_aside.
Proof.
  intros [c1 c2 c3 c4 c5].
  assert (Hf : forall l : list (string * factor xnum), filter (fun dp => negb ((fun _ : string => false) (fst dp))) l = l) by (intros; apply filter_all; auto).
  assert (Hin : forall x, In x (conditionals n aside) <-> In x (conditionals n (fun _ => false)) /\ ~ In x set_aside).
  { intros x. unfold conditionals. rewrite Hf, !in_app_iff. split.
    - intros [Hx|Hx].
      + split; auto. intros Hc. unfold set_aside in Hc. apply filter_In in Hc. destruct Hc as [Hc _]. apply (decision_known n Hps) in Hc. destruct Hc as [_ Hc].
        apply in_map_iff in Hx. destruct Hx as (f & <- & Hx). unfold chance_factors in Hx. apply filter_In in Hx. rewrite Hc in Hx. destruct Hx; discriminate.
      + apply in_map_iff in Hx. destruct Hx as ([y q] & <- & Hx). apply filter_In in Hx. destruct Hx as [Hx Hs]. cbn [fst] in *. split. { right. apply (in_map fst) in Hx. auto. }
        unfold set_aside. rewrite filter_In. intros [_ H]. rewrite H in Hs. discriminate.
    - intros [[Hx|Hx] Hn]; auto. right. apply in_map_iff in Hx. destruct Hx as ([y q] & <- & Hx). cbn [fst] in *. apply in_map_iff. exists (y, q). split; auto. apply filter_In. split; auto. cbn [fst].
      apply negb_true_iff. destruct (aside y) eqn:E; auto. exfalso. apply Hn. unfold set_aside. apply filter_In. split; auto. apply (policy_decision n Hps) in Hx. tauto. }
  constructor.
  - unfold conditionals in *. rewrite Hf in c1.
    assert (G : forall (a : list string) (l : list (string * factor xnum)) q, NoDup (a ++ map fst l) -> NoDup (a ++ map fst (filter q l))).
    { clear. intros a l q. induction a as [|x a IH]; simpl.
      - induction l as [|y l IH]; simpl; auto. intros H. inversion H; subst. destruct (q y); simpl; auto. constructor; auto. intros Hc. apply H2. apply in_map_iff in Hc. destruct Hc as (z & <- & Hz). apply filter_In in Hz. apply in_map. tauto.
      - intros H. inversion H; subst. constructor; auto. rewrite in_app_iff in *. intros [Hc|Hc]; apply H2; auto. right. apply in_map_iff in Hc. destruct Hc as (z & <- & Hz). apply filter_In in Hz. apply in_map. tauto. }
    apply G. auto.
  - intros v Hv Ht. rewrite Hin. specialize (c2 v Hv Ht). simpl in c2. tauto.
  - destruct c3 as (rank & H1 & H2). exists rank. split; auto. intros e q x He _. apply H2; auto.
  - auto.
  - intros e q s He _. apply c5; auto.
Qed.

Lemma mass_option i : causal n (fun _ => false) [] -> (i < num_outcomes vars d)%nat ->
  mass n aside (fun s => agrees vars ev s && (s d =? i)%nat) = mass n aside (fun s => agrees vars ev s && (s d =? 0)%nat).
Proof.
  intros Hca0 Hi. pose proof (causal_aside Hca0) as Hca. pose proof d_decision as Hdd.
  destruct own_outcomes as (vd & Hvd & Ed & Htd & Eo).
  destruct (dn_order _ Hdn) as (rank & Hrank).
  set (drop := fun x => negb ((rank x <? rank d)%nat || String.eqb x d)).
  assert (Hdrop : forall x, drop x = false <-> (rank x < rank d)%nat \/ x = d).
  { intros x. unfold drop. rewrite negb_false_iff, orb_true_iff, Nat.ltb_lt, String.eqb_eq. tauto. }
  assert (Hobs : forall x, In x (observed_by n d) -> (rank x < rank d)%nat).
  { intros x Hx. destruct (observed_in n x d Hx) as (f & Hf & Ef & Hg). rewrite <- Ef. apply (Hrank f x Hf); auto. rewrite Ef. apply (decision_known n Hps) in Hdd. destruct Hdd as [_ ->]. discriminate. }
  assert (Hsc : forall v y, In v (fixed_vars n set_aside) -> (rank (nv_name v) < rank d)%nat -> In y (scope_of n aside (nv_name v)) -> (rank y < rank d)%nat).
  { intros v y Hv Hr [<-|Hy]; auto. unfold parents_of in Hy. apply in_app_iff in Hy. destruct Hy as [Hy|Hy]; apply in_flat_map in Hy; destruct Hy as (f & Hf & Hy); apply filter_In in Hf; destruct Hf as [Hf Ef].
    - apply String.eqb_eq in Ef. unfold chance_factors in Hf. apply filter_In in Hf. destruct Hf as [Hf Hk]. apply Nat.lt_trans with (rank (nf_for f)); [|rewrite Ef; auto].
      apply (Hrank f y Hf); auto. destruct (kind vars (nf_for f)) as [[]|]; congruence.
    - destruct f as [e q]. cbn [fst snd] in *. apply andb_prop in Ef. destruct Ef as [Ef _]. apply String.eqb_eq in Ef. subst e. apply filter_In in Hy. destruct Hy as [Hy Hne].
      apply negb_true_iff, String.eqb_neq in Hne. destruct (ps_policy n Hps _ q Hf) as [_ Hincl]. destruct (Hincl y Hy) as [Hc|Ho]; [congruence|].
      destruct (observed_in n y _ Ho) as (g & Hg & Eg & Hgy). apply Nat.lt_trans with (rank (nv_name v)); auto. rewrite <- Eg. apply (Hrank g y Hg); auto. rewrite Eg.
      apply (policy_decision n Hps) in Hf. destruct Hf as [Hf _]. apply (decision_known n Hps) in Hf. destruct Hf as [_ ->]. discriminate. }
  set (kept := filter (fun v => negb (drop (nv_name v))) (worldly_vars n)).
  set (wt := weight_of_conds (map (cond_of n aside) (filter (fun v => negb (drop (nv_name v))) (fixed_vars n set_aside)))).
  assert (Hfix : forall v, In v (fixed_vars n set_aside) -> drop (nv_name v) = false -> (rank (nv_name v) < rank d)%nat).
  { intros v Hv Hk. apply Hdrop in Hk. destruct Hk as [Hk|Hk]; auto. exfalso. apply in_fixed_vars in Hv. destruct Hv as (_ & _ & Hv). apply Hv. unfold set_aside. apply filter_In.
    rewrite Hk. split; auto. unfold aside. rewrite String.eqb_refl, orb_true_r. auto. }
  assert (HM : forall i, mass n aside (fun s => agrees vars ev s && (s d =? i)%nat) = nsum (fun s => flag (agrees vars ev s && (s d =? i)%nat) * wt s)%Qc kept nowhere).
  { intros i'. unfold kept, wt. apply (mass_drop n Hwf aside set_aside Hca).
    - intros x Hx. unfold set_aside in Hx. apply filter_In in Hx. destruct Hx as [_ Hx]. unfold aside in Hx. apply orb_prop in Hx. apply Hdrop. destruct Hx as [Hx|Hx].
      + left. apply Hobs. apply key_observed. auto.
      + right. apply String.eqb_eq. auto.
    - intros v y Hv Hk Hy. apply Hdrop. left. apply (Hsc v y); auto.
    - intros s s' H. rewrite (agrees_observed ev s s'), (H d); auto; [apply Hdrop; auto|]. intros x Hx. apply H. apply Hdrop. left. apply Hobs. apply Hall. auto. }
  assert (Hwt : looks_at wt (fun y => y <> d)).
  { apply weight_good with (vars := vars).
    - intros c Hc. apply in_map_iff in Hc. destruct Hc as (v & <- & Hv). apply filter_In in Hv. destruct Hv as [Hv _]. apply (cond_of_good n Hwf aside set_aside Hca). auto.
    - intros c y Hc Hy. apply in_map_iff in Hc. destruct Hc as (v & <- & Hv). apply filter_In in Hv. destruct Hv as [Hv Hk]. apply negb_true_iff in Hk.
      assert (rank y < rank d)%nat by (apply (Hsc v y); auto). intros ->. lia. }
  assert (Hvk : In vd kept).
  { unfold kept. apply filter_In. split. apply in_worldly_vars. split; auto. congruence. rewrite Ed. apply negb_true_iff. apply Hdrop. auto. }
  assert (Hkn : NoDup (map nv_name kept)) by (apply names_filter; apply worldly_names; auto).
  apply in_split in Hvk. destruct Hvk as (l1 & l2 & Ek).
  assert (Hpk : Permutation kept (vd :: l1 ++ l2)) by (rewrite Ek; apply Permutation_sym, Permutation_middle).
  assert (Hdn' : ~ In d (map nv_name (l1 ++ l2))).
  { apply (Permutation_NoDup (Permutation_map nv_name Hpk)) in Hkn. cbn [map] in Hkn. rewrite Ed in Hkn. inversion Hkn; auto. }
  set (G := fun s => (flag (agrees vars ev s) * wt s)%Qc).
  assert (HG : looks_at G (fun y => y <> d)).
  { apply looks_mult; auto. intros s s' H. f_equal. apply agrees_observed. intros x Hx. apply H. intros ->. apply has_key_spec in Hx. rewrite d_unobserved in Hx. discriminate. }
  assert (HV : forall i, (i < num_outcomes vars d)%nat -> mass n aside (fun s => agrees vars ev s && (s d =? i)%nat) = nsum G (l1 ++ l2) nowhere).
  { intros i' Hi'. rewrite HM. rewrite (nsum_perm _ kept (vd :: l1 ++ l2)); auto.
    2:{ apply looks_proper with (P := fun _ => True). intros s s' H. rewrite (agrees_observed ev s s'), (H d) by auto. f_equal. apply Hwt. auto. }
    rewrite nsum_cons, Ed. rewrite <- (Qcmult_1_r (nsum G (l1 ++ l2) nowhere)), <- (sum_flag (num_outcomes vars d) i' Hi'), <- qsum_scale, Eo. apply qsum_ext. intros k _.
    transitivity (nsum (fun s => flag (k =? i')%nat * G s)%Qc (l1 ++ l2) (nupd nowhere d k)).
    - apply nsum_ext. intros s' Hs'. rewrite (joint_states_same _ _ _ d Hs' Hdn'). unfold nupd. rewrite String.eqb_refl. unfold G. destruct (agrees vars ev s'), (k =? i')%nat; unfold flag; simpl; ring.
    - rewrite nsum_scale, Qcmult_comm. f_equal. apply (nsum_looks G _ (l1 ++ l2) HG). intros y [Hy _]. unfold nupd. destruct (String.eqb_spec y d); auto. contradiction. }
  rewrite !HV; auto. lia.
Qed.

End Advice.

(** ** At the API *)

Section Api.
Variables (n n' : network xnum) (tables : list (string * nfactor xnum)).
Hypothesis Hs : policies_solved n n' tables.
Let Hps := sv_partly _ _ _ Hs.
Let Hwf' : wf_network n' := dn_wf _ (ps_net n' Hps).

Lemma solved_all : solved n'.
Proof.
  intros v Hv Ht. destruct (has_key (n_policies n') (nv_name v)) eqn:E; auto. exfalso. assert (Ho : In (nv_name v) (open_ones n')).
  { apply filter_In. split; [|rewrite E; auto]. apply in_map. apply filter_In. split; auto. unfold is_kind. rewrite Ht. auto. }
  rewrite (sv_open _ _ _ Hs) in Ho. destruct Ho.
Qed.

Lemma utility_at sc ig ev : valid_observations n ev -> exists n'' f, net_solve_utility sc n' ev [] "" ig = (n'', Ok f) /\ f_vars f = [] /\
  f_data f = [Fin (sum_over n' (fun s => joint n' (ignored_by ig ev) s * utility_of n' s)%Qc (agrees (n_vars n') ev))].
Proof.
  intros Hv. apply (observations_same n n' tables Hs) in Hv.
  destruct (dn_utilities _ (ps_net _ Hps)) as [Hpl Hso].
  destruct (solve_utility_factor n' Hwf' sc ig ev [] (solved_complete n n' tables Hs) Hpl Hso Hv) as (n'' & f & E & Hr); [intros q []|].
  exists n'', f. split; auto.
  assert (Hnames : f_vars f = []).
  { destruct (f_vars f) as [|v l] eqn:Ef; auto. exfalso.
    pose proof (rf_names _ _ _ _ _ _ _ Hr) as Hn. unfold factor_names in Hn. rewrite Ef in Hn.
    destruct (Hn _ (or_introl eq_refl)) as (_ & _ & t & Ht & [[_ []]|[_ [[]|Ho]]]).
    assert (Hop : exists d, open_decision n' d) by (destruct Ho as [Ho|(g & _ & Ho & _)]; eauto).
    destruct Hop as (d & Hd1 & Hd2). unfold kind in Hd1. destruct (var_named (n_vars n') d) as [w|] eqn:Ew; [|discriminate].
    apply (var_named_in n' Hwf') in Ew. destruct Ew as [Hw <-]. simpl in Hd1. inversion Hd1 as [Hty]. rewrite (solved_all w Hw Hty) in Hd2. discriminate. }
  split; auto. destruct (rf_value _ _ _ _ _ _ _ Hr) as (c & Hc & Hc1 & Hval).
  assert (Ec : c = 1%Qc).
  { apply Hc1. intros v Hvin Ht Hne. left. apply (mentioned_solved n' Hwf' (ignored_by ig ev) ev v); auto. apply (solved_complete n n' tables Hs). apply solved_all.
    intros x Hx. unfold ignored_by in Hx. apply andb_prop in Hx. apply has_key_spec. tauto. }
  assert (Hs0 : proper_state n' nowhere).
  { intros v Hvin. unfold nowhere. pose proof (wn_outcomes n' Hwf' v Hvin) as H0. unfold zlen in H0. lia. }
  specialize (Hval nowhere Hs0). rewrite Ec, Qcmult_1_l in Hval. unfold factor_names in Hval. rewrite Hnames in Hval. cbn [map same_on forallb] in Hval.
  rewrite (denotes_data f (value f) (positions (n_vars n') nowhere) (rf_wf _ _ _ _ _ _ _ Hr)), Hnames.
  2:{ intros a Ha. destruct (rf_finite _ _ _ _ _ _ _ Hr a Ha) as (q & Eq). unfold value. rewrite Eq. auto. }
  cbn [worlds map]. do 2 f_equal. unfold factor_value in Hval. rewrite Hval. unfold sum_over. do 2 f_equal. apply filter_ext. intros s. apply andb_true_r.
Qed.

Lemma aside_option ev d o x : ignored_by true (ev ++ [(d, o)]) x = aside d ev x.
Proof.
  unfold ignored_by, aside. cbn [andb]. apply eq_true_iff_eq. rewrite orb_true_iff, !has_key_spec, map_app, in_app_iff, String.eqb_eq. cbn [map fst In]. intuition.
Qed.
Lemma joint_option ev d o s : joint n' (ignored_by true (ev ++ [(d, o)])) s = joint n' (aside d ev) s.
Proof. unfold joint. f_equal. f_equal. f_equal. apply filter_ext. intros x. rewrite aside_option. auto. Qed.

Theorem advice d v ev i j oi oj f s : var_named (n_vars n) d = Some v -> nv_type v = Decision -> nth_error (nv_outcomes v) i = Some oi -> nth_error (nv_outcomes v) j = Some oj ->
  valid_observations n ev -> (forall x, In x (map fst ev) <-> In x (observed_by n d)) -> sget_map tables d = Some f ->
  proper_state n s -> agrees (n_vars n) (ev ++ [(d, oi)]) s = true -> entry (n_vars n) f s <> 0%Qc ->
  forall sc1 sc2, exists n1 f1 ui n2 f2 uj,
    net_solve_utility sc1 n' (ev ++ [(d, oi)]) [] "" true = (n1, Ok f1) /\ f_vars f1 = [] /\ f_data f1 = [Fin ui] /\
    net_solve_utility sc2 n' (ev ++ [(d, oj)]) [] "" true = (n2, Ok f2) /\ f_vars f2 = [] /\ f_data f2 = [Fin uj] /\ (uj <= ui)%Qc /\
    table_mass n tables (ignored_by true (ev ++ [(d, oj)])) (agrees (n_vars n) (ev ++ [(d, oj)])) =
    table_mass n tables (ignored_by true (ev ++ [(d, oi)])) (agrees (n_vars n) (ev ++ [(d, oi)])).
Proof.
  intros Ev Ht Hi Hj Hev Hall Ef Hss Hag Hen sc1 sc2. destruct (sv_base _ _ _ Hs) as (E1 & E2 & _).
  assert (Hss' : proper_state n' s) by (apply (proper_same n n' tables Hs); auto). rewrite <- E1 in Ev, Hag, Hen |- *. pose proof Ev as Ev'.
  assert (Hin' : In v (n_vars n') /\ nv_name v = d) by (apply (var_named_in n' Hwf'); auto). destruct Hin' as [Hv' Nv'].
  assert (Hdd' : In d (decisions n')). { rewrite <- Nv'. apply in_map. apply filter_In. split; auto. unfold is_kind. rewrite Ht. auto. }
  assert (Eobs : observed_by n' d = observed_by n d) by (unfold observed_by; rewrite E2; auto).
  destruct (all_solved n' (sv_open _ _ _ Hs) d Hdd') as (p & Hp).
  destruct (sv_tables _ _ _ Hs d p Hp) as (f' & Ef' & Hpt). assert (f' = f) by congruence. subst f'.
  assert (Hev' : valid_observations n' ev) by (apply (observations_same n n' tables Hs); auto).
  assert (Hall' : forall x, In x (map fst ev) <-> In x (observed_by n' d)) by (rewrite Eobs; auto).
  assert (Ed : ~ In d (map fst ev)) by (rewrite Hall'; apply (not_itself n' Hps); auto).
  assert (Hnd : NoDup (nv_outcomes v)) by (apply (wn_distinct _ Hwf' v); auto).
  assert (Hsplit : forall k o s, nth_error (nv_outcomes v) k = Some o -> agrees (n_vars n') (ev ++ [(d, o)]) s = agrees (n_vars n') ev s && (s d =? k)%nat).
  { intros k o s' Hk. unfold agrees. rewrite forallb_app. f_equal. cbn [forallb]. rewrite Ev', andb_true_r. destruct (nth_error (nv_outcomes v) (s' d)) as [o'|] eqn:Eo.
    - apply eq_true_iff_eq. rewrite String.eqb_eq, Nat.eqb_eq. split; [|congruence]. intros ->. apply (proj1 (NoDup_nth_error _) Hnd); [apply nth_error_Some; congruence|congruence].
    - symmetry. apply Nat.eqb_neq. intros <-. congruence. }
  assert (Hvo : forall k o, nth_error (nv_outcomes v) k = Some o -> valid_observations n (ev ++ [(d, o)])).
  { intros k o Hk. destruct Hev as [H1 H2]. split.
    - rewrite map_app. cbn [map fst]. apply (Permutation_NoDup (Permutation_cons_append _ _)). constructor; auto.
    - intros x o' Hin. apply in_app_iff in Hin. destruct Hin as [Hin|[Hin|[]]]; auto. injection Hin as <- <-. exists v. split; [rewrite <- E1; auto|]. split; [congruence|]. eapply nth_error_In; eauto. }
  assert (Hlt : forall k o, nth_error (nv_outcomes v) k = Some o -> (k < num_outcomes (n_vars n') d)%nat).
  { intros k o Hk. unfold num_outcomes. rewrite Ev'. apply nth_error_Some. congruence. }
  rewrite (Hsplit i oi) in Hag by auto. apply andb_prop in Hag. destruct Hag as [Hag Hsi]. apply Nat.eqb_eq in Hsi.
  destruct (utility_at sc1 true _ (Hvo i oi Hi)) as (n1 & f1 & C1 & D1 & F1). destruct (utility_at sc2 true _ (Hvo j oj Hj)) as (n2 & f2 & C2 & D2 & F2).
  assert (Hval : forall k o, nth_error (nv_outcomes v) k = Some o ->
    sum_over n' (fun s => joint n' (ignored_by true (ev ++ [(d, o)])) s * utility_of n' s)%Qc (agrees (n_vars n') (ev ++ [(d, o)])) = option_value n' d ev k).
  { intros k o Hk. unfold option_value, sum_over. erewrite filter_ext by (intros; apply (Hsplit k o); auto). f_equal. apply map_ext. intros s'. rewrite joint_option. auto. }
  rewrite (Hval i oi Hi) in F1. rewrite (Hval j oj Hj) in F2.
  exists n1, f1, (option_value n' d ev i), n2, f2, (option_value n' d ev j). split; auto. split; auto. split; auto. split; auto. split; auto. split; auto. split.
  - apply (chosen_best n' Hps (sv_open _ _ _ Hs) (sv_advised _ _ _ Hs) d p ev Hp Hev' Hall' s); auto. eapply Hlt; eauto. eapply Hlt; eauto.
    rewrite (pt_value _ _ _ _ Hpt s Hss') in Hen. intros Hc. apply Hen. rewrite <- Hc. apply (pf_observed _ _ _ (proj1 (ps_policy n' Hps d p Hp))). intros y _. unfold nupd.
    destruct (String.eqb_spec y d) as [->|]; auto.
  - rewrite <- !(mass_tables n n' tables Hs).
    assert (Hm : forall k o, nth_error (nv_outcomes v) k = Some o -> mass n' (ignored_by true (ev ++ [(d, o)])) (agrees (n_vars n') (ev ++ [(d, o)])) = mass n' (aside d ev) (fun s => agrees (n_vars n') ev s && (s d =? 0)%nat)).
    { intros k o Hk. rewrite <- (mass_option n' Hps d p ev Hp Hall' s Hag k (solved_causal n n' tables Hs)) by (eapply Hlt; eauto). unfold mass.
      erewrite filter_ext by (intros; apply (Hsplit k o); auto). f_equal. apply map_ext. intros s'. apply joint_option. }
    rewrite (Hm j oj Hj), (Hm i oi Hi). auto.
Qed.
End Api.
