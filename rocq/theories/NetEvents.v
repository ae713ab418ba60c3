(** Sums over events in which some variables are pinned. *)
From Coq Require Import ZArith List Bool String Lia Permutation QArith Qcanon.
From Verif Require Import Num GoBase VarModel GoFacts Tuples SpecFactor FactorFacts FactorAt XnumFacts ExactFactor FactorThms
  VEModel SpecVE VEWorlds VEFacts VESolve VEThms VEUtil NetModel SpecNet NetVars NetFactors NetVE NetSums NetQuery.
Import ListNotations.
Open Scope string_scope.
Open Scope list_scope.
Open Scope Z_scope.

Section NE.
Variable n : network xnum.
Hypothesis Hwf : wf_network n.
Notation vars := (n_vars n).
Notation vv := (vv n).
Notation by_name := (by_name n).
Notation known := (known n).
Notation V := (net_vars n).

Lemma sum_total F event : nproper F -> (forall s s', (forall y, s y = s' y) -> event s = event s') ->
  sum_over n F event = total (fun a => if event (by_name a) then F (by_name a) else 0%Qc) (worldly n) zero_asg.
Proof.
  intros Hj He. unfold sum_over. rewrite qsum_filter. unfold worlds_of. fold (non_utility n).
  rewrite (worldly_net n Hwf).
  rewrite (joint_states_total n Hwf (non_utility n) (non_utility_not_total n Hwf) (fun s => if event s then F s else 0%Qc) nowhere zero_asg); auto.
  - intros s s' E. rewrite (He s s' E), (Hj s s' E). auto.
  - intros y. unfold by_name, NetFactors.by_name. destruct (lookup n y); auto.
Qed.

Lemma worldly_known x : known x -> v_type (vv x) <> Utility -> In (vv x) (worldly n).
Proof. intros Hk Hty. unfold worldly. apply filter_In. split; [apply vv_in; auto|]. destruct (v_type (vv x)); auto; congruence. Qed.

Lemma in_worldly v : In v (worldly n) <-> In v V /\ v_type v <> Utility.
Proof. unfold worldly. rewrite filter_In, negb_true_iff. destruct (v_type v); simpl; intuition congruence. Qed.

(** A pinned variable as an observation. *)
Definition pin (s0 : nstate) (x : string) : evidence := mkEv (vv x) (Z.of_nat (s0 x)).

Lemma ind_app e1 e2 a : ind (e1 ++ e2) a = ind e1 a && ind e2 a.
Proof. unfold ind. apply forallb_app. Qed.

Lemma is_evidence_app e1 e2 v : is_evidence (e1 ++ e2) v = is_evidence e1 v || is_evidence e2 v.
Proof. unfold is_evidence. apply existsb_app. Qed.

Lemma plug_app e1 e2 a : plug (e1 ++ e2) a = plug e1 (plug e2 a).
Proof. unfold plug. apply fold_right_app. Qed.

Lemma is_evidence_pin s0 names v : is_evidence (map (pin s0) names) v = true <-> exists x, In x names /\ v_id (vv x) = v_id v.
Proof.
  unfold is_evidence. rewrite existsb_exists. split.
  - intros (e & He & E). apply in_map_iff in He. destruct He as (x & <- & Hx). apply Z.eqb_eq in E. eauto.
  - intros (x & Hx & E). exists (pin s0 x). split; [apply in_map; auto|]. apply Z.eqb_eq. auto.
Qed.

Lemma ind_pins s0 names a : (forall x, In x names -> known x) -> ind (map (pin s0) names) a = same_on names s0 (by_name a).
Proof.
  intros Hk. unfold same_on. induction names as [|x l IH]; auto. cbn [map ind forallb]. 
  change (forallb (fun e => (a (v_id (ev_var e)) =? Z.to_nat (ev_value e))%nat) (map (pin s0) l)) with (ind (map (pin s0) l) a).
  rewrite IH by (intros; apply Hk; simpl; auto). f_equal. unfold pin. cbn [ev_var ev_value].
  rewrite Nat2Z.id, (by_name_vv n Hwf); auto. apply Hk. simpl; auto.
Qed.

Lemma same_on_proper names s0 s s' : (forall y, s y = s' y) -> same_on names s0 s = same_on names s0 s'.
Proof. intros E. unfold same_on. induction names; simpl; auto. rewrite IHnames, E. auto. Qed.

Record pinned (ev' : list (string * string)) (names : list string) (s0 : nstate) : Prop := {
  pn_nodup : NoDup names;
  pn_known : forall x, In x names -> known x /\ v_type (vv x) <> Utility;
  pn_range : forall x, In x names -> (s0 x < v_outcomes (vv x))%nat;
  pn_free : forall x, In x names -> is_evidence (map (obs n) ev') (vv x) = false
}.

Definition start (ev' : list (string * string)) (names : list string) (s0 : nstate) : asg :=
  plug (map (obs n) ev' ++ map (pin s0) names) zero_asg.

Lemma plug_in evs a e : NoDup (map (fun e => v_id (ev_var e)) evs) -> In e evs -> plug evs a (v_id (ev_var e)) = Z.to_nat (ev_value e).
Proof.
  induction evs as [|f r IH]; intros Hd Hin; [destruct Hin|]. inversion Hd; subst. simpl. destruct Hin as [->|Hin].
  - apply upd_same.
  - rewrite upd_other; auto. intros E. apply H1. rewrite <- E. apply in_map_iff. exists e. auto.
Qed.

Lemma pins_nodup ev' names s0 : valid_observations n ev' -> pinned ev' names s0 ->
  NoDup (map (fun e => v_id (ev_var e)) (map (obs n) ev' ++ map (pin s0) names)).
Proof.
  intros Hv' Hp. rewrite map_app. apply NoDup_app_intro.
  - apply (obs_nodup n Hwf); auto.
  - rewrite map_map. unfold pin. cbn [ev_var]. 
    assert (G : forall l, incl l names -> NoDup l -> NoDup (map (fun x => v_id (vv x)) l)).
    { induction l as [|x l IH]; intros Hi Hd; simpl; constructor; inversion Hd; subst.
      - intros H. apply in_map_iff in H. destruct H as (y & E & Hy). apply H1. replace x with y; auto. apply (vv_inj n Hwf); auto; apply (pn_known _ _ _ Hp); apply Hi; simpl; auto.
      - apply IH; auto. intros y Hy. apply Hi. simpl; auto. }
    apply G; [apply incl_refl|apply Hp].
  - intros id H1 H2. rewrite map_map in H2. apply in_map_iff in H2. destruct H2 as (x & E & Hx). unfold pin in E. cbn [ev_var] in E.
    pose proof (pn_free _ _ _ Hp x Hx) as Hf. apply not_true_iff_false in Hf. apply Hf.
    apply in_map_iff in H1. destruct H1 as (e & E1 & He). apply existsb_exists. exists e. split; auto. apply Z.eqb_eq. congruence.
Qed.

Lemma pins_valid ev' names s0 : valid_observations n ev' -> pinned ev' names s0 ->
  forall e, In e (map (obs n) ev' ++ map (pin s0) names) -> In (ev_var e) (worldly n) /\ 0 <= ev_value e < v_out (ev_var e).
Proof.
  intros Hv' Hp e He. apply in_app_iff in He. destruct He as [He|He]; [apply (obs_valid n Hwf ev' Hv'); auto|].
  apply in_map_iff in He. destruct He as (x & <- & Hx). destruct (pn_known _ _ _ Hp x Hx) as [Hk Hty]. unfold pin, v_out. cbn [ev_var ev_value].
  split; [apply worldly_known; auto|]. pose proof (pn_range _ _ _ Hp x Hx). lia.
Qed.

Lemma start_range ev' names s0 : valid_observations n ev' -> pinned ev' names s0 -> in_range V (start ev' names s0).
Proof.
  intros Hv' Hp. apply plug_range; [apply net_vars_wf| |apply zero_range; apply (V_pos n Hwf)].
  intros e He. destruct (pins_valid ev' names s0 Hv' Hp e He) as [H1 H2]. apply in_worldly in H1. tauto.
Qed.

Lemma start_pin ev' names s0 x : valid_observations n ev' -> pinned ev' names s0 -> In x names -> start ev' names s0 (v_id (vv x)) = s0 x.
Proof.
  intros Hv' Hp Hx. unfold start. pose proof (plug_in _ zero_asg (pin s0 x) (pins_nodup ev' names s0 Hv' Hp)) as H.
  change (v_id (vv x)) with (v_id (ev_var (pin s0 x))). rewrite H; [apply Nat2Z.id|]. apply in_app_iff. right. apply in_map. auto.
Qed.

Lemma start_plug ev' names s0 : valid_observations n ev' -> pinned ev' names s0 -> asg_eq (plug (map (obs n) ev') (start ev' names s0)) (start ev' names s0).
Proof.
  intros Hv' Hp. unfold start. rewrite plug_app. generalize (plug (map (pin s0) names) zero_asg). intros a.
  pose proof (obs_nodup n Hwf ev' Hv') as Hd. intros y.
  destruct (existsb (fun e => v_id (ev_var e) =? y) (map (obs n) ev')) eqn:E.
  - apply existsb_exists in E. destruct E as (e & He & Ey). apply Z.eqb_eq in Ey. subst y. rewrite !plug_in; auto.
  - rewrite plug_other; auto. intros e He Ey. apply not_true_iff_false in E. apply E. apply existsb_exists. exists e. split; auto. apply Z.eqb_eq. auto.
Qed.

(** The variables that are neither observed nor pinned. *)
Definition loose (ev' : list (string * string)) (names : list string) : list variable :=
  filter (fun v => negb (is_evidence (map (obs n) ev' ++ map (pin nowhere) names) v)) (worldly n).

Lemma is_evidence_pin_any s0 s1 names v : is_evidence (map (pin s0) names) v = is_evidence (map (pin s1) names) v.
Proof. apply eq_true_iff_eq. rewrite !is_evidence_pin. tauto. Qed.

Lemma in_loose ev' names v : In v (loose ev' names) <->
  In v (worldly n) /\ is_evidence (map (obs n) ev') v = false /\ ~ exists x, In x names /\ v_id (vv x) = v_id v.
Proof.
  unfold loose. rewrite filter_In, negb_true_iff, is_evidence_app, orb_false_iff. rewrite <- (is_evidence_pin nowhere), not_true_iff_false. tauto.
Qed.

Lemma loose_wf ev' names : wf_vars (loose ev' names).
Proof. unfold loose, wf_vars. apply NoDup_filter_map. apply (worldly_wf n). Qed.

(** The loose variables that are not in [H]. *)
Definition rest (ev' : list (string * string)) (names : list string) (H : list variable) : list variable :=
  filter (fun v => negb (contains_id H (v_id v))) (loose ev' names).

Lemma in_rest ev' names H v : incl H (loose ev' names) -> (In v (rest ev' names H) <-> In v (loose ev' names) /\ ~ In v H).
Proof.
  intros Hi. unfold rest. rewrite filter_In, negb_true_iff, <- not_true_iff_false. split; intros [H1 H2]; split; auto; intros H3; apply H2.
  - apply existsb_exists. exists v. split; auto. apply Z.eqb_refl.
  - apply existsb_exists in H3. destruct H3 as (u & Hu & E). apply Z.eqb_eq in E. replace v with u; auto.
    apply (wf_vars_inj (loose ev' names)); auto. apply loose_wf.
Qed.

Theorem event_total F Fa ev ev' names s0 H :
  nproper F -> proper Fa -> (forall a, in_range V a -> (forall v, In v V -> v_type v = Utility -> a (v_id v) = 0%nat) -> Fa a = F (by_name a)) ->
  Permutation ev ev' -> valid_observations n ev -> pinned ev' names s0 ->
  NoDup H -> incl H (loose ev' names) ->
  (forall v, In v (loose ev' names) -> ~ In v H -> ignores Fa (v_id v)) ->
  sum_over n F (fun s => agrees vars ev s && same_on names s0 s) = (volume (rest ev' names H) * total Fa H (start ev' names s0))%Qc.
Proof.
  intros HF HFa Heq Hpe Hv Hp HHd HHi Hign. pose proof (perm_observations n _ _ Hpe Hv) as Hv'.
  set (evs := map (obs n) ev' ++ map (pin s0) names) in *.
  set (D := loose ev' names) in *.
  assert (dec : forall u v : variable, {u = v} + {u <> v}) by (repeat decide equality).
  set (U := rest ev' names H).
  assert (HU : forall v, In v U <-> In v D /\ ~ In v H) by (intros v; apply in_rest; auto).
  assert (HDe : filter (fun v => negb (is_evidence evs v)) (worldly n) = D).
  { unfold D, loose. apply filter_ext. intros v. unfold evs. rewrite !is_evidence_app, (is_evidence_pin_any s0 nowhere). auto. }
  assert (HDW : incl D (worldly n)) by (intros v H0; apply in_loose in H0; tauto).
  assert (HDV : incl D V) by (intros v H0; apply HDW in H0; apply in_worldly in H0; tauto).
  assert (HperD : Permutation D (H ++ U)).
  { apply NoDup_Permutation.
    - eapply NoDup_map_inv. apply loose_wf.
    - apply NoDup_app_intro; auto.
      + unfold U, rest. apply NoDup_filter. eapply NoDup_map_inv. apply loose_wf.
      + intros v H1 H2. apply HU in H2. tauto.
    - intros v. rewrite in_app_iff, HU. destruct (in_dec dec v H); intuition. }
  rewrite sum_total; auto.
  2:{ intros s s' E. rewrite (agrees_proper n ev s s' E), (same_on_proper names s0 s s' E). auto. }
  set (G := fun a => F (by_name a)).
  assert (HG : proper G) by (intros a b E; apply HF; apply by_name_proper; auto).
  rewrite (total_ext _ (fun a => if ind evs a then G a else 0%Qc)).
  2:{ intros w _. unfold evs. rewrite ind_app, ind_pins by (intros; apply (pn_known _ _ _ Hp); auto).
      rewrite <- (agrees_ind n Hwf ev') by auto. unfold agrees. rewrite (forallb_perm _ ev ev') by auto. auto. }
  rewrite (total_ind evs (worldly n) G); auto; [|apply (worldly_wf n)|apply pins_nodup; auto|apply pins_valid; auto].
  rewrite HDe. rewrite (total_plug G evs D HG); [|intros v H0; apply in_loose in H0].
  2:{ unfold evs. rewrite is_evidence_app. apply orb_false_iff. split; [tauto|]. apply not_true_iff_false. rewrite is_evidence_pin. tauto. }
  fold (start ev' names s0). change (plug evs zero_asg) with (start ev' names s0).
  set (a0 := start ev' names s0).
  assert (Ha0 : in_range V a0) by (apply start_range; auto).
  assert (Hz : forall v, In v V -> v_type v = Utility -> a0 (v_id v) = 0%nat).
  { intros v Hin Hty. unfold a0, start. rewrite plug_other; auto. intros e He E. destruct (pins_valid ev' names s0 Hv' Hp e He) as [H1 _].
    apply in_worldly in H1. destruct H1 as [H1 H2]. apply H2. rewrite <- Hty. f_equal. apply (wf_vars_inj V); auto. apply net_vars_wf. }
  assert (Hzw : forall w, In w (worlds D a0) -> forall v, In v V -> v_type v = Utility -> w (v_id v) = 0%nat).
  { assert (K : forall L, incl L D -> forall a, (forall v, In v V -> v_type v = Utility -> a (v_id v) = 0%nat) -> forall w, In w (worlds L a) ->
      forall v, In v V -> v_type v = Utility -> w (v_id v) = 0%nat).
    { induction L as [|x L IH]; intros Hi a Ha w Hw; simpl in Hw.
      - destruct Hw as [<-|[]]. auto.
      - apply in_flat_map in Hw. destruct Hw as (k & _ & Hw). eapply IH; [| |apply Hw]; [intros y Hy; apply Hi; simpl; auto|].
        intros v Hin Hty. rewrite upd_other; auto. intros E. assert (Hx : In x D) by (apply Hi; simpl; auto).
        assert (x = v) by (apply (wf_vars_inj V); auto; apply net_vars_wf). subst x. apply HDW in Hx. apply in_worldly in Hx. tauto. }
    apply K; auto. apply incl_refl. }
  rewrite (total_ext G Fa D a0).
  2:{ intros w Hw. unfold G. symmetry. apply Heq; [|apply Hzw; auto]. eapply worlds_range; eauto. apply net_vars_wf. }
  rewrite (total_perm Fa D (H ++ U)); auto; [|apply loose_wf]. rewrite total_app.
  rewrite (total_ext (total Fa U) (fun w => (volume U * Fa w)%Qc)), total_scale; auto.
  intros w _. apply total_volume. intros v Hu. apply HU in Hu. apply Hign; tauto.
Qed.

Lemma positions_vv s x : known x -> positions vars s (v_id (vv x)) = s x.
Proof.
  intros Hk. destruct (lookup_known n Hwf x Hk) as (i & v & Hi & Hn & _ & _ & L). unfold NetFactors.vv. rewrite L.
  unfold positions. cbn [ve_entry en_ve v_id fst]. rewrite Nat2Z.id, Hi. congruence.
Qed.

Theorem solved_factor f F Fa ev ev' names s0 H :
  nproper F -> proper Fa -> (forall a, in_range V a -> (forall v, In v V -> v_type v = Utility -> a (v_id v) = 0%nat) -> Fa a = F (by_name a)) ->
  Permutation ev ev' -> valid_observations n ev -> pinned ev' names s0 ->
  NoDup H -> incl H (loose ev' names) ->
  (forall v, In v (loose ev' names) -> ~ In v H -> ignores Fa (v_id v)) ->
  (forall a, in_range V a -> value f a = total Fa H (plug (map (obs n) ev') a)) ->
  (forall v, In v (f_vars f) -> (v_type v = Utility /\ In v V /\ positions vars s0 (v_id v) = 0%nat) \/ exists x, In x names /\ v = vv x) ->
  sum_over n F (fun s => agrees vars ev s && same_on names s0 s) = (volume (rest ev' names H) * factor_value n f s0)%Qc.
Proof.
  intros HF HFa Heq Hpe Hv Hp HHd HHi Hign Hval Hsc. pose proof (perm_observations n _ _ Hpe Hv) as Hv'.
  rewrite (event_total F Fa ev ev' names s0 H); auto. f_equal.
  rewrite <- (total_proper Fa H HFa _ _ (start_plug ev' names s0 Hv' Hp)), <- Hval by (apply start_range; auto).
  unfold factor_value. apply value_agree. intros v Hin. destruct (Hsc v Hin) as [(Hu & HvV & ->)|(x & Hx & ->)].
  { unfold start. rewrite plug_other; auto. intros e He E. destruct (pins_valid ev' names s0 Hv' Hp e He) as [H1 _].
    apply in_worldly in H1. destruct H1 as [H1 H2]. apply H2. rewrite <- Hu. f_equal. apply (wf_vars_inj V); auto. apply net_vars_wf. }
  rewrite start_pin, positions_vv; auto. apply (pn_known _ _ _ Hp x Hx).
Qed.

End NE.
