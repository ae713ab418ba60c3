(** Networks that leave out details of another network. *)
From Coq Require Import ZArith List Bool String Lia Permutation QArith Qcanon.
From Verif Require Import Num GoBase VarModel GoFacts SpecFactor XnumFacts VEModel SpecVE NetModel SpecNet NetVars NetFactors NetSums NetQuery NetMass NetCor
  SpecGraph StateSums NetGraph NetMarkov NetChange SpecView.
From Verif Require NetNew NetSame.
Import ListNotations.
Open Scope string_scope.
Open Scope list_scope.
Open Scope Z_scope.

(** The state that is [t] for the listed variables and [s0] elsewhere. *)
Definition patched (L : list nvar) (t s0 : nstate) : nstate := fun y => if existsb (String.eqb y) (map nv_name L) then t y else s0 y.
Lemma patched_in L t s0 y : In y (map nv_name L) -> patched L t s0 y = t y.
Proof. intros H. unfold patched. replace (existsb (String.eqb y) (map nv_name L)) with true; auto. symmetry. apply existsb_exists. exists y. split; auto. apply String.eqb_refl. Qed.

(** Only one of the joint states is equal to [t]. *)
Lemma nsum_one G L t : nproper G -> NoDup (map nv_name L) -> (forall v, In v L -> (t (nv_name v) < List.length (nv_outcomes v))%nat) ->
  forall s0, nsum (fun s => if same_on (map nv_name L) t s then G s else 0%Qc) L s0 = G (patched L t s0).
Proof.
  intros HG. induction L as [|v L IH]; intros Hnd Ht s0.
  - rewrite nsum_nil. simpl. apply HG. auto.
  - rewrite nsum_cons. cbn [map] in Hnd. inversion Hnd as [|? ? Hn Hnd']; subst.
    rewrite (qsum_ext _ (fun k => if (k =? t (nv_name v))%nat then G (patched L t (nupd s0 (nv_name v) k)) else 0%Qc)).
    + rewrite qsum_pick by (apply Ht; simpl; auto). apply HG. intros y. unfold patched, nupd. cbn [map existsb].
      destruct (String.eqb_spec y (nv_name v)) as [->|Hy]; cbn [orb]; [destruct (existsb (String.eqb (nv_name v)) (map nv_name L)); auto|auto].
    + intros k _. rewrite <- IH; auto; [|intros w Hw; apply Ht; simpl; auto]. destruct (k =? t (nv_name v))%nat eqn:Ek.
      * apply nsum_ext. intros s' Hs'. unfold same_on. cbn [map forallb]. rewrite (joint_states_same L _ s' (nv_name v) Hs' Hn). unfold nupd. rewrite String.eqb_refl, Ek. auto.
      * transitivity (nsum (fun _ => 0 * 0)%Qc L (nupd s0 (nv_name v) k)); [|rewrite nsum_scale; ring].
        apply nsum_ext. intros s' Hs'. unfold same_on. cbn [map forallb]. rewrite (joint_states_same L _ s' (nv_name v) Hs' Hn). unfold nupd. rewrite String.eqb_refl, Ek. cbn [andb]. ring.
Qed.

Lemma mass_nsum n ign event : mass n ign event = nsum (fun s => if event s then joint n ign s else 0%Qc) (worldly_of (n_vars n)) nowhere.
Proof. unfold mass, nsum. rewrite qsum_filter. reflexivity. Qed.
Lemma same_on_proper names t s s' : (forall y, s y = s' y) -> same_on names t s = same_on names t s'.
Proof. intros E. unfold same_on. induction names as [|x l IH]; simpl; auto. rewrite IH, E. auto. Qed.

Lemma same_on_sym names s t : same_on names s t = same_on names t s.
Proof. unfold same_on. induction names as [|y l IH]; simpl; auto. rewrite IH, Nat.eqb_sym. auto. Qed.

Section View.
Variables (h : grouping) (n n' : network xnum).
Hypothesis Hsy : summary h n n'.
Hypothesis Hwf : wf_network n.
Hypothesis Hwf' : wf_network n'.
Notation L' := (worldly_of (n_vars n')).

Lemma worldly_nodup (m : network xnum) : wf_network m -> NoDup (map nv_name (worldly_of (n_vars m))).
Proof. intros Hm. apply names_filter. apply wn_names. auto. Qed.
Lemma grouped_range s v : proper_state n s -> In v L' -> (grouped h s (nv_name v) < List.length (nv_outcomes v))%nat.
Proof.
  intros Hs Hv. apply filter_In in Hv. destruct Hv as [Hv Hk]. assert (Ht : nv_type v <> Utility) by (unfold is_kind in Hk; destruct (nv_type v); congruence || discriminate).
  destruct (sy_vars _ _ _ Hsy v Hv Ht) as (w & Ew & _ & Hr). apply Hr. pose proof (find_some _ _ Ew) as [Hw En]. apply String.eqb_eq in En. rewrite <- En. apply Hs. auto.
Qed.
(** The weight of an event of the summary. *)
Theorem summary_mass : exists c, c <> 0%Qc /\ forall ign event, looks_event event (fun y => In y (map nv_name L')) ->
  mass n' ign event = (c * mass n ign (fun s => event (grouped h s)))%Qc.
Proof.
  destruct (sy_joint _ _ _ Hsy) as (c & Hc & Hj). exists c. split; auto. intros ign event HE. unfold mass at 1. rewrite qsum_filter.
  rewrite (qsum_ext _ (fun s' => c * qsum (map (fun s => if same_on (map nv_name L') s' (grouped h s) then (if event s' then joint n ign s else 0%Qc) else 0%Qc) (worlds_of n)))%Qc).
  2:{ intros s' Hs'. destruct (event s').
      - rewrite Hj by (apply (world_proper n' Hwf'); auto). f_equal. unfold mass. rewrite qsum_filter. reflexivity.
      - rewrite (qsum_ext _ (fun _ => 0 * 0)%Qc) by (intros s _; destruct (same_on _ _ _); ring). rewrite XnumFacts.qsum_scale. ring. }
  rewrite XnumFacts.qsum_scale. f_equal. rewrite qsum_swap. unfold mass. rewrite qsum_filter. apply qsum_ext. intros s Hs.
  pose proof (world_proper n Hwf s Hs) as Hp.
  transitivity (nsum (fun s' => if same_on (map nv_name L') (grouped h s) s' then (if event s' then joint n ign s else 0%Qc) else 0%Qc) L' nowhere).
  - unfold nsum, worlds_of. apply qsum_ext. intros s' _. replace (same_on (map nv_name L') s' (grouped h s)) with (same_on (map nv_name L') (grouped h s) s'); auto.
    apply same_on_sym.
  - rewrite nsum_one.
    + rewrite (HE (patched L' (grouped h s) nowhere) (grouped h s)); auto. intros y Hy. apply patched_in. auto.
    + intros s1 s2 E. rewrite (HE s1 s2); auto.
    + apply worldly_nodup; auto.
    + intros v Hv. apply grouped_range; auto.
Qed.

(** Evidence. *)
Lemma observation_keys ev ev' : Forall2 (same_observation h n n') ev ev' -> map fst ev' = map fst ev.
Proof. induction 1 as [|a b l l' H _ IH]; simpl; auto. rewrite IH, (proj1 H). auto. Qed.
Lemma observations_agree ev ev' s : Forall2 (same_observation h n n') ev ev' -> proper_state n s -> agrees (n_vars n') ev' (grouped h s) = agrees (n_vars n) ev s.
Proof.
  intros HF Hs. induction HF as [|[x o] [x' o'] l l' H _ IH]; auto. unfold agrees in *. cbn [forallb]. rewrite IH. f_equal.
  destruct H as [E (v & v' & i & Ev & Ev' & Ei & Ej & Hu)]. cbn [fst snd] in *. subst x'. rewrite Ev, Ev'. unfold grouped.
  pose proof (find_some _ _ Ev) as [Hv En]. apply String.eqb_eq in En. assert (Hlt : (s x < List.length (nv_outcomes v))%nat) by (rewrite <- En; apply Hs; auto).
  pose proof (find_some _ _ Ev') as [Hv' En']. apply String.eqb_eq in En'.
  pose proof (proj1 (NoDup_nth_error _) (wn_distinct n Hwf v Hv)) as U. pose proof (proj1 (NoDup_nth_error _) (wn_distinct n' Hwf' v' Hv')) as U'.
  destruct (Nat.eq_dec (s x) i) as [->|Hne].
  - rewrite Ei, Ej, !String.eqb_refl. auto.
  - destruct (nth_error (nv_outcomes v) (s x)) as [o1|] eqn:E1; [|apply nth_error_None in E1; lia].
    assert (o1 <> o). { intros ->. apply Hne. apply U; auto. congruence. }
    destruct (String.eqb_spec o1 o) as [|_]; [contradiction|]. destruct (nth_error (nv_outcomes v') (h x (s x))) as [o2|] eqn:E2; auto.
    destruct (String.eqb_spec o2 o') as [->|]; auto. exfalso. apply Hne. apply Hu; auto. apply U'; [|congruence]. apply nth_error_Some. congruence.
Qed.
Lemma evidence_looks ev ev' : Forall2 (same_observation h n n') ev ev' -> valid_observations n' ev' -> looks_event (agrees (n_vars n') ev') (fun y => In y (map nv_name L')).
Proof.
  intros HF Hv s s' E. apply (agrees_looks n'). intros y Hy. apply E. apply in_map_iff in Hy. destruct Hy as ([z o] & <- & Hz).
  destruct (proj2 Hv z o Hz) as (v & Ev & Ht & _). pose proof (find_some _ _ Ev) as [Hvi En]. apply String.eqb_eq in En. cbn [fst]. rewrite <- En. apply in_map. apply filter_In. split; auto.
  unfold is_kind. destruct (nv_type v); auto; contradiction.
Qed.
Lemma mass_world (m : network xnum) ign p q : (forall s, In s (worlds_of m) -> p s = q s) -> mass m ign p = mass m ign q.
Proof. intros E. unfold mass. f_equal. f_equal. apply filter_ext_in. auto. Qed.
Theorem summary_impossible ev ev' ign : Forall2 (same_observation h n n') ev ev' -> valid_observations n' ev' ->
  mass n' ign (agrees (n_vars n') ev') = 0%Qc <-> mass n ign (agrees (n_vars n) ev) = 0%Qc.
Proof.
  intros HF Hv. destruct summary_mass as (c & Hc & Hm). rewrite Hm by (apply (evidence_looks ev); auto).
  rewrite (mass_world n ign _ (agrees (n_vars n) ev)) by (intros s Hs; apply observations_agree; auto; apply (world_proper n Hwf); auto).
  split; [|intros ->; ring]. intros H. apply Qcmult_integral in H. tauto.
Qed.
Lemma qsum_split (p : nat -> bool) (g : nat -> nstate -> Qc) l m : qsum (map (fun k => qsum (map (g k) l)) (filter p m)) = qsum (map (fun s => qsum (map (fun k => g k s) (filter p m))) l).
Proof. apply qsum_swap. Qed.
Theorem summary_posterior ev ev' ign q j : Forall2 (same_observation h n n') ev ev' -> valid_observations n' ev' -> (exists v, var_named (n_vars n') q = Some v /\ nv_type v <> Utility) ->
  posterior n' ign ev' q j = group_sum (h q) (posterior n ign ev q) (num_outcomes (n_vars n) q) j.
Proof.
  intros HF Hv (vq & Eq & Htq). destruct summary_mass as (c & Hc & Hm). unfold posterior, group_sum.
  assert (Hq : In q (map nv_name L')).
  { pose proof (find_some _ _ Eq) as [Hvi En]. apply String.eqb_eq in En. rewrite <- En. apply in_map. apply filter_In. split; auto. unfold is_kind. destruct (nv_type vq); auto; contradiction. }
  rewrite (Hm ign (agrees (n_vars n') ev')) by (apply (evidence_looks ev); auto).
  rewrite (Hm ign (fun s => agrees (n_vars n') ev' s && (s q =? j)%nat)).
  2:{ intros s s' E. rewrite (E q Hq). f_equal. apply (evidence_looks ev); auto. }
  rewrite (mass_world n ign (fun s => agrees (n_vars n') ev' (grouped h s)) (agrees (n_vars n) ev)) by (intros s Hs; apply observations_agree; auto; apply (world_proper n Hwf); auto).
  set (M := mass n ign (agrees (n_vars n) ev)). unfold Qcdiv.
  rewrite (map_ext _ (fun k => / M * mass n ign (fun s => agrees (n_vars n) ev s && (s q =? k)%nat))%Qc) by (intros k; apply Qcmult_comm). rewrite XnumFacts.qsum_scale.
  replace (qsum (map (fun k => mass n ign (fun s => agrees (n_vars n) ev s && (s q =? k)%nat)) (filter (fun k => (h q k =? j)%nat) (seq 0 (num_outcomes (n_vars n) q)))))
    with (mass n ign (fun s => agrees (n_vars n') ev' (grouped h s) && (grouped h s q =? j)%nat)).
  { destruct (Qc_eq_dec M 0%Qc) as [->|HM]; [|field; auto]. rewrite Qcmult_0_r. replace (/ 0)%Qc with 0%Qc by (apply Qc_is_canon; reflexivity). ring. }
  unfold mass. rewrite (map_ext _ (fun k => qsum (map (fun s => if agrees (n_vars n) ev s && (s q =? k)%nat then joint n ign s else 0%Qc) (worlds_of n)))) by (intros k; apply qsum_filter).
  rewrite qsum_split, qsum_filter. apply qsum_ext. intros s Hs. pose proof (world_proper n Hwf s Hs) as Hp. rewrite (observations_agree ev ev' s HF Hp).
  destruct (agrees (n_vars n) ev s); cbn [andb].
  - rewrite qsum_filter. rewrite (qsum_ext _ (fun k => if (k =? s q)%nat then (if (h q k =? j)%nat then joint n ign s else 0%Qc) else 0%Qc)).
    + rewrite qsum_pick; [reflexivity|]. pose proof (find_some _ _ Eq) as [Hvi En]. apply String.eqb_eq in En. destruct (sy_vars _ _ _ Hsy vq Hvi Htq) as (w & Ew & _). rewrite En in Ew.
      unfold num_outcomes. rewrite Ew. pose proof (find_some _ _ Ew) as [Hw Ewn]. apply String.eqb_eq in Ewn. rewrite <- Ewn. apply Hp. auto.
    + intros k _. rewrite (Nat.eqb_sym k). destruct (h q k =? j)%nat, (s q =? k)%nat; auto.
  - rewrite (qsum_ext _ (fun _ => 0 * 0)%Qc) by (intros; ring). rewrite XnumFacts.qsum_scale. ring.
Qed.
Lemma ignored_same ev ev' ig : Forall2 (same_observation h n n') ev ev' -> forall x, ignored_by ig ev' x = ignored_by ig ev x.
Proof.
  intros HF x. unfold ignored_by. f_equal. pose proof (observation_keys ev ev' HF) as E. destruct (has_key ev x) eqn:E1.
  - apply has_key_spec in E1. apply has_key_spec. rewrite E. auto.
  - destruct (has_key ev' x) eqn:E2; auto. apply has_key_spec in E2. rewrite E in E2. apply has_key_spec in E2. congruence.
Qed.
End View.
Lemma mass_ign (m : network xnum) ign ign' event : (forall x, ign' x = ign x) -> mass m ign' event = mass m ign event.
Proof. intros E. unfold mass. f_equal. apply map_ext. intros s. unfold joint. f_equal. f_equal. f_equal. apply filter_ext. intros dp. rewrite E. auto. Qed.
Lemma posterior_ign (m : network xnum) ign ign' ev q k : (forall x, ign' x = ign x) -> posterior m ign' ev q k = posterior m ign ev q k.
Proof. intros E. unfold posterior. rewrite !(mass_ign m ign ign') by auto. auto. Qed.

(** The sum over the states of the detailed network, with one variable taken out first. *)
Lemma first_out (n : network xnum) vx L F : wf_network n -> nproper F -> Permutation (worldly_of (n_vars n)) (vx :: L) ->
  nsum F (worldly_of (n_vars n)) nowhere = qsum (map (fun k => nsum F L (nupd nowhere (nv_name vx) k)) (seq 0 (List.length (nv_outcomes vx)))).
Proof. intros Hwf HF P. rewrite (nsum_perm F _ (vx :: L) HF P) by (apply worldly_nodup; auto). apply nsum_cons. Qed.
Lemma agree_same_on names s t : (forall y, In y names -> s y = t y) -> same_on names t s = true.
Proof. intros E. unfold same_on. apply forallb_forall. intros y Hy. apply Nat.eqb_eq. auto. Qed.

Section Absorb.
Variables (x y : string) (n n' : network xnum).
Hypothesis Hab : absorbed x y n n'.
Hypothesis Hwf : wf_network n.
Hypothesis Hwf' : wf_network n'.
Hypothesis Hrows : forall f s, In f (chance_factors n) -> proper_state n s -> row_sum (n_vars n) f s <> 0%Qc.
Notation vars := (n_vars n).
Notation id_groups := (fun (_ : string) (k : nat) => k).

Lemma ab_sig : exists vx l, nv_name vx = x /\ nv_type vx = Chance /\ Permutation vars (vx :: l) /\ Forall2 same_variable l (n_vars n') /\ var_named vars x = Some vx /\ (forall z, z <> x -> sig vars z = sig (n_vars n') z) /\ var_named (n_vars n') x = None.
Proof.
  destruct (ab_vars _ _ _ _ Hab) as (vx & l & Ex & P & HF). exists vx, l. 
  assert (Hn : NoDup (map nv_name (vx :: l))) by (eapply Permutation_NoDup; [apply Permutation_map; exact P|apply wn_names; auto]).
  assert (En : var_named vars x = Some vx). { rewrite <- Ex. apply NetNew.var_named_in'; [apply wn_names; auto|]. eapply Permutation_in; [apply Permutation_sym; exact P|simpl; auto]. }
  assert (Ht : nv_type vx = Chance). { pose proof (proj1 (ab_kinds _ _ _ _ Hab)) as K. unfold kind in K. rewrite En in K. cbn in K. congruence. }
  assert (Nx : ~ In x (map nv_name (n_vars n'))).
  { intros Hi. apply in_map_iff in Hi. destruct Hi as (w & Ew & Hw). destruct (Forall2_in_r _ _ _ _ HF Hw) as (u & Hu & U). cbn [map] in Hn. inversion Hn as [|? ? Hn1 _]. apply Hn1. rewrite Ex, <- Ew, (proj1 U). apply in_map. auto. }
  repeat (split; auto).
  - intros z Hz. transitivity (sig l z); [|apply sig_same; auto]. unfold sig. rewrite (named_perm _ _ z (wn_names n Hwf) P). unfold var_named. cbn [find]. destruct (String.eqb_spec (nv_name vx) z) as [E|_]; [congruence|auto].
  - unfold var_named. apply not_true_is_false || idtac. destruct (find (fun v => String.eqb (nv_name v) x) (n_vars n')) as [w|] eqn:E; auto. exfalso. apply find_some in E. destruct E as [Hw Ew]. apply String.eqb_eq in Ew. apply Nx. rewrite <- Ew. apply in_map. auto.
Qed.
Lemma ab_cell f : ~ In x (nf_given f ++ [nf_for f]) -> same_on_scope vars (n_vars n') f.
Proof. intros Hx z Hz. destruct ab_sig as (vx & l & _ & _ & _ & _ & _ & S & _). apply sig_outcomes, S. congruence. Qed.

Theorem absorbed_summary : summary id_groups n n'.
Proof.
  destruct ab_sig as (vx & l & Ex & Tx & P & HF & Enx & Hsig & Nx). constructor.
  - intros v' Hv' Ht'. assert (Hne : nv_name v' <> x). { intros E. rewrite <- E, (NetNew.var_named_in' _ _ (wn_names n' Hwf') Hv') in Nx. discriminate. }
    pose proof (Hsig _ Hne) as S. assert (E' := NetNew.var_named_in' _ _ (wn_names n' Hwf') Hv'). destruct (sig_named (n_vars n') vars (nv_name v') v' (eq_sym S) E') as (v & Ev & T & O). exists v. split; auto. split; [congruence|]. intros k Hk. rewrite <- O. auto.
  - exists 1%Qc. split; [discriminate|]. intros ign s' Hs'. rewrite Qcmult_1_l.
    destruct (ab_factors _ _ _ _ Hab) as (fx & fy & gy & rest & rest' & Pf & Pf' & Hrest & Fx & Fy & Gy & Hny & Hnx & Hng & HE). destruct (ab_kinds _ _ _ _ Hab) as [Kx Ky]. pose proof (ab_different _ _ _ _ Hab) as Hxy.
    assert (Cx : is_chance vars fx = true) by (unfold is_chance; rewrite Fx, Kx; auto). assert (Cy : is_chance vars fy = true) by (unfold is_chance; rewrite Fy, Ky; auto).
    assert (Ky' : kind (n_vars n') y = Some Chance) by (rewrite <- (sig_kind vars); auto).
    assert (Cg : is_chance (n_vars n') gy = true) by (unfold is_chance; rewrite Gy, Ky'; auto).
    assert (Inx : In fx (chance_factors n)) by (apply filter_In; split; [eapply Permutation_in; [apply Permutation_sym; eauto|simpl; auto]|rewrite Fx, Kx; auto]).
    assert (Iny : In fy (chance_factors n)) by (apply filter_In; split; [eapply Permutation_in; [apply Permutation_sym; eauto|simpl; auto]|rewrite Fy, Ky; auto]).
    (* the rest of the tables *)
    assert (Hw : forall s, tables_weight (n_vars n') rest' s = tables_weight vars rest s).
    { intros s. unfold tables_weight. clear - Hrest Hnx Hsig HE Hwf. induction Hrest as [|f f' l l' Hf _ IH]; auto. cbn [filter].
      assert (Hfx : ~ In x (nf_given f ++ [nf_for f])) by (apply Hnx; simpl; auto).
      assert (Hc : is_chance (n_vars n') f' = is_chance vars f). { unfold is_chance. rewrite (proj1 Hf), (sig_kind vars (n_vars n') (nf_for f)); auto. apply Hsig. intros E. apply Hfx. apply in_app_iff. simpl. auto. }
      rewrite Hc. assert (IH' := IH (fun g Hg => Hnx g (or_intror Hg))). destruct (is_chance vars f); auto. cbn [map]. change (qprod (?a :: ?b)) with (a * qprod b)%Qc. rewrite IH'. f_equal. symmetry. apply cond_sig; auto.
      intros z Hz. apply sig_outcomes, Hsig. intros E. subst z. auto. }
    assert (Hjn : forall s, joint n ign s = (cond_prob vars fx s * cond_prob vars fy s * tables_weight vars rest s)%Qc).
    { intros s. unfold joint. rewrite (ab_open _ _ _ _ Hab). cbn [filter map]. change (qprod []) with 1%Qc. rewrite Qcmult_1_r.
      change (tables_weight vars (n_factors n) s = (cond_prob vars fx s * cond_prob vars fy s * tables_weight vars rest s)%Qc).
      rewrite (weight_reorder vars _ _ s Pf). unfold tables_weight. cbn [filter]. rewrite Cx, Cy. cbn [map]. change (qprod (?a :: ?b :: ?l)) with (a * (b * qprod l))%Qc. ring. }
    assert (Hjn' : joint n' ign s' = (cond_prob (n_vars n') gy s' * tables_weight vars rest s')%Qc).
    { unfold joint. rewrite (ab_open' _ _ _ _ Hab). cbn [filter map]. change (qprod []) with 1%Qc. rewrite Qcmult_1_r.
      change (tables_weight (n_vars n') (n_factors n') s' = (cond_prob (n_vars n') gy s' * tables_weight vars rest s')%Qc).
      rewrite (weight_reorder (n_vars n') _ _ s' Pf'). unfold tables_weight at 1. cbn [filter]. rewrite Cg. cbn [map]. change (qprod (?a :: ?l)) with (a * qprod l)%Qc. rewrite <- Hw. reflexivity. }
    (* the state completed with outcomes of x *)
    assert (Hsk : forall k, (k < num_outcomes vars x)%nat -> proper_state n (nupd s' x k)).
    { intros k Hk v Hv. unfold nupd. destruct (String.eqb_spec (nv_name v) x) as [E|E].
      - rewrite <- E in Hk. unfold num_outcomes in Hk. rewrite (NetNew.var_named_in' _ _ (wn_names n Hwf) Hv) in Hk. auto.
      - destruct (sig_named vars (n_vars n') (nv_name v) v (Hsig _ E) (NetNew.var_named_in' _ _ (wn_names n Hwf) Hv)) as (v' & Ev' & _ & O). rewrite <- O.
        pose proof (find_some _ _ Ev') as [Hv' En']. apply String.eqb_eq in En'. rewrite <- En'. apply Hs'. auto. }
    assert (Hx0 : (0 < num_outcomes vars x)%nat). { unfold num_outcomes. rewrite Enx. pose proof (find_some _ _ Enx) as [Hv _]. pose proof (wn_outcomes n Hwf vx Hv) as Hz. unfold zlen in Hz. lia. }
    assert (Og : ~ In x (nf_given gy ++ [nf_for gy])). { rewrite Gy. intros Hi. apply in_app_iff in Hi. destruct Hi as [Hi|[Hi|[]]]; congruence || auto. }
    assert (Entry : forall s, (forall k, (k < num_outcomes vars x)%nat -> proper_state n (nupd s x k)) -> entry (n_vars n') gy s =
      qsum (map (fun k => cond_prob vars fx (nupd s x k) * cond_prob vars fy (nupd s x k))%Qc (seq 0 (num_outcomes vars x)))).
    { intros s Hs. rewrite <- (entry_ignores n' gy s x 0 Og), (HE _ (Hs 0%nat Hx0)). apply qsum_ext. intros k _. f_equal; apply (cond_prob_proper n); intros z; apply nupd_twice. }
    assert (Row : row_sum (n_vars n') gy s' = 1%Qc).
    { unfold row_sum. rewrite Gy. rewrite <- (sig_outcomes vars (n_vars n') y) by auto.
      assert (Hyk : forall j k, (j < num_outcomes vars y)%nat -> (k < num_outcomes vars x)%nat -> proper_state n (nupd (nupd s' y j) x k)).
      { intros j k Hj Hk. intros v Hv. pose proof (Hsk k Hk v Hv) as H0. unfold nupd in *. destruct (String.eqb (nv_name v) x); auto. destruct (String.eqb_spec (nv_name v) y) as [E|]; auto.
        rewrite <- E in Hj. unfold num_outcomes in Hj. rewrite (NetNew.var_named_in' _ _ (wn_names n Hwf) Hv) in Hj. auto. }
      rewrite (qsum_ext _ (fun j => qsum (map (fun k => cond_prob vars fx (nupd (nupd s' y j) x k) * cond_prob vars fy (nupd (nupd s' y j) x k))%Qc (seq 0 (num_outcomes vars x))))).
      2:{ intros j Hj. apply in_seq in Hj. apply Entry. intros k Hk. apply Hyk; auto; lia. }
      rewrite (qsum_swap (fun j k => cond_prob vars fx (nupd (nupd s' y j) x k) * cond_prob vars fy (nupd (nupd s' y j) x k))%Qc).
      rewrite (qsum_ext _ (fun k => cond_prob vars fx (nupd (nupd s' x 0) x k))).
      - pose proof (cond_prob_sum n fx (nupd s' x 0)) as HS. rewrite Fx in HS. apply HS, Hrows; auto.
      - intros k Hk. apply in_seq in Hk.
        rewrite (qsum_ext _ (fun j => cond_prob vars fx (nupd s' x k) * cond_prob vars fy (nupd (nupd s' x k) y j))%Qc).
        + rewrite XnumFacts.qsum_scale. pose proof (cond_prob_sum n fy (nupd s' x k)) as HS. rewrite Fy in HS. rewrite HS; [rewrite Qcmult_1_r; apply (cond_prob_proper n); intros z; symmetry; apply nupd_twice|]. apply Hrows; auto. apply Hsk. lia.
        + intros j _. rewrite !(cond_prob_proper n _ (nupd (nupd s' y j) x k) (nupd (nupd s' x k) y j)) by (intros z; apply nupd_comm; auto). f_equal.
          apply (cond_prob_ignores n). rewrite Fx. intros Hi. apply in_app_iff in Hi. destruct Hi as [Hi|[Hi|[]]]; auto. }
    rewrite Hjn'. unfold cond_prob at 1. rewrite Row. replace (qeq 1 0) with false by reflexivity. rewrite (Entry s' Hsk).
    (* the sum over the states that show s' *)
    assert (M : mass n ign (shows id_groups n' s') = qsum (map (fun k => joint n ign (nupd s' (nv_name vx) k)) (seq 0 (List.length (nv_outcomes vx))))).
    {
    rewrite mass_nsum. set (L0 := worldly_of l). assert (Pw : Permutation (worldly_of vars) (vx :: L0)).
    { unfold worldly_of. eapply Permutation_trans; [apply filter_perm; exact P|]. cbn [filter]. unfold is_kind at 1. rewrite Tx. cbn. apply Permutation_refl. }
    rewrite (first_out n vx L0); auto.
    2:{ intros s1 s2 E. rewrite (joint_proper n ign s1 s2 E). unfold shows. rewrite (same_on_proper _ s' (grouped id_groups s1) (grouped id_groups s2)); auto. }
    replace (map nv_name L0) with (map nv_name L0) by auto.
    assert (HL : map nv_name (worldly_of (n_vars n')) = map nv_name L0).
    { assert (W : Forall2 same_variable L0 (worldly_of (n_vars n'))) by (apply worldly_same; auto). clear - W. induction W as [|a b ? ? H _ IH]; simpl; auto. rewrite IH, (proj1 H). auto. }
    assert (Hnd0 : NoDup (map nv_name (vx :: L0))) by (eapply Permutation_NoDup; [apply Permutation_map; exact Pw|apply worldly_nodup; auto]).
    cbn [map] in Hnd0. inversion Hnd0 as [|? ? Hn0 Hnd1].
    apply qsum_ext. { intros k Hk. apply in_seq in Hk. transitivity (nsum (fun s => if same_on (map nv_name L0) s' s then joint n ign s else 0%Qc) L0 (nupd nowhere (nv_name vx) k)).
        { apply nsum_ext. intros s _. replace (shows id_groups n' s' s) with (same_on (map nv_name L0) s' s); auto. rewrite <- HL. reflexivity. }
        rewrite nsum_one; auto.
        - assert (Hjl : looks_at (joint n ign) (fun z => In z (map nv_name (vx :: L0)))).
          { intros s1 s2 E. unfold joint. rewrite (ab_open _ _ _ _ Hab). cbn [filter map]. f_equal. f_equal. apply map_ext_in. intros f Hf. apply cond_looks. intros z Hz. apply E.
            destruct (chance_in n Hwf f Hf) as (_ & Kf & _ & Wf). 
            assert (Hkz : exists v, var_named vars z = Some v /\ nv_type v <> Utility).
            { apply in_app_iff in Hz. destruct Hz as [Hz|[<-|[]]].
              - destruct (wt_given _ _ Wf z Hz) as (_ & v & Ev). exists v. split; auto. intros Hu. apply (wt_parents _ _ Wf z Hz). unfold kind. rewrite Ev. cbn. congruence.
              - unfold kind in Kf. destruct (var_named vars (nf_for f)) as [v|]; [|discriminate]. exists v. cbn in Kf. split; auto. congruence. }
            destruct Hkz as (v & Ev & Hu). pose proof (find_some _ _ Ev) as [Hv En]. apply String.eqb_eq in En. rewrite <- En.
            eapply Permutation_in; [apply Permutation_map; exact Pw|]. apply in_map. apply filter_In. split; auto. unfold is_kind. destruct (nv_type v); auto; contradiction. }
          apply Hjl. intros z [<-|Hz].
          + unfold patched, nupd. rewrite String.eqb_refl. replace (existsb (String.eqb (nv_name vx)) (map nv_name L0)) with false; auto. symmetry. apply not_true_is_false. intros Hb. apply existsb_exists in Hb. destruct Hb as (z & Hz & Ez). apply String.eqb_eq in Ez. subst z. contradiction.
          + rewrite patched_in by auto. unfold nupd. destruct (String.eqb_spec z (nv_name vx)) as [->|]; [contradiction|auto].
        - intros s1 s2 E. apply joint_proper. auto.
        - intros v Hv. assert (Hv0 : In v vars) by (assert (Hv1 : In v (vx :: L0)) by (simpl; auto); eapply Permutation_in in Hv1; [|apply Permutation_sym; exact Pw]; apply filter_In in Hv1; tauto).
          pose proof (Hsk 0%nat Hx0 v Hv0) as Hz0. unfold nupd in Hz0. rewrite <- Ex in Hz0. destruct (String.eqb_spec (nv_name v) (nv_name vx)) as [E|]; auto. exfalso. apply Hn0. rewrite <- E. apply in_map. auto. }
    }
    rewrite M. rewrite <- Ex in *.
    unfold num_outcomes. rewrite Enx. unfold Qcdiv. replace (/ 1)%Qc with 1%Qc by (apply Qc_is_canon; reflexivity). rewrite Qcmult_1_r.
    rewrite Qcmult_comm, <- XnumFacts.qsum_scale. apply qsum_ext. intros k _. rewrite Hjn.
    assert (Ew : tables_weight vars rest (nupd s' (nv_name vx) k) = tables_weight vars rest s').
    { apply weight_looks_all. intros z (f & Hf & Hz). unfold nupd. destruct (String.eqb_spec z (nv_name vx)) as [E|]; auto. exfalso. apply (Hnx f Hf). rewrite <- E. auto. }
    rewrite Ew. ring.
Qed.
End Absorb.

(** The weight of the states that agree with [t] but for one variable. *)
Lemma split_mass (n : network xnum) ign vx L0 (P : nat -> bool) t event : wf_network n -> n_policies n = [] -> Permutation (worldly_of (n_vars n)) (vx :: L0) ->
  (forall v, In v L0 -> (t (nv_name v) < List.length (nv_outcomes v))%nat) ->
  (forall s, event s = P (s (nv_name vx)) && same_on (map nv_name L0) t s) ->
  mass n ign event = qsum (map (fun k => if P k then joint n ign (nupd t (nv_name vx) k) else 0%Qc) (seq 0 (List.length (nv_outcomes vx)))).
Proof.
  intros Hwf Hop Pw Ht HE. rewrite mass_nsum, (first_out n vx L0); auto.
  2:{ intros s1 s2 E. rewrite (joint_proper n ign s1 s2 E), !HE, E, (same_on_proper _ t s1 s2); auto. }
  assert (Hnd0 : NoDup (map nv_name (vx :: L0))) by (eapply Permutation_NoDup; [apply Permutation_map; exact Pw|apply worldly_nodup; auto]).
  cbn [map] in Hnd0. inversion Hnd0 as [|? ? Hn0 Hnd1]. apply qsum_ext. intros k Hk. apply in_seq in Hk.
  transitivity (nsum (fun s => if same_on (map nv_name L0) t s then (if P k then joint n ign s else 0%Qc) else 0%Qc) L0 (nupd nowhere (nv_name vx) k)).
  { apply nsum_ext. intros s Hs. rewrite HE, (joint_states_same L0 _ s (nv_name vx) Hs Hn0). unfold nupd. rewrite String.eqb_refl. destruct (P k), (same_on (map nv_name L0) t s); auto. }
  rewrite nsum_one; auto.
  - destruct (P k); auto.
    assert (Hjl : looks_at (joint n ign) (fun z => In z (map nv_name (vx :: L0)))).
    { intros s1 s2 E. unfold joint. rewrite Hop. cbn [filter map]. f_equal. f_equal. apply map_ext_in. intros f Hf. apply cond_looks. intros z Hz. apply E.
      destruct (chance_in n Hwf f Hf) as (_ & Kf & _ & Wf).
      assert (Hkz : exists v, var_named (n_vars n) z = Some v /\ nv_type v <> Utility).
      { apply in_app_iff in Hz. destruct Hz as [Hz|[<-|[]]].
        - destruct (wt_given _ _ Wf z Hz) as (_ & v & Ev). exists v. split; auto. intros Hu. apply (wt_parents _ _ Wf z Hz). unfold kind. rewrite Ev. cbn. congruence.
        - unfold kind in Kf. destruct (var_named (n_vars n) (nf_for f)) as [v|]; [|discriminate]. exists v. cbn in Kf. split; auto. congruence. }
      destruct Hkz as (v & Ev & Hu). pose proof (find_some _ _ Ev) as [Hv En]. apply String.eqb_eq in En. rewrite <- En.
      eapply Permutation_in; [apply Permutation_map; exact Pw|]. apply in_map. apply filter_In. split; auto. unfold is_kind. destruct (nv_type v); auto; contradiction. }
    apply Hjl. intros z [<-|Hz].
    + unfold patched, nupd. rewrite String.eqb_refl. replace (existsb (String.eqb (nv_name vx)) (map nv_name L0)) with false; auto. symmetry. apply not_true_is_false. intros Hb. apply existsb_exists in Hb. destruct Hb as (z & Hz & Ez). apply String.eqb_eq in Ez. subst z. contradiction.
    + rewrite patched_in by auto. unfold nupd. destruct (String.eqb_spec z (nv_name vx)) as [->|]; [contradiction|auto].
  - intros s1 s2 E. rewrite (joint_proper n ign s1 s2 E). auto.
Qed.

(** Sums by groups. *)
Lemma group_total g (p : nat -> Qc) m r : (forall k, (k < m)%nat -> (g k < r)%nat) -> qsum (map (group_sum g p m) (seq 0 r)) = qsum (map p (seq 0 m)).
Proof.
  intros Hg. unfold group_sum. rewrite (map_ext _ (fun j => qsum (map (fun k => if (g k =? j)%nat then p k else 0%Qc) (seq 0 m)))) by (intros j; apply qsum_filter).
  rewrite qsum_swap. apply qsum_ext. intros k Hk. apply in_seq in Hk. rewrite (qsum_ext _ (fun j => if (j =? g k)%nat then p k else 0%Qc)) by (intros j _; rewrite Nat.eqb_sym; auto).
  apply (qsum_pick (fun _ => p k)). apply Hg. lia.
Qed.

Section Merge.
Variables (x : string) (g : nat -> nat) (n n' : network xnum).
Hypothesis Hmo : merged_outcomes x g n n'.
Hypothesis Hwf : wf_network n.
Hypothesis Hwf' : wf_network n'.
Hypothesis Hco : complete n.
Notation vars := (n_vars n).
Definition at_x : grouping := fun z k => if String.eqb z x then g k else k.

Lemma mo_names : map nv_name (n_vars n') = map nv_name vars.
Proof. pose proof (mo_vars _ _ _ _ Hmo) as HF. induction HF as [|v v' l l' H _ IH]; simpl; auto. rewrite IH, (proj1 H). auto. Qed.
Lemma mo_find z : match var_named vars z, var_named (n_vars n') z with
  | Some v, Some v' => nv_type v' = nv_type v /\ nv_name v = z /\ nv_name v' = z /\ (z <> x -> nv_outcomes v' = nv_outcomes v) | None, None => True | _, _ => False end.
Proof.
  unfold var_named. pose proof (mo_vars _ _ _ _ Hmo) as HF. induction HF as [|v v' l l' (H1 & H2 & H3) _ IH]; simpl; auto. rewrite H1. destruct (String.eqb_spec (nv_name v) z) as [E|_]; auto.
  split; auto. split; auto. split; [congruence|]. intros Hz. apply H3. congruence.
Qed.
Lemma mo_kinds z : kind (n_vars n') z = kind vars z.
Proof. pose proof (mo_find z) as H. unfold kind. destruct (var_named vars z), (var_named (n_vars n') z); simpl; try tauto. f_equal. tauto. Qed.
Lemma mo_counts z : z <> x -> num_outcomes (n_vars n') z = num_outcomes vars z.
Proof. intros Hz. pose proof (mo_find z) as H. unfold num_outcomes. destruct (var_named vars z), (var_named (n_vars n') z); simpl; try tauto. f_equal. tauto. Qed.
Lemma mo_back s' k : proper_state n' s' -> (k < num_outcomes vars x)%nat -> proper_state n (nupd s' x k).
Proof.
  intros Hs Hk v Hv. unfold nupd. pose proof (NetNew.var_named_in' _ _ (wn_names n Hwf) Hv) as Ev. destruct (String.eqb_spec (nv_name v) x) as [E|E].
  - rewrite <- E in Hk. unfold num_outcomes in Hk. rewrite Ev in Hk. auto.
  - pose proof (mo_find (nv_name v)) as H. rewrite Ev in H. destruct (var_named (n_vars n') (nv_name v)) as [v'|] eqn:Ev'; [|tauto]. destruct H as (_ & _ & En & Ho). rewrite <- (Ho E), <- En. apply Hs. apply (find_some _ _ Ev').
Qed.
Lemma mo_state s' k : g k = s' x -> forall z, nupd (nupd s' x k) x (g (nupd s' x k x)) z = s' z.
Proof. intros E z. unfold nupd. rewrite String.eqb_refl. destruct (String.eqb_spec z x) as [->|]; auto. Qed.

(** Tables of other variables. *)
Definition table_pair (f f' : nfactor xnum) : Prop := nf_for f' = nf_for f /\ nf_given f' = nf_given f /\
    (kind vars (nf_for f) = Some Chance -> forall s, proper_state n s ->
       entry (n_vars n') f' (nupd s x (g (s x))) =
       if String.eqb (nf_for f) x then group_sum g (fun k => entry vars f (nupd s x k)) (num_outcomes vars x) (g (s x)) else entry vars f s).
Lemma other_entry f f' s' k : table_pair f f' -> kind vars (nf_for f) = Some Chance -> nf_for f <> x -> proper_state n' s' -> (k < num_outcomes vars x)%nat -> g k = s' x ->
  entry (n_vars n') f' s' = entry vars f (nupd s' x k).
Proof.
  intros (_ & _ & H) Hk Hx Hs Hlt E. specialize (H Hk _ (mo_back s' k Hs Hlt)). destruct (String.eqb_spec (nf_for f) x) as [|_]; [contradiction|]. rewrite <- H.
  apply (entry_proper n'). intros z. symmetry. apply mo_state. auto.
Qed.
Lemma upd_proper' s z k : proper_state n' s -> (k < num_outcomes (n_vars n') z)%nat -> proper_state n' (nupd s z k).
Proof. intros Hs Hk. apply (NetSame.upd_proper n' Hwf'); auto. Qed.
Lemma other_prob f f' s' k : table_pair f f' -> kind vars (nf_for f) = Some Chance -> nf_for f <> x -> proper_state n' s' -> (k < num_outcomes vars x)%nat -> g k = s' x ->
  cond_prob (n_vars n') f' s' = cond_prob vars f (nupd s' x k).
Proof.
  intros Hp Hk Hx Hs Hlt E. unfold cond_prob. rewrite (other_entry f f' s' k) by auto. replace (row_sum (n_vars n') f' s') with (row_sum vars f (nupd s' x k)); auto.
  unfold row_sum. rewrite (proj1 Hp), mo_counts by auto. apply qsum_ext. intros j Hj. apply in_seq in Hj.
  rewrite (other_entry f f' (nupd s' (nf_for f) j) k); auto.
  - apply (entry_proper n). intros z. apply nupd_comm. auto.
  - apply upd_proper'; auto. rewrite mo_counts by auto. lia.
  - unfold nupd. destruct (String.eqb_spec x (nf_for f)) as [E'|]; auto. congruence.
Qed.
(** The table of the variable itself. *)
Lemma own_entry f f' s' : table_pair f f' -> nf_for f = x -> proper_state n' s' -> (s' x < num_outcomes (n_vars n') x)%nat ->
  entry (n_vars n') f' s' = group_sum g (fun k => entry vars f (nupd s' x k)) (num_outcomes vars x) (s' x).
Proof.
  intros (_ & _ & H) Hx Hs Hlt. destruct (mo_onto _ _ _ _ Hmo _ Hlt) as (k & Hk & E). rewrite Hx in H. specialize (H (mo_kind _ _ _ _ Hmo) _ (mo_back s' k Hs Hk)). rewrite String.eqb_refl in H.
  rewrite (entry_proper n' f' s' (nupd (nupd s' x k) x (g (nupd s' x k x)))) by (intros z; symmetry; apply mo_state; auto). rewrite H. unfold group_sum.
  replace (g (nupd s' x k x)) with (s' x) by (unfold nupd; rewrite String.eqb_refl; auto). apply qsum_ext. intros j _. apply (entry_proper n). intros z. apply nupd_twice.
Qed.
Lemma own_prob f f' s' : table_pair f f' -> nf_for f = x -> proper_state n' s' -> (s' x < num_outcomes (n_vars n') x)%nat ->
  cond_prob (n_vars n') f' s' = group_sum g (fun k => cond_prob vars f (nupd s' x k)) (num_outcomes vars x) (s' x).
Proof.
  intros Hp Hx Hs Hlt. assert (R : row_sum (n_vars n') f' s' = row_sum vars f s').
  { unfold row_sum. rewrite (proj1 Hp), Hx. rewrite (qsum_ext _ (group_sum g (fun k => entry vars f (nupd s' x k)) (num_outcomes vars x))).
    - apply group_total. apply (mo_groups _ _ _ _ Hmo).
    - intros j Hj. apply in_seq in Hj. rewrite (own_entry f f' (nupd s' x j)); auto.
      + replace (nupd s' x j x) with j by (unfold nupd; rewrite String.eqb_refl; auto). unfold group_sum. apply qsum_ext. intros k _. apply (entry_proper n). intros z. apply nupd_twice.
      + apply upd_proper'; auto. lia.
      + unfold nupd. rewrite String.eqb_refl. lia. }
  assert (R' : forall k, row_sum vars f (nupd s' x k) = row_sum vars f s').
  { intros k. unfold row_sum. rewrite Hx. apply qsum_ext. intros j _. apply (entry_proper n). intros z. apply nupd_twice. }
  unfold cond_prob. rewrite R, (own_entry f f') by auto. unfold group_sum. destruct (qeq (row_sum vars f s') 0) eqn:Eq.
  - apply qsum_ext. intros k _. rewrite R', Eq. auto.
  - unfold Qcdiv. rewrite Qcmult_comm, <- XnumFacts.qsum_scale. apply qsum_ext. intros k _. rewrite R', Eq. unfold Qcdiv. ring.
Qed.

Theorem merged_summary : summary at_x n n'.
Proof.
  assert (Ex : exists vx vx', var_named vars x = Some vx /\ var_named (n_vars n') x = Some vx' /\ nv_type vx = Chance /\ nv_name vx = x /\ nv_name vx' = x).
  { pose proof (mo_kind _ _ _ _ Hmo) as K. pose proof (mo_find x) as H. unfold kind in K. destruct (var_named vars x) as [vx|]; [|discriminate]. destruct (var_named (n_vars n') x) as [vx'|]; [|tauto].
    exists vx, vx'. cbn in K. repeat (split; auto); try tauto. congruence. }
  destruct Ex as (vx & vx' & Evx & Evx' & Tx & Nx & Nx'). constructor.
  - intros v' Hv' Ht. pose proof (mo_find (nv_name v')) as H. rewrite (NetNew.var_named_in' _ _ (wn_names n' Hwf') Hv') in H. destruct (var_named vars (nv_name v')) as [v|] eqn:Ev; [|tauto]. destruct H as (H1 & H2 & _ & H4).
    exists v. split; auto. split; [congruence|]. intros k Hk. unfold at_x. destruct (String.eqb_spec (nv_name v') x) as [E|E]; [|rewrite H4; auto].
    pose proof (mo_groups _ _ _ _ Hmo k) as Hg. unfold num_outcomes in Hg. rewrite <- E, Ev, (NetNew.var_named_in' _ _ (wn_names n' Hwf') Hv') in Hg. auto.
  - exists 1%Qc. split; [discriminate|]. intros ign s' Hs'. rewrite Qcmult_1_l.
    pose proof (find_some _ _ Evx) as [Hvx _]. pose proof (find_some _ _ Evx') as [Hvx' _].
    assert (Hlx : (s' x < num_outcomes (n_vars n') x)%nat) by (unfold num_outcomes; rewrite Evx'; rewrite <- Nx' at 1; auto).
    (* the variables but x *)
    assert (Hw : In vx (worldly_of vars)) by (apply filter_In; split; auto; unfold is_kind; rewrite Tx; auto).
    destruct (in_split _ _ Hw) as (A & B & EAB). assert (Pw : Permutation (worldly_of vars) (vx :: A ++ B)) by (rewrite EAB; apply Permutation_sym, Permutation_middle).
    assert (Hnd0 : NoDup (map nv_name (vx :: A ++ B))) by (eapply Permutation_NoDup; [apply Permutation_map; exact Pw|apply worldly_nodup; auto]).
    cbn [map] in Hnd0. inversion Hnd0 as [|? ? Hn0 Hnd1].
    assert (Hnw : map nv_name (worldly_of (n_vars n')) = map nv_name (worldly_of vars)).
    { unfold worldly_of. pose proof (mo_vars _ _ _ _ Hmo) as HF. clear - HF. induction HF as [|v v' l l' (H1 & H2 & _) _ IH]; simpl; auto. unfold is_kind in *. rewrite H2. destruct (negb _); simpl; auto. rewrite IH, H1. auto. }
    rewrite (split_mass n ign vx (A ++ B) (fun k => (g k =? s' x)%nat) s'); auto; [|apply (mo_open _ _ _ _ Hmo)| |].
    + rewrite Nx. unfold joint. rewrite (mo_open _ _ _ _ Hmo), (mo_open' _ _ _ _ Hmo). cbn [filter map]. change (qprod []) with 1%Qc.
      change (tables_weight (n_vars n') (n_factors n') s' * 1 = qsum (map (fun k => if (g k =? s' x)%nat then tables_weight vars (n_factors n) (nupd s' x k) * 1 else 0%Qc) (seq 0 (List.length (nv_outcomes vx)))))%Qc.
      destruct (Hco vx Hvx Tx) as (fx & Hfx & Efx). rewrite Nx in Efx. pose proof (mo_factors _ _ _ _ Hmo) as HF. pose proof (mo_single _ _ _ _ Hmo) as Hsg.
      destruct (in_split _ _ Hfx) as (C & D & ECD). rewrite ECD in HF, Hsg. destruct (Forall2_app_inv_l _ _ HF) as (C' & M & HC & HM & EM). inversion HM as [|? fx' ? D' Hp HD]; subst M. 
      assert (Hother : forall f, In f (C ++ D) -> nf_for f <> x).
      { intros f Hf E. rewrite map_app in Hsg. cbn [map] in Hsg. apply NoDup_remove_2 in Hsg. apply Hsg. rewrite Efx, <- E, <- map_app. apply in_map. auto. }
      assert (W : forall l l', Forall2 table_pair l l' -> (forall f, In f l -> nf_for f <> x) -> forall k, (k < num_outcomes vars x)%nat -> g k = s' x -> tables_weight (n_vars n') l' s' = tables_weight vars l (nupd s' x k)).
      { intros q0 q0' HF0 Ho k Hk E. unfold tables_weight. induction HF0 as [|f f' r0 r0' Hff _ IH]; auto. cbn [filter].
        assert (Hc : is_chance (n_vars n') f' = is_chance vars f) by (unfold is_chance; rewrite (proj1 Hff), mo_kinds; auto). rewrite Hc. specialize (IH (fun h Hh => Ho h (or_intror Hh))).
        destruct (is_chance vars f) eqn:Ec; auto. cbn [map]. change (qprod (?a :: ?b)) with (a * qprod b)%Qc. rewrite IH. f_equal. apply other_prob; auto.
        - unfold is_chance in Ec. destruct (kind vars (nf_for f)) as [[]|]; congruence.
        - apply Ho. simpl. auto. }
      assert (Split : forall vs l1 (f : nfactor xnum) l2 s, is_chance vs f = true -> tables_weight vs (l1 ++ f :: l2) s = (cond_prob vs f s * (tables_weight vs l1 s * tables_weight vs l2 s))%Qc).
      { intros vs l1 f l2 s Hc. unfold tables_weight. rewrite filter_app, map_app, qprod_app. cbn [filter]. rewrite Hc. cbn [map]. change (qprod (?a :: ?b)) with (a * qprod b)%Qc. ring. }
      assert (Cf : is_chance vars fx = true) by (unfold is_chance; rewrite Efx, (mo_kind _ _ _ _ Hmo); auto).
      assert (Cf' : is_chance (n_vars n') fx' = true) by (unfold is_chance; rewrite (proj1 Hp), mo_kinds, Efx, (mo_kind _ _ _ _ Hmo); auto).
      rewrite EM, Split by auto. rewrite (own_prob fx fx' s') by auto. rewrite Qcmult_1_r, Qcmult_comm. unfold group_sum. rewrite <- XnumFacts.qsum_scale, qsum_filter.
      unfold num_outcomes. rewrite Evx. apply qsum_ext. intros k Hk. apply in_seq in Hk. destruct (Nat.eqb_spec (g k) (s' x)) as [E|]; auto.
      assert (Hk' : (k < num_outcomes vars x)%nat) by (unfold num_outcomes; rewrite Evx; lia).
      rewrite ECD, Split by auto. rewrite (W C C' HC) with (k := k), (W D D' HD) with (k := k); auto; [ring| |]; intros f Hf; apply Hother; apply in_app_iff; auto.
    + intros v Hv. pose proof (Permutation_in v (Permutation_sym Pw) (or_intror Hv)) as Hv0. apply filter_In in Hv0. destruct Hv0 as [Hv0 _].
      pose proof (mo_find (nv_name v)) as Hq. rewrite (NetNew.var_named_in' _ _ (wn_names n Hwf) Hv0) in Hq. destruct (var_named (n_vars n') (nv_name v)) as [v'|] eqn:Ev'; [|tauto]. destruct Hq as (_ & _ & En & Ho).
      rewrite <- Ho, <- En; [apply Hs', (find_some _ _ Ev')|]. intros E. apply Hn0. rewrite Nx, <- E. apply in_map. auto.
    + intros s. unfold shows. change (filter (fun v => negb (is_kind Utility v)) (n_vars n')) with (worldly_of (n_vars n')). rewrite Hnw, EAB. unfold same_on. rewrite !map_app, !forallb_app. cbn [map forallb].
      rewrite Nx. unfold grouped at 2. unfold at_x at 2. rewrite String.eqb_refl.
      assert (K : forall l, incl l (A ++ B) -> forallb (fun z => (grouped at_x s z =? s' z)%nat) (map nv_name l) = forallb (fun z => (s z =? s' z)%nat) (map nv_name l)).
      { intros q0 Hl. induction q0 as [|v q0 IH]; simpl; auto. rewrite IH by (intros z Hz; apply Hl; simpl; auto). f_equal. unfold grouped, at_x. destruct (String.eqb_spec (nv_name v) x) as [E|]; auto. exfalso. apply Hn0. rewrite Nx, <- E. apply in_map. apply Hl. simpl. auto. }
      rewrite !K by (intros z Hz; apply in_app_iff; auto). destruct (forallb (fun z => (s z =? s' z)%nat) (map nv_name A)), (forallb (fun z => (s z =? s' z)%nat) (map nv_name B)), (g (s x) =? s' x)%nat; auto.
Qed.
End Merge.
