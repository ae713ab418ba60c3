(** Variable elimination on float64: the factors stay close to exact functions of the
    joint assignments. *)
From Coq Require Import ZArith List Bool Lia Permutation QArith Qcanon Reals Lra.
From Coq Require Import Floats.SpecFloat.
From Flocq Require Import Core.Core IEEE754.BinarySingleNaN.
From Verif Require Import Num GoBase VarModel GoFacts SpecFactor Tuples FactorFacts FactorSum FactorProd FactorAt XnumFacts ExactFactor
  FactorThms VEModel SpecVE VEWorlds VEFacts VETopo VEHidden VESolve VEThms VEAny RoundFacts RoundSum.
Import ListNotations.
Open Scope R_scope.
Local Opaque bpow.

(** A float64 factor with the function it approximates. *)
Record item := mkI { i_b : bound; i_f : factor f64; i_q : asg -> Qc }.
Definition local (vs : list variable) (q : asg -> Qc) : Prop :=
  forall a b, (forall v, In v vs -> a (v_id v) = b (v_id v)) -> q a = q b.
Definition item_ok (V : list variable) (i : item) : Prop :=
  sane (i_b i) /\ local (f_vars (i_f i)) (i_q i) /\ forall a, in_range V a -> approx (i_b i) (fv (i_f i) a) (i_q i a).
Definition mass_of (l : list item) (a : asg) : Qc := qprod (map (fun i => i_q i a) l).
Definition budget (l : list item) : bound := bprod (map i_b l).

Record tracked (V : list variable) (s : vestate f64) (l : list item) : Prop := {
  t_sound : sound V s;
  t_live : live s = map i_f l;
  t_items : Forall (item_ok V) l
}.

(** ** Bounds *)
Lemma bprod_app a b : bprod (a ++ b) = mkB (b_k (bprod a) + b_k (bprod b)) (b_lo (bprod a) * b_lo (bprod b)) (b_hi (bprod a) * b_hi (bprod b)).
Proof.
  unfold bprod. simpl. f_equal.
  - rewrite map_app, list_sum_app. auto.
  - rewrite map_app. induction (map b_lo a); simpl; [ring|]. rewrite IHl. ring.
  - rewrite map_app. induction (map b_hi a); simpl; [ring|]. rewrite IHl. ring.
Qed.
Lemma bprod_perm a b : Permutation a b -> bprod a = bprod b.
Proof.
  induction 1; auto.
  - unfold bprod in *. simpl. injection IHPermutation. intros -> -> ->. auto.
  - unfold bprod. simpl. f_equal; [lia|ring|ring].
  - congruence.
Qed.
Lemma bprod_one b : bprod [b] = mkB (S (b_k b)) (b_lo b) (b_hi b).
Proof. unfold bprod. simpl. f_equal; [lia|ring|ring]. Qed.

Lemma safe_left a b : Forall sane a -> Forall sane b -> safe (bprod (a ++ b)) -> safe (bprod a).
Proof.
  intros Ha Hb (H1 & H2 & H3). rewrite bprod_app in *. cbn [b_k] in H3. cbn [b_lo] in H1. cbn [b_hi] in H2.
  destruct (bprod_sane a Ha) as [[A1 A2] A3], (bprod_sane b Hb) as [[B1 B2] B3].
  split; [|split].
  - apply Rle_trans with (1 := H1). rewrite <- (Rmult_1_r (b_lo (bprod a))) at 2. apply Rmult_le_compat_l; lra.
  - apply Rle_trans with (2 := H2). rewrite <- (Rmult_1_r (b_hi (bprod a))) at 1. apply Rmult_le_compat_l; lra.
  - eapply few_mono; [|exact H3]. lia.
Qed.

(** The bound after summing out a list of variables. *)
Fixpoint outcomes_product (vs : list variable) : R :=
  match vs with [] => 1 | v :: r => INR (v_outcomes v) * outcomes_product r end.
Fixpoint sum_steps (vs : list variable) : nat :=
  match vs with [] => 0%nat | v :: r => (S (v_outcomes v) + sum_steps r)%nat end.
Definition grow (b : bound) (vs : list variable) : bound :=
  mkB (b_k b + sum_steps vs) (b_lo b) (b_hi b * outcomes_product vs).

Lemma outcomes_product_ge1 vs : (forall v, In v vs -> (0 < v_outcomes v)%nat) -> 1 <= outcomes_product vs.
Proof.
  induction vs as [|v vs IH]; simpl; intros H; [lra|].
  assert (H1 : 1 <= INR (v_outcomes v)). { change 1 with (INR 1). apply le_INR. apply H. auto. }
  assert (H2 : 1 <= outcomes_product vs) by (apply IH; intros; apply H; auto). nra.
Qed.
Lemma grow_safe_less b v vs : 1 <= b_hi b -> (forall u, In u (v :: vs) -> (0 < v_outcomes u)%nat) -> safe (grow b (v :: vs)) -> safe (grow b [v]).
Proof.
  intros Hb Hpos (H1 & H2 & H3). unfold grow in *. cbn [b_k b_lo b_hi] in *. split; auto. split.
  - apply Rle_trans with (2 := H2). simpl. pose proof (outcomes_product_ge1 vs) as Hg.
    assert (H4 : 1 <= outcomes_product vs) by (apply Hg; intros; apply Hpos; simpl; auto).
    assert (H5 : 1 <= INR (v_outcomes v)). { change 1 with (INR 1). apply le_INR. apply Hpos. simpl; auto. }
    apply Rmult_le_compat_l; [lra|]. apply Rmult_le_compat_l; lra.
  - eapply few_mono; [|exact H3]. simpl. lia.
Qed.

(** ** Products of items *)
Lemma local_proper vs q : local vs q -> proper q.
Proof. intros H a b E. apply H. intros; apply E. Qed.
Lemma mass_proper l V : Forall (item_ok V) l -> proper (mass_of l).
Proof.
  intros H a b E. unfold mass_of. f_equal. apply map_ext_in. intros i Hi. rewrite Forall_forall in H.
  destruct (H i Hi) as (_ & Hl & _). apply (local_proper _ _ Hl). auto.
Qed.
Lemma mass_app l m a : mass_of (l ++ m) a = (mass_of l a * mass_of m a)%Qc.
Proof. unfold mass_of. rewrite map_app. induction (map (fun i => i_q i a) l); simpl; [ring|]. rewrite IHl0. ring. Qed.
Lemma mass_perm l m a : Permutation l m -> mass_of l a = mass_of m a.
Proof. unfold mass_of. induction 1; simpl; auto; [f_equal; auto|ring|congruence]. Qed.

Lemma items_mult V l a : Forall (item_ok V) l -> safe (budget l) -> in_range V a ->
  approx (budget l) (mult_at (map i_f l) a) (mass_of l a).
Proof.
  intros Hl Hs Ha.
  assert (G : approx (budget l) (fold_left nmul (map (fun f => fv f a) (map i_f l)) n1) (mass_of l a)).
  { pose (t := map (fun i => (i_b i, fv (i_f i) a, i_q i a)) l).
    assert (E1 : map (fun t => fst (fst t)) t = map i_b l) by (unfold t; rewrite map_map; auto).
    pose proof (approx_prod t) as P. rewrite E1 in P. unfold budget, mass_of, t in *. rewrite !map_map in *. apply P; auto.
    rewrite Forall_forall in *. intros x Hx. apply in_map_iff in Hx. destruct Hx as (i & <- & Hi).
    destruct (Hl i Hi) as (H1 & _ & H3). simpl. auto. }
  unfold mult_at. destruct l as [|i [|j l]]; auto. simpl.
  inversion Hl as [|? ? (H1 & _ & H3) _]; subst. unfold budget. simpl map. rewrite bprod_one.
  assert (E : mass_of [i] a = i_q i a) by (unfold mass_of; simpl; ring). rewrite E.
  apply approx_mono with (i_b i); simpl; auto; lra.
Qed.

Section VE.
Variable sc : sched.

(** ** Summing out a variable *)
Lemma tracked_remove V s l v v' : wf_vars V -> tracked V s l -> In v V -> (0 < v_outcomes v)%nat ->
  v_id v' = v_id v -> (v_index v' < length (ve_elim s))%nat -> in_scope s v -> safe (grow (budget l) [v]) ->
  exists s' l', remove_hidden sc s v' = Ok s' /\ tracked V s' l' /\ frame s s' /\
    ve_elim s' = upd_nth (ve_elim s) (v_index v') true /\
    (forall u, In u V -> (in_scope s' u <-> in_scope s u /\ v_id u <> v_id v)) /\
    budget l' = grow (budget l) [v] /\
    (forall a, in_range V a -> mass_of l' a = total (mass_of l) [v] a).
Proof.
  intros HV [Hg Hlive Hitems] HvV Hpos Hid' Hidx Hsc Hsafe.
  destruct (any_remove_hidden sc V s v v') as (s' & sel & rest & new & E & Hg' & Hfr & Hel & Hp & Hl & Hs & Hr & Hvs & Hval); auto.
  rewrite Hlive in Hp. apply Permutation_sym in Hp. apply Permutation_map_inv in Hp. destruct Hp as (l3 & E3 & Hp3).
  symmetry in E3. apply map_eq_app in E3. destruct E3 as (ls & lr & -> & <- & <-).
  assert (Hperm : Permutation l (ls ++ lr)) by auto.
  assert (Hok : Forall (item_ok V) (ls ++ lr)) by (eapply Permutation_Forall; eauto).
  apply Forall_app in Hok. destruct Hok as [Hoks Hokr].
  assert (Hsane : forall m, Forall (item_ok V) m -> Forall sane (map i_b m)).
  { intros m Hm. rewrite Forall_forall in *. intros b Hb. apply in_map_iff in Hb. destruct Hb as (i & <- & Hi). apply (Hm i Hi). }
  assert (Eb : budget l = bprod (map i_b ls ++ map i_b lr)).
  { unfold budget. rewrite <- map_app. apply bprod_perm. apply Permutation_map. auto. }
  set (n := v_outcomes v) in *.
  set (B := bsum (budget ls) n).
  set (q := fun a => qsum (map (fun k => mass_of ls (upd a (v_id v) k)) (seq 0 n))).
  assert (Hn1 : 1 <= INR n). { change 1 with (INR 1). apply le_INR. auto. }
  destruct (bprod_sane _ (Hsane _ Hoks)) as [[S1 S2] S3]. fold (budget ls) in S1, S2, S3.
  destruct (bprod_sane _ (Hsane _ Hokr)) as [[R1 R2] R3]. fold (budget lr) in R1, R2, R3.
  assert (HsafeB : safe B).
  { rewrite Eb, bprod_app in Hsafe. fold (budget ls) (budget lr) in Hsafe. destruct Hsafe as (H1 & H2 & H3).
    cbn [grow b_k b_lo b_hi] in H1, H2, H3. simpl outcomes_product in H2. fold n in H2, H3. unfold B, bsum. split; [|split]; cbn [b_k b_lo b_hi].
    - apply Rle_trans with (1 := H1). rewrite <- (Rmult_1_r (b_lo (budget ls))) at 2. apply Rmult_le_compat_l; lra.
    - apply Rle_trans with (2 := H2). rewrite Rmult_1_r, (Rmult_comm (INR n)). apply Rmult_le_compat_r; [lra|].
      rewrite <- (Rmult_1_r (b_hi (budget ls))) at 1. apply Rmult_le_compat_l; lra.
    - eapply few_mono; [|exact H3]. simpl. lia. }
  assert (HsafeS : safe (budget ls)).
  { destruct HsafeB as (H1 & H2 & H3). unfold B, bsum in *. cbn [b_k b_lo b_hi] in *. split; auto. split.
    - apply Rle_trans with (2 := H2). rewrite <- (Rmult_1_l (b_hi (budget ls))) at 1. apply Rmult_le_compat_r; lra.
    - eapply few_mono; [|exact H3]. lia. }
  assert (Hloc : local (f_vars new) q).
  { intros a b Hab. unfold q. f_equal. apply map_ext. intros k. unfold mass_of. f_equal. apply map_ext_in. intros i Hi.
    rewrite Forall_forall in Hoks. destruct (Hoks i Hi) as (_ & Hli & _). apply Hli. intros u Hu.
    destruct (Z.eq_dec (v_id u) (v_id v)) as [Eu|Eu]; [rewrite Eu, !upd_same; auto|]. rewrite !upd_other by auto. apply Hab. apply Hvs.
    split; auto. exists (i_f i). split; auto. apply in_map. auto. }
  assert (Hnew : sane B /\ forall a, in_range V a -> approx B (fv new a) (q a)).
  { assert (Happ : forall a, in_range V a -> sane B /\ approx B (fv new a) (q a)).
    { intros a Ha. rewrite Hval by auto. unfold q, B. fold n.
      assert (El : length (map (fun k => mult_at (map i_f ls) (upd a (v_id v) k)) (seq 0 n)) = n) by (rewrite map_length, seq_length; auto).
      set (xs := map (fun k => mult_at (map i_f ls) (upd a (v_id v) k)) (seq 0 n)) in *.
      pose proof (approx_sum (budget ls) xs (map (fun k => mass_of ls (upd a (v_id v) k)) (seq 0 n))) as P.
      rewrite El in P. apply P; auto; [apply bprod_sane; auto|]. clear P. unfold xs.
      assert (Hin : forall k, In k (seq 0 n) -> approx (budget ls) (mult_at (map i_f ls) (upd a (v_id v) k)) (mass_of ls (upd a (v_id v) k))).
      { intros k Hk. apply in_seq in Hk. eapply items_mult; eauto. apply in_range_upd'; auto. fold n. lia. }
      clear -Hin. induction (seq 0 n); simpl; constructor; auto. apply Hin; simpl; auto. apply IHl. intros; apply Hin; simpl; auto. }
    split; [|intros a Ha; apply Happ; auto]. unfold B, bsum. split; cbn [b_lo b_hi]; [lra|nra]. }
  exists s', (lr ++ [mkI B new q]). split; auto. split.
  { constructor; auto.
    - rewrite Hl, map_app. auto.
    - apply Forall_app. split; auto. constructor; [|constructor]. split; [apply Hnew|]. split; auto. apply Hnew. }
  do 2 (split; auto). split; [|split].
  - intros u HuV. unfold in_scope. rewrite Hl, Hlive. 
    assert (Hin : forall f, In f (map i_f l) <-> In f (map i_f ls) \/ In f (map i_f lr)).
    { intros f. rewrite <- in_app_iff, <- map_app. split; apply Permutation_in; apply Permutation_map; auto. apply Permutation_sym; auto. }
    split.
    + intros (f & Hf & Hu). apply in_app_iff in Hf. destruct Hf as [Hf|[<-|[]]].
      * split; [exists f; split; auto; apply Hin; auto|]. intros Eu. apply (Hr f Hf). rewrite <- Eu. apply in_map. auto.
      * apply Hvs in Hu. destruct Hu as [(f & Hf & Hu) Hne]. split; auto. exists f. split; auto. apply Hin; auto.
    + intros [(f & Hf & Hu) Hne]. apply Hin in Hf. destruct Hf as [Hf|Hf].
      * exists new. split. apply in_app_iff; simpl; auto. apply Hvs. split; eauto.
      * exists f. split; auto. apply in_app_iff; auto.
  - unfold budget at 1. rewrite map_app, bprod_app. simpl map. rewrite bprod_one. rewrite Eb, bprod_app. unfold grow, B, bsum.
    fold (budget ls) (budget lr). cbn [b_k b_lo b_hi i_b]. simpl. fold n. f_equal; [lia|ring|ring].
  - intros a Ha. rewrite mass_app. unfold mass_of at 2. simpl. unfold q.
    rewrite total_cons. rewrite (qsum_ext (fun k => total (mass_of l) [] (upd a (v_id v) k)) (fun k => mass_of l (upd a (v_id v) k))) by (intros; apply total_nil).
    rewrite (qsum_ext (fun k => mass_of l (upd a (v_id v) k))
      (fun k => (mass_of lr a * mass_of ls (upd a (v_id v) k))%Qc)).
    + rewrite qsum_scale. fold n. ring.
    + intros k _. rewrite (mass_perm _ _ _ Hperm), mass_app.
      assert (Er : mass_of lr (upd a (v_id v) k) = mass_of lr a).
      { unfold mass_of. f_equal. apply map_ext_in. intros i Hi. rewrite Forall_forall in Hokr. destruct (Hokr i Hi) as (_ & Hli & _). apply Hli.
        intros u Hu. apply upd_other. intros Eu. apply (Hr (i_f i)); [apply in_map; auto|]. rewrite <- Eu. apply in_map. auto. }
      rewrite Er. ring.
Qed.

Lemma tracked_list V (hl : list variable) : wf_vars V -> forall (hl' : list variable) s l,
  tracked V s l -> Forall2 (fun v v' => v_id v' = v_id v /\ (v_index v' < length (ve_elim s))%nat) hl hl' ->
  incl hl V -> wf_vars hl -> (forall v, In v hl -> in_scope s v) -> (forall v, In v V -> (0 < v_outcomes v)%nat) ->
  safe (grow (budget l) hl) ->
  exists s' l', foldM (remove_hidden sc) s hl' = Ok s' /\ tracked V s' l' /\ frame s s' /\
    (forall u, In u V -> (in_scope s' u <-> in_scope s u /\ ~ In (v_id u) (map v_id hl))) /\
    budget l' = grow (budget l) hl /\
    (forall a, in_range V a -> mass_of l' a = total (mass_of l) hl a).
Proof.
  intros HV. induction hl as [|v hl IH]; intros hl' s l Hg H2 Hi Hw Hsc Hpos Hsafe.
  - inversion H2; subst. exists s, l. simpl. do 2 (split; auto). split; [apply frame_refl|]. split; [tauto|]. split.
    + unfold grow. cbn [sum_steps outcomes_product]. rewrite Nat.add_0_r, Rmult_1_r. destruct (budget l); auto.
    + intros a _. rewrite total_nil. auto.
  - inversion H2 as [|? v' ? hl1 [Hid Hix] H2']; subst. simpl.
    assert (Hhi : 1 <= b_hi (budget l)).
    { apply bprod_sane. destruct Hg as [_ _ Hok]. rewrite Forall_forall in *. intros b Hb. apply in_map_iff in Hb. destruct Hb as (i & <- & Hii). apply (Hok i Hii). }
    destruct (tracked_remove V s l v v') as (s1 & l1 & E1 & Hg1 & Hf1 & Hel1 & Hsc1 & Hb1 & Hw1); auto.
    { apply Hi; simpl; auto. } { apply Hpos, Hi; simpl; auto. } { apply Hsc; simpl; auto. }
    { apply (grow_safe_less _ v hl); auto. }
    rewrite E1. cbn [gbind]. inversion Hw as [|? ? Hni Hw']; subst.
    assert (Hb2 : grow (budget l1) hl = grow (budget l) (v :: hl)).
    { rewrite Hb1. unfold grow. cbn [b_k b_lo b_hi sum_steps outcomes_product]. f_equal; [lia|ring]. }
    destruct (IH hl1 s1 l1) as (s2 & l2 & E2 & Hg2 & Hf2 & Hsc2 & Hbb2 & Hw2); auto.
    { eapply Forall2_imp; [|apply H2']. intros x y [Hx Hy]. split; auto. rewrite Hel1, upd_nth_length. auto. }
    { intros x Hx. apply Hi; simpl; auto. }
    { intros u Hu. apply Hsc1. apply Hi; simpl; auto. split. apply Hsc; simpl; auto.
      intros E. apply Hni. rewrite <- E. apply in_map. auto. }
    { rewrite Hb2. auto. }
    exists s2, l2. split; auto. split; auto. split; [eapply frame_trans; eauto|].
    split. { intros u Hu. rewrite Hsc2, Hsc1 by auto. simpl. split.
      - intros [[H3 H4] H5]. split; auto. intros [H6|H6]; auto. - intros [H3 H4]. repeat split; auto. }
    split; [rewrite Hbb2; auto|].
    intros a Ha. rewrite Hw2 by auto.
    rewrite (total_ext_range _ (total (mass_of l) [v]) V); auto.
    2:{ intros x Hx. apply Hi; simpl; auto. }
    rewrite <- total_app. apply total_perm.
    + eapply mass_proper. apply Hg.
    + apply wf_perm with (v :: hl); auto. apply Permutation_cons_append.
    + symmetry. apply Permutation_cons_append.
Qed.
End VE.

(** ** Observations *)
Lemma any_plug_utility V evs (f f' : factor f64) : wf_vars V -> valid_evidence V evs -> incl (f_vars f) V -> incl (f_vars f') V ->
  any_rel_plug V evs f f' -> is_utility_factor f = is_utility_factor f'.
Proof.
  intros HV He Hi Hi' [Hr _]. apply eq_true_iff_eq. unfold is_utility_factor. rewrite !existsb_exists.
  split; intros (u & Hu & Ht); exists u; split; auto.
  - apply Hr; auto. split; auto. apply not_true_iff_false. intros Hc. unfold is_evidence in Hc.
    apply existsb_exists in Hc. destruct Hc as (ev & Hev & Eid). destruct (He ev Hev) as (H1 & H2 & _).
    apply H2. replace (ev_var ev) with u. apply nodeType_eqb_spec; auto. eapply wf_vars_inj; eauto. lia.
  - apply Hr in Hu; auto. tauto.
Qed.

Lemma plug_fixed evs v a b : is_evidence evs v = true -> plug evs a (v_id v) = plug evs b (v_id v).
Proof.
  unfold is_evidence. induction evs as [|e evs IH]; simpl; [discriminate|]. intros H. unfold upd.
  destruct (Z.eqb_spec (v_id v) (v_id (ev_var e))); auto. apply IH. apply orb_true_iff in H. destruct H as [H|H]; auto. lia.
Qed.
Lemma plug_agree evs v a b : a (v_id v) = b (v_id v) -> plug evs a (v_id v) = plug evs b (v_id v).
Proof. intros H. induction evs as [|e evs IH]; simpl; auto. unfold upd. destruct (Z.eqb_spec (v_id v) (v_id (ev_var e))); auto. Qed.

Lemma item_plug V evs i f' : wf_vars V -> valid_evidence V evs -> incl (f_vars (i_f i)) V -> item_ok V i ->
  any_rel_plug V evs (i_f i) f' -> item_ok V (mkI (i_b i) f' (fun a => i_q i (plug evs a))).
Proof.
  intros HV He Hi (H1 & H2 & H3) [Hv Hf]. split; auto. split; simpl.
  - intros a b Hab. apply H2. intros v Hvin. destruct (is_evidence evs v) eqn:Ee; [apply plug_fixed; auto|].
    apply plug_agree. apply Hab. apply Hv; auto.
  - intros a Ha. rewrite Hf by auto. apply H3. apply plug_range; auto.
Qed.

Lemma items_plug V evs l fs' : wf_vars V -> valid_evidence V evs -> Forall (item_ok V) l -> Forall (fun i => incl (f_vars (i_f i)) V) l ->
  matched (any_rel_plug V evs) (map i_f l) fs' ->
  exists l', fs' = map i_f l' /\ Forall (item_ok V) l' /\ budget l' = budget l /\
    forall a, in_range V a -> mass_of l' a = mass_of l (plug evs a).
Proof.
  intros HV He Hok Hin (m & Hp & H2).
  assert (G : exists l'', m = map i_f l'' /\ Forall (item_ok V) l'' /\ map i_b l'' = map i_b l /\ forall a, mass_of l'' a = mass_of l (plug evs a)).
  { clear Hp. revert m H2. induction l as [|i l IH]; intros m H2; inversion H2; subst.
    - exists []. repeat split; auto.
    - inversion Hok; inversion Hin; subst. destruct (IH H5 H9 l') as (l'' & -> & Ho & Hb & Hm); auto.
      exists (mkI (i_b i) y (fun a => i_q i (plug evs a)) :: l''). simpl. split; auto. split.
      + constructor; auto. eapply item_plug; eauto.
      + split; [congruence|]. intros a. unfold mass_of in *. simpl. rewrite Hm. auto. }
  destruct G as (l'' & -> & Ho & Hb & Hm). apply Permutation_map_inv in Hp. destruct Hp as (l' & E & Hp).
  exists l'. split; auto. split; [eapply Permutation_Forall; eauto|]. split.
  - unfold budget. rewrite <- Hb. symmetry. apply bprod_perm. apply Permutation_map. auto.
  - intros a Ha. rewrite <- Hm. symmetry. apply mass_perm. auto.
Qed.

(** A problem on float64 numbers: the same requirements as for exact numbers, and the
    factors over probabilities approximate given functions. *)
Theorem tracked_query sc t vs (fs : list (factor f64)) deps w evs query l :
  ve_problem vs [] deps -> (forall v, In v (vs_vars vs) -> (0 < v_outcomes v)%nat) ->
  (forall f, In f fs -> sound_factor (vs_vars vs) (vs_counter vs) f) -> NoDup (map f_id fs) ->
  valid_evidence (vs_vars vs) evs -> prob_factors fs = map i_f l -> Forall (item_ok (vs_vars vs)) l ->
  let V := vs_vars vs in
  let H := hidden_in V deps evs query in
  (forall h, In h H -> exists f, In f (prob_factors fs) /\ In h (f_vars f)) ->
  safe (grow (budget l) H) ->
  exists s' f, ve_solve_query sc (ve_new t vs fs deps w) evs query = Ok (s', f) /\
    wf_factor f /\ incl (f_vars f) V /\
    (forall v, In v V -> (In v (f_vars f) <->
       (exists g, In g (prob_factors fs) /\ In v (f_vars g)) /\ is_evidence evs v = false /\ ~ In v H)) /\
    frame (ve_new t vs fs deps w) s' /\ (f_id f < vs_counter (ve_vs s'))%Z /\
    (forall a, in_range V a -> approx (grow (budget l) H) (fv f a) (qsum (map (mass_of l) (worlds H (plug evs a))))).
Proof.
  intros Hpb Hpos Hfs Hids Hev Hpf Hok V H Hcov Hsafe.
  assert (HV : wf_vars V) by apply Hpb.
  set (s0 := ve_new t vs fs deps w).
  assert (Hl0 : live s0 = fs).
  { unfold s0, ve_new, live. simpl. rewrite ve_new_factors by auto. rewrite map_map. simpl. apply map_id. }
  assert (Hg0 : sound V s0).
  { constructor; unfold s0, ve_new; simpl.
    - rewrite ve_new_factors by auto. intros e He. apply in_map_iff in He. destruct He as (f & <- & Hin). auto.
    - unfold live. simpl. rewrite ve_new_factors by auto. intros f Hin. rewrite map_map in Hin. simpl in Hin. rewrite map_id in Hin. apply Hfs. auto.
    - rewrite ve_new_factors by auto. rewrite map_map. auto. }
  unfold ve_solve_query, ve_solve.
  destruct (any_eliminate_evidence sc V HV evs s0) as (s1 & E1 & Hg1 & Hf1 & Hel1 & Hm1); auto.
  rewrite E1. cbn [gbind]. rewrite Hl0 in Hm1.
  destruct (any_remove_utilities sc V s1) as (Hg2 & Hf2 & Hel2 & Hl2); auto.
  { rewrite (fr_vars _ _ Hf1). auto. }
  set (s2 := remove_utilities sc s1 None) in *.
  assert (Hm2 : matched (any_rel_plug V evs) (prob_factors fs) (live s2)).
  { rewrite Hl2. apply matched_filter; auto. intros x y Hx Hy HR. f_equal. eapply any_plug_utility; eauto.
    - apply (Hfs x Hx).
    - apply (s_fac _ _ Hg1 y Hy). }
  assert (Hsc2 : forall u, In u V -> (in_scope s2 u <-> (exists f, In f (prob_factors fs) /\ In u (f_vars f)) /\ is_evidence evs u = false)).
  { intros u Hu. unfold in_scope. destruct Hm2 as (gs' & Hp & H2).
    assert (E : (exists g, In g (live s2) /\ In u (f_vars g)) <-> (exists g, In g gs' /\ In u (f_vars g))).
    { split; intros (g & Hgin & Hug); exists g; split; auto.
      - eapply Permutation_in; eauto.
      - eapply Permutation_in; [apply Permutation_sym|]; eauto. }
    rewrite E. clear -H2 Hu. induction H2.
    - split; [intros (g & [] & _)|intros [(g & [] & _) _]].
    - split.
      + intros (g & [<-|Hg] & Hug).
        * apply H in Hug; auto. destruct Hug. split; auto. exists x. simpl; auto.
        * destruct (proj1 IHForall2) as [(f & Hf & Huf) He]; eauto. split; auto. exists f. simpl; auto.
      + intros [(f & [<-|Hf] & Huf) He].
        * exists y. split; simpl; auto. apply H; auto.
        * destruct (proj2 IHForall2) as (g & Hg & Hug); eauto. exists g. simpl; auto. }
  rewrite Hpf in Hm2.
  destruct (items_plug V evs l (live s2)) as (l2 & El2 & Hok2 & Hb2 & Hms2); auto.
  { rewrite Forall_forall. intros i Hi. apply (Hfs (i_f i)). assert (Hin : In (i_f i) (prob_factors fs)) by (rewrite Hpf; apply in_map; auto).
    apply filter_In in Hin. tauto. }
  assert (Hfr2 : frame s0 s2) by (eapply frame_trans; eauto).
  assert (EV : vs_vars (ve_vs s2) = V) by (rewrite (fr_vars _ _ Hfr2); auto).
  assert (Ed : ve_deps s2 = deps) by (rewrite (fr_deps _ _ Hfr2); auto).
  assert (Hle : length (ve_elim s2) = length V) by (rewrite Hel2, Hel1; simpl; apply repeat_length).
  pose proof (problem_ready vs [] deps s2 Hpb EV Ed Hle) as Hr.
  destruct (eliminate_hidden_list sc s2 evs query false Hr) as (t0 & r & t1 & hl & E0 & E & Hp).
  destruct (get_decisions_spec sc s2 (r_wf _ Hr) (r_closed _ Hr)) as (t0' & r' & E0' & Hpr & _).
  rewrite E0 in E0'. assert (r' = r) by (inversion E0'; auto). subst r'. clear E0'.
  rewrite EV in Hp, Hpr. rewrite Ed in Hp.
  assert (EH : filter (is_hidden (ve_elim s2) deps (todo_of false r) evs query) V = H).
  { unfold H, hidden_in. apply filter_ext_in. intros v Hv. unfold is_hidden.
    rewrite (parent_flag_all vs [] deps r v Hpb Hpr Hv). f_equal. f_equal. f_equal.
    destruct (nodeType_eqb (v_type v) Chance) eqn:Et; simpl; auto.
    rewrite Hel2, Hel1. simpl. rewrite nth_repeat. auto. }
  rewrite EH in Hp.
  assert (HiH : incl H V) by (intros v Hv; apply filter_In in Hv; tauto).
  assert (HwH : wf_vars H) by (apply NoDup_filter_map; auto).
  assert (Hne : forall v, In v H -> is_evidence evs v = false).
  { intros v Hv. apply filter_In in Hv. rewrite !andb_true_iff in Hv. apply negb_true_iff. tauto. }
  assert (Hhl : forall v, In v hl <-> In v H) by (intros; split; apply Permutation_in; auto; apply Permutation_sym; auto).
  assert (Hgrow : grow (budget l2) hl = grow (budget l) H).
  { rewrite Hb2. unfold grow. f_equal; f_equal.
    - clear -Hp. induction Hp; simpl; auto; lia.
    - clear -Hp. induction Hp; simpl; auto; [rewrite IHHp; auto|ring|congruence]. }
  destruct (tracked_list sc V hl HV hl (with_tick s2 t1) l2) as (s3 & l3 & E3 & Hg3 & Hfr3 & Hsc3 & Hb3 & Hw3).
  { constructor; auto. destruct Hg2; constructor; auto. }
  { apply Forall2_self. intros v Hv. split; auto. simpl. rewrite Hle. apply index_lt. apply Hpb. apply HiH, Hhl, Hv. }
  { intros v Hv. apply HiH, Hhl, Hv. }
  { eapply wf_perm; eauto. }
  { intros v Hv. apply Hhl in Hv. apply (Hsc2 v); auto. }
  { auto. }
  { rewrite Hgrow. auto. }
  rewrite E, E3. cbn [gbind].
  destruct Hg3 as [Hs3 Hlive3 Hok3].
  destruct (any_multiply_all sc V s3) as (s4 & f & gs & E4 & Hw4 & Hp4 & Hf4 & Hc4 & Hvs4 & Hi4 & Hval4); auto.
  exists s4, f. split; auto. split; auto. split; auto. split.
  { intros v Hv. rewrite Hvs4, Hsc3 by auto.
    assert (Et : in_scope (with_tick s2 t1) v <-> in_scope s2 v) by reflexivity. rewrite Et, Hsc2 by auto.
    assert (Eh : ~ In (v_id v) (map v_id hl) <-> ~ In v H).
    { split; intros Hn Hc; apply Hn.
      - apply in_map. apply Hhl. auto.
      - apply in_map_iff in Hc. destruct Hc as (x & Ex & Hx). apply Hhl in Hx. replace v with x; auto. apply (wf_vars_inj V); auto. }
    rewrite Eh. tauto. }
  split. { eapply frame_trans; [|apply Hf4]. eapply frame_trans; [apply Hfr2|].
    eapply frame_trans; [|apply Hfr3]. constructor; simpl; auto. lia. }
  split; [auto|].
  intros a Ha. rewrite Hval4 by auto. rewrite Hlive3 in Hp4. apply Permutation_sym in Hp4. apply Permutation_map_inv in Hp4.
  destruct Hp4 as (l4 & -> & Hp4).
  assert (Eb4 : budget l4 = grow (budget l) H).
  { rewrite <- Hgrow, <- Hb3. unfold budget. symmetry. apply bprod_perm. apply Permutation_map. auto. }
  rewrite <- Eb4.
  assert (Em : qsum (map (mass_of l) (worlds H (plug evs a))) = mass_of l4 a).
  { rewrite <- (mass_perm _ _ _ Hp4). rewrite Hw3 by auto.
    rewrite (total_ext_range (mass_of l2) (fun w => mass_of l (plug evs w)) V); auto.
    2:{ intros v Hv. apply HiH, Hhl, Hv. }
    rewrite (total_perm _ hl H).
    - symmetry. apply (total_plug (mass_of l) evs H); auto. eapply mass_proper; eauto.
    - intros x y Exy. eapply mass_proper; eauto. apply plug_proper. auto.
    - eapply wf_perm; eauto.
    - apply Permutation_sym. auto. }
  rewrite Em. apply (items_mult V); auto; [eapply Permutation_Forall; eauto|]. rewrite Eb4. auto.
Qed.
