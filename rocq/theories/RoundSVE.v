(** Variable elimination on float64 with utilities: the factors stay close to exact functions of
    the joint assignments; errors are measured against magnitudes. *)
From Coq Require Import ZArith List Bool Lia Permutation QArith Qcanon Reals Lra.
From Coq Require Import Floats.SpecFloat.
From Flocq Require Import Core.Core IEEE754.BinarySingleNaN.
From Verif Require Import Num GoBase VarModel GoFacts SpecFactor Tuples FactorFacts FactorSum FactorProd FactorAt XnumFacts ExactFactor
  FactorThms VEModel SpecVE VEWorlds VEFacts VETopo VEHidden VESolve VEThms VEAny VEAnyUtil RoundFacts RoundSum RoundVE RoundSigned.
Import ListNotations.
Open Scope R_scope.
Local Opaque bpow.

(** A float64 factor with the function it approximates, and the magnitude of that function. *)
Record sitem := mkSI { s_b : bound; s_f : factor f64; s_q : asg -> Qc; s_m : asg -> Qc }.
Definition sitem_ok (V : list variable) (i : sitem) : Prop :=
  sane (s_b i) /\ local (f_vars (s_f i)) (s_q i) /\ local (f_vars (s_f i)) (s_m i) /\
  forall a, in_range V a -> sapprox (s_b i) (fv (s_f i) a) (s_q i a) (s_m i a).
(** The product of one of the functions over all factors. *)
Definition prod_at (g : sitem -> asg -> Qc) (l : list sitem) (a : asg) : Qc := qprod (map (fun i => g i a) l).
Definition sbudget (l : list sitem) : bound := bprod (map s_b l).

Record stracked (V : list variable) (s : vestate f64) (l : list sitem) : Prop := {
  st_sound : sound V s;
  st_live : live s = map s_f l;
  st_items : Forall (sitem_ok V) l
}.
(** An item that is not signed. *)
Definition unsigned (i : item) : sitem := mkSI (i_b i) (i_f i) (i_q i) (i_q i).
Lemma unsigned_ok V i : item_ok V i -> sitem_ok V (unsigned i).
Proof. intros (H1 & H2 & H3). split; auto. do 2 (split; auto). intros a Ha. apply approx_sapprox. apply H3. auto. Qed.

Definition localized (g : sitem -> asg -> Qc) (l : list sitem) : Prop := Forall (fun i => local (f_vars (s_f i)) (g i)) l.
Lemma ok_localized V l : Forall (sitem_ok V) l -> localized s_q l /\ localized s_m l.
Proof. intros H. split; eapply Forall_impl; try exact H; intros i (_ & H1 & H2 & _); auto. Qed.
Lemma prod_proper g l : localized g l -> proper (prod_at g l).
Proof.
  intros H a b E. unfold prod_at. f_equal. apply map_ext_in. intros i Hi. unfold localized in H. rewrite Forall_forall in H.
  apply (local_proper _ _ (H i Hi)). auto.
Qed.
Lemma prod_app g l m a : prod_at g (l ++ m) a = (prod_at g l a * prod_at g m a)%Qc.
Proof. unfold prod_at. rewrite map_app. induction (map (fun i => g i a) l); simpl; [ring|]. rewrite IHl0. ring. Qed.
Lemma prod_perm g l m a : Permutation l m -> prod_at g l a = prod_at g m a.
Proof. unfold prod_at. induction 1; simpl; auto; [f_equal; auto|ring|congruence]. Qed.

Lemma sitems_mult V l a : Forall (sitem_ok V) l -> safe (sbudget l) -> in_range V a ->
  sapprox (sbudget l) (mult_at (map s_f l) a) (prod_at s_q l a) (prod_at s_m l a).
Proof.
  intros Hl Hs Ha.
  assert (G : sapprox (sbudget l) (fold_left nmul (map (fun f => fv f a) (map s_f l)) n1) (prod_at s_q l a) (prod_at s_m l a)).
  { pose (t := map (fun i => (s_b i, (fv (s_f i) a, s_q i a, s_m i a))) l).
    assert (E1 : map fst t = map s_b l) by (unfold t; rewrite map_map; auto).
    pose proof (sapprox_prod t) as P. rewrite E1 in P. unfold sbudget, prod_at, t in *. rewrite !map_map in *. apply P; auto.
    rewrite Forall_forall in *. intros x Hx. apply in_map_iff in Hx. destruct Hx as (i & <- & Hi).
    destruct (Hl i Hi) as (H1 & _ & _ & H3). simpl. split; auto. apply H3. auto. }
  unfold mult_at. destruct l as [|i [|j l]]; auto. simpl.
  inversion Hl as [|? ? (H1 & _ & _ & H3) _]; subst. unfold sbudget. simpl map. rewrite bprod_one.
  assert (E : forall g, prod_at g [i] a = g i a) by (intros g; unfold prod_at; simpl; ring). rewrite !E.
  apply sapprox_mono with (s_b i); simpl; auto; lra.
Qed.

(** Summing the selected factors out commutes with the other factors. *)
Lemma prod_total g l ls lr v (new : sitem) a : Permutation l (ls ++ lr) -> localized g lr ->
  (forall i, In i lr -> ~ In (v_id v) (map v_id (f_vars (s_f i)))) ->
  (forall a, g new a = qsum (map (fun k => prod_at g ls (upd a (v_id v) k)) (seq 0 (v_outcomes v)))) ->
  prod_at g (lr ++ [new]) a = total (prod_at g l) [v] a.
Proof.
  intros Hperm Hloc Hr Hnew. rewrite prod_app. unfold prod_at at 2. simpl. rewrite Hnew.
  rewrite total_cons. rewrite (qsum_ext (fun k => total (prod_at g l) [] (upd a (v_id v) k)) (fun k => prod_at g l (upd a (v_id v) k))) by (intros; apply total_nil).
  rewrite (qsum_ext (fun k => prod_at g l (upd a (v_id v) k)) (fun k => (prod_at g lr a * prod_at g ls (upd a (v_id v) k))%Qc)).
  - rewrite qsum_scale. ring.
  - intros k _. rewrite (prod_perm g _ _ _ Hperm), prod_app.
    assert (Er : prod_at g lr (upd a (v_id v) k) = prod_at g lr a).
    { unfold prod_at. f_equal. apply map_ext_in. intros i Hi. unfold localized in Hloc. rewrite Forall_forall in Hloc. apply (Hloc i Hi).
      intros u Hu. apply upd_other. intros Eu. apply (Hr i Hi). rewrite <- Eu. apply in_map. auto. }
    rewrite Er. ring.
Qed.

Section VE.
Variable sc : sched.

(** ** Summing out a variable *)

(** [l'] arises from [l] by summing [v] out of the product of the factors with [v]. *)
Definition merged (v : variable) (l l' : list sitem) : Prop :=
  exists ls lr new, Permutation l (ls ++ lr) /\ l' = lr ++ [new] /\
    (forall i, In i lr -> ~ In (v_id v) (map v_id (f_vars (s_f i)))) /\
    (forall u, In u (f_vars (s_f new)) <-> (exists i, In i ls /\ In u (f_vars (s_f i))) /\ v_id u <> v_id v) /\
    (forall a, s_q new a = qsum (map (fun k => prod_at s_q ls (upd a (v_id v) k)) (seq 0 (v_outcomes v)))).

Lemma stracked_remove_step V s l v v' : wf_vars V -> stracked V s l -> In v V -> (0 < v_outcomes v)%nat ->
  v_id v' = v_id v -> (v_index v' < length (ve_elim s))%nat -> in_scope s v -> safe (grow (sbudget l) [v]) ->
  exists s' l', remove_hidden sc s v' = Ok s' /\ stracked V s' l' /\ frame s s' /\
    ve_elim s' = upd_nth (ve_elim s) (v_index v') true /\
    (forall u, In u V -> (in_scope s' u <-> in_scope s u /\ v_id u <> v_id v)) /\
    sbudget l' = grow (sbudget l) [v] /\
    (forall a, in_range V a -> prod_at s_q l' a = total (prod_at s_q l) [v] a /\ prod_at s_m l' a = total (prod_at s_m l) [v] a) /\
    merged v l l'.
Proof.
  intros HV [Hg Hlive Hitems] HvV Hpos Hid' Hidx Hsc Hsafe.
  destruct (any_remove_hidden sc V s v v') as (s' & sel & rest & new & E & Hg' & Hfr & Hel & Hp & Hl & Hs & Hr & Hvs & Hval); auto.
  rewrite Hlive in Hp. apply Permutation_sym in Hp. apply Permutation_map_inv in Hp. destruct Hp as (l3 & E3 & Hp3).
  symmetry in E3. apply map_eq_app in E3. destruct E3 as (ls & lr & -> & <- & <-).
  assert (Hperm : Permutation l (ls ++ lr)) by auto.
  assert (Hok : Forall (sitem_ok V) (ls ++ lr)) by (eapply Permutation_Forall; eauto).
  apply Forall_app in Hok. destruct Hok as [Hoks Hokr].
  assert (Hsane : forall m, Forall (sitem_ok V) m -> Forall sane (map s_b m)).
  { intros m Hm. rewrite Forall_forall in *. intros b Hb. apply in_map_iff in Hb. destruct Hb as (i & <- & Hi). apply (Hm i Hi). }
  assert (Eb : sbudget l = bprod (map s_b ls ++ map s_b lr)).
  { unfold sbudget. rewrite <- map_app. apply bprod_perm. apply Permutation_map. auto. }
  set (n := v_outcomes v) in *.
  set (B := bsum (sbudget ls) n).
  set (q := fun g a => qsum (map (fun k => prod_at g ls (upd a (v_id v) k)) (seq 0 n))).
  assert (Hn1 : 1 <= INR n). { change 1 with (INR 1). apply le_INR. auto. }
  destruct (bprod_sane _ (Hsane _ Hoks)) as [[S1 S2] S3]. fold (sbudget ls) in S1, S2, S3.
  destruct (bprod_sane _ (Hsane _ Hokr)) as [[R1 R2] R3]. fold (sbudget lr) in R1, R2, R3.
  assert (HsafeB : safe B).
  { rewrite Eb, bprod_app in Hsafe. fold (sbudget ls) (sbudget lr) in Hsafe. destruct Hsafe as (H1 & H2 & H3).
    cbn [grow b_k b_lo b_hi] in H1, H2, H3. simpl outcomes_product in H2. fold n in H2, H3. unfold B, bsum. split; [|split]; cbn [b_k b_lo b_hi].
    - apply Rle_trans with (1 := H1). rewrite <- (Rmult_1_r (b_lo (sbudget ls))) at 2. apply Rmult_le_compat_l; lra.
    - apply Rle_trans with (2 := H2). rewrite Rmult_1_r, (Rmult_comm (INR n)). apply Rmult_le_compat_r; [lra|].
      rewrite <- (Rmult_1_r (b_hi (sbudget ls))) at 1. apply Rmult_le_compat_l; lra.
    - eapply few_mono; [|exact H3]. simpl. lia. }
  assert (HsafeS : safe (sbudget ls)).
  { destruct HsafeB as (H1 & H2 & H3). unfold B, bsum in *. cbn [b_k b_lo b_hi] in *. split; auto. split.
    - apply Rle_trans with (2 := H2). rewrite <- (Rmult_1_l (b_hi (sbudget ls))) at 1. apply Rmult_le_compat_r; lra.
    - eapply few_mono; [|exact H3]. lia. }
  assert (Hloc : forall g, localized g ls -> local (f_vars new) (q g)).
  { intros g Hg0 a b Hab. unfold q. f_equal. apply map_ext. intros k. unfold prod_at. f_equal. apply map_ext_in. intros i Hi.
    unfold localized in Hg0. rewrite Forall_forall in Hg0. apply (Hg0 i Hi). intros u Hu.
    destruct (Z.eq_dec (v_id u) (v_id v)) as [Eu|Eu]; [rewrite Eu, !upd_same; auto|]. rewrite !upd_other by auto. apply Hab. apply Hvs.
    split; auto. exists (s_f i). split; auto. apply in_map. auto. }
  assert (Hnew : sane B /\ forall a, in_range V a -> sapprox B (fv new a) (q s_q a) (q s_m a)).
  { assert (Happ : forall a, in_range V a -> sane B /\ sapprox B (fv new a) (q s_q a) (q s_m a)).
    { intros a Ha. rewrite Hval by auto. unfold q, B. fold n.
      set (ts := map (fun k => (mult_at (map s_f ls) (upd a (v_id v) k), prod_at s_q ls (upd a (v_id v) k), prod_at s_m ls (upd a (v_id v) k))) (seq 0 n)).
      assert (El : length ts = n) by (unfold ts; rewrite map_length, seq_length; auto).
      pose proof (sapprox_sum (sbudget ls) ts) as P.
      rewrite El in P. unfold ts in P. rewrite !map_map in P. apply P; auto; [apply bprod_sane; auto|]. clear P.
      rewrite Forall_forall. intros t Ht. apply in_map_iff in Ht. destruct Ht as (k & <- & Hk). cbn [e_x e_q e_m fst snd].
      apply in_seq in Hk. eapply sitems_mult; eauto. apply in_range_upd'; auto. fold n. lia. }
    split; [|intros a Ha; apply Happ; auto]. unfold B, bsum. split; cbn [b_lo b_hi]; [lra|nra]. }
  exists s', (lr ++ [mkSI B new (q s_q) (q s_m)]). split; auto. split.
  { constructor; auto.
    - rewrite Hl, map_app. auto.
    - apply Forall_app. split; auto. constructor; [|constructor]. destruct (ok_localized V ls Hoks). split; [apply Hnew|]. split; [apply Hloc; auto|]. split; [apply Hloc; auto|]. apply Hnew. }
  do 2 (split; auto). split; [|split; [|split]].
  - intros u HuV. unfold in_scope. rewrite Hl, Hlive. 
    assert (Hin : forall f, In f (map s_f l) <-> In f (map s_f ls) \/ In f (map s_f lr)).
    { intros f. rewrite <- in_app_iff, <- map_app. split; apply Permutation_in; apply Permutation_map; auto. apply Permutation_sym; auto. }
    split.
    + intros (f & Hf & Hu). apply in_app_iff in Hf. destruct Hf as [Hf|[<-|[]]].
      * split; [exists f; split; auto; apply Hin; auto|]. intros Eu. apply (Hr f Hf). rewrite <- Eu. apply in_map. auto.
      * apply Hvs in Hu. destruct Hu as [(f & Hf & Hu) Hne]. split; auto. exists f. split; auto. apply Hin; auto.
    + intros [(f & Hf & Hu) Hne]. apply Hin in Hf. destruct Hf as [Hf|Hf].
      * exists new. split. apply in_app_iff; simpl; auto. apply Hvs. split; eauto.
      * exists f. split; auto. apply in_app_iff; auto.
  - unfold sbudget at 1. rewrite map_app, bprod_app. simpl map. rewrite bprod_one. rewrite Eb, bprod_app. unfold grow, B, bsum.
    fold (sbudget ls) (sbudget lr). cbn [b_k b_lo b_hi s_b s_f]. simpl. fold n. f_equal; [lia|ring|ring].
  - destruct (ok_localized V lr Hokr) as [Lq Lm].
    assert (Hrr : forall i, In i lr -> ~ In (v_id v) (map v_id (f_vars (s_f i)))) by (intros i Hi; apply Hr; apply in_map; auto).
    intros a Ha. split; apply (prod_total _ l ls lr v); auto.
  - exists ls, lr, (mkSI B new (q s_q) (q s_m)). split; auto. split; auto. split; [intros i Hi; apply Hr; apply in_map; auto|]. split; [|auto].
    intros u. cbn [s_f]. rewrite Hvs. split; intros [(x & Hx & Hu) Hne]; split; auto.
    + apply in_map_iff in Hx. destruct Hx as (i & <- & Hi). eauto.
    + exists (s_f x). split; auto. apply in_map. auto.
Qed.

Lemma stracked_remove V s l v v' : wf_vars V -> stracked V s l -> In v V -> (0 < v_outcomes v)%nat ->
  v_id v' = v_id v -> (v_index v' < length (ve_elim s))%nat -> in_scope s v -> safe (grow (sbudget l) [v]) ->
  exists s' l', remove_hidden sc s v' = Ok s' /\ stracked V s' l' /\ frame s s' /\
    ve_elim s' = upd_nth (ve_elim s) (v_index v') true /\
    (forall u, In u V -> (in_scope s' u <-> in_scope s u /\ v_id u <> v_id v)) /\
    sbudget l' = grow (sbudget l) [v] /\
    (forall a, in_range V a -> prod_at s_q l' a = total (prod_at s_q l) [v] a /\ prod_at s_m l' a = total (prod_at s_m l) [v] a).
Proof.
  intros HV Hst HvV Hpos Hid Hidx Hsc Hsafe.
  destruct (stracked_remove_step V s l v v') as (s' & l' & H1 & H2 & H3 & H4 & H5 & H6 & H7 & _); auto.
  exists s', l'. repeat (split; auto). all: apply H5 || apply H7; auto.
Qed.

(** [l'] arises from [l] by summing out the variables of [hl], one after the other. *)
Fixpoint derived (hl : list variable) (l l' : list sitem) : Prop :=
  match hl with
  | [] => l' = l
  | v :: hl => exists l1, merged v l l1 /\ derived hl l1 l'
  end.

Lemma stracked_list_steps V (hl : list variable) : wf_vars V -> forall (hl' : list variable) s l,
  stracked V s l -> Forall2 (fun v v' => v_id v' = v_id v /\ (v_index v' < length (ve_elim s))%nat) hl hl' ->
  incl hl V -> wf_vars hl -> (forall v, In v hl -> in_scope s v) -> (forall v, In v V -> (0 < v_outcomes v)%nat) ->
  safe (grow (sbudget l) hl) ->
  exists s' l', foldM (remove_hidden sc) s hl' = Ok s' /\ stracked V s' l' /\ frame s s' /\
    (forall u, In u V -> (in_scope s' u <-> in_scope s u /\ ~ In (v_id u) (map v_id hl))) /\
    length (ve_elim s') = length (ve_elim s) /\
    (forall i, nth_error (ve_elim s') i =
       if existsb (fun v => (v_index v =? i)%nat) hl' then Some true else nth_error (ve_elim s) i) /\
    sbudget l' = grow (sbudget l) hl /\
    (forall a, in_range V a -> prod_at s_q l' a = total (prod_at s_q l) hl a /\ prod_at s_m l' a = total (prod_at s_m l) hl a) /\
    derived hl l l'.
Proof.
  intros HV. induction hl as [|v hl IH]; intros hl' s l Hg H2 Hi Hw Hsc Hpos Hsafe.
  - inversion H2; subst. exists s, l. simpl. do 2 (split; auto). split; [apply frame_refl|]. split; [tauto|]. split; [auto|]. split; [auto|]. split; [|split; auto].
    + unfold grow. cbn [sum_steps outcomes_product]. rewrite Nat.add_0_r, Rmult_1_r. destruct (sbudget l); auto.
    + intros a _. rewrite !total_nil. auto.
  - inversion H2 as [|? v' ? hl1 [Hid Hix] H2']; subst. simpl.
    assert (Hhi : 1 <= b_hi (sbudget l)).
    { apply bprod_sane. destruct Hg as [_ _ Hok]. rewrite Forall_forall in *. intros b Hb. apply in_map_iff in Hb. destruct Hb as (i & <- & Hii). apply (Hok i Hii). }
    destruct (stracked_remove_step V s l v v') as (s1 & l1 & E1 & Hg1 & Hf1 & Hel1 & Hsc1 & Hb1 & Hw1 & Hm1); auto.
    { apply Hi; simpl; auto. } { apply Hpos, Hi; simpl; auto. } { apply Hsc; simpl; auto. }
    { apply (grow_safe_less _ v hl); auto. }
    rewrite E1. cbn [gbind]. inversion Hw as [|? ? Hni Hw']; subst.
    assert (Hb2 : grow (sbudget l1) hl = grow (sbudget l) (v :: hl)).
    { rewrite Hb1. unfold grow. cbn [b_k b_lo b_hi sum_steps outcomes_product]. f_equal; [lia|ring]. }
    destruct (IH hl1 s1 l1) as (s2 & l2 & E2 & Hg2 & Hf2 & Hsc2 & Hl2 & Hel2 & Hbb2 & Hw2 & Hd2); auto.
    { eapply Forall2_imp; [|apply H2']. intros x y [Hx Hy]. split; auto. rewrite Hel1, upd_nth_length. auto. }
    { intros x Hx. apply Hi; simpl; auto. }
    { intros u Hu. apply Hsc1. apply Hi; simpl; auto. split. apply Hsc; simpl; auto.
      intros E. apply Hni. rewrite <- E. apply in_map. auto. }
    { rewrite Hb2. auto. }
    exists s2, l2. split; auto. split; auto. split; [eapply frame_trans; eauto|].
    split. { intros u Hu. rewrite Hsc2, Hsc1 by auto. simpl. split.
      - intros [[H3 H4] H5]. split; auto. intros [H6|H6]; auto. - intros [H3 H4]. repeat split; auto. }
    split; [rewrite Hl2, Hel1, upd_nth_length; auto|].
    split. { intros i. rewrite Hel2, Hel1. destruct (existsb _ hl1) eqn:Ee.
      - rewrite orb_true_r. auto.
      - rewrite orb_false_r, upd_nth_spec. destruct (v_index v' =? i)%nat; simpl; auto.
        destruct (Nat.ltb_spec (v_index v') (length (ve_elim s))); auto. lia. }
    split; [rewrite Hbb2; auto|].
    split; [|exists l1; auto].
    assert (G : forall g, localized g l -> (forall a, in_range V a -> prod_at g l1 a = total (prod_at g l) [v] a) ->
      forall a, in_range V a -> total (prod_at g l1) hl a = total (prod_at g l) (v :: hl) a).
    { intros g Lg H1 a Ha. rewrite (total_ext_range _ (total (prod_at g l) [v]) V); auto.
      2:{ intros x Hx. apply Hi; simpl; auto. }
      rewrite <- total_app. apply total_perm.
      + apply prod_proper. auto.
      + apply wf_perm with (v :: hl); auto. apply Permutation_cons_append.
      + symmetry. apply Permutation_cons_append. }
    destruct (ok_localized V l (st_items _ _ _ Hg)) as [Lq Lm].
    intros a Ha. destruct (Hw2 a Ha) as [-> ->]. split; apply G; auto; intros b Hb; apply Hw1; auto.
Qed.
Lemma stracked_list V (hl : list variable) : wf_vars V -> forall (hl' : list variable) s l,
  stracked V s l -> Forall2 (fun v v' => v_id v' = v_id v /\ (v_index v' < length (ve_elim s))%nat) hl hl' ->
  incl hl V -> wf_vars hl -> (forall v, In v hl -> in_scope s v) -> (forall v, In v V -> (0 < v_outcomes v)%nat) ->
  safe (grow (sbudget l) hl) ->
  exists s' l', foldM (remove_hidden sc) s hl' = Ok s' /\ stracked V s' l' /\ frame s s' /\
    (forall u, In u V -> (in_scope s' u <-> in_scope s u /\ ~ In (v_id u) (map v_id hl))) /\
    sbudget l' = grow (sbudget l) hl /\
    (forall a, in_range V a -> prod_at s_q l' a = total (prod_at s_q l) hl a /\ prod_at s_m l' a = total (prod_at s_m l) hl a).
Proof.
  intros HV hl' s l H1 H2 H3 H4 H5 H6 H7.
  destruct (stracked_list_steps V hl HV hl' s l) as (s' & l' & G1 & G2 & G3 & G4 & _ & _ & G5 & G6 & _); auto.
  exists s', l'. repeat (split; auto). all: apply G4 || apply G6; auto.
Qed.
End VE.

(** ** Observations *)
Definition plugged (V : list variable) (evs : list evidence) (i i' : sitem) : Prop :=
  s_b i' = s_b i /\ s_q i' = (fun a => s_q i (plug evs a)) /\ s_m i' = (fun a => s_m i (plug evs a)) /\ any_rel_plug V evs (s_f i) (s_f i').
Lemma sitem_plug V evs i i' : wf_vars V -> valid_evidence V evs -> incl (f_vars (s_f i)) V -> sitem_ok V i -> plugged V evs i i' -> sitem_ok V i'.
Proof.
  intros HV He Hi (H1 & H2 & H3 & H4) (Eb & Eq & Em & Hv & Hf).
  assert (L : forall q, local (f_vars (s_f i)) q -> local (f_vars (s_f i')) (fun a => q (plug evs a))).
  { intros q Hq a b Hab. apply Hq. intros v Hvin. destruct (is_evidence evs v) eqn:Ee; [apply plug_fixed; auto|].
    apply plug_agree. apply Hab. apply Hv; auto. }
  split; [rewrite Eb; auto|]. rewrite Eq, Em. split; [apply L; auto|]. split; [apply L; auto|].
  intros a Ha. rewrite Hf, Eb by auto. apply H4. apply plug_range; auto.
Qed.
Lemma sitems_plug V evs l fs' : wf_vars V -> valid_evidence V evs -> Forall (sitem_ok V) l -> Forall (fun i => incl (f_vars (s_f i)) V) l ->
  matched (any_rel_plug V evs) (map s_f l) fs' ->
  exists l' l'', fs' = map s_f l' /\ Forall (sitem_ok V) l' /\ Permutation l'' l' /\ Forall2 (plugged V evs) l l''.
Proof.
  intros HV He Hok Hin (m & Hp & H2).
  assert (G : exists l'', m = map s_f l'' /\ Forall (sitem_ok V) l'' /\ Forall2 (plugged V evs) l l'').
  { clear Hp. revert m H2. induction l as [|i l IH]; intros m H2; inversion H2; subst.
    - exists []. repeat split; auto.
    - inversion Hok; inversion Hin; subst. destruct (IH H5 H9 l') as (l'' & -> & Ho & Hb); auto.
      assert (P : plugged V evs i (mkSI (s_b i) y (fun a => s_q i (plug evs a)) (fun a => s_m i (plug evs a)))) by (split; [|split; [|split]]; auto).
      exists (mkSI (s_b i) y (fun a => s_q i (plug evs a)) (fun a => s_m i (plug evs a)) :: l''). simpl. split; auto. split; constructor; auto.
      eapply sitem_plug; eauto. }
  destruct G as (l'' & -> & Ho & Hb). apply Permutation_map_inv in Hp. destruct Hp as (l' & E & Hp).
  exists l', l''. split; auto. split; [|split; auto]. eapply Permutation_Forall; eauto.
Qed.
Lemma plugged_budget V evs l l' l'' : Forall2 (plugged V evs) l l'' -> Permutation l'' l' -> sbudget l' = sbudget l.
Proof.
  intros H Hp. transitivity (sbudget l''); [symmetry; apply bprod_perm, Permutation_map; auto|]. unfold sbudget. f_equal.
  clear Hp. induction H as [|? ? ? ? (E & _)]; simpl; auto; congruence.
Qed.
Lemma plugged_prod V evs l l' l'' : Forall2 (plugged V evs) l l'' -> Permutation l'' l' ->
  forall a, prod_at s_q l' a = prod_at s_q l (plug evs a) /\ prod_at s_m l' a = prod_at s_m l (plug evs a).
Proof.
  intros H Hp a. rewrite <- !(prod_perm _ _ _ _ Hp). unfold prod_at.
  clear Hp. induction H as [|i i' l1 l2 (_ & Eq & Em & _) _ [IH1 IH2]]; simpl; auto. rewrite Eq, Em, IH1, IH2. auto.
Qed.

(** ** Eliminating the hidden variables and multiplying what is left *)
Lemma stracked_finish sc vs deps s evs query l : ve_problem vs [] deps -> (forall v, In v (vs_vars vs) -> (0 < v_outcomes v)%nat) ->
  let V := vs_vars vs in
  let H := hidden_in V deps evs query in
  stracked V s l -> vs_vars (ve_vs s) = V -> ve_deps s = deps -> length (ve_elim s) = length V ->
  (forall i v, nth_error V i = Some v -> v_type v = Chance -> nth i (ve_elim s) false = false) ->
  (forall v, In v H -> in_scope s v) -> safe (grow (sbudget l) H) ->
  exists s' f, (let! s := eliminate_hidden sc s evs query false in multiply_all sc s) = Ok (s', f) /\
    wf_factor f /\ incl (f_vars f) V /\ (forall v, In v V -> (In v (f_vars f) <-> in_scope s v /\ ~ In v H)) /\
    frame s s' /\ (f_id f < vs_counter (ve_vs s'))%Z /\
    forall a, in_range V a -> sapprox (grow (sbudget l) H) (fv f a) (total (prod_at s_q l) H a) (total (prod_at s_m l) H a).
Proof.
  intros Hpb Hpos V H Ht EV Ed Hle Hel Hsc Hsafe. assert (HV : wf_vars V) by apply Hpb.
  pose proof (problem_ready vs [] deps s Hpb EV Ed Hle) as Hr.
  destruct (eliminate_hidden_list sc s evs query false Hr) as (t0 & r & t1 & hl & E0 & E & Hp).
  destruct (get_decisions_spec sc s (r_wf _ Hr) (r_closed _ Hr)) as (t0' & r' & E0' & Hpr & _).
  rewrite E0 in E0'. assert (r' = r) by (inversion E0'; auto). subst r'. clear E0'.
  rewrite EV in Hp, Hpr. rewrite Ed in Hp.
  assert (EH : filter (is_hidden (ve_elim s) deps (todo_of false r) evs query) V = H).
  { unfold H, hidden_in. apply filter_ext_in. intros v Hv. unfold is_hidden.
    rewrite (parent_flag_all vs [] deps r v Hpb Hpr Hv). f_equal. f_equal. f_equal.
    destruct (nodeType_eqb (v_type v) Chance) eqn:Et; simpl; auto. apply nodeType_eqb_spec in Et.
    pose proof Hv as Hv'. apply In_nth_error in Hv'. destruct Hv' as (i & Hi).
    rewrite (vp_index _ _ _ Hpb _ _ Hi), (Hel _ _ Hi Et). auto. }
  rewrite EH in Hp.
  assert (HiH : incl H V) by (intros v Hv; apply filter_In in Hv; tauto).
  assert (HwH : wf_vars H) by (apply NoDup_filter_map; auto).
  assert (Hhl : forall v, In v hl <-> In v H) by (intros; split; apply Permutation_in; auto; apply Permutation_sym; auto).
  assert (Hgrow : grow (sbudget l) hl = grow (sbudget l) H).
  { unfold grow. f_equal; f_equal.
    - clear -Hp. induction Hp; simpl; auto; lia.
    - clear -Hp. induction Hp; simpl; auto; [rewrite IHHp; auto|ring|congruence]. }
  destruct (stracked_list sc V hl HV hl (with_tick s t1) l) as (s3 & l3 & E3 & Hg3 & Hfr3 & Hsc3 & Hb3 & Hw3).
  { destruct Ht as [Hs Hl Hi]. constructor; auto. destruct Hs; constructor; auto. }
  { apply Forall2_self. intros v Hv. split; auto. simpl. rewrite Hle. apply index_lt. apply Hpb. apply HiH, Hhl, Hv. }
  { intros v Hv. apply HiH, Hhl, Hv. }
  { eapply wf_perm; eauto. }
  { intros v Hv. apply Hhl in Hv. apply (Hsc v); auto. }
  { auto. }
  { rewrite Hgrow. auto. }
  rewrite E, E3. cbn [gbind].
  destruct Hg3 as [Hs3 Hlive3 Hok3].
  destruct (any_multiply_all sc V s3) as (s4 & f & gs & E4 & Hw4 & Hp4 & Hf4 & Hc4 & Hvs4 & Hi4 & Hval4); auto.
  exists s4, f. split; auto. split; auto. split; auto. split.
  { intros v Hv. rewrite Hvs4, Hsc3 by auto.
    assert (Et : in_scope (with_tick s t1) v <-> in_scope s v) by reflexivity. rewrite Et.
    assert (Eh : ~ In (v_id v) (map v_id hl) <-> ~ In v H).
    { split; intros Hn Hc; apply Hn.
      - apply in_map. apply Hhl. auto.
      - apply in_map_iff in Hc. destruct Hc as (x & Ex & Hx). apply Hhl in Hx. replace v with x; auto. apply (wf_vars_inj V); auto. }
    rewrite Eh. tauto. }
  split. { eapply frame_trans; [|apply Hf4]. eapply frame_trans; [|apply Hfr3]. constructor; simpl; auto. lia. }
  split; [auto|].
  intros a Ha. rewrite Hval4 by auto. rewrite Hlive3 in Hp4. apply Permutation_sym in Hp4. apply Permutation_map_inv in Hp4.
  destruct Hp4 as (l4 & -> & Hp4).
  assert (Eb4 : sbudget l4 = grow (sbudget l) H).
  { rewrite <- Hgrow, <- Hb3. unfold sbudget. symmetry. apply bprod_perm. apply Permutation_map. auto. }
  rewrite <- Eb4. destruct (ok_localized V l (st_items _ _ _ Ht)) as [Lq Lm].
  assert (Em : forall g, localized g l -> prod_at g l3 a = total (prod_at g l) hl a -> total (prod_at g l) H a = prod_at g l4 a).
  { intros g Lg Eg. rewrite <- (prod_perm _ _ _ _ Hp4), Eg. apply total_perm; auto. apply prod_proper; auto. }
  destruct (Hw3 a Ha) as [Eq3 Em3]. rewrite (Em s_q), (Em s_m) by auto.
  apply (sitems_mult V); auto; [eapply Permutation_Forall; eauto|]. rewrite Eb4. auto.
Qed.

(** ** SolveUtility for one utility variable *)
Theorem tracked_one_utility sc t vs (fs : list (factor f64)) deps w evs query u l :
  ve_problem vs [] deps -> (forall v, In v (vs_vars vs) -> (0 < v_outcomes v)%nat) ->
  (forall f, In f fs -> sound_factor (vs_vars vs) (vs_counter vs) f) -> NoDup (map f_id fs) ->
  valid_evidence (vs_vars vs) evs ->
  let V := vs_vars vs in
  let H := hidden_in V deps evs query in
  let K := factors_without_other_utilities u fs in
  K = map s_f l -> Forall (sitem_ok V) l ->
  (forall h, In h H -> exists f, In f K /\ In h (f_vars f)) ->
  safe (grow (sbudget l) H) ->
  exists s' f, ve_solve_utility sc (ve_new t vs fs deps w) evs query (Some u) = Ok (s', f) /\
    wf_factor f /\ incl (f_vars f) V /\
    (forall v, In v V -> (In v (f_vars f) <-> (exists g, In g K /\ In v (f_vars g)) /\ is_evidence evs v = false /\ ~ In v H)) /\
    frame (ve_new t vs fs deps w) s' /\ (f_id f < vs_counter (ve_vs s'))%Z /\
    (forall a, in_range V a -> sapprox (grow (sbudget l) H) (fv f a) (total (prod_at s_q l) H (plug evs a)) (total (prod_at s_m l) H (plug evs a))).
Proof.
  intros Hpb Hpos Hfs Hids Hev V H K HK Hok Hcov Hsafe.
  assert (HV : wf_vars V) by apply Hpb.
  set (s0 := ve_new t vs fs deps w).
  assert (Hl0 : live s0 = fs).
  { unfold s0, ve_new, live. simpl. rewrite ve_new_factors by auto. rewrite map_map. simpl. apply map_id. }
  assert (Hg0 : sound V s0).
  { constructor; unfold s0, ve_new; simpl.
    - rewrite ve_new_factors by auto. intros e He. apply in_map_iff in He. destruct He as (f & <- & Hin). auto.
    - unfold live. simpl. rewrite ve_new_factors by auto. intros f Hin. rewrite map_map in Hin. simpl in Hin. rewrite map_id in Hin. apply Hfs. auto.
    - rewrite ve_new_factors by auto. rewrite map_map. auto. }
  unfold ve_solve_utility, ve_solve.
  destruct (any_eliminate_evidence sc V HV evs s0) as (s1 & E1 & Hg1 & Hf1 & Hel1 & Hm1); auto.
  rewrite E1. cbn [gbind]. rewrite Hl0 in Hm1.
  destruct (any_remove_other_utilities sc V s1 u) as (Hg2 & Hf2 & Hel2 & Hl2); auto.
  { rewrite (fr_vars _ _ Hf1). auto. }
  set (s2 := remove_utilities sc s1 (Some u)) in *.
  assert (Hm2 : matched (any_rel_plug V evs) K (live s2)).
  { rewrite Hl2. apply matched_filter; auto. intros x y Hx Hy HR. eapply any_plug_other; eauto.
    - apply (Hfs x Hx).
    - apply (s_fac _ _ Hg1 y Hy). }
  assert (Hsc2 : forall v, In v V -> (in_scope s2 v <-> (exists f, In f K /\ In v (f_vars f)) /\ is_evidence evs v = false)).
  { intros v Hv. apply (any_plug_scope V evs K (live s2)); auto. }
  rewrite HK in Hm2.
  destruct (sitems_plug V evs l (live s2)) as (l2 & l3 & El2 & Hok2 & Hp2 & H22); auto.
  { rewrite Forall_forall. intros i Hi. apply (Hfs (s_f i)). assert (Hin : In (s_f i) K) by (rewrite HK; apply in_map; auto).
    apply filter_In in Hin. tauto. }
  assert (Eb2 : sbudget l2 = sbudget l) by (eapply plugged_budget; eauto).
  assert (Hfr2 : frame s0 s2) by (eapply frame_trans; eauto).
  assert (Hne : forall v, In v H -> is_evidence evs v = false).
  { intros v Hv. apply filter_In in Hv. rewrite !andb_true_iff in Hv. apply negb_true_iff. tauto. }
  assert (HiH : incl H V) by (intros v Hv; apply filter_In in Hv; tauto).
  destruct (stracked_finish sc vs deps s2 evs query l2) as (s' & f & E3 & Hw3 & Hi3 & Hvs3 & Hf3 & Hc3 & Hval3); auto.
  { constructor; auto. }
  { rewrite (fr_vars _ _ Hfr2). auto. }
  { rewrite (fr_deps _ _ Hfr2). auto. }
  { rewrite Hel2, Hel1. simpl. apply repeat_length. }
  { intros i v Hi _. rewrite Hel2, Hel1. simpl. apply nth_repeat. }
  { intros v Hv. apply Hsc2; auto. }
  { rewrite Eb2. auto. }
  exists s', f. split; auto. do 2 (split; auto). split.
  { intros v Hv. rewrite Hvs3, Hsc2 by auto. fold H. tauto. }
  split; [eapply frame_trans; eauto|]. split; auto.
  intros a Ha. specialize (Hval3 a Ha). rewrite Eb2 in Hval3. fold V in Hval3. fold H in Hval3.
  destruct (ok_localized V l Hok) as [Lq Lm].
  assert (G : forall g, localized g l -> (forall b, prod_at g l2 b = prod_at g l (plug evs b)) -> total (prod_at g l2) H a = total (prod_at g l) H (plug evs a)).
  { intros g Lg Eg. rewrite <- total_plug; auto; [|apply prod_proper; auto]. apply (total_ext_range _ _ V); auto. }
  rewrite <- (G s_q), <- (G s_m); auto; intros b; apply (plugged_prod V evs l l2 l3); auto.
Qed.
