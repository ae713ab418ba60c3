(** SolvePolicies on float64: the option with the largest computed utility is nearly the best one. *)
From Coq Require Import ZArith List Bool Lia Permutation QArith Qcanon Qcabs Reals Lra Qreals.
From Coq Require Import Floats.SpecFloat.
From Flocq Require Import Core.Core IEEE754.BinarySingleNaN.
From Verif Require Import Num GoBase VarModel GoFacts SpecFactor Tuples FactorFacts FactorSum FactorProd FactorPolicy FactorAt XnumFacts ExactFactor
  FactorThms VEModel SpecVE SpecPolicy VEWorlds VEFacts VETopo VEHidden VESolve VEThms VEUtil VEShadow VEOrder VEOptimal VEPolicy VEAny VEAnyUtil
  RoundFacts RoundSum RoundVE RoundSigned RoundSVE RoundTrain NetVE RoundUtility SpecRound RoundNet.
Import ListNotations.
Open Scope R_scope.
Local Opaque bpow.

(** ** What the probability factors alone would have become *)
Lemma local_ignores vs q x : local vs q -> ~ In x (map v_id vs) -> ignores q x.
Proof. intros Hl Hx a k. apply Hl. intros v Hv. apply upd_other. intros E. apply Hx. rewrite <- E. apply in_map. auto. Qed.

Lemma local_proper vs q : local vs q -> proper q.
Proof. intros Hl a b Hab. apply Hl. intros v _. apply Hab. Qed.

Lemma prod_ignores g l x : localized g l -> (forall i, In i l -> ~ In x (map v_id (f_vars (s_f i)))) -> ignores (prod_at g l) x.
Proof.
  intros Hl Hx a k. unfold prod_at. f_equal. apply map_ext_in. intros i Hi. unfold localized in Hl. rewrite Forall_forall in Hl.
  apply (local_ignores _ _ _ (Hl i Hi)). auto.
Qed.

Lemma prod_at_nonneg V l a : in_range V a -> (forall i, In i l -> forall b, in_range V b -> (0 <= s_q i b)%Qc) -> (0 <= prod_at s_q l a)%Qc.
Proof. intros Ha H. apply qprod_nonneg. intros x Hx. apply in_map_iff in Hx. destruct Hx as (i & <- & Hi). auto. Qed.

Lemma merged_localized v l l' : localized s_q l -> merged v l l' -> localized s_q l'.
Proof.
  intros Hl (ls & lr & new & Hp & -> & Hr & Hvs & Hq).
  assert (Hl2 : localized s_q (ls ++ lr)) by (unfold localized in *; eapply Permutation_Forall; eauto).
  apply Forall_app in Hl2. destruct Hl2 as [Hls Hlr]. apply Forall_app. split; auto. constructor; [|constructor].
  intros a b Hab. rewrite !Hq. f_equal. apply map_ext. intros k. unfold prod_at. f_equal. apply map_ext_in. intros i Hi.
  rewrite Forall_forall in Hls. apply (Hls i Hi). intros u Hu.
  destruct (Z.eq_dec (v_id u) (v_id v)) as [Eu|Eu]; [rewrite Eu, !upd_same; auto|]. rewrite !upd_other by auto.
  apply Hab. apply Hvs. split; eauto.
Qed.

(** One item [u] carries the utility; [t] is what it would be without the utility. *)
Record sshadow (V : list variable) (l : list sitem) (u : sitem) (others : list sitem) (t : asg -> Qc) : Prop := {
  ss_perm : Permutation l (u :: others);
  ss_pos : forall i, In i others -> forall a, in_range V a -> (0 <= s_q i a)%Qc;
  ss_proper : proper t;
  ss_tpos : forall a, in_range V a -> (0 <= t a)%Qc;
  ss_zero : forall a, in_range V a -> t a = 0%Qc -> s_q u a = 0%Qc;
  ss_ignores : forall x, ~ In x (map v_id (f_vars (s_f u))) -> ignores t x
}.

Lemma sshadow_step V v l l' u oth t : wf_vars V -> In v V -> localized s_q l -> merged v l l' -> sshadow V l u oth t ->
  exists u' oth' t', sshadow V l' u' oth' t' /\
    forall a, in_range V a -> (prod_at s_q oth' a * t' a)%Qc = total (fun w => prod_at s_q oth w * t w)%Qc [v] a.
Proof.
  intros HV HvV Hloc (sel & rest & new & Hp & -> & Hr & Hvs & Hval) [Hlv Hpos Hprop Htpos Hzero Hign].
  assert (Hp2 : Permutation (u :: oth) (sel ++ rest)) by (rewrite <- Hlv; auto).
  assert (Hin : In u (sel ++ rest)) by (eapply Permutation_in; [apply Hp2|simpl; auto]).
  assert (Hloc2 : localized s_q (sel ++ rest)) by (unfold localized in *; eapply Permutation_Forall; [exact Hp|auto]).
  apply Forall_app in Hloc2. destruct Hloc2 as [Hls Hlr].
  assert (Hupd : forall a k, in_range V a -> In k (seq 0 (v_outcomes v)) -> in_range V (upd a (v_id v) k)).
  { intros a k Ha Hk. apply in_seq in Hk. apply in_range_upd'; auto. lia. }
  assert (Ht1 : forall F a, total F [v] a = qsum (map (fun k => F (upd a (v_id v) k)) (seq 0 (v_outcomes v)))).
  { intros. rewrite total_cons. apply qsum_ext. intros. apply total_nil. }
  apply in_app_iff in Hin. destruct Hin as [Hin|Hin]; apply in_split in Hin; destruct Hin as (l1 & l2 & El); subst.
  - assert (Ho : Permutation oth ((l1 ++ l2) ++ rest)).
    { rewrite <- app_assoc in Hp2. simpl in Hp2. apply Permutation_cons_app_inv in Hp2. rewrite <- app_assoc. auto. }
    assert (Hpo : forall f, In f (l1 ++ l2) \/ In f rest -> forall a, in_range V a -> (0 <= s_q f a)%Qc).
    { intros f Hf. apply Hpos. eapply Permutation_in; [apply Permutation_sym, Ho|]. apply in_app_iff. auto. }
    assert (Hl12 : localized s_q (l1 ++ l2)).
    { apply Forall_app in Hls. destruct Hls as [H1 H2]. inversion H2; subst. apply Forall_app. auto. }
    set (t' := fun a => qsum (map (fun k => (t (upd a (v_id v) k) * prod_at s_q (l1 ++ l2) (upd a (v_id v) k))%Qc) (seq 0 (v_outcomes v)))).
    assert (Ew : forall x, prod_at s_q (l1 ++ u :: l2) x = (s_q u x * prod_at s_q (l1 ++ l2) x)%Qc).
    { intros x. rewrite !prod_app. unfold prod_at. simpl. ring. }
    exists new, rest, t'. split.
    + constructor.
      * apply Permutation_sym, Permutation_cons_append.
      * intros; apply Hpo; auto.
      * intros a b Hab. apply qsum_ext. intros k _. f_equal; [apply Hprop|apply (prod_proper s_q); auto]; apply asg_eq_upd; auto.
      * intros a Ha. apply qsum_nonneg. intros x Hx. apply in_map_iff in Hx. destruct Hx as (k & <- & Hk).
        apply qmult_nonneg; [apply Htpos; auto|]. eapply prod_at_nonneg; eauto.
      * intros a Ha Ez. rewrite Hval. rewrite (qsum_ext _ (fun _ => 0%Qc)).
        { clear. induction (seq 0 (v_outcomes v)); simpl; auto. rewrite IHl. reflexivity. }
        intros k Hk. 
        assert (E0 : (t (upd a (v_id v) k) * prod_at s_q (l1 ++ l2) (upd a (v_id v) k))%Qc = 0%Qc).
        { apply (qsum_zero (map (fun k => (t (upd a (v_id v) k) * prod_at s_q (l1 ++ l2) (upd a (v_id v) k))%Qc) (seq 0 (v_outcomes v)))); auto.
          - intros x Hx. apply in_map_iff in Hx. destruct Hx as (j & <- & Hj). apply qmult_nonneg; [apply Htpos; auto|]. eapply prod_at_nonneg; eauto.
          - apply in_map_iff. eauto. }
        rewrite Ew. apply Qcmult_integral in E0. destruct E0 as [E0|E0].
        { rewrite (Hzero _ (Hupd a k Ha Hk) E0). ring. } { rewrite E0. ring. }
      * intros x Hx a j. unfold t'. apply qsum_ext. intros k _.
        destruct (Z.eq_dec x (v_id v)) as [->|Hne].
        { f_equal; [apply Hprop|apply (prod_proper s_q); auto]; apply upd_upd. }
        assert (Hsx : forall f, In f (l1 ++ u :: l2) -> ~ In x (map v_id (f_vars (s_f f)))).
        { intros f Hf Hc. apply Hx. apply in_map_iff in Hc. destruct Hc as (w & Eu & Hu). apply in_map_iff. exists w. split; auto.
          apply Hvs. split; eauto. congruence. }
        rewrite (Hprop _ _ (upd_comm a x (v_id v) j k Hne)), (prod_proper s_q _ Hl12 _ _ (upd_comm a x (v_id v) j k Hne)).
        rewrite Hign by (apply Hsx; apply in_app_iff; simpl; auto). f_equal. apply prod_ignores; auto.
        intros f Hf. apply Hsx. apply in_app_iff in Hf. apply in_app_iff. simpl. tauto.
    + intros a Ha. rewrite Ht1. unfold t'. rewrite <- qsum_scale. apply qsum_ext. intros k _.
      rewrite (prod_perm s_q _ _ _ Ho), (prod_app s_q (l1 ++ l2) rest). rewrite (prod_ignores s_q rest) by auto. ring.
  - assert (Ho : Permutation oth (sel ++ l1 ++ l2)).
    { rewrite app_assoc in Hp2. apply Permutation_cons_app_inv in Hp2. rewrite <- app_assoc in Hp2. auto. }
    assert (Hpo : forall f, In f sel \/ In f (l1 ++ l2) -> forall a, in_range V a -> (0 <= s_q f a)%Qc).
    { intros f Hf. apply Hpos. eapply Permutation_in; [apply Permutation_sym, Ho|]. apply in_app_iff. auto. }
    assert (Hl12 : localized s_q (l1 ++ l2)).
    { apply Forall_app in Hlr. destruct Hlr as [H1 H2]. inversion H2; subst. apply Forall_app. auto. }
    assert (Hnv : ~ In (v_id v) (map v_id (f_vars (s_f u)))) by (apply Hr; apply in_app_iff; simpl; auto).
    exists u, (new :: l1 ++ l2), t. split.
    + constructor; auto.
      * rewrite <- app_assoc. etransitivity; [apply Permutation_sym, Permutation_middle|]. constructor.
        rewrite app_assoc. apply Permutation_sym, Permutation_cons_append.
      * intros f [<-|Hf]; [|apply Hpo; auto]. intros a Ha. rewrite Hval. apply qsum_nonneg.
        intros x Hx. apply in_map_iff in Hx. destruct Hx as (k & <- & Hk). eapply prod_at_nonneg; eauto.
    + intros a Ha. rewrite Ht1. change (prod_at s_q (new :: l1 ++ l2) a) with (s_q new a * prod_at s_q (l1 ++ l2) a)%Qc. rewrite Hval.
      rewrite (qsum_ext (fun k => (prod_at s_q oth (upd a (v_id v) k) * t (upd a (v_id v) k))%Qc)
        (fun k => (prod_at s_q (l1 ++ l2) a * t a * prod_at s_q sel (upd a (v_id v) k))%Qc)).
      * rewrite qsum_scale. ring.
      * intros k _. rewrite (prod_perm s_q _ _ _ Ho), prod_app, Hign by auto.
        rewrite (prod_ignores s_q (l1 ++ l2)); auto. ring. intros f Hf. apply Hr. apply in_app_iff in Hf. apply in_app_iff. simpl. tauto.
Qed.

Lemma sshadow_list V : wf_vars V -> forall hl l l' u oth t, incl hl V -> wf_vars hl ->
  localized s_q l -> derived hl l l' -> sshadow V l u oth t ->
  exists u' oth' t', sshadow V l' u' oth' t' /\
    forall a, in_range V a -> (prod_at s_q oth' a * t' a)%Qc = total (fun w => prod_at s_q oth w * t w)%Qc hl a.
Proof.
  intros HV. induction hl as [|v hl]; intros l l' u oth t Hi Hw Hloc Hd Hsh.
  - simpl in Hd. subst l'. exists u, oth, t. split; auto. intros. rewrite total_nil. auto.
  - destruct Hd as (l1 & Hm & Hd). inversion Hw as [|? ? Hni Hw']; subst.
    destruct (sshadow_step V v l l1 u oth t) as (u1 & oth1 & t1 & Hsh1 & Ht1); auto.
    { apply Hi; simpl; auto. }
    destruct (IHhl l1 l' u1 oth1 t1) as (u2 & oth2 & t2 & Hsh2 & Ht2); auto.
    { intros x Hx. apply Hi; simpl; auto. }
    { eapply merged_localized; eauto. }
    exists u2, oth2, t2. split; auto. intros a Ha. rewrite Ht2 by auto.
    assert (Hlo : localized s_q oth).
    { assert (H : localized s_q (u :: oth)) by (unfold localized in *; eapply Permutation_Forall; [apply (ss_perm _ _ _ _ _ Hsh)|auto]). inversion H; auto. }
    rewrite (total_ext_range _ (total (fun w => (prod_at s_q oth w * t w)%Qc) [v]) V); auto.
    + rewrite <- total_app. apply total_perm.
      * intros x y Hxy. f_equal. apply (prod_proper s_q); auto. apply (ss_proper _ _ _ _ _ Hsh); auto.
      * eapply wf_perm; [|apply Hw]. apply Permutation_cons_append.
      * apply Permutation_sym, Permutation_cons_append.
    + intros x Hx. apply Hi; simpl; auto.
Qed.

(** ** Choosing the largest number *)
Lemma nlt_exact (x y : f64) p q : stored x -> stored y -> f64_exact x = Fin p -> f64_exact y = Fin q -> nlt x y = nlt (Fin p) (Fin q).
Proof.
  intros Sx Sy Ex Ey. destruct (SF2R_exact x p Ex) as [Rx Fx]. destruct (SF2R_exact y q Ey) as [Ry Fy].
  destruct (stored_B x Sx) as (bx & <-). destruct (stored_B y Sy) as (by_ & <-).
  rewrite is_finite_SF_B2SF in Fx, Fy. rewrite SF2R_B2SF in Rx, Ry.
  change (nlt (B2SF bx) (B2SF by_)) with (Bltb bx by_). rewrite Bltb_correct by auto. rewrite Rx, Ry.
  apply eq_true_iff_eq. cbn [nlt xnum_ops xlt]. rewrite qlt_spec. unfold Qclt. split; intros H.
  - apply Rlt_Qlt. destruct (Rlt_bool_spec (qr p) (qr q)); [auto|discriminate].
  - apply Rlt_bool_true. apply Qlt_Rlt. auto.
Qed.

Lemma neqb_exact (x y : f64) p q : stored x -> stored y -> f64_exact x = Fin p -> f64_exact y = Fin q -> neqb x y = neqb (Fin p) (Fin q).
Proof.
  intros Sx Sy Ex Ey. destruct (SF2R_exact x p Ex) as [Rx Fx]. destruct (SF2R_exact y q Ey) as [Ry Fy].
  destruct (stored_B x Sx) as (bx & <-). destruct (stored_B y Sy) as (by_ & <-).
  rewrite is_finite_SF_B2SF in Fx, Fy. rewrite SF2R_B2SF in Rx, Ry.
  change (neqb (B2SF bx) (B2SF by_)) with (Beqb bx by_). rewrite Beqb_correct by auto. rewrite Rx, Ry.
  apply eq_true_iff_eq. cbn [neqb xnum_ops xeqb]. unfold qeq. rewrite Qeq_bool_iff. split; intros H.
  - apply eqR_Qeq. destruct (Req_bool_spec (qr p) (qr q)); [auto|discriminate].
  - apply Req_bool_true. apply Qeq_eqR. auto.
Qed.

Lemma ninf_below (y : f64) q : f64_exact y = Fin q -> nlt (nninf : f64) y = true.
Proof. intros E. destruct y as [s|s| |s m e]; simpl in E; try discriminate; try (destruct s; discriminate); reflexivity. Qed.

(** The positions of the largest numbers of a row are those of the largest exact values. *)
Lemma max_indices_float (x : nat -> f64) (u : nat -> Qc) n :
  (forall k, (k < n)%nat -> stored (x k) /\ f64_exact (x k) = Fin (u k)) ->
  max_indices (map x (seq 0 n)) = map Z.of_nat (filter (is_max u n) (seq 0 n)).
Proof.
  intros Hx. rewrite <- max_indices_exact. unfold max_indices.
  assert (G : forall l c (mx : f64) (mx' : xnum) mi,
    (forall k, In k l -> stored (x k) /\ f64_exact (x k) = Fin (u k)) ->
    (mx = nninf /\ mx' = nninf) \/ (exists q, stored mx /\ f64_exact mx = Fin q /\ mx' = Fin q) ->
    snd (fold_left (fun '(c, mx, mi) u => if nlt mx u then ((c + 1)%Z, u, [c]) else if neqb u mx then ((c + 1)%Z, mx, mi ++ [c]) else ((c + 1)%Z, mx, mi)) (map x l) (c, mx, mi)) =
    snd (fold_left (fun '(c, mx, mi) u => if nlt mx u then ((c + 1)%Z, u, [c]) else if neqb u mx then ((c + 1)%Z, mx, mi ++ [c]) else ((c + 1)%Z, mx, mi)) (map (fun k => Fin (u k)) l) (c, mx', mi))).
  { induction l as [|k l IH]; intros c mx mx' mi Hl Hm; [reflexivity|]. cbn [map fold_left].
    destruct (Hl k (or_introl eq_refl)) as [Sk Ek].
    assert (Elt : nlt mx (x k) = nlt mx' (Fin (u k)) /\ neqb (x k) mx = neqb (Fin (u k)) mx').
    { destruct Hm as [[-> ->]|(q & Sq & Eq & ->)].
      - split; [apply (ninf_below _ _ Ek)|]. destruct (x k) as [s|s| |s m e]; simpl in Ek; try discriminate; try (destruct s; discriminate); reflexivity.
      - split; [apply nlt_exact|apply neqb_exact]; auto. }
    destruct Elt as [-> ->]. destruct (nlt mx' (Fin (u k))).
    - apply IH; [intros; apply Hl; simpl; auto|]. right. eauto.
    - destruct (neqb (Fin (u k)) mx'); apply IH; auto; intros; apply Hl; simpl; auto. }
  specialize (G (seq 0 n) 0%Z nninf nninf []).
  destruct (fold_left _ (map x (seq 0 n)) _) as [[c1 m1] r1]. destruct (fold_left _ (map (fun k => Fin (u k)) (seq 0 n)) _) as [[c2 m2] r2].
  apply G; auto. intros k Hk. apply in_seq in Hk. apply Hx. lia.
Qed.

(** ** Steps for any number type *)
Section Any.
Context {A : Type} {NO : NumOps A}.
Variable sc : sched.

Lemma sound_tick V (s : vestate A) t : sound V s -> sound V (with_tick s t).
Proof. intros [H1 H2 H3]. constructor; auto. Qed.

Lemma any_remove_list V (hl : list variable) : wf_vars V -> forall (hl' : list variable) (s : vestate A),
  sound V s -> Forall2 (fun v v' => v_id v' = v_id v /\ (v_index v' < length (ve_elim s))%nat) hl hl' ->
  incl hl V -> wf_vars hl -> (forall v, In v hl -> in_scope s v) ->
  exists s', foldM (remove_hidden sc) s hl' = Ok s' /\ sound V s' /\ frame s s'.
Proof.
  intros HV. induction hl as [|v hl IH]; intros hl' s Hg H2 Hi Hw Hsc.
  - inversion H2; subst. exists s. simpl. split; auto. split; auto. apply frame_refl.
  - inversion H2 as [|? v' ? hl1 [Hid Hix] H2']; subst. simpl.
    destruct (any_remove_hidden sc V s v v') as (s1 & sel & rest & new & E1 & Hg1 & Hf1 & Hel1 & Hp & Hl & Hs & Hr & Hvs & _); auto.
    { apply Hi; simpl; auto. } { apply Hsc; simpl; auto. }
    rewrite E1. cbn [gbind]. inversion Hw as [|? ? Hni Hw']; subst.
    destruct (IH hl1 s1) as (s2 & E2 & Hg2 & Hf2); auto.
    { eapply Forall2_imp; [|apply H2']. intros x y [Hx Hy]. split; auto. rewrite Hel1, upd_nth_length. auto. }
    { intros x Hx. apply Hi; simpl; auto. }
    { intros u Hu. destruct (Hsc u) as (f & Hf & Huf); [simpl; auto|].
      assert (Hne : v_id u <> v_id v) by (intros E; apply Hni; rewrite <- E; apply in_map; auto).
      apply (Permutation_in _ Hp) in Hf. apply in_app_iff in Hf. unfold in_scope. rewrite Hl. destruct Hf as [Hf|Hf].
      - exists new. split; [apply in_app_iff; simpl; auto|]. apply Hvs. split; eauto.
      - exists f. split; auto. apply in_app_iff; auto. }
    exists s2. split; auto. split; auto. eapply frame_trans; eauto.
Qed.

Lemma any_find_factors V (s : vestate A) d : wf_vars V -> in_scope s d ->
  exists t fl rest, find_decision_factors sc s d = (with_tick s t, fl) /\ Permutation (live s) (fl ++ rest) /\
    fl <> [] /\ (forall f, In f fl -> In d (f_vars f)) /\ (forall f, In f rest -> ~ In d (f_vars f)).
Proof.
  intros HV (f0 & Hf0 & Hd0). unfold find_decision_factors, range_factors. cbn [with_tick ve_deps ve_factors ve_tick].
  pose proof (shuffle_perm sc (ve_tick s) _ (ve_factors s)) as Hp.
  set (entries := shuffle sc (ve_tick s) (ve_factors s)) in *.
  match goal with |- context [map snd (filter ?p entries)] => set (p0 := p) end.
  set (p := fun '((_, f) : Z * factor A) => contains_var (f_vars f) d).
  assert (Ep : filter p0 entries = filter p entries).
  { apply filter_ext. intros [k f]. unfold p0, p. rewrite hasParent_true, orb_true_r, andb_true_r. auto. }
  rewrite Ep.
  assert (Hne : map snd (filter p entries) <> []).
  { apply in_map_iff in Hf0. destruct Hf0 as ([k f] & Ef & Hin). simpl in Ef. subst f.
    assert (H : In (k, f0) (filter p entries)). { apply filter_In. split. eapply Permutation_in; eauto. apply contains_var_spec. auto. }
    intros E. apply (in_map snd) in H. rewrite E in H. destruct H. }
  exists (S (ve_tick s)), (map snd (filter p entries)), (map snd (filter (fun e => negb (p e)) entries)). split.
  - destruct (map snd (filter p entries)); [congruence|]. auto.
  - split; [|split; [auto|split]].
    + unfold live. rewrite <- map_app. apply Permutation_map. rewrite <- filter_split. auto.
    + intros f Hf. apply in_map_iff in Hf. destruct Hf as ([k f'] & <- & Hf). apply filter_In in Hf. apply contains_var_spec. apply Hf.
    + intros f Hf Hc. apply in_map_iff in Hf. destruct Hf as ([k f'] & <- & Hf). apply filter_In in Hf. destruct Hf as [_ Hf].
      unfold p in Hf. simpl in Hc. apply contains_var_spec in Hc. rewrite Hc in Hf. discriminate.
Qed.
End Any.

(** The exact value of a float64 number; 0 for infinities and NaN. *)
Definition qof (x : f64) : Qc := match f64_exact x with Fin q => q | _ => 0%Qc end.

Lemma qof_exact x : is_finite_SF x = true -> f64_exact x = Fin (qof x).
Proof. intros H. destruct (exact_of_finite x H) as (q & E). unfold qof. rewrite E. auto. Qed.

(** Policy: the options with the largest numbers share the probability. *)
Lemma float_policy s (f : factor f64) v : wf_factor f -> In v (f_vars f) -> (0 < v_outcomes v)%nat ->
  (forall a, in_range (f_vars f) a -> stored (fv f a) /\ is_finite_SF (fv f a) = true) ->
  exists f', policy s f v = Ok (bump s, f') /\ f_id f' = vs_counter s /\ wf_factor f' /\ f_vars f' = others (f_vars f) v ++ [v] /\
    forall a, in_range (f_vars f') a -> let u k := qof (fv f (upd a (v_id v) k)) in
      fv f' a = if is_max u (v_outcomes v) (a (v_id v)) then ndiv n1 (nofint (Z.of_nat (num_max u (v_outcomes v)))) else n0.
Proof.
  intros Hw Hin Hpos Hfin.
  assert (Hrow : forall a, in_range (f_vars f) a ->
    max_indices (row_at f v a) = map Z.of_nat (filter (is_max (fun k => qof (fv f (upd a (v_id v) k))) (v_outcomes v)) (seq 0 (v_outcomes v)))).
  { intros a Ha. unfold row_at. apply max_indices_float. intros k Hk. destruct (Hfin (upd a (v_id v) k)) as [H1 H2].
    { apply in_range_upd'; auto. apply Hw. }
    split; auto. apply qof_exact. auto. }
  destruct (policy_at s f v) as (f' & E & Hid & Hw' & Hvs & Hat); auto.
  { intros a Ha. rewrite Hrow by auto. pose proof (num_max_pos (fun k => qof (fv f (upd a (v_id v) k))) (v_outcomes v) Hpos) as H.
    unfold num_max in H. destruct (filter _ _); simpl in *; [lia|discriminate]. }
  exists f'. do 4 (split; auto). intros a Ha u. specialize (Hat a Ha). rewrite get_at_fv in Hat by (auto using wf_fits). injection Hat as ->.
  rewrite Hvs in Ha. destruct (in_range_last _ _ _ Hin Ha (proj1 Hw)) as (H1 & H2 & H3).
  unfold policy_entry. rewrite Hrow by auto. fold u. set (n := v_outcomes v) in *.
  assert (Hz : zmem (a (v_id v)) (map Z.of_nat (filter (is_max u n) (seq 0 n))) = is_max u n (a (v_id v))).
  { apply eq_true_iff_eq. unfold zmem. rewrite existsb_exists. split.
    - intros (z & Hz & Ez). apply in_map_iff in Hz. destruct Hz as (k & <- & Hk). apply filter_In in Hk.
      assert (a (v_id v) = k) by lia. subst k. tauto.
    - intros Hm. exists (Z.of_nat (a (v_id v))). split; [|apply Z.eqb_refl]. apply in_map. apply filter_In.
      split; auto. apply in_seq. lia. }
  rewrite Hz. unfold zlen. rewrite map_length. reflexivity.
Qed.

(** ** The policy of the last decision *)
Lemma prod_magnitude V l a : Forall (sitem_ok V) l -> in_range V a -> Rabs (qr (prod_at s_q l a)) <= qr (prod_at s_m l a).
Proof.
  intros H Ha. induction H as [|i l Hi H IH]; unfold prod_at; simpl.
  - rewrite qr_1, Rabs_R1. lra.
  - rewrite !qr_mult, Rabs_mult. destruct Hi as (_ & _ & _ & Hi). destruct (Hi a Ha) as [(_ & _ & Hm & _) _].
    apply Rmult_le_compat; auto using Rabs_pos.
Qed.

Definition policy_budget (V : list variable) (deps : depmap) (l lu : list sitem) (bu bw : bound) (d : variable) : bound :=
  grow (bprod (map s_b l ++ [bound_utility bu bw (length lu) (utilities_of V)])) (unobserved V deps d).

Theorem float_policy_step sc t vs (fs : list (factor f64)) deps w wq single l lu bu bw cpt rank :
  ve_problem vs [] deps -> (forall v, In v (vs_vars vs) -> (0 < v_outcomes v)%nat) ->
  (forall f, In f fs -> sound_factor (vs_vars vs) (vs_counter vs) f) -> NoDup (map f_id fs) ->
  let V := vs_vars vs in
  let U := utilities_of V in
  prob_factors fs = map s_f l -> Forall (sitem_ok V) l ->
  utility_factors fs = map s_f lu -> Forall (sitem_ok V) lu -> Forall (fun i => s_b i = bu) lu -> sane bu -> sane bw ->
  near_weights V bw w wq -> U <> [] ->
  (forall u, In u V -> exists f, In f fs /\ In u (f_vars f)) ->
  decision_vars V <> [] -> single = true \/ length (decision_vars V) = 1%nat ->
  (forall c, In c (chance_vars V) -> is_cpt V cpt rank c) ->
  (forall d parents p, In (d, parents) deps -> v_type d = Decision -> In p parents -> (rank (v_id p) < rank (v_id d))%nat) ->
  (forall i, In i l -> forall a, in_range V a -> (0 <= s_q i a)%Qc) ->
  (forall a, in_range V a -> prod_at s_q l a = weight_of (map cpt (chance_vars V)) a) ->
  (forall d, In d (decision_vars V) -> safe (policy_budget V deps l lu bu bw d)) ->
  exists s' d fac pol, ve_solve_policies sc (ve_new t vs fs deps w) single = Ok (s', Some [(d, (fac, pol))]) /\
    In d (decision_vars V) /\ (forall k ps, In (k, ps) deps -> In k (decision_vars V) -> ~ In d ps) /\
    wf_factor pol /\ incl (f_vars pol) V /\ In d (f_vars pol) /\
    (forall v, In v (f_vars pol) -> v_id v = v_id d \/ observes deps d v = true \/ v_type v = Decision) /\
    let R := total (fun x => prod_at s_q l x * total (utility_at V wq s_q lu) U x)%Qc (unobserved V deps d) in
    let M := total (fun x => prod_at s_m l x * total (utility_at V (abs_weights wq) s_m lu) U x)%Qc (unobserved V deps d) in
    exists x : asg -> Qc, local (f_vars pol) x /\
      (forall a, in_range V a -> let u k := x (upd a (v_id d) k) in
        fv pol a = if is_max u (v_outcomes d) (a (v_id d)) then ndiv n1 (nofint (Z.of_nat (num_max u (v_outcomes d)))) else n0) /\
      (forall a k j, in_range V a -> (k < v_outcomes d)%nat -> (j < v_outcomes d)%nat ->
        is_max (fun k => x (upd a (v_id d) k)) (v_outcomes d) k = true ->
        qr (R (upd a (v_id d) j)) <= qr (R (upd a (v_id d) k)) +
          (rho ^ b_k (policy_budget V deps l lu bu bw d) - 1) * (qr (M (upd a (v_id d) j)) + qr (M (upd a (v_id d) k)))).
Proof.
  intros Hpb Hpos Hfs Hnd V U HL Hok HU Hoku Hubound Hbu Hbw Hw HUne Hcov Hdne Hsingle Hcpt Hinfo Hnn Hprod Hsafe.
  assert (HV : wf_vars V) by apply Hpb.
  assert (Hix : forall i v, nth_error V i = Some v -> v_index v = i) by apply Hpb.
  set (s0 := ve_new t vs fs deps w).
  assert (Hl0 : live s0 = fs).
  { unfold s0, ve_new, live. simpl. rewrite ve_new_factors by auto. rewrite map_map. simpl. apply map_id. }
  assert (Hg0 : sound V s0).
  { constructor; unfold s0, ve_new; simpl.
    - rewrite ve_new_factors by auto. intros e He. apply in_map_iff in He. destruct He as (f & <- & Hin). auto.
    - unfold live. simpl. rewrite ve_new_factors by auto. intros f Hin. rewrite map_map in Hin. simpl in Hin. rewrite map_id in Hin. apply Hfs. auto.
    - rewrite ve_new_factors by auto. rewrite map_map. auto. }
  unfold ve_solve_policies.
  (* order of decisions *)
  assert (Hr0 : ready s0). { apply (problem_ready vs [] deps); auto. apply repeat_length. }
  destruct (get_decisions_spec sc s0 (r_wf _ Hr0) (r_closed _ Hr0)) as (t0 & r & E0 & Hpr & Hpf).
  rewrite E0. cbn [gbind]. change (vs_vars (ve_vs s0)) with V in *. change (ve_deps s0) with deps in *.
  fold (decision_vars V) in Hpr. change (decisions_of V) with (decision_vars V) in *.
  assert (Hrne : r <> []). { intros ->. apply Permutation_sym, Permutation_nil in Hpr. auto. }
  destruct (exists_last Hrne) as (r0 & d & Er).
  assert (Htodo : todo_of single r = [d]).
  { unfold todo_of. rewrite Er, rev_app_distr. destruct Hsingle as [->|Hl]; [reflexivity|].
    apply Permutation_length in Hpr. rewrite Hl, Er, app_length in Hpr. simpl in Hpr. destruct r0; [|simpl in Hpr; lia].
    destruct single; reflexivity. }
  assert (Hdd : In d (decision_vars V)) by (eapply Permutation_in; [apply Permutation_sym, Hpr|]; rewrite Er; apply in_app_iff; simpl; auto).
  assert (Hdt : In d V /\ v_type d = Decision) by (apply in_decisions; auto).
  destruct Hdt as [HdV Hdt].
  assert (Hnp : forall k ps, In (k, ps) deps -> In k (decision_vars V) -> ~ In d ps).
  { intros k ps Hk Hkd Hdp. assert (Hp : parents_first deps r).
    { apply (Hpf (fun v => rank (v_id v))). intros x p Hx (k' & ps' & Hin & Ek & Hp & Ht).
      destruct (vp_deps _ _ _ Hpb k' ps' Hin) as [Hk1 _]. apply in_decisions in Hx. destruct Hx as [Hx1 Hx2].
      assert (k' = x) by (apply (wf_vars_inj V); auto).
      subst k'. eapply Hinfo; eauto. }
    assert (Hkr : In k r) by (eapply Permutation_in; eauto). apply in_split in Hkr. destruct Hkr as (l1 & l2 & El).
    assert (Hd1 : In d l1). { eapply (Hp l1 k l2 El). exists k, ps. auto. }
    assert (Hndr : NoDup r). { eapply Permutation_NoDup; [apply Hpr|]. apply NoDup_filter, wf_NoDup; auto. }
    rewrite El in Er. destruct l2 as [|x l2] using rev_ind.
    - apply app_inj_tail in Er. destruct Er as [-> ->]. rewrite El in Hndr. apply NoDup_remove_2 in Hndr. apply Hndr. rewrite app_nil_r. auto.
    - clear IHl2. rewrite app_comm_cons, app_assoc in Er. apply app_inj_tail in Er. destruct Er as [_ ->].
      rewrite El in Hndr. apply in_split in Hd1. destruct Hd1 as (m1 & m2 & ->).
      rewrite <- app_assoc in Hndr. simpl in Hndr. apply NoDup_remove_2 in Hndr. apply Hndr.
      apply in_app_iff. right. apply in_app_iff. right. simpl. right. apply in_app_iff. simpl; auto. }
  destruct r as [|x1 r1] eqn:Er1; [congruence|]. rewrite <- Er1 in *. clear Er1 x1 r1.
  (* utilities *)
  assert (HUV : incl U V) by (intros u Hu; apply filter_In in Hu; tauto).
  assert (HUt : forall u, In u U -> v_type u = Utility) by (intros u Hu; apply filter_In in Hu; apply nodeType_eqb_spec; tauto).
  assert (HpU : forall u, In u U -> (0 < v_outcomes u)%nat) by (intros; apply Hpos, HUV; auto).
  destruct (any_sum_utilities sc V (with_tick s0 t0) w) as (s1 & tot & us & E1 & Hg1 & Hf1 & Hle1 & Hel1 & Hl1 & Htv1 & Hp1 & Hval1); auto.
  { apply sound_tick. auto. }
  { apply repeat_length. }
  { destruct w as [ws|]; auto. destruct wq; [|contradiction]. apply Hw. }
  { intros u Hu. unfold in_scope. change (live (with_tick s0 t0)) with (live s0). rewrite Hl0. apply Hcov, HUV. auto. }
  change (live (with_tick s0 t0)) with (live s0) in *. rewrite Hl0 in Hl1, Htv1, Hp1.
  rewrite E1. cbn [gbind].
  assert (Hsc1 : forall u, In u V -> v_type u <> Utility -> in_scope s1 u).
  { intros u Hu Ht. destruct (Hcov u Hu) as (f & Hf & Huf). destruct (any_utility_or_prob _ _ Hf) as [Hp|Hp].
    - exists f. split; auto. rewrite Hl1. apply in_app_iff. auto.
    - exists tot. split. { rewrite Hl1. apply in_app_iff. simpl; auto. } apply Htv1; auto. split; auto. exists f. auto. }
  (* the tracked items *)
  assert (Hinc : forall f, In f fs -> incl (f_vars f) V) by (intros f Hf; apply (Hfs f Hf)).
  assert (Huin : Forall (fun i => s_b i = bu /\ incl (f_vars (s_f i)) V /\ is_utility_factor (s_f i) = true) lu).
  { rewrite Forall_forall. intros i Hi. assert (Hin : In (s_f i) (utility_factors fs)) by (rewrite HU; apply in_map; auto).
    apply filter_In in Hin. destruct Hin as [Hin Hut]. rewrite Forall_forall in Hubound. split; auto. }
  assert (Hpos_lu : (0 < length lu)%nat).
  { destruct U as [|u U'] eqn:Eu; [congruence|]. destruct (Hcov u) as (f & Hf & Hu); [apply HUV; simpl; auto|].
    assert (Hfu : In f (utility_factors fs)). { apply filter_In; split; auto; apply any_is_utility. exists u. split; auto. apply HUt. simpl; auto. }
    rewrite HU in Hfu. destruct lu; [contradiction|simpl; lia]. }
  set (H := unobserved V deps d).
  assert (HiH : incl H V) by (intros v Hv; apply filter_In in Hv; tauto).
  assert (HwH : wf_vars H) by (apply NoDup_filter_map; auto).
  assert (HpH : forall u, In u H -> (0 < v_outcomes u)%nat) by (intros; apply Hpos, HiH; auto).
  set (bt := bound_utility bu bw (length lu) U) in *.
  assert (Hst_sane : sane bt).
  { apply grow_sane; auto. apply bsum_sane; auto. apply bprod_sane; constructor; [auto|]; constructor; [auto|]; constructor. }
  assert (Hls : Forall sane (map s_b l)).
  { rewrite Forall_forall in *. intros b Hb. apply in_map_iff in Hb. destruct Hb as (i & <- & Hi). apply (Hok i Hi). }
  specialize (Hsafe d Hdd). unfold policy_budget in Hsafe |- *. fold V U bt H in Hsafe |- *.
  assert (HsafeP : safe (bprod (map s_b l ++ [bt]))).
  { apply grow_safe_none with H; auto. apply bprod_sane. apply Forall_app. split; auto. }
  assert (HsafeT : safe bt).
  { rewrite bprod_app in HsafeP. simpl map in HsafeP. rewrite bprod_one in HsafeP. destruct (bprod_sane _ Hls) as [[S1 S2] S3]. destruct Hst_sane as [[T1 T2] T3].
    destruct HsafeP as (H1 & H2 & H3). cbn [b_k b_lo b_hi] in *. split; [|split].
    - apply Rle_trans with (1 := H1). nra.
    - apply Rle_trans with (2 := H2). nra.
    - eapply few_mono; [|exact H3]. lia. }
  set (ti := total_item V bu bw wq lu tot).
  assert (Htot : sitem_ok V ti).
  { apply (total_item_ok V bu bw w wq lu tot us); auto.
    - rewrite <- HU. auto.
    - intros u Hu. rewrite <- HU. auto. }
  set (l1 := l ++ [ti]).
  assert (Eb1 : sbudget l1 = bprod (map s_b l ++ [bt])).
  { unfold l1, sbudget. rewrite map_app. reflexivity. }
  assert (Hok1 : Forall (sitem_ok V) l1) by (apply Forall_app; split; auto).
  assert (Hst1 : stracked V s1 l1).
  { constructor; auto. rewrite Hl1, HL. unfold l1. rewrite map_app. auto. }
  (* elimination *)
  assert (Hr1 : ready s1).
  { apply (problem_ready vs [] deps); auto. apply (fr_vars _ _ Hf1). apply (fr_deps _ _ Hf1). }
  destruct (eliminate_hidden_list sc s1 [] [] single Hr1) as (t1 & r' & t2 & hl & E2 & E3 & Hp3).
  assert (r' = r). { symmetry. eapply (get_decisions_same sc sc s0 _ s1); eauto. symmetry. apply (fr_vars _ _ Hf1). symmetry. apply (fr_deps _ _ Hf1).
    apply (dep_ids vs []); auto. }
  subst r'. rewrite Htodo in Hp3. rewrite (fr_vars _ _ Hf1), (fr_deps _ _ Hf1) in Hp3.
  change (vs_vars (ve_vs (with_tick s0 t0))) with V in Hp3. change (ve_deps (with_tick s0 t0)) with deps in Hp3.
  assert (Hel1' : forall v, In v V -> v_type v <> Utility -> nth (v_index v) (ve_elim s1) false = false).
  { intros v Hv Ht. rewrite Hel1. simpl ve_elim. rewrite nth_repeat. simpl. apply not_true_iff_false. intros Hc.
    apply existsb_exists in Hc. destruct Hc as (u & Hu & Ei). apply Nat.eqb_eq in Ei.
    assert (u = v) by (apply (index_inj V); auto; apply HUV; auto). subst u. apply Ht. apply HUt. auto. }
  assert (EH : filter (is_hidden (ve_elim s1) deps [d] [] []) V = H).
  { unfold H, unobserved. apply filter_ext_in. intros v Hv. unfold is_hidden.
    rewrite (observes_flag vs [] deps d v Hpb Hv). simpl. rewrite !andb_true_r.
    destruct (nodeType_eqb (v_type v) Chance) eqn:Et; simpl; auto. rewrite Hel1'; auto.
    apply nodeType_eqb_spec in Et. rewrite Et. discriminate. }
  rewrite EH in Hp3. rewrite E3.
  assert (Hhl : forall v, In v hl <-> In v H) by (intros; split; apply Permutation_in; auto; apply Permutation_sym; auto).
  assert (HHt : forall v, In v H -> v_type v = Chance).
  { intros v Hv. apply filter_In in Hv. destruct Hv as [_ Hv]. apply andb_prop in Hv. apply nodeType_eqb_spec. tauto. }
  assert (HF2 : Forall2 (fun v v' => v_id v' = v_id v /\ (v_index v' < length (ve_elim (with_tick s1 t2)))%nat) hl hl).
  { apply Forall2_self. intros v Hv. split; auto. simpl. rewrite Hle1. apply index_lt; auto. apply HiH, Hhl, Hv. }
  assert (Hsch : forall v, In v hl -> in_scope (with_tick s1 t2) v).
  { intros v Hv. apply Hhl in Hv. destruct (Hsc1 v) as (f & Hf & Hfv); auto. rewrite (HHt v Hv). discriminate. exists f; auto. }
  assert (Hihl : incl hl V) by (intros v Hv; apply HiH, Hhl, Hv).
  assert (Hwhl : wf_vars hl) by (eapply wf_perm; eauto).
  assert (Hgrow : grow (sbudget l1) hl = grow (sbudget l1) H).
  { unfold grow. f_equal; f_equal.
    - clear -Hp3. induction Hp3; simpl; auto; lia.
    - clear -Hp3. induction Hp3; simpl; auto; [rewrite IHHp3; auto|ring|congruence]. }
  destruct (stracked_list_steps sc V hl HV hl (with_tick s1 t2) l1) as (s2 & l2 & E4 & Hg2 & Hf2 & Hsc2 & Hle2 & Hel2 & Hb2 & Hw2 & Hder); auto.
  { destruct Hst1 as [a1 a2 a3]. constructor; auto. apply sound_tick. auto. }
  { rewrite Hgrow, Eb1. auto. }
  assert (Hloc1 : localized s_q l1) by (apply (ok_localized V); auto).
  destruct (sshadow_list V HV hl l1 l2 ti l (fun _ => 1%Qc)) as (tf & oth & sh & Hsh & Hshw); auto.
  { constructor.
    - unfold l1. apply Permutation_sym, Permutation_cons_append.
    - auto.
    - intros a b _. auto.
    - intros; discriminate.
    - intros a _ E. discriminate.
    - intros x _ a k. auto. }
  rewrite E4. cbn [gbind]. unfold solve_policies_loop. fold (todo_of single r). rewrite Htodo. cbn [foldM].
  assert (Hfr2 : frame s0 s2). { destruct Hf1 as [a1 a2 a3 a4], Hf2 as [b1 b2 b3 b4]. cbn [with_tick ve_vs ve_deps ve_weights] in *. constructor; [etransitivity; eassumption|etransitivity; eassumption|etransitivity; eassumption|eapply Z.le_trans; eassumption]. }
  destruct Hg2 as [Hs2 Hlive2 Hok2].
  (* the factors with the decision *)
  assert (Hd2 : in_scope s2 d).
  { apply Hsc2; auto. split.
    - destruct (Hsc1 d) as (f & Hf & Hfv); auto. congruence. exists f; auto.
    - intros Hc. apply in_map_iff in Hc. destruct Hc as (x & Ex & Hx). apply Hhl in Hx.
      assert (Exd : x = d) by (apply (wf_vars_inj V); auto). rewrite Exd in Hx. rewrite (HHt d Hx) in Hdt. discriminate. }
  destruct (any_find_factors sc V s2 d HV Hd2) as (t3 & fl & rest & E5 & Hp5 & Hne5 & Hfl & Hrest).
  pose proof Hp5 as Hp5'. rewrite Hlive2 in Hp5'. apply Permutation_sym in Hp5'. apply Permutation_map_inv in Hp5'. destruct Hp5' as (l3 & El3 & Hp3').
  symmetry in El3. apply map_eq_app in El3. destruct El3 as (fli & ri & -> & Efl' & Eri').
  assert (Hperm : Permutation l2 (fli ++ ri)) by auto. clear Hp3'.
  rewrite E5. cbv iota beta.
  destruct fl as [|fl0 fl1] eqn:Efl; [congruence|]. rewrite <- Efl in *.
  assert (Hfac : exists vs1 fac, match fl with [f] => Ok (ve_vs (with_tick s2 t3), f) | _ => product (ve_vs (with_tick s2 t3)) fl end = Ok (vs1, fac) /\
     vs_vars vs1 = V /\ (vs_counter (ve_vs s2) <= vs_counter vs1)%Z /\ wf_factor fac /\ incl (f_vars fac) V /\
     (forall v, In v (f_vars fac) <-> exists f, In f fl /\ In v (f_vars f)) /\
     forall a, in_range V a -> fv fac a = mult_at fl a).
  { assert (Hgf : forall f, In f fl -> sound_factor V (vs_counter (ve_vs s2)) f).
    { intros f Hf. apply (s_fac _ _ Hs2). eapply Permutation_in; [apply Permutation_sym, Hp5|]. apply in_app_iff; auto. }
    assert (EV2 : vs_vars (ve_vs s2) = V) by (rewrite (fr_vars _ _ Hfr2); auto).
    assert (G : exists vs1 fac, product (ve_vs (with_tick s2 t3)) fl = Ok (vs1, fac) /\
     vs_vars vs1 = V /\ (vs_counter (ve_vs s2) <= vs_counter vs1)%Z /\ wf_factor fac /\ incl (f_vars fac) V /\
     (forall v, In v (f_vars fac) <-> exists f, In f fl /\ In v (f_vars f)) /\
     forall a, in_range V a -> fv fac a = mult_at fl a).
    { destruct (any_product V (vs_counter (ve_vs s2)) (ve_vs s2) fl) as (f & E & Hidf & Hwf & Hif & Hvf & Hvalf); auto.
      exists (bump (ve_vs s2)), f. simpl. split; auto. split; auto. split; [lia|]. do 3 (split; auto).
      intros a Ha. apply Hvalf. eapply in_range_incl; eauto. }
    rewrite Efl in *. destruct fl1 as [|fl2 fl3]; [|exact G]. destruct (Hgf fl0) as (h1 & h2 & h3); [simpl; auto|].
    exists (ve_vs s2), fl0. split; auto. split; auto. split; [lia|]. do 2 (split; auto). split.
    - intros v. split; [intros Hv; exists fl0; simpl; auto|]. intros (f & [<-|[]] & Hv). auto.
    - intros a Ha. reflexivity. }
  destruct Hfac as (vs1 & fac & E6 & Hv6 & Hc6 & Hw6 & Hi6 & Hvs6 & Hval6).
  rewrite Efl. rewrite <- Efl.
  match goal with |- context [gbind (gbind ?m _) _] => replace m with (@Ok _ (vs1, fac)) by (rewrite <- E6, Efl; reflexivity) end.
  cbn [gbind].
  assert (Hdfac : In d (f_vars fac)). { apply Hvs6. exists fl0. rewrite Efl in *. split; simpl; auto. apply Hfl. simpl; auto. }
  (* the numbers of the combined factor *)
  assert (Hok3 : Forall (sitem_ok V) (fli ++ ri)) by (eapply Permutation_Forall; eauto).
  apply Forall_app in Hok3. destruct Hok3 as [Hokf Hokr].
  assert (Hsane : forall m, Forall (sitem_ok V) m -> Forall sane (map s_b m)).
  { intros m Hm. rewrite Forall_forall in *. intros b Hb. apply in_map_iff in Hb. destruct Hb as (i & <- & Hi). apply (Hm i Hi). }
  assert (Ebb : sbudget l2 = bprod (map s_b fli ++ map s_b ri)).
  { unfold sbudget. rewrite <- map_app. apply bprod_perm. apply Permutation_map. auto. }
  assert (Eb2 : sbudget l2 = grow (bprod (map s_b l ++ [bt])) H) by (rewrite Hb2, Hgrow, Eb1; auto).
  assert (Hsafe2 : safe (bprod (map s_b fli ++ map s_b ri))) by (rewrite <- Ebb, Eb2; auto).
  assert (HsafeF : safe (sbudget fli)) by (eapply safe_left; [| |exact Hsafe2]; auto).
  assert (Happ : forall a, in_range V a -> sapprox (sbudget fli) (fv fac a) (prod_at s_q fli a) (prod_at s_m fli a)).
  { intros a Ha. rewrite Hval6 by auto. rewrite <- Efl'. apply (sitems_mult V); auto. }
  assert (Hfin6 : forall a, in_range V a -> stored (fv fac a) /\ is_finite_SF (fv fac a) = true).
  { intros a Ha. destruct (Happ a Ha) as [[H1 [H2 _]] _]. auto. }
  assert (Hpd : (0 < v_outcomes d)%nat) by auto.
  destruct (float_policy vs1 fac d) as (pol & E7 & Hid7 & Hw7 & Hvs7 & Hd7); auto.
  { intros a Ha. set (b := fun z => if existsb (fun v => (v_id v =? z)%Z) (f_vars fac) then a z else 0%nat).
    assert (Eb : fv fac a = fv fac b).
    { apply fv_ext. intros v Hv. unfold b. assert (Hex : existsb (fun u => (v_id u =? v_id v)%Z) (f_vars fac) = true) by (apply existsb_exists; exists v; split; auto; lia).
      rewrite Hex. auto. }
    rewrite Eb. apply Hfin6. intros v Hv. unfold b. destruct (existsb _ _) eqn:Ex; [|auto].
    apply existsb_exists in Ex. destruct Ex as (u & Hu & Eu). apply Z.eqb_eq in Eu. assert (u = v) by (apply (wf_vars_inj V); auto). subst u. apply Ha. auto. }
  rewrite E7. cbn [gbind].
  assert (Hi7 : incl (f_vars pol) V).
  { rewrite Hvs7. intros v Hv. apply in_app_iff in Hv. destruct Hv as [Hv|[<-|[]]]; auto. apply in_others in Hv. apply Hi6. tauto. }
  assert (Hdpol : In d (f_vars pol)) by (rewrite Hvs7; apply in_app_iff; simpl; auto).
  (* the state with the policy added *)
  destruct (sound_add V s2 (ve_factors s2) pol (mkVS (vs_counter (bump vs1)) (upd_nth V (v_index d) (withNodeType d Chance)) (vs_ids (bump vs1)))) as [Hset Hgood]; auto.
  { apply Hs2. }
  { rewrite Hid7. simpl. lia. }
  assert (Hnth : nth_error V (v_index d) = Some d).
  { pose proof HdV as HdV'. apply In_nth_error in HdV'. destruct HdV' as (i & Hi). rewrite (Hix _ _ Hi). auto. }
  rewrite set_chance_ok by (simpl; rewrite Hv6; auto). cbn [gbind].
  simpl vs_vars. rewrite Hv6. cbn [with_factors with_tick ve_factors]. rewrite Hset.
  match goal with |- context [eliminate_hidden sc ?s [] [] single] => set (s3 := s) end.
  assert (Hg3 : sound V s3) by apply Hgood.
  destruct (after_set_chance V d HV HdV Hix) as (HW & HWix & HWl & HWin & HVin).
  set (W := upd_nth V (v_index d) (withNodeType d Chance)) in *.
  assert (Hle3 : length (ve_elim s3) = length V) by (simpl; rewrite Hle2; simpl; auto).
  assert (Hr3 : ready s3).
  { constructor; simpl vs_vars; auto.
    - rewrite HWl. auto.
    - intros x p Hx (k & ps & Hk & Ek & Hp & Ht). simpl in Hk. rewrite (fr_deps _ _ Hfr2) in Hk. change (ve_deps s0) with deps in Hk.
      apply in_decisions in Hx. destruct Hx as [Hx Hxt]. apply HWin in Hx. destruct Hx as [->|[Hx Hxd]]; [discriminate|].
      destruct (vp_deps _ _ _ Hpb k ps Hk) as [Hk1 Hk2].
      assert (Ekx : k = x) by (apply (wf_vars_inj V); auto). rewrite Ekx in *.
      apply HVin; auto. intros Epd. rewrite Epd in Hp. apply (Hnp x ps Hk); auto. apply in_decisions. auto.
    - intros x ps p Hk Hp. simpl in Hk. rewrite (fr_deps _ _ Hfr2) in Hk. destruct (vp_deps _ _ _ Hpb x ps Hk) as [Hk1 Hk2]. simpl. rewrite HWl. apply index_lt; auto. }
  destruct (eliminate_hidden_list sc s3 [] [] single Hr3) as (t4 & r4 & t5 & hl4 & E8 & E9 & Hp9).
  rewrite E9. change (vs_vars (ve_vs s3)) with W in Hp9.
  assert (Hsc3 : forall u, in_scope s2 u -> in_scope s3 u).
  { intros u (f & Hf & Hu). exists f. split; auto. unfold live. simpl. rewrite map_app. apply in_app_iff. auto. }
  assert (Hsc3d : in_scope s3 d).
  { apply Hsc3. auto. }
  assert (Hin9 : forall x, In x hl4 -> exists v, In v V /\ v_id x = v_id v /\ in_scope s3 v /\ v_index x = v_index v).
  { intros x Hx. eapply Permutation_in in Hx; [|apply Permutation_sym, Hp9]. apply filter_In in Hx. destruct Hx as [Hx Hh].
    apply HWin in Hx. destruct Hx as [->|[Hx Hxd]]; [exists d; auto|].
    exists x. do 2 (split; auto). split; auto. apply Hsc3.
    unfold is_hidden in Hh. rewrite !andb_true_iff, !negb_true_iff in Hh. destruct Hh as [[[[Ht He] _] _] _].
    apply nodeType_eqb_spec in Ht. apply Hsc2; auto. split.
    - destruct (Hsc1 x) as (f & Hf & Hfv); auto. congruence. exists f; auto.
    - intros Hc. apply in_map_iff in Hc. destruct Hc as (y & Ey & Hy).
      assert (y = x) by (apply (wf_vars_inj V); auto). subst y.
      simpl ve_elim in He. assert (Hn : nth_error (ve_elim s2) (v_index x) = Some true).
      { rewrite Hel2. assert (Hex : existsb (fun v => (v_index v =? v_index x)%nat) hl = true) by (apply existsb_exists; exists x; split; auto; apply Nat.eqb_refl).
        rewrite Hex. auto. }
      rewrite (nth_error_nth _ _ _ Hn) in He. discriminate. }
  assert (Hl9 : exists hl5, Forall2 (fun v v' => v_id v' = v_id v /\ (v_index v' < length (ve_elim (with_tick s3 t5)))%nat) hl5 hl4 /\
     incl hl5 V /\ (forall v, In v hl5 -> in_scope s3 v)).
  { clear - Hin9 Hle3 Hix. induction hl4 as [|x hl4 IH].
    - exists []. split; [constructor|]. split; [intros v []|intros v []].
    - destruct IH as (hl5 & H2 & Hi & Hs); [intros; apply Hin9; simpl; auto|].
      destruct (Hin9 x) as (v & Hv & Ev & Hsv & Exi); [simpl; auto|]. exists (v :: hl5). split; [constructor; auto|].
      + split; auto. change (length (ve_elim (with_tick s3 t5))) with (length (ve_elim s3)). rewrite Hle3, Exi. apply index_lt; auto.
      + split. intros y [<-|Hy]; auto. intros y [<-|Hy]; auto. }
  destruct Hl9 as (hl5 & HF5 & Hi5 & Hs5).
  destruct (any_remove_list sc V hl5 HV hl4 (with_tick s3 t5)) as (s4 & E10 & _); auto.
  { apply sound_tick. auto. }
  { assert (Eids : map v_id hl5 = map v_id hl4).
    { clear - HF5. induction HF5; simpl; auto. f_equal; auto. destruct H. auto. }
    unfold wf_vars. rewrite Eids. change (wf_vars hl4). eapply wf_perm; [apply Hp9|]. apply NoDup_filter_map. auto. }
  rewrite E10. cbn [gbind].
  exists s4, d, fac, pol. split. { reflexivity. }
  split; auto. split; auto. do 3 (split; auto). split.
  { intros v Hv. rewrite Hvs7 in Hv. apply in_app_iff in Hv. destruct Hv as [Hv|[<-|[]]]; auto. apply in_others in Hv. destruct Hv as [Hv Hne].
    right. apply Hvs6 in Hv. destruct Hv as (f & Hf & Hvf).
    assert (Hfs2 : In f (live s2)) by (eapply Permutation_in; [apply Permutation_sym, Hp5|]; apply in_app_iff; auto).
    assert (HvV : In v V) by (apply (s_fac _ _ Hs2 f Hfs2); auto).
    assert (Hsv2 : in_scope s2 v) by (exists f; auto). apply Hsc2 in Hsv2; auto. destruct Hsv2 as [(g & Hgl & Hgv) Hnh].
    destruct (v_type v) eqn:Et; auto.
    - left. destruct (observes deps d v) eqn:Eo; auto. exfalso. apply Hnh. apply in_map. apply Hhl. apply filter_In. split; auto.
      rewrite Et, Eo. auto.
    - exfalso. change (live (with_tick s1 t2)) with (live s1) in Hgl. rewrite Hl1 in Hgl. apply in_app_iff in Hgl. destruct Hgl as [Hgl|[<-|[]]].
      + apply filter_In in Hgl. destruct Hgl as [_ Hgl]. apply negb_true_iff in Hgl.
        assert (is_utility_factor g = true) by (apply any_is_utility; eauto). congruence.
      + apply Htv1 in Hgv; auto. tauto. }
  cbv zeta. exists (fun a => qof (fv fac a)). split; [|split].
  { intros a a' Haa. f_equal. unfold fv. f_equal. apply map_ext_in. intros v Hv. apply Haa. rewrite Hvs7. apply in_app_iff.
    destruct (Z.eq_dec (v_id v) (v_id d)) as [Ei|Ei]; [right; left; symmetry; apply (wf_vars_inj V); auto|left; apply in_others; auto]. }
  { intros a Ha. apply Hd7. eapply in_range_incl; eauto. }
  (* near-optimality *)
  intros a k j Ha Hk Hj Hmax.
  assert (Hupd : forall i, (i < v_outcomes d)%nat -> in_range V (upd a (v_id d) i)).
  { intros i Hi. apply in_range_upd'; auto. }
  assert (Hlocm : localized s_m l1) by (apply (ok_localized V); auto).
  assert (HR : forall b, in_range V b ->
     total (fun x => (prod_at s_q l x * total (utility_at V wq s_q lu) U x)%Qc) H b = prod_at s_q l2 b /\
     total (fun x => (prod_at s_m l x * total (utility_at V (abs_weights wq) s_m lu) U x)%Qc) H b = prod_at s_m l2 b).
  { intros b Hb. destruct (Hw2 b Hb) as [-> ->].
    assert (G : forall g, localized g l1 -> total (fun x => (prod_at g l x * g ti x)%Qc) H b = total (prod_at g l1) hl b).
    { intros g Hg. rewrite (total_perm (prod_at g l1) hl H); auto.
      - apply (total_ext_range _ _ V); auto. intros x Hx. unfold l1. rewrite prod_app. unfold prod_at at 3. simpl. ring.
      - apply prod_proper; auto.
      - apply Permutation_sym; auto. }
    split; [apply (G s_q)|apply (G s_m)]; auto. }
  change (unobserved V deps d) with H. destruct (HR (upd a (v_id d) j)) as [-> ->]; auto. destruct (HR (upd a (v_id d) k)) as [-> ->]; auto. clear HR.
  rewrite !(prod_perm s_q _ _ _ Hperm), !(prod_perm s_m _ _ _ Hperm), !prod_app.
  assert (Hrd : forall i, In i ri -> ~ In (v_id d) (map v_id (f_vars (s_f i)))).
  { intros i Hi Hc. apply in_map_iff in Hc. destruct Hc as (x & Ex & Hx).
    assert (Hir : In (s_f i) rest) by (rewrite <- Eri'; apply in_map; auto). apply (Hrest _ Hir).
    replace d with x; auto. apply (wf_vars_inj V); auto.
    assert (Hfs2 : In (s_f i) (live s2)) by (eapply Permutation_in; [apply Permutation_sym, Hp5|]; apply in_app_iff; auto).
    apply (s_fac _ _ Hs2 _ Hfs2). auto. }
  destruct (ok_localized V fli Hokf) as [Lfq Lfm]. destruct (ok_localized V ri Hokr) as [Lrq Lrm].
  rewrite !(prod_ignores s_q ri _ Lrq Hrd), !(prod_ignores s_m ri _ Lrm Hrd), !qr_mult.
  set (F := fun i => prod_at s_q fli (upd a (v_id d) i)). set (MF := fun i => prod_at s_m fli (upd a (v_id d) i)).
  set (G := prod_at s_q ri a). set (GM := prod_at s_m ri a).
  change (prod_at s_q fli (upd a (v_id d) j)) with (F j). change (prod_at s_q fli (upd a (v_id d) k)) with (F k).
  change (prod_at s_m fli (upd a (v_id d) j)) with (MF j). change (prod_at s_m fli (upd a (v_id d) k)) with (MF k).
  assert (HGM : Rabs (qr G) <= qr GM) by (apply (prod_magnitude V); auto).
  assert (HMF : forall i, (i < v_outcomes d)%nat -> Rabs (qr (F i)) <= qr (MF i)) by (intros i Hi; apply (prod_magnitude V); auto).
  assert (Hk0 : (b_k (sbudget fli) <= b_k (grow (bprod (map s_b l ++ [bt])) H))%nat).
  { rewrite <- Eb2, Ebb, bprod_app. cbn [b_k]. unfold sbudget. lia. }
  apply rho_mono in Hk0. pose proof (rho_ge1 (b_k (sbudget fli))) as Hk1.
  set (E := rho ^ b_k (grow (bprod (map s_b l ++ [bt])) H)) in *. set (e := rho ^ b_k (sbudget fli)) in *.
  pose proof (HMF j Hj) as Mj. pose proof (HMF k Hk) as Mk. pose proof (Rabs_pos (qr (F j))). pose proof (Rabs_pos (qr (F k))). pose proof (Rabs_pos (qr G)).
  assert (HP : 0 <= (E - 1) * (qr (MF j) * qr GM + qr (MF k) * qr GM)).
  { apply Rmult_le_pos; [lra|]. apply Rplus_le_le_0_compat; apply Rmult_le_pos; lra. }
  destruct Hsh as [Hlv Hspos Hprop Htpos Hzero Hign].
  assert (Hptf : Permutation (tf :: oth) (fli ++ ri)) by (rewrite <- Hlv; auto).
  assert (Htf : In tf (fli ++ ri)) by (eapply Permutation_in; [apply Hptf|simpl; auto]).
  apply in_app_iff in Htf. destruct Htf as [Htf|Htf]; apply in_split in Htf; destruct Htf as (m1 & m2 & El).
  - assert (HG0 : 0 <= qr G).
    { rewrite <- qr_0. apply qr_le. apply (prod_at_nonneg V); auto. intros i Hi. apply Hspos.
      rewrite El, <- app_assoc in Hptf. simpl in Hptf. apply Permutation_cons_app_inv in Hptf.
      eapply Permutation_in; [apply Permutation_sym, Hptf|]. apply in_app_iff. right. apply in_app_iff. auto. }
    rewrite Rabs_pos_eq in HGM by auto.
    assert (Herr : forall i, (i < v_outcomes d)%nat -> Rabs (qr (qof (fv fac (upd a (v_id d) i))) - qr (F i)) <= (e - 1) * qr (MF i)).
    { intros i Hi. destruct (Happ _ (Hupd i Hi)) as [(S1 & S2 & _ & S4) _]. destruct (SF2R_exact _ _ (qof_exact _ S2)) as [<- _]. exact S4. }
    pose proof (Herr j Hj) as Ej. pose proof (Herr k Hk) as Ek. apply Rabs_le_inv in Ej, Ek.
    assert (Hjk : qr (qof (fv fac (upd a (v_id d) j))) <= qr (qof (fv fac (upd a (v_id d) k)))) by (apply qr_le; apply (is_max_value _ _ _ Hmax); auto).
    assert (HFd : qr (F j) - qr (F k) <= (e - 1) * (qr (MF j) + qr (MF k))) by lra.
    assert (Hx1 : (qr (F j) - qr (F k)) * qr G <= (e - 1) * (qr (MF j) + qr (MF k)) * qr G) by (apply Rmult_le_compat_r; auto).
    assert (Hx2 : (e - 1) * (qr (MF j) + qr (MF k)) * qr G <= (E - 1) * (qr (MF j) + qr (MF k)) * qr GM).
    { apply Rmult_le_compat; auto. apply Rmult_le_pos; lra. apply Rmult_le_compat_r; lra. }
    lra.
  - assert (Ho : Permutation oth (fli ++ m1 ++ m2)).
    { rewrite El, app_assoc in Hptf. apply Permutation_cons_app_inv in Hptf. rewrite <- app_assoc in Hptf. auto. }
    set (G' := (prod_at s_q (m1 ++ m2) a * sh a)%Qc).
    assert (EG : G = (s_q tf a * prod_at s_q (m1 ++ m2) a)%Qc).
    { unfold G. rewrite El, !prod_app. unfold prod_at. simpl. ring. }
    assert (Hntf : ~ In (v_id d) (map v_id (f_vars (s_f tf)))) by (apply Hrd; rewrite El; apply in_app_iff; simpl; auto).
    assert (Hn12 : forall i, In i (m1 ++ m2) -> ~ In (v_id d) (map v_id (f_vars (s_f i)))).
    { intros f Hf. apply Hrd. rewrite El. apply in_app_iff. simpl. apply in_app_iff in Hf. tauto. }
    assert (L12 : localized s_q (m1 ++ m2)).
    { unfold localized in *. rewrite El in Lrq. apply Forall_app in Lrq. destruct Lrq as [La Lb]. apply Forall_inv_tail in Lb. apply Forall_app. auto. }
    assert (HM : forall i, (i < v_outcomes d)%nat -> (F i * G' = total (weight_of (map cpt (chance_vars V))) hl a)%Qc).
    { intros i Hi. rewrite <- (observed_independent V cpt rank (chance_vars V) hl (v_id d)) with (k := i); auto.
      - rewrite (total_ext_range _ (fun w => (prod_at s_q l w * 1)%Qc) V); auto.
        2: { intros x Hx. rewrite <- Hprod by auto. ring. }
        rewrite <- Hshw by auto. rewrite (prod_perm s_q _ _ _ Ho), prod_app, Hign by auto.
        rewrite (prod_ignores s_q (m1 ++ m2)) by auto. unfold F, G'. ring.
      - apply NoDup_filter_map. auto.
      - intros c Hc. apply Hhl in Hc. apply filter_In. split. apply HiH; auto. apply nodeType_eqb_spec. apply HHt. auto.
      - intros c Hc Ec. apply filter_In in Hc. destruct Hc as [Hc Ht]. apply nodeType_eqb_spec in Ht.
        assert (Ecd : c = d) by (apply (wf_vars_inj V); auto). rewrite Ecd in Ht. congruence.
      - intros c Hc Hnh. apply filter_In in Hc. destruct Hc as [Hc Ht].
        destruct (observes deps d c) eqn:Eo.
        + apply existsb_exists in Eo. destruct Eo as ([x ps] & Hx & Eo). apply andb_prop in Eo. destruct Eo as [E' Ec].
          apply var_eqb_spec in E'. subst x. apply contains_id_spec in Ec. apply in_map_iff in Ec. destruct Ec as (p & Ep & Hp).
          rewrite <- Ep. apply Nat.lt_le_incl. eapply Hinfo; eauto.
        + exfalso. apply Hnh. apply Hhl. apply filter_In. split; auto. rewrite Ht, Eo. auto. }
    assert (HE : (F j * G)%Qc = (F k * G)%Qc).
    { destruct (Qc_eq_dec G' 0%Qc) as [Ez|Ez].
      + assert (Eg0 : G = 0%Qc).
        { unfold G' in Ez. apply Qcmult_integral in Ez. rewrite EG. destruct Ez as [Ez|Ez]. rewrite Ez; ring. rewrite (Hzero a Ha Ez). ring. }
        rewrite Eg0. ring.
      + assert (Ef : F k = F j).
        { pose proof (HM k Hk) as Hx1. rewrite <- (HM j Hj) in Hx1.
          apply (f_equal (fun x => (x / G')%Qc)) in Hx1. unfold Qcdiv in Hx1. rewrite <- !Qcmult_assoc, Qcmult_inv_r, !Qcmult_1_r in Hx1; auto. }
        rewrite Ef. auto. }
    apply (f_equal qr) in HE. rewrite !qr_mult in HE. lra.
Qed.
