(** Invariant of the elimination state and the effect of each elimination step. *)
From Coq Require Import ZArith List Bool Lia Permutation QArith Qcanon.
From Verif Require Import Num GoBase VarModel GoFacts SpecFactor Tuples FactorFacts FactorAt XnumFacts ExactFactor
  FactorThms VEModel SpecVE VEWorlds.
Import ListNotations.
Open Scope Z_scope.

Notation state := (vestate xnum).
Notation fac := (factor xnum).

Definition live {A} (s : vestate A) : list (factor A) := map snd (ve_factors s).

Definition good_factor (V : list variable) (c : Z) (f : fac) : Prop :=
  wf_factor f /\ finite_factor f /\ incl (f_vars f) V /\ f_id f < c.

Record good (V : list variable) (s : state) : Prop := {
  g_key : forall e, In e (ve_factors s) -> fst e = f_id (snd e);
  g_fac : forall f, In f (live s) -> good_factor V (vs_counter (ve_vs s)) f;
  g_nodup : NoDup (map fst (ve_factors s))
}.

Lemma wf_vars_inj V u v : wf_vars V -> In u V -> In v V -> v_id u = v_id v -> u = v.
Proof.
  unfold wf_vars. induction V; simpl; intros Hw Hu Hv E; [tauto|]. inversion Hw; subst.
  destruct Hu as [->|Hu], Hv as [->|Hv]; auto.
  - exfalso. apply H1. rewrite E. apply in_map. auto.
  - exfalso. apply H1. rewrite <- E. apply in_map. auto.
Qed.

Lemma good_consistent V c fs : wf_vars V -> (forall f, In f fs -> good_factor V c f) -> consistent fs.
Proof.
  intros HV H f g u w Hf Hg Hu Hw E. eapply wf_vars_inj; eauto.
  - apply (H f Hf). auto.
  - apply (H g Hg). auto.
Qed.

Lemma good_product V c s fs : wf_vars V -> (forall f, In f fs -> good_factor V c f) ->
  exists f', product s fs = Ok (bump s, f') /\ f_id f' = vs_counter s /\ wf_factor f' /\ finite_factor f' /\
    incl (f_vars f') V /\ (forall v, In v (f_vars f') <-> exists f, In f fs /\ In v (f_vars f)) /\
    forall a, in_range (f_vars f') a -> value f' a = weight_of fs a.
Proof.
  intros HV H.
  destruct (denotes_product s fs (map value fs)) as (f' & E & Hid & Hw & Hvs & Hd).
  - apply Forall_forall. intros f Hf. apply (H f Hf).
  - eapply good_consistent; eauto.
  - clear -H. induction fs; constructor.
    + apply finite_denotes. apply (H a). simpl; auto.
    + apply IHfs. intros; apply H; simpl; auto.
  - exists f'. do 3 (split; auto). split; [eapply denotes_finite; eauto|]. split; [|split; auto].
    + intros v Hv. apply Hvs in Hv. destruct Hv as (f & Hf & Hv). apply (H f Hf). auto.
    + intros a Ha. rewrite (denotes_value _ _ _ Hd Ha). rewrite map_map. auto.
Qed.

Lemma good_sum_factors V c s fs : wf_vars V -> (forall f, In f fs -> good_factor V c f) ->
  exists f', sum s fs = Ok (bump s, f') /\ f_id f' = vs_counter s /\ wf_factor f' /\ finite_factor f' /\
    incl (f_vars f') V /\ (forall v, In v (f_vars f') <-> exists f, In f fs /\ In v (f_vars f)) /\
    forall a, in_range (f_vars f') a -> value f' a = qsum (map (fun f => value f a) fs).
Proof.
  intros HV H.
  destruct (denotes_sum s fs (map value fs)) as (f' & E & Hid & Hw & Hvs & Hd).
  - apply Forall_forall. intros f Hf. apply (H f Hf).
  - eapply good_consistent; eauto.
  - clear -H. induction fs; constructor.
    + apply finite_denotes. apply (H a). simpl; auto.
    + apply IHfs. intros; apply H; simpl; auto.
  - exists f'. do 3 (split; auto). split; [eapply denotes_finite; eauto|]. split; [|split; auto].
    + intros v Hv. apply Hvs in Hv. destruct Hv as (f & Hf & Hv). apply (H f Hf). auto.
    + intros a Ha. rewrite (denotes_value _ _ _ Hd Ha). rewrite map_map. auto.
Qed.

Lemma good_sum_out V s f v : wf_vars V -> wf_factor f -> finite_factor f -> incl (f_vars f) V -> In v (f_vars f) ->
  exists f', sum_out s f v = Ok (bump s, f') /\ f_id f' = vs_counter s /\ wf_factor f' /\ finite_factor f' /\
    f_vars f' = others (f_vars f) v /\
    forall a, in_range (f_vars f') a ->
      value f' a = qsum (map (fun k => value f (upd a (v_id v) k)) (seq 0 (v_outcomes v))).
Proof.
  intros HV Hw Hf Hi Hv. destruct (denotes_sum_out s f v (value f)) as (f' & E & Hid & Hw' & Hvs & Hd); auto.
  { apply finite_denotes; auto. }
  exists f'. do 3 (split; auto). split; [eapply denotes_finite; eauto|]. split; auto.
  intros a Ha. apply (denotes_value _ _ _ Hd Ha).
Qed.

(** sum_out only looks at the id of the variable *)
Lemma sum_out_id {A} {N : NumOps A} s (f : factor A) v v' : v_id v = v_id v' -> sum_out s f v = sum_out s f v'.
Proof. intros E. unfold sum_out. rewrite E. auto. Qed.

(** ** Maps from ids to factors *)
Lemma del_all_filter {A} (m : list (Z * factor A)) ks :
  del_all m ks = filter (fun e => negb (existsb (Z.eqb (fst e)) ks)) m.
Proof.
  unfold del_all. revert m. induction ks; intros m; simpl.
  - induction m; simpl; auto. f_equal. auto.
  - rewrite IHks. unfold mdel. clear IHks. induction m; simpl; auto.
    rewrite (Z.eqb_sym a). destruct (fst a0 =? a); simpl; auto. destruct (existsb _ ks); simpl; auto. f_equal. auto.
Qed.

Lemma NoDup_fst_inj {X Y} (m : list (X * Y)) k v w : NoDup (map fst m) -> In (k, v) m -> In (k, w) m -> v = w.
Proof.
  induction m as [|[k1 v1] m]; simpl; intros Hn H1 H2; [tauto|]. inversion Hn; subst.
  destruct H1 as [H1|H1], H2 as [H2|H2].
  - congruence.
  - inversion H1; subst. exfalso. apply H3. change k with (fst (k, w)). apply in_map. auto.
  - inversion H2; subst. exfalso. apply H3. change k with (fst (k, v)). apply in_map. auto.
  - auto.
Qed.

Lemma del_all_sel {A} (m m' : list (Z * factor A)) (p : Z * factor A -> bool) :
  NoDup (map fst m) -> Permutation m m' ->
  del_all m (map fst (filter p m')) = filter (fun e => negb (p e)) m.
Proof.
  intros Hn Hp. rewrite del_all_filter. apply filter_ext_in. intros [k f] Hin. f_equal.
  apply eq_true_iff_eq. rewrite existsb_exists. split.
  - intros (x & Hx & E). apply in_map_iff in Hx. destruct Hx as ([k' f'] & Ek & Hx). apply filter_In in Hx.
    simpl in *. assert (x = k) by lia. subst. destruct Hx as [Hx Hpx].
    assert (f' = f); [|subst; auto]. eapply NoDup_fst_inj; eauto. eapply Permutation_in; [apply Permutation_sym|]; eauto.
  - intros Hpe. exists k. split; [|simpl; lia]. apply in_map_iff. exists (k, f). split; auto. apply filter_In. split; auto.
    eapply Permutation_in; eauto.
Qed.

Lemma Permutation_filter {X} (p : X -> bool) l l' : Permutation l l' -> Permutation (filter p l) (filter p l').
Proof.
  induction 1; simpl; auto.
  - destruct (p x); auto.
  - destruct (p x), (p y); auto. constructor.
  - etransitivity; eauto.
Qed.

Lemma filter_split {X} (p : X -> bool) l : Permutation l (filter p l ++ filter (fun x => negb (p x)) l).
Proof.
  induction l; simpl; auto. destruct (p a); simpl; auto.
  etransitivity; [apply perm_skip, IHl|]. apply Permutation_middle.
Qed.

Lemma contains_id_spec vs x : contains_id vs x = true <-> In x (map v_id vs).
Proof.
  unfold contains_id. rewrite existsb_exists, in_map_iff. split; intros (v & H1 & H2); exists v.
  - split; auto. lia.
  - split; auto. lia.
Qed.

Lemma contains_var_spec vs v : contains_var vs v = true <-> In v vs.
Proof.
  unfold contains_var. rewrite existsb_exists. split.
  - intros (u & H1 & H2). apply var_eqb_spec in H2. subst. auto.
  - intros H. exists v. split; auto. apply var_eqb_spec. auto.
Qed.

(** The frame: what a step never changes. *)
Record frame {A} (s s' : vestate A) : Prop := {
  fr_vars : vs_vars (ve_vs s') = vs_vars (ve_vs s);
  fr_deps : ve_deps s' = ve_deps s;
  fr_weights : ve_weights s' = ve_weights s;
  fr_counter : vs_counter (ve_vs s) <= vs_counter (ve_vs s')
}.

Lemma frame_refl {A} (s : vestate A) : frame s s.
Proof. constructor; auto. lia. Qed.

Lemma frame_trans {A} (s1 s2 s3 : vestate A) : frame s1 s2 -> frame s2 s3 -> frame s1 s3.
Proof. intros [] []. constructor; try congruence. lia. Qed.

Lemma NoDup_app_single {X} (l : list X) x : NoDup l -> ~ In x l -> NoDup (l ++ [x]).
Proof.
  intros. apply (Permutation_NoDup (l := x :: l)); [|constructor; auto].
  apply Permutation_cons_append.
Qed.

(** Adding a new factor under its fresh id. *)
Lemma good_add V s m f vs' :
  good V s -> (forall e, In e m -> In e (ve_factors s)) -> NoDup (map fst m) ->
  wf_factor f -> finite_factor f -> incl (f_vars f) V ->
  vs_counter (ve_vs s) <= f_id f < vs_counter vs' ->
  mset Z.eqb m (f_id f) f = m ++ [(f_id f, f)] /\
  forall el dp w t, good V (mkVE vs' el dp (m ++ [(f_id f, f)]) w t).
Proof.
  intros [Hk Hf Hn] Hm Hnm Hwf Hfin Hi Hid.
  assert (Hni : ~ In (f_id f) (map fst m)).
  { intros Hin. apply in_map_iff in Hin. destruct Hin as (e & He & Hin). apply Hm in Hin.
    pose proof (Hk e Hin). assert (In (snd e) (live s)) by (apply in_map; auto).
    destruct (Hf _ H0) as (_ & _ & _ & Hlt). lia. }
  split.
  - apply mset_new; auto. intros; apply Z.eqb_eq.
  - intros. constructor; simpl.
    + intros e He. apply in_app_iff in He. destruct He as [He|[<-|[]]]; auto.
    + unfold live. simpl. intros g Hg. rewrite map_app in Hg. apply in_app_iff in Hg. destruct Hg as [Hg|[<-|[]]].
      * apply in_map_iff in Hg. destruct Hg as (e & <- & He). apply Hm in He.
        destruct (Hf (snd e)) as (h1 & h2 & h3 & h4); [apply in_map; auto|]. repeat split; try apply h1; auto. lia.
      * simpl. repeat split; try apply Hwf; auto. lia.
    + rewrite map_app. simpl. apply NoDup_app_single; auto.
Qed.

Lemma bump_counter s : vs_counter (bump s) = vs_counter s + 1.
Proof. reflexivity. Qed.
Lemma bump_vars s : vs_vars (bump s) = vs_vars s.
Proof. reflexivity. Qed.

Section Steps.
Variable sc : sched.

(** ve/ve.go removeHidden: the factors containing the variable are replaced by their
    product summed over the variable. *)
Lemma remove_hidden_step V s v v' : wf_vars V -> good V s -> In v V ->
  v_id v' = v_id v -> (v_index v' < length (ve_elim s))%nat ->
  (exists f, In f (live s) /\ In v (f_vars f)) ->
  exists s' sel rest new,
    remove_hidden sc s v' = Ok s' /\ good V s' /\ frame s s' /\
    ve_elim s' = upd_nth (ve_elim s) (v_index v') true /\
    Permutation (live s) (sel ++ rest) /\ live s' = rest ++ [new] /\
    (forall f, In f sel -> In v (f_vars f)) /\
    (forall f, In f rest -> ~ In (v_id v) (map v_id (f_vars f))) /\
    (forall u, In u (f_vars new) <-> (exists f, In f sel /\ In u (f_vars f)) /\ v_id u <> v_id v) /\
    (forall a, in_range V a ->
      value new a = qsum (map (fun k => weight_of sel (upd a (v_id v) k)) (seq 0 (v_outcomes v)))).
Proof.
  intros HV Hg HvV Hid' Hidx (fv & Hfv & Hvfv).
  unfold remove_hidden, range_factors. cbn [with_tick ve_factors ve_vs ve_elim ve_tick].
  pose proof (shuffle_perm sc (ve_tick s) _ (ve_factors s)) as Hp.
  set (entries := shuffle sc (ve_tick s) (ve_factors s)) in *.
  set (p := fun '((_, f) : Z * fac) => contains_id (f_vars f) (v_id v')).
  change (filter (fun '(_, f) => contains_id (f_vars f) (v_id v')) entries) with (filter p entries).
  assert (Hsel : forall f, In f (map snd (filter p entries)) <-> In f (live s) /\ In (v_id v) (map v_id (f_vars f))).
  { intros f. rewrite in_map_iff. split.
    - intros ([k g] & <- & Hin). apply filter_In in Hin. destruct Hin as [Hin Hc]. unfold p in Hc.
      apply contains_id_spec in Hc. rewrite Hid' in Hc. split; auto. simpl. apply in_map_iff. exists (k, g). split; auto.
      eapply Permutation_in; [apply Permutation_sym|]; eauto.
    - intros [Hin Hc]. apply in_map_iff in Hin. destruct Hin as ([k g] & E & Hin). simpl in E. subst g.
      exists (k, f). split; auto. apply filter_In. split. eapply Permutation_in; eauto.
      unfold p. apply contains_id_spec. rewrite Hid'. auto. }
  assert (Hin_v : forall f, In f (live s) -> In (v_id v) (map v_id (f_vars f)) -> In v (f_vars f)).
  { intros f Hf Hc. apply in_map_iff in Hc. destruct Hc as (u & E & Hu).
    replace v with u; auto. eapply (wf_vars_inj V); eauto. apply (g_fac _ _ Hg f Hf). auto. }
  destruct (good_product V (vs_counter (ve_vs s)) (ve_vs s) (map snd (filter p entries)))
    as (pr & E1 & Hid1 & Hw1 & Hf1 & Hi1 & Hvs1 & Hval1); auto.
  { intros f Hf. apply Hsel in Hf. apply (g_fac _ _ Hg). tauto. }
  rewrite E1. cbn [gbind].
  assert (Hvpr : In v (f_vars pr)).
  { apply Hvs1. exists fv. split; auto. apply Hsel. split; auto. apply in_map. auto. }
  destruct (good_sum_out V (bump (ve_vs s)) pr v) as (new & E2 & Hid2 & Hw2 & Hf2 & Hvs2 & Hval2); auto.
  rewrite (sum_out_id _ _ _ v) by auto. rewrite E2. cbn [gbind].
  rewrite sset_ok by auto. cbn [gbind].
  set (m := del_all _ _).
  assert (Em : m = filter (fun e => negb (p e)) (ve_factors s)).
  { apply del_all_sel; auto. apply Hg. }
  assert (Hinew : incl (f_vars new) V).
  { rewrite Hvs2. intros u Hu. apply in_others in Hu. apply Hi1. tauto. }
  destruct (good_add V s m new (bump (bump (ve_vs s)))) as [Hset Hgood]; auto.
  { intros e He. rewrite Em in He. apply filter_In in He. tauto. }
  { rewrite Em. apply NoDup_filter_map. apply Hg. }
  { rewrite Hid2, !bump_counter. lia. }
  rewrite Hset. eexists. exists (map snd (filter p entries)), (map snd m), new. split; [reflexivity|].
  split; [apply Hgood|]. split; [constructor; simpl; auto; lia|]. split; [auto|].
  split. { unfold live. rewrite <- map_app. apply Permutation_map. rewrite Em.
    etransitivity; [apply (filter_split p)|]. apply Permutation_app_tail. apply Permutation_filter. auto. }
  split. { unfold live. simpl. rewrite map_app. auto. }
  split. { intros f Hf. apply Hsel in Hf. apply Hin_v; tauto. }
  split. { intros f Hf. rewrite Em in Hf. apply in_map_iff in Hf. destruct Hf as ([k g] & <- & Hf).
    apply filter_In in Hf. destruct Hf as [_ Hf]. apply negb_true_iff in Hf. intros Hc.
    unfold p in Hf. simpl in Hc. rewrite <- Hid' in Hc. apply contains_id_spec in Hc. congruence. }
  split. { intros u. rewrite Hvs2, in_others, Hvs1. tauto. }
  intros a Ha. rewrite Hval2.
  - apply qsum_ext. intros k Hk. apply in_seq in Hk. apply Hval1.
    eapply in_range_incl; [apply Hi1|]. apply in_range_upd'; auto. lia.
  - eapply in_range_incl; eauto.
Qed.

(** ** Summing out a list of variables *)
Definition in_scope {A} (s : vestate A) (v : variable) : Prop := exists f, In f (live s) /\ In v (f_vars f).

Lemma remove_hidden_weight V s v v' : wf_vars V -> good V s -> In v V ->
  v_id v' = v_id v -> (v_index v' < length (ve_elim s))%nat -> in_scope s v ->
  exists s',
    remove_hidden sc s v' = Ok s' /\ good V s' /\ frame s s' /\
    ve_elim s' = upd_nth (ve_elim s) (v_index v') true /\
    (forall u, In u V -> (in_scope s' u <-> in_scope s u /\ v_id u <> v_id v)) /\
    (forall a, in_range V a ->
      weight_of (live s') a = total (weight_of (live s)) [v] a).
Proof.
  intros HV Hg HvV Hid' Hidx Hsc.
  destruct (remove_hidden_step V s v v') as (s' & sel & rest & new & E & Hg' & Hfr & Hel & Hp & Hl & Hs & Hr & Hvs & Hval); auto.
  exists s'. do 4 (split; auto). split.
  - intros u HuV. unfold in_scope. rewrite Hl. split.
    + intros (f & Hf & Hu). apply in_app_iff in Hf. destruct Hf as [Hf|[<-|[]]].
      * split.
        -- exists f. split; auto. eapply Permutation_in; [apply Permutation_sym; eauto|]. apply in_app_iff. auto.
        -- intros Eu. apply (Hr f Hf). rewrite <- Eu. apply in_map. auto.
      * apply Hvs in Hu. destruct Hu as [(f & Hf & Hu) Hne]. split; auto. exists f. split; auto.
        eapply Permutation_in; [apply Permutation_sym; eauto|]. apply in_app_iff. auto.
    + intros [(f & Hf & Hu) Hne]. eapply Permutation_in in Hf; [|eauto]. apply in_app_iff in Hf. destruct Hf as [Hf|Hf].
      * exists new. split. apply in_app_iff; simpl; auto. apply Hvs. split; eauto.
      * exists f. split; auto. apply in_app_iff; auto.
  - intros a Ha. rewrite Hl, weight_app. unfold weight_of at 2. simpl. rewrite (Hval a Ha).
    rewrite total_cons. rewrite (qsum_ext (fun k => total (weight_of (live s)) [] (upd a (v_id v) k)) (fun k => weight_of (live s) (upd a (v_id v) k))) by (intros; apply total_nil).
    rewrite (qsum_ext (fun k => weight_of (live s) (upd a (v_id v) k))
      (fun k => (weight_of rest a * weight_of sel (upd a (v_id v) k))%Qc)).
    + rewrite qsum_scale. ring.
    + intros k _. rewrite (weight_perm _ _ _ Hp), weight_app. rewrite (weight_ignores rest) by auto. ring.
Qed.

Lemma remove_list V (hl : list variable) : wf_vars V -> forall (hl' : list variable) s,
  good V s -> Forall2 (fun v v' => v_id v' = v_id v /\ (v_index v' < length (ve_elim s))%nat) hl hl' ->
  incl hl V -> wf_vars hl -> (forall v, In v hl -> in_scope s v) ->
  exists s', foldM (remove_hidden sc) s hl' = Ok s' /\ good V s' /\ frame s s' /\
    length (ve_elim s') = length (ve_elim s) /\
    (forall i, nth_error (ve_elim s') i =
       if existsb (fun v => (v_index v =? i)%nat) hl' then Some true else nth_error (ve_elim s) i) /\
    (forall u, In u V -> (in_scope s' u <-> in_scope s u /\ ~ In (v_id u) (map v_id hl))) /\
    (forall a, in_range V a -> weight_of (live s') a = total (weight_of (live s)) hl a).
Proof.
  intros HV. induction hl as [|v hl]; intros hl' s Hg H2 Hi Hw Hsc.
  - inversion H2; subst. exists s. simpl. do 2 (split; auto). split; [apply frame_refl|]. repeat split; auto; try tauto.
    intros a _. rewrite total_nil. auto.
  - inversion H2 as [|? v' ? hl1 [Hid Hix] H2']; subst. simpl.
    destruct (remove_hidden_weight V s v v') as (s1 & E1 & Hg1 & Hf1 & Hel1 & Hsc1 & Hw1); auto.
    { apply Hi; simpl; auto. } { apply Hsc; simpl; auto. }
    rewrite E1. cbn [gbind]. inversion Hw as [|? ? Hni Hw']; subst.
    destruct (IHhl hl1 s1) as (s2 & E2 & Hg2 & Hf2 & Hl2 & Hel2 & Hsc2 & Hw2); auto.
    { eapply Forall2_imp; [|apply H2']. intros x y [Hx Hy]. split; auto. rewrite Hel1, upd_nth_length. auto. }
    { intros x Hx. apply Hi; simpl; auto. }
    { intros u Hu. apply Hsc1. apply Hi; simpl; auto. split. apply Hsc; simpl; auto.
      intros E. apply Hni. rewrite <- E. apply in_map. auto. }
    exists s2. split; auto. split; auto. split; [eapply frame_trans; eauto|].
    split; [rewrite Hl2, Hel1, upd_nth_length; auto|].
    split. { intros i. rewrite Hel2, Hel1. destruct (existsb _ hl1) eqn:Ee.
      - rewrite orb_true_r. auto.
      - rewrite orb_false_r, upd_nth_spec. destruct (v_index v' =? i)%nat; simpl; auto.
        destruct (Nat.ltb_spec (v_index v') (length (ve_elim s))); auto. lia. }
    split. { intros u Hu. rewrite Hsc2, Hsc1 by auto. simpl. split.
      - intros [[H3 H4] H5]. split; auto. intros [H6|H6]; auto. - intros [H3 H4]. repeat split; auto. }
    intros a Ha. rewrite Hw2 by auto.
    rewrite (total_ext_range _ (total (weight_of (live s)) [v]) V); auto.
    + rewrite <- total_app. apply total_perm. apply weight_proper.
      * eapply wf_perm; [|apply Hw]. apply Permutation_cons_append.
      * apply Permutation_sym, Permutation_cons_append.
    + intros x Hx. apply Hi; simpl; auto.
Qed.

End Steps.
