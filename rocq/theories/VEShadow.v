(** Elimination with one utility factor among probability factors: what the product of the
    probability factors alone would have become. *)
From Coq Require Import ZArith List Bool Lia Permutation QArith Qcanon.
From Verif Require Import Num GoBase VarModel GoFacts SpecFactor Tuples FactorFacts FactorSum FactorAt XnumFacts ExactFactor
  FactorThms VEModel SpecVE VEWorlds VEFacts VETopo VEHidden VESolve VEThms VEUtil.
Import ListNotations.
Open Scope Z_scope.

(** ** Signs of sums and products *)
Lemma qsum_nonneg l : (forall x, In x l -> (0 <= x)%Qc) -> (0 <= qsum l)%Qc.
Proof.
  induction l; intros H; simpl. apply Qcle_refl.
  replace 0%Qc with (0 + 0)%Qc by ring. apply Qcplus_le_compat. apply H; simpl; auto. apply IHl. intros; apply H; simpl; auto.
Qed.

Lemma qsum_le {X} (F G : X -> Qc) l : (forall x, In x l -> (F x <= G x)%Qc) -> (qsum (map F l) <= qsum (map G l))%Qc.
Proof.
  induction l; intros H; simpl. apply Qcle_refl. apply Qcplus_le_compat. apply H; simpl; auto. apply IHl. intros; apply H; simpl; auto.
Qed.

Lemma qmult_nonneg a b : (0 <= a)%Qc -> (0 <= b)%Qc -> (0 <= a * b)%Qc.
Proof. intros. replace 0%Qc with (0 * b)%Qc by ring. apply Qcmult_le_compat_r; auto. Qed.

Lemma qprod_nonneg l : (forall x, In x l -> (0 <= x)%Qc) -> (0 <= qprod l)%Qc.
Proof.
  induction l; intros H; simpl. discriminate. apply qmult_nonneg. apply H; simpl; auto. apply IHl. intros; apply H; simpl; auto.
Qed.

Lemma qsum_zero l : (forall x, In x l -> (0 <= x)%Qc) -> qsum l = 0%Qc -> forall x, In x l -> x = 0%Qc.
Proof.
  induction l; intros H E x Hx; simpl in *; [tauto|].
  assert (H1 : (0 <= a)%Qc) by auto. assert (H2 : (0 <= qsum l)%Qc) by (apply qsum_nonneg; auto).
  assert (Ea : a = 0%Qc).
  { apply Qcle_antisym; auto. rewrite <- E. rewrite <- (Qcplus_0_r a) at 1. apply Qcplus_le_compat; auto. apply Qcle_refl. }
  destruct Hx as [<-|Hx]; auto. apply IHl; auto. rewrite Ea in E. rewrite Qcplus_0_l in E. auto.
Qed.

(** All values of the factor are non-negative. *)
Definition nonneg (V : list variable) (f : fac) : Prop := forall a, in_range V a -> (0 <= value f a)%Qc.

Lemma weight_nonneg V fs a : in_range V a -> (forall f, In f fs -> nonneg V f) -> (0 <= weight_of fs a)%Qc.
Proof.
  intros Ha H. apply qprod_nonneg. intros x Hx. apply in_map_iff in Hx. destruct Hx as (f & <- & Hf). apply H; auto.
Qed.

(** One factor [tf] carries the utility; [t] is what it would be without the utility. *)
Record shadow (V : list variable) (s : state) (tf : fac) (others : list fac) (t : asg -> Qc) : Prop := {
  sh_live : Permutation (live s) (tf :: others);
  sh_pos : forall f, In f others -> nonneg V f;
  sh_proper : proper t;
  sh_tpos : forall a, in_range V a -> (0 <= t a)%Qc;
  sh_zero : forall a, in_range V a -> t a = 0%Qc -> value tf a = 0%Qc;
  sh_ignores : forall x, ~ In x (map v_id (f_vars tf)) -> ignores t x
}.

Section SH.
Variable sc : sched.

Lemma shadow_step V s v v' s' tf oth t : wf_vars V -> good V s -> In v V ->
  v_id v' = v_id v -> (v_index v' < length (ve_elim s))%nat -> in_scope s v ->
  shadow V s tf oth t -> remove_hidden sc s v' = Ok s' ->
  exists tf' oth' t', shadow V s' tf' oth' t' /\
    forall a, in_range V a -> (weight_of oth' a * t' a)%Qc = total (fun w => weight_of oth w * t w)%Qc [v] a.
Proof.
  intros HV Hg HvV Hid Hix Hsc Hsh E.
  destruct (remove_hidden_step sc V s v v') as (s1 & sel & rest & new & E1 & Hg' & Hfr & Hel & Hp & Hl & Hs & Hr & Hvs & Hval); auto.
  rewrite E in E1. inversion E1; subst s1. clear E1 E.
  destruct Hsh as [Hlive Hpos Hprop Htpos Hzero Hign].
  assert (Hp2 : Permutation (tf :: oth) (sel ++ rest)) by (rewrite <- Hlive; auto).
  assert (Hin : In tf (sel ++ rest)) by (eapply Permutation_in; [apply Hp2|simpl; auto]).
  assert (Hupd : forall a k, in_range V a -> In k (seq 0 (v_outcomes v)) -> in_range V (upd a (v_id v) k)).
  { intros a k Ha Hk. apply in_seq in Hk. apply in_range_upd'; auto. lia. }
  assert (Ht1 : forall F a, total F [v] a = qsum (map (fun k => F (upd a (v_id v) k)) (seq 0 (v_outcomes v)))).
  { intros. rewrite total_cons. apply qsum_ext. intros. apply total_nil. }
  apply in_app_iff in Hin. destruct Hin as [Hin|Hin]; apply in_split in Hin; destruct Hin as (l1 & l2 & El); subst.
  - assert (Ho : Permutation oth ((l1 ++ l2) ++ rest)).
    { rewrite <- app_assoc in Hp2. simpl in Hp2. apply Permutation_cons_app_inv in Hp2. rewrite <- app_assoc. auto. }
    assert (Hpo : forall f, In f (l1 ++ l2) \/ In f rest -> nonneg V f).
    { intros f Hf. apply Hpos. eapply Permutation_in; [apply Permutation_sym, Ho|]. apply in_app_iff. auto. }
    set (t' := fun a => qsum (map (fun k => (t (upd a (v_id v) k) * weight_of (l1 ++ l2) (upd a (v_id v) k))%Qc) (seq 0 (v_outcomes v)))).
    exists new, rest, t'. split.
    + constructor.
      * rewrite Hl. apply Permutation_sym, Permutation_cons_append.
      * intros; apply Hpo; auto.
      * intros a b Hab. apply qsum_ext. intros k _. f_equal; [apply Hprop|apply weight_proper]; apply asg_eq_upd; auto.
      * intros a Ha. apply qsum_nonneg. intros x Hx. apply in_map_iff in Hx. destruct Hx as (k & <- & Hk).
        apply qmult_nonneg; [apply Htpos; auto|]. eapply weight_nonneg; eauto.
      * intros a Ha Ez. rewrite Hval by auto. rewrite (qsum_ext _ (fun _ => 0%Qc)).
        { clear. induction (seq 0 (v_outcomes v)); simpl; auto. rewrite IHl. reflexivity. }
        intros k Hk. pose proof (qsum_zero _ (fun x Hx => match proj1 (in_map_iff _ _ _) Hx with ex_intro _ k (conj Ek Hk) => 
          eq_ind _ (fun x => (0 <= x)%Qc) (qmult_nonneg _ _ (Htpos _ (Hupd a k Ha Hk)) (weight_nonneg V (l1 ++ l2) _ (Hupd a k Ha Hk) (fun f Hf => Hpo f (or_introl Hf)))) _ Ek end) Ez
          _ (in_map (fun k => (t (upd a (v_id v) k) * weight_of (l1 ++ l2) (upd a (v_id v) k))%Qc) _ _ Hk)) as E0.
        cbv beta in E0.
        assert (Ew : forall x, weight_of (l1 ++ tf :: l2) x = (value tf x * weight_of (l1 ++ l2) x)%Qc).
        { intros x. rewrite !weight_app. unfold weight_of. simpl. ring. }
        rewrite Ew. apply Qcmult_integral in E0. destruct E0 as [E0|E0].
        { rewrite (Hzero _ (Hupd a k Ha Hk) E0). ring. } { rewrite E0. ring. }
      * intros x Hx a j. unfold t'. apply qsum_ext. intros k _.
        destruct (Z.eq_dec x (v_id v)) as [->|Hne].
        { f_equal; [apply Hprop|apply weight_proper]; apply upd_upd. }
        assert (Hsx : forall f, In f (l1 ++ tf :: l2) -> ~ In x (map v_id (f_vars f))).
        { intros f Hf Hc. apply Hx. apply in_map_iff in Hc. destruct Hc as (u & Eu & Hu). apply in_map_iff. exists u. split; auto.
          apply Hvs. split; eauto. congruence. }
        rewrite (Hprop _ _ (upd_comm a x (v_id v) j k Hne)), (weight_proper _ _ _ (upd_comm a x (v_id v) j k Hne)).
        rewrite Hign by (apply Hsx; apply in_app_iff; simpl; auto). f_equal. apply weight_ignores.
        intros f Hf. apply Hsx. apply in_app_iff in Hf. apply in_app_iff. simpl. tauto.
    + intros a Ha. rewrite Ht1. unfold t'. rewrite <- qsum_scale. apply qsum_ext. intros k _.
      rewrite (weight_perm _ _ _ Ho), (weight_app (l1 ++ l2) rest). rewrite (weight_ignores rest) by auto. ring.
  - assert (Ho : Permutation oth (sel ++ l1 ++ l2)).
    { rewrite app_assoc in Hp2. apply Permutation_cons_app_inv in Hp2. rewrite <- app_assoc in Hp2. auto. }
    assert (Hpo : forall f, In f sel \/ In f (l1 ++ l2) -> nonneg V f).
    { intros f Hf. apply Hpos. eapply Permutation_in; [apply Permutation_sym, Ho|]. apply in_app_iff. auto. }
    assert (Hnv : ~ In (v_id v) (map v_id (f_vars tf))) by (apply Hr; apply in_app_iff; simpl; auto).
    exists tf, (new :: l1 ++ l2), t. split.
    + constructor; auto.
      * rewrite Hl. rewrite <- app_assoc. etransitivity; [apply Permutation_sym, Permutation_middle|]. constructor.
        rewrite app_assoc. apply Permutation_sym, Permutation_cons_append.
      * intros f [<-|Hf]; [|apply Hpo; auto]. intros a Ha. rewrite Hval by auto. apply qsum_nonneg.
        intros x Hx. apply in_map_iff in Hx. destruct Hx as (k & <- & Hk). eapply weight_nonneg; eauto.
    + intros a Ha. rewrite Ht1. change (weight_of (new :: l1 ++ l2) a) with (value new a * weight_of (l1 ++ l2) a)%Qc. rewrite Hval by auto.
      rewrite (qsum_ext (fun k => (weight_of oth (upd a (v_id v) k) * t (upd a (v_id v) k))%Qc)
        (fun k => (weight_of (l1 ++ l2) a * t a * weight_of sel (upd a (v_id v) k))%Qc)).
      * rewrite qsum_scale. ring.
      * intros k _. rewrite (weight_perm _ _ _ Ho), weight_app, Hign by auto.
        rewrite (weight_ignores (l1 ++ l2)). ring. intros f Hf. apply Hr. apply in_app_iff in Hf. apply in_app_iff. simpl. tauto.
Qed.

Lemma shadow_list V : wf_vars V -> forall hl (hl' : list variable) s tf oth t s',
  good V s -> Forall2 (fun v v' => v_id v' = v_id v /\ (v_index v' < length (ve_elim s))%nat) hl hl' ->
  incl hl V -> wf_vars hl -> (forall v, In v hl -> in_scope s v) ->
  shadow V s tf oth t -> foldM (remove_hidden sc) s hl' = Ok s' ->
  exists tf' oth' t', shadow V s' tf' oth' t' /\
    forall a, in_range V a -> (weight_of oth' a * t' a)%Qc = total (fun w => weight_of oth w * t w)%Qc hl a.
Proof.
  intros HV. induction hl as [|v hl]; intros hl' s tf oth t s' Hg H2 Hi Hw Hsc Hsh E.
  - inversion H2; subst. simpl in E. inversion E; subst. exists tf, oth, t. split; auto. intros. rewrite total_nil. auto.
  - inversion H2 as [|? v' ? hl1 [Hid Hix] H2']; subst. cbn [foldM] in E.
    destruct (remove_hidden_weight sc V s v v') as (s1 & E1 & Hg1 & Hf1 & Hel1 & Hsc1 & Hw1); auto.
    { apply Hi; simpl; auto. } { apply Hsc; simpl; auto. }
    rewrite E1 in E. cbn [gbind] in E. inversion Hw as [|? ? Hni Hw']; subst.
    destruct (shadow_step V s v v' s1 tf oth t) as (tf1 & oth1 & t1 & Hsh1 & Ht1); auto.
    { apply Hi; simpl; auto. } { apply Hsc; simpl; auto. }
    destruct (IHhl hl1 s1 tf1 oth1 t1 s') as (tf2 & oth2 & t2 & Hsh2 & Ht2); auto.
    { eapply Forall2_imp; [|apply H2']. intros x y [Hx Hy]. split; auto. rewrite Hel1, upd_nth_length. auto. }
    { intros x Hx. apply Hi; simpl; auto. }
    { intros u Hu. apply Hsc1. apply Hi; simpl; auto. split. apply Hsc; simpl; auto.
      intros Eu. apply Hni. rewrite <- Eu. apply in_map. auto. }
    exists tf2, oth2, t2. split; auto. intros a Ha. rewrite Ht2 by auto.
    rewrite (total_ext_range _ (total (fun w => (weight_of oth w * t w)%Qc) [v]) V); auto.
    + rewrite <- total_app. apply total_perm.
      * intros x y Hxy. f_equal. apply weight_proper; auto. apply (sh_proper _ _ _ _ _ Hsh); auto.
      * eapply wf_perm; [|apply Hw]. apply Permutation_cons_append.
      * apply Permutation_sym, Permutation_cons_append.
    + intros x Hx. apply Hi; simpl; auto.
Qed.

End SH.

(** ** Barren variables: summing a conditional distribution over its own variable gives 1. *)
Section Barren.
Variable V : list variable.
Variable cpt : variable -> fac.
Variable rank : Z -> nat.

(** [cpt c] is a conditional distribution of [c] given variables of lower rank. *)
Definition is_cpt (c : variable) : Prop :=
  In c V /\ (forall a, in_range V a -> qsum (map (fun k => value (cpt c) (upd a (v_id c) k)) (seq 0 (v_outcomes c))) = 1%Qc) /\
  (forall u, In u (f_vars (cpt c)) -> v_id u <> v_id c -> (rank (v_id u) < rank (v_id c))%nat).

Lemma max_rank (L : list variable) : L <> [] -> exists c L', Permutation L (c :: L') /\ forall u, In u L' -> (rank (v_id u) <= rank (v_id c))%nat.
Proof.
  induction L as [|c L]; intros H; [congruence|]. destruct L as [|d L].
  - exists c, []. split; auto. intros u [].
  - destruct IHL as (m & L' & Hp & Hm); [discriminate|].
    destruct (Nat.le_gt_cases (rank (v_id m)) (rank (v_id c))).
    + exists c, (d :: L). split; auto. intros u Hu. eapply Permutation_in in Hu; [|apply Hp]. destruct Hu as [<-|Hu]; auto.
      etransitivity; [apply Hm; auto|auto].
    + exists m, (c :: L'). split. { rewrite Hp. apply perm_swap. } intros u [<-|Hu]; auto. lia.
Qed.

Lemma barren : wf_vars V -> forall n L G, length L = n -> wf_vars L -> (forall c, In c L -> is_cpt c) -> proper G ->
  (forall c, In c L -> ignores G (v_id c)) ->
  forall a, in_range V a -> total (fun w => (weight_of (map cpt L) w * G w)%Qc) L a = G a.
Proof.
  intros HV. induction n as [|n IH]; intros L G Hn HwL Hc HG Hig a Ha.
  - destruct L; [|discriminate]. rewrite total_nil. unfold weight_of. simpl. ring.
  - destruct (max_rank L) as (c & L' & Hp & Hm). { intros ->. discriminate. }
    assert (Hw' : wf_vars (c :: L')) by (eapply wf_perm; eauto).
    assert (HcL : In c L) by (eapply Permutation_in; [apply Permutation_sym, Hp|simpl; auto]).
    assert (HinL : forall u, In u L' -> In u L) by (intros u Hu; eapply Permutation_in; [apply Permutation_sym, Hp|simpl; auto]).
    assert (Hp2 : Permutation L (L' ++ [c])) by (rewrite Hp; apply Permutation_cons_append).
    rewrite (total_perm _ L (L' ++ [c])); auto.
    2: { intros x y Hxy. f_equal; auto. apply weight_proper; auto. }
    rewrite total_app. inversion Hw' as [|? ? Hni HwL']; subst.
    assert (Hcs : forall u, In u L' -> ignores (value (cpt u)) (v_id c)).
    { intros u Hu. apply value_ignores. intros Hx. apply in_map_iff in Hx. destruct Hx as (x & Ex & Hx).
      destruct (Hc u (HinL u Hu)) as (_ & _ & Hr). specialize (Hr x Hx). rewrite Ex in Hr.
      specialize (Hm u Hu). assert (v_id c <> v_id u). { intros Ec. apply Hni. rewrite Ec. apply in_map. auto. }
      specialize (Hr H). lia. }
    rewrite (total_ext_range _ (fun w => (weight_of (map cpt L') w * G w)%Qc) V); auto.
    + apply IH; auto. apply Permutation_length in Hp. simpl in Hp. lia.
    + intros u Hu. apply (Hc u). auto.
    + intros w Hw. rewrite total_cons.
      rewrite (qsum_ext _ (fun k => (weight_of (map cpt L') w * G w * value (cpt c) (upd w (v_id c) k))%Qc)).
      * rewrite qsum_scale. destruct (Hc c HcL) as (_ & H1 & _). rewrite H1 by auto. ring.
      * intros k Hk. rewrite total_nil. rewrite (weight_perm _ _ _ (Permutation_map cpt Hp2)), map_app, weight_app. rewrite Hig by auto.
        assert (E : weight_of (map cpt L') (upd w (v_id c) k) = weight_of (map cpt L') w).
        { unfold weight_of. rewrite !map_map. apply qprod_ext. intros u Hu. apply Hcs. auto. }
        rewrite E. unfold weight_of at 2. simpl. ring.
Qed.

(** The probability of the variables observed by a decision does not depend on the decision. *)
Lemma observed_independent (C H : list variable) (d : Z) : wf_vars V -> wf_vars C -> (forall c, In c C -> is_cpt c) ->
  wf_vars H -> incl H C -> (forall c, In c C -> v_id c <> d) ->
  (forall c, In c C -> ~ In c H -> (rank (v_id c) <= rank d)%nat) ->
  forall a k, in_range V a -> in_range V (upd a d k) ->
  total (weight_of (map cpt C)) H (upd a d k) = total (weight_of (map cpt C)) H a.
Proof.
  intros HV HC Hcpt HH Hi Hd Hobs a k Ha Hak.
  set (hi := fun v => (rank d <? rank (v_id v))%nat).
  set (L := filter hi H). set (L0 := filter (fun v => negb (hi v)) H).
  assert (HpH : Permutation H (L0 ++ L)) by (rewrite (filter_split hi H) at 1; apply Permutation_app_comm).
  set (C0 := filter (fun v => negb (hi v)) C).
  assert (HLC : Permutation L (filter hi C)).
  { apply NoDup_Permutation.
    - apply NoDup_filter, wf_NoDup. auto.
    - apply NoDup_filter, wf_NoDup. auto.
    - intros c. unfold L. rewrite !filter_In. split; intros [H1 H2]; split; auto.
      destruct (existsb (var_eqb c) H) eqn:Ee.
      + apply existsb_exists in Ee. destruct Ee as (x & Hx & Ex). apply var_eqb_spec in Ex. subst. auto.
      + exfalso. assert (~ In c H). { intros Hc. apply not_true_iff_false in Ee. apply Ee. apply existsb_exists. exists c. split; auto. apply var_eqb_spec. auto. }
        specialize (Hobs c H1 H0). unfold hi in H2. apply Nat.ltb_lt in H2. lia. }
  assert (HpC : Permutation C (L ++ C0)) by (rewrite HLC; apply filter_split).
  assert (HL : incl L C) by (intros c Hc; apply filter_In in Hc; apply Hi; tauto).
  assert (Hig0 : forall x, (rank d <= rank x)%nat -> (forall c, In c C0 -> v_id c <> x) -> ignores (weight_of (map cpt C0)) x).
  { intros x Hx Hne. apply weight_ignores. intros f Hf Hin. apply in_map_iff in Hf. destruct Hf as (c & <- & Hc).
    pose proof (Hne c Hc) as Hne'. apply filter_In in Hc. destruct Hc as [Hc Hlo]. apply negb_true_iff, Nat.ltb_ge in Hlo.
    destruct (Hcpt c Hc) as (_ & _ & Hr). apply in_map_iff in Hin. destruct Hin as (u & Eu & Hu).
    specialize (Hr u Hu). rewrite Eu in Hr. specialize (Hr (not_eq_sym Hne')). lia. }
  assert (G : forall b, in_range V b -> total (weight_of (map cpt C)) H b = total (weight_of (map cpt C0)) L0 b).
  { intros b Hb. rewrite (total_perm _ H (L0 ++ L)); auto using weight_proper. rewrite total_app.
    apply (total_ext_range _ _ V); auto.
    - intros c Hc. apply filter_In in Hc. apply (Hcpt c). apply Hi. tauto.
    - intros w Hw. rewrite (total_ext _ (fun w => (weight_of (map cpt L) w * weight_of (map cpt C0) w)%Qc)).
      + apply (barren HV (length L)); auto.
        * apply NoDup_filter_map. auto.
        * apply weight_proper.
        * intros c Hc. apply Hig0.
          -- apply filter_In in Hc. destruct Hc as [_ Hc]. apply Nat.ltb_lt in Hc. lia.
          -- intros c' Hc' E. assert (c' = c). { apply (wf_vars_inj C); auto. apply filter_In in Hc'. tauto. }
             subst. apply filter_In in Hc. apply filter_In in Hc'. destruct Hc as [_ H1], Hc' as [_ H2]. rewrite H1 in H2. discriminate.
      + intros x _. rewrite (weight_perm _ _ _ (Permutation_map cpt HpC)), map_app, weight_app. auto. }
  rewrite !G by auto.
  assert (Hd0 : ~ In d (map v_id L0)).
  { intros Hx. apply in_map_iff in Hx. destruct Hx as (c & Ec & Hc). apply filter_In in Hc. apply (Hd c); auto. apply Hi. tauto. }
  pose proof (total_upd (weight_of (map cpt C0)) L0 (mkVar d 0 0 Chance) k (weight_proper _) Hd0 a) as E. simpl in E. rewrite E.
  apply total_ext. intros w _. apply Hig0. auto. intros c Hc. apply Hd. apply filter_In in Hc. tauto.
Qed.

End Barren.
