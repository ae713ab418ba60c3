(** The local Markov property, separation, and leaves. *)
From Coq Require Import ZArith List Bool String Lia Permutation QArith Qcanon.
From Verif Require Import Num GoBase VarModel GoFacts SpecFactor XnumFacts VEModel SpecVE VEWorlds NetModel SpecNet NetVars NetFactors NetSums NetQuery NetMass NetCor
  SpecGraph StateSums NetGraph.
Import ListNotations.
Open Scope string_scope.
Open Scope list_scope.
Open Scope Z_scope.

Lemma filter_filter {X} (p q : X -> bool) l : filter p (filter q l) = filter (fun x => q x && p x) l.
Proof. induction l as [|x l IH]; simpl; auto. destruct (q x); simpl; rewrite IH; auto. Qed.

Section NK.
Variable n : network xnum.
Hypothesis Hwf : wf_network n.
Notation vars := (n_vars n).
Variable ign : string -> bool.
Variable free : list string.
Hypothesis Hca : causal n ign free.
Notation fixed_vars := (fixed_vars n free).
Notation worldly_vars := (worldly_vars n).
Notation scope_of := (scope_of n ign).
Notation cond_of := (cond_of n ign).

(** ** Events *)
Lemma agrees_looks ev : looks_event (agrees vars ev) (fun y => In y (map fst ev)).
Proof.
  intros s s' E. unfold agrees. induction ev as [|[x o] l IH]; auto. simpl. rewrite (E x) by (simpl; auto). f_equal. apply IH. intros y Hy. apply E. simpl. auto.
Qed.
Lemma agrees_same ev s s' : agrees vars ev s = true -> agrees vars ev s' = true -> forall x, In x (map fst ev) -> s x = s' x.
Proof.
  intros H H' x Hx. apply in_map_iff in Hx. destruct Hx as ([y o] & <- & Hin). unfold agrees in *. rewrite forallb_forall in H, H'.
  specialize (H _ Hin). specialize (H' _ Hin). simpl in *. destruct (var_named vars y) as [v|] eqn:E; [|discriminate].
  destruct (nth_error (nv_outcomes v) (s y)) as [a|] eqn:E1; [|discriminate]. destruct (nth_error (nv_outcomes v) (s' y)) as [b|] eqn:E2; [|discriminate].
  apply String.eqb_eq in H, H'. subst. apply (var_named_in n Hwf) in E. destruct E as [E _]. pose proof (wn_distinct n Hwf v E) as Hd.
  eapply NoDup_nth_error; [exact Hd| |congruence]. apply nth_error_Some. congruence.
Qed.
Lemma mass_state event : mass n ign event <> 0%Qc -> exists s, In s (worlds_of n) /\ event s = true.
Proof.
  intros H. unfold mass in H. destruct (filter event (worlds_of n)) as [|s l] eqn:E; [exfalso; apply H; reflexivity|].
  exists s. apply filter_In. rewrite E. simpl. auto.
Qed.
Lemma world_proper s : In s (worlds_of n) -> proper_state n s.
Proof.
  intros H. apply (joint_in vars (wn_names n Hwf) worldly_vars nowhere); auto.
  - intros v Hv. apply in_worldly_vars in Hv. tauto.
  - apply (worldly_names n Hwf).
  - apply (nowhere_in vars). apply (vars_nonempty n Hwf).
Qed.

(** ** Ranks and descendants *)
Lemma parent_rank : exists rank : string -> nat, forall x y, In y (parents_of n ign x) -> (rank y < rank x)%nat.
Proof.
  destruct (ca_order _ _ _ Hca) as (rank & Hr1 & Hr2). exists rank.
  intros x y Hy. unfold parents_of in Hy. apply in_app_iff in Hy. destruct Hy as [Hy|Hy]; apply in_flat_map in Hy; destruct Hy as (c & Hc & Hy); apply filter_In in Hc; destruct Hc as [Hc Ec].
  - apply String.eqb_eq in Ec. subst x. apply Hr1; auto.
  - apply andb_true_iff in Ec. destruct Ec as [Ec Ei]. apply String.eqb_eq in Ec. apply negb_true_iff in Ei. destruct c as [d p]. cbn [fst snd] in *. subst d.
    apply filter_In in Hy. destruct Hy as [Hy Hne]. apply negb_true_iff, String.eqb_neq in Hne. eapply Hr2; eauto.
Qed.
Fixpoint below_b (fuel : nat) (x y : string) : bool :=
  match fuel with O => false | S f => existsb (fun z => String.eqb z x || below_b f x z) (parents_of n ign y) end.
Lemma below_b_sound fuel x y : below_b fuel x y = true -> below n ign x y.
Proof.
  revert y. induction fuel as [|f IH]; intros y H; [discriminate H|]. cbn [below_b] in H. apply existsb_exists in H. destruct H as (z & Hz & H).
  apply orb_true_iff in H. destruct H as [H|H].
  - apply String.eqb_eq in H. subst z. apply below_child. auto.
  - eapply below_step; eauto.
Qed.
Lemma below_b_complete rank : (forall x y, In y (parents_of n ign x) -> (rank y < rank x)%nat) -> forall x y, below n ign x y -> forall fuel, (rank y < fuel)%nat -> below_b fuel x y = true.
Proof.
  intros Hr x y H. induction H as [y H|y z H IH Hz]; intros [|f] Hf; try lia; cbn [below_b]; apply existsb_exists.
  - exists x. split; auto. rewrite String.eqb_refl. auto.
  - exists y. split; auto. rewrite IH, orb_true_r; auto. specialize (Hr z y Hz). lia.
Qed.
Lemma below_dec : exists B : string -> string -> bool, forall x y, B x y = true <-> below n ign x y.
Proof.
  destruct parent_rank as (rank & Hr). exists (fun x y => below_b (S (rank y)) x y). intros x y. split; [apply below_b_sound|]. intros H. eapply below_b_complete; eauto.
Qed.
Lemma not_below_self x : ~ below n ign x x.
Proof.
  destruct parent_rank as (rank & Hr). assert (H : forall y, below n ign x y -> (rank x < rank y)%nat).
  { intros y H. induction H as [y H|y z H IH Hz]; [auto|]. specialize (Hr z y Hz). lia. }
  intros Hx. specialize (H x Hx). lia.
Qed.

(** ** The local Markov property *)
Theorem markov v ev s k : In v fixed_vars -> incl free (map fst ev) -> ~ In (nv_name v) (map fst ev) ->
  incl (parents_of n ign (nv_name v)) (map fst ev) -> (forall y, In y (map fst ev) -> ~ below n ign (nv_name v) y) ->
  agrees vars ev s = true -> (k < List.length (nv_outcomes v))%nat ->
  mass n ign (fun s' => agrees vars ev s' && (s' (nv_name v) =? k)%nat) =
  (conditional n ign (nv_name v) (nupd s (nv_name v) k) * mass n ign (agrees vars ev))%Qc.
Proof.
  intros Hv Hfree Hnev Hpar Hdesc Hs Hk. set (x := nv_name v) in *. destruct below_dec as (B & HB).
  assert (Hv' : In v vars /\ nv_type v <> Utility /\ ~ In (nv_name v) free) by (apply in_fixed_vars; auto). destruct Hv' as (Hvin & Hty & Hvf).
  assert (Bf : forall y, B x y = false <-> ~ below n ign x y). { intros y. rewrite <- HB. destruct (B x y); split; congruence. }
  assert (Bev : forall y, In y (map fst ev) -> B x y = false) by (intros y Hy; apply Bf; auto).
  assert (Bx : B x x = false) by (apply Bf; apply not_below_self).
  rewrite (mass_drop n Hwf ign free Hca _ (fun y => B x y)).
  2:{ intros y Hy. apply Bev. auto. }
  2:{ intros w y Hw Hd Hy. destruct Hy as [<-|Hy]; auto. apply Bf. intros Hb. apply Bf in Hd. apply Hd. eapply below_step; eauto. }
  2:{ intros s1 s2 E. f_equal; [apply agrees_looks; intros y Hy; apply E; auto|]. rewrite (E x); auto. }
  rewrite (mass_drop n Hwf ign free Hca (agrees vars ev) (fun y => B x y || String.eqb y x)).
  2:{ intros y Hy. rewrite Bev by auto. simpl. apply String.eqb_neq. intros ->. apply Hnev. auto. }
  2:{ intros w y Hw Hd Hy. apply orb_false_iff in Hd. destruct Hd as [Hd Hne]. destruct Hy as [<-|Hy]; [rewrite Hd; auto|]. apply orb_false_iff. split.
      - apply Bf. intros Hb. apply Bf in Hd. apply Hd. eapply below_step; eauto.
      - apply String.eqb_neq. intros ->. apply Bf in Hd. apply Hd. apply below_child. auto. }
  2:{ intros s1 s2 E. apply agrees_looks. intros y Hy. apply E. rewrite Bev by auto. simpl. apply String.eqb_neq. intros ->. auto. }
  set (L1 := filter (fun v => negb (B x (nv_name v))) worldly_vars). set (C1 := filter (fun v => negb (B x (nv_name v))) fixed_vars).
  set (L2 := filter (fun v => negb (B x (nv_name v) || String.eqb (nv_name v) x)) worldly_vars). set (C2 := filter (fun v => negb (B x (nv_name v) || String.eqb (nv_name v) x)) fixed_vars).
  assert (HP : forall W, In v W -> NoDup (map nv_name W) -> Permutation (filter (fun v => negb (B x (nv_name v))) W) (filter (fun v => negb (B x (nv_name v) || String.eqb (nv_name v) x)) W ++ [v])).
  { intros W HvW Hnd. rewrite (filter_split (fun w => String.eqb (nv_name w) x)) at 1. rewrite filter_filter. apply Permutation_app.
    - apply Permutation_refl'. apply filter_ext. intros w. rewrite negb_orb. auto.
    - rewrite (filter_single nv_name) with (c := v); auto; [apply names_filter; auto|]. apply filter_In. split; auto. fold x. rewrite Bx. auto. }
  assert (HL : Permutation L1 (L2 ++ [v])). { apply HP; [apply in_worldly_vars; auto|apply (worldly_names n Hwf)]. }
  assert (HC : Permutation (map cond_of C1) (map cond_of C2 ++ map cond_of [v])). { rewrite <- map_app. apply Permutation_map. apply HP; auto. apply (fixed_names n Hwf). }
  assert (HgC : forall c, In c (map cond_of fixed_vars) -> good_cond vars c).
  { intros c Hc. apply in_map_iff in Hc. destruct Hc as (w & <- & Hw). apply (cond_of_good n Hwf ign free Hca). auto. }
  assert (HC2 : looks_at (weight_of_conds (map cond_of C2)) (fun y => y <> x)).
  { apply (weight_good vars).
    - intros c Hc. apply HgC. apply in_map_iff in Hc. destruct Hc as (w & <- & Hw). apply filter_In in Hw. apply in_map. tauto.
    - intros c y Hc Hy ->. apply in_map_iff in Hc. destruct Hc as (w & <- & Hw). apply filter_In in Hw. destruct Hw as [Hw Hd]. apply negb_true_iff, orb_false_iff in Hd. destruct Hd as [Hd Hne].
      cbn [NetGraph.cond_of c_scope] in Hy. destruct Hy as [Hy|Hy]; [apply String.eqb_neq in Hne; auto|]. apply Bf in Hd. apply Hd. apply below_child. auto. }
  rewrite (nsum_perm _ L1 (L2 ++ [v])); [| |exact HL|apply names_filter; apply (worldly_names n Hwf)].
  2:{ apply (looks_proper _ (fun _ => True)). apply looks_mult.
      - apply flag_looks. intros s1 s2 E. f_equal; [apply agrees_looks; auto|]. rewrite (E x); auto.
      - apply (weight_good vars); auto. intros c Hc. apply HgC. apply in_map_iff in Hc. destruct Hc as (w & <- & Hw). apply filter_In in Hw. apply in_map. tauto. }
  rewrite nsum_app, <- nsum_scale. apply nsum_ext. intros s1 Hs1. rewrite nsum_cons.
  rewrite (qsum_ext _ (fun j => if (j =? k)%nat then flag (agrees vars ev s1) * weight_of_conds (map cond_of C2) s1 * conditional n ign x (nupd s1 x j) else 0)%Qc).
  - rewrite qsum_pick by auto. destruct (agrees vars ev s1) eqn:Ea; unfold flag; [|ring].
    rewrite (conditional_looks n Hwf ign x (nupd s1 x k) (nupd s x k)); [ring|].
    intros y Hy. unfold nupd. destruct (String.eqb_spec y x) as [|Hne]; auto. apply (agrees_same ev); auto. apply Hpar. destruct Hy as [Hy|Hy]; auto. exfalso. auto.
  - intros j Hj. rewrite nsum_nil. fold x. rewrite (weight_perm _ _ _ HC), weight_app.
    assert (E1 : agrees vars ev (nupd s1 x j) = agrees vars ev s1). { apply agrees_looks. intros y Hy. unfold nupd. destruct (String.eqb_spec y x); auto. subst y. tauto. }
    rewrite E1. rewrite (looks_nupd _ _ s1 x j HC2) by tauto. unfold weight_of_conds at 2. cbn [map NetGraph.cond_of c_val]. unfold qprod at 1. cbn [fold_right]. fold x.
    assert (E2 : nupd s1 x j x = j) by (unfold nupd; rewrite String.eqb_refl; auto). rewrite E2. unfold flag. destruct (agrees vars ev s1), (j =? k)%nat; cbn [andb]; ring.
Qed.

(** ** Separation *)
Lemma scope_worldly v y : In v fixed_vars -> In y (scope_of (nv_name v)) -> exists w, In w worldly_vars /\ nv_name w = y.
Proof.
  intros Hv [<-|Hy].
  - exists v. split; auto. apply in_fixed_vars in Hv. apply in_worldly_vars. tauto.
  - unfold parents_of in Hy. apply in_app_iff in Hy. destruct Hy as [Hy|Hy]; apply in_flat_map in Hy; destruct Hy as (c & Hc & Hy); apply filter_In in Hc; destruct Hc as [Hc Ec].
    + destruct (chance_in n Hwf c Hc) as (_ & _ & _ & Ht). destruct (wt_given _ _ Ht y Hy) as [_ [w Hw]]. pose proof (wt_parents _ _ Ht y Hy) as Hk.
      unfold kind in Hk. rewrite Hw in Hk. apply (var_named_in n Hwf) in Hw. destruct Hw as [Hw <-]. exists w. split; auto. apply in_worldly_vars. split; auto. simpl in Hk. congruence.
    + destruct c as [d p]. cbn [fst snd] in *. apply filter_In in Hy. destruct Hy as [Hy _]. unfold factor_names in Hy. apply in_map_iff in Hy. destruct Hy as (u & Eu & Hu).
      destruct (wp_scope _ _ _ (wn_policies n Hwf _ _ Hc) u Hu) as (i & nv & Ei & Eid & _ & _ & Hty & _). rewrite Eid, Nat2Z.id, Ei in Eu.
      exists nv. split; auto. apply in_worldly_vars. split; auto. eapply nth_error_In; eauto.
Qed.

Section Sep.
Variable ev : list (string * string).
Notation zs := (map fst ev).
Variable targets : list string.
Variable side : string -> bool.
Hypothesis Hfree : incl free targets.
Hypothesis Hsides : forall c a b, matters n ign targets c -> In a (c :: parents_of n ign c) -> In b (c :: parents_of n ign c) ->
  ~ In a zs -> ~ In b zs -> side a = side b.
Hypothesis Hzs : incl zs targets.
Variable s0 : nstate.
Hypothesis Hs0 : agrees vars ev s0 = true.

(** The weight factors into one part for each side. *)
Theorem sides_mass : exists alpha beta : (nstate -> bool) -> Qc, forall EA EB,
  looks_event EA (fun y => In y targets /\ side y = true /\ exists v, In v worldly_vars /\ nv_name v = y) ->
  looks_event EB (fun y => In y targets /\ side y = false) ->
  mass n ign (fun s => agrees vars ev s && (EA s && EB s)) = (alpha EA * beta EB)%Qc.
Proof.
  destruct below_dec as (B & HB). set (M := fun y => mem y targets || existsb (B y) targets).
  assert (HM : forall y, M y = true <-> matters n ign targets y).
  { intros y. unfold M, matters. rewrite orb_true_iff, mem_in, existsb_exists. split; intros [H|(t & Ht & H)]; auto; right; exists t; split; auto; apply HB; auto. }
  assert (HMt : forall y, In y targets -> M y = true) by (intros y Hy; apply HM; left; auto).
  assert (HMc : forall v y, M (nv_name v) = true -> In y (scope_of (nv_name v)) -> M y = true).
  { intros v y Hm [<-|Hy]; auto. apply HM. apply HM in Hm. right. destruct Hm as [Hm|(t & Ht & Hm)].
    - exists (nv_name v). split; auto. apply below_child. auto.
    - exists t. split; auto. clear - Hy Hm. induction Hm as [z Hz|z w Hz IH Hw]; [eapply below_step; [apply below_child; eauto|auto]|eapply below_step; eauto]. }
  set (L := filter (fun v => negb (negb (M (nv_name v)))) worldly_vars). set (C := filter (fun v => negb (negb (M (nv_name v)))) fixed_vars).
  set (pA := fun v => side (nv_name v) && negb (mem (nv_name v) zs)).
  set (cA := fun v => existsb (fun a => negb (mem a zs) && side a) (scope_of (nv_name v))).
  set (LA := filter pA L). set (LB := filter (fun v => negb (pA v)) L). set (CA := filter cA C). set (CB := filter (fun v => negb (cA v)) C).
  assert (HC : forall v, In v C -> In v fixed_vars /\ M (nv_name v) = true). { intros v Hv. apply filter_In in Hv. rewrite negb_involutive in Hv. auto. }
  assert (HCA : forall v y, In v CA -> In y (scope_of (nv_name v)) -> ~ In y zs -> side y = true).
  { intros v y Hv Hy Hz. apply filter_In in Hv. destruct Hv as [Hv Hc]. apply HC in Hv. destruct Hv as [_ Hm]. unfold cA in Hc. apply existsb_exists in Hc. destruct Hc as (a & Ha & Hc).
    apply andb_true_iff in Hc. destruct Hc as [Hc <-]. apply negb_true_iff, mem_not in Hc. apply (Hsides (nv_name v)); auto. apply HM; auto. }
  assert (HCB : forall v y, In v CB -> In y (scope_of (nv_name v)) -> ~ In y zs -> side y = false).
  { intros v y Hv Hy Hz. apply filter_In in Hv. destruct Hv as [Hv Hc]. apply negb_true_iff in Hc. destruct (side y) eqn:E; auto. exfalso.
    assert (T : cA v = true); [|congruence]. apply existsb_exists. exists y. split; auto. rewrite E. apply mem_not in Hz. rewrite Hz. auto. }
  assert (Hgood : forall D, (forall v, In v D -> In v C) -> forall c, In c (map cond_of D) -> good_cond vars c).
  { intros D HD c Hc. apply in_map_iff in Hc. destruct Hc as (w & <- & Hw). apply (cond_of_good n Hwf ign free Hca). apply HC. auto. }
  assert (InCA : forall v, In v CA -> In v C) by (intros v Hv; apply filter_In in Hv; tauto).
  assert (InCB : forall v, In v CB -> In v C) by (intros v Hv; apply filter_In in Hv; tauto).
  exists (fun EA => nsum (fun s => flag (EA s) * weight_of_conds (map cond_of CA) s)%Qc LA s0).
  exists (fun EB => nsum (fun s => flag (agrees vars ev s) * flag (EB s) * weight_of_conds (map cond_of CB) s)%Qc LB nowhere).
  intros EA EB HEA HEB.
  rewrite (mass_drop n Hwf ign free Hca _ (fun y => negb (M y))).
  2:{ intros y Hy. rewrite HMt; auto. }
  2:{ intros v y Hv Hd Hy. apply negb_false_iff in Hd. apply negb_false_iff. eapply HMc; eauto. }
  2:{ intros s1 s2 E. f_equal; [|f_equal].
      - apply agrees_looks. intros y Hy. apply E. rewrite HMt; auto.
      - apply HEA. intros y (Hy & _). apply E. rewrite HMt; auto.
      - apply HEB. intros y (Hy & _). apply E. rewrite HMt; auto. }
  fold L C.
  rewrite (nsum_perm _ L (LB ++ LA)); [| |apply filter_split|apply names_filter; apply (worldly_names n Hwf)].
  2:{ apply (looks_proper _ (fun _ => True)). apply looks_mult; [|apply (weight_good vars); [apply Hgood; auto|auto]].
      apply flag_looks. intros s1 s2 E. f_equal; [|f_equal]; [apply agrees_looks|apply HEA|apply HEB]; auto. }
  rewrite nsum_app.
  set (G := fun s => (flag (agrees vars ev s) * flag (EB s) * weight_of_conds (map cond_of CB) s)%Qc).
  set (H := fun s => (flag (EA s) * weight_of_conds (map cond_of CA) s)%Qc).
  assert (HLA : forall y, In y (map nv_name LA) -> side y = true /\ ~ In y zs).
  { intros y Hy. apply in_map_iff in Hy. destruct Hy as (w & <- & Hw). apply filter_In in Hw. destruct Hw as [_ Hw]. apply andb_true_iff in Hw. destruct Hw as [Hw Hz]. apply negb_true_iff, mem_not in Hz. auto. }
  assert (HG : looks_at G (fun y => ~ In y (map nv_name LA))).
  { unfold G. apply looks_mult; [apply looks_mult|].
    - apply flag_looks. intros s1 s2 E. apply agrees_looks. intros y Hy. apply E. intros Hl. apply HLA in Hl. tauto.
    - apply flag_looks. intros s1 s2 E. apply HEB. intros y (Hy & Hsd). apply E. intros Hl. apply HLA in Hl. destruct Hl. congruence.
    - apply (weight_good vars); [apply Hgood; auto|]. intros c y Hc Hy Hl. apply in_map_iff in Hc. destruct Hc as (w & <- & Hw). apply HLA in Hl. destruct Hl as [Hl Hz].
      rewrite (HCB w y Hw Hy Hz) in Hl. discriminate Hl. }
  assert (HH : looks_at H (fun y => In y zs \/ In y (map nv_name LA))).
  { assert (K : forall y, M y = true -> side y = true -> (exists v, In v worldly_vars /\ nv_name v = y) -> In y zs \/ In y (map nv_name LA)).
    { intros y Hm Hsd (w & Hw & <-). destruct (mem (nv_name w) zs) eqn:E; [left; apply mem_in; auto|]. right. apply in_map. apply filter_In. split.
      - apply filter_In. rewrite Hm. auto.
      - unfold pA. rewrite Hsd, E. auto. }
    unfold H. apply looks_mult.
    - apply flag_looks. intros s1 s2 E. apply HEA. intros y (Hy & Hsd & Hw). apply E. apply K; auto.
    - apply (weight_good vars); [apply Hgood; auto|]. intros c y Hc Hy. apply in_map_iff in Hc. destruct Hc as (w & <- & Hw). cbn [NetGraph.cond_of c_scope] in Hy.
      destruct (mem y zs) eqn:E; [left; apply mem_in; auto|]. apply mem_not in E. pose proof (HC w (InCA w Hw)) as [Hwf' Hm]. apply K; [eapply HMc; eauto|eapply HCA; eauto|eapply scope_worldly; eauto]. }
  rewrite <- nsum_scale. apply nsum_ext. intros s Hs.
  transitivity (nsum (fun s => G s * H s)%Qc LA s).
  - apply nsum_ext. intros s1 _. unfold G, H. rewrite (weight_perm _ (map cond_of CB ++ map cond_of CA)).
    + rewrite weight_app. unfold flag. destruct (agrees vars ev s1), (EA s1), (EB s1); cbn [andb]; ring.
    + rewrite <- map_app. apply Permutation_map. apply filter_split.
  - rewrite (nsum_pull G H LA s _ HG) by auto. unfold G. destruct (agrees vars ev s) eqn:Ea; unfold flag at 1 3; [|ring].
    rewrite (nsum_looks H _ LA HH s s0); [fold H; ring|]. intros y [[Hy|Hy] Hn]; [|tauto]. apply (agrees_same ev); auto.
Qed.
End Sep.

Theorem separation ev more v k : In v vars -> nv_type v <> Utility -> incl free (map fst ev) -> nonnegative n ->
  separated n ign (nv_name v) (map fst more) (map fst ev) ->
  mass n ign (agrees vars (more ++ ev)) <> 0%Qc ->
  posterior n ign (more ++ ev) (nv_name v) k = posterior n ign ev (nv_name v) k.
Proof.
  intros Hv Hty Hfree Hnn (side & Hx & Hys & Hsd) Hm.
  assert (Happ : forall s, agrees vars (more ++ ev) s = agrees vars ev s && agrees vars more s) by (intros s; unfold agrees; rewrite forallb_app; apply andb_comm).
  destruct (mass_state _ Hm) as (s0 & _ & Hs0). rewrite Happ in Hs0. apply andb_true_iff in Hs0. destruct Hs0 as [Hs0 _].
  set (targets := nv_name v :: map fst more ++ map fst ev) in *.
  destruct (sides_mass ev targets side) with (s0 := s0) as (al & be & Hab); auto.
  { intros y Hy. right. apply in_app_iff. auto. }
  { intros y Hy. right. apply in_app_iff. auto. }
  set (T := fun _ : nstate => true). set (X := fun s : nstate => (s (nv_name v) =? k)%nat).
  assert (HT : forall P, looks_event T P) by (intros P s1 s2 _; reflexivity).
  assert (HX : looks_event X (fun y => In y targets /\ side y = true /\ exists w, In w worldly_vars /\ nv_name w = y)).
  { intros s1 s2 E. unfold X. rewrite E; auto. split; [left; auto|]. split; auto. exists v. split; auto. apply in_worldly_vars. auto. }
  assert (HY : looks_event (agrees vars more) (fun y => In y targets /\ side y = false)).
  { intros s1 s2 E. apply agrees_looks. intros y Hy. apply E. split; auto. right. apply in_app_iff. auto. }
  assert (Hext : forall p q : nstate -> bool, (forall s, p s = q s) -> mass n ign p = mass n ign q) by (intros p q E; unfold mass; rewrite (filter_ext _ _ E); auto).
  assert (E1 : mass n ign (agrees vars (more ++ ev)) = (al T * be (agrees vars more))%Qc). { rewrite <- Hab by auto. apply Hext. intros s. rewrite Happ. auto. }
  assert (E2 : mass n ign (agrees vars ev) = (al T * be T)%Qc). { rewrite <- Hab by auto. apply Hext. intros s. unfold T. rewrite !andb_true_r. auto. }
  assert (E3 : mass n ign (fun s => agrees vars (more ++ ev) s && (s (nv_name v) =? k)%nat) = (al X * be (agrees vars more))%Qc).
  { rewrite <- Hab by auto. apply Hext. intros s. rewrite Happ. unfold X. destruct (agrees vars ev s), (agrees vars more s), (s (nv_name v) =? k)%nat; auto. }
  assert (E4 : mass n ign (fun s => agrees vars ev s && (s (nv_name v) =? k)%nat) = (al X * be T)%Qc).
  { rewrite <- Hab by auto. apply Hext. intros s. unfold T, X. rewrite andb_true_r. auto. }
  assert (Hm' : mass n ign (agrees vars ev) <> 0%Qc).
  { intros E. apply Hm. apply Qcle_antisym; [|apply (mass_nonneg n); auto]. rewrite <- E. apply mass_le; auto. intros s H. rewrite Happ in H. apply andb_true_iff in H. tauto. }
  unfold posterior. rewrite E1, E2, E3, E4. rewrite E1 in Hm. rewrite E2 in Hm'.
  assert (al T <> 0%Qc) by (intros E; apply Hm; rewrite E; ring). assert (be T <> 0%Qc) by (intros E; apply Hm'; rewrite E; ring).
  assert (be (agrees vars more) <> 0%Qc) by (intros E; apply Hm; rewrite E; ring). field. auto.
Qed.
End NK.
