(** Utilities for any number type: which factors sumUtilities and removeUtilities combine, and
    what the entries of the new factor are. *)
From Coq Require Import ZArith List Bool Lia Permutation.
From Verif Require Import Num GoBase VarModel GoFacts SpecFactor Tuples FactorFacts FactorSum FactorProd FactorAt ExactFactor
  FactorThms VEModel SpecVE VEWorlds VEFacts VETopo VEHidden VESolve VEThms VEAny.
Import ListNotations.
Open Scope Z_scope.

Section Any.
Context {A : Type} {N : NumOps A}.
Variable sc : sched.
Notation state := (vestate A).
Notation fac := (factor A).

(** The entry of a sum: the factor's own entry if there is only one. *)
Definition add_at (xs : list A) : A := match xs with [x] => x | _ => fold_left nadd xs n0 end.

Lemma any_sum V c s (fs : list fac) : wf_vars V -> (forall f, In f fs -> sound_factor V c f) ->
  exists f', sum s fs = Ok (bump s, f') /\ f_id f' = vs_counter s /\ wf_factor f' /\
    incl (f_vars f') V /\ (forall v, In v (f_vars f') <-> exists f, In f fs /\ In v (f_vars f)) /\
    forall a, in_range (f_vars f') a -> fv f' a = add_at (map (fun f => fv f a) fs).
Proof.
  intros HV H. destruct (sum_at s fs) as (f' & E & Hid & Hw & Hvs & Hu & Hval).
  - apply Forall_forall. intros f Hf. apply (H f Hf).
  - eapply sound_consistent; eauto.
  - exists f'. do 3 (split; auto). split; [|split; auto].
    + intros v Hv. apply Hvs in Hv. destruct Hv as (f & Hf & Hv). apply (H f Hf). auto.
    + intros a Ha. apply fv_get_at; auto; [apply wf_fits; auto|]. rewrite Hval by auto.
      assert (Hr : forall f, In f fs -> in_range (f_vars f) a).
      { intros f Hf v Hv. apply Ha. apply Hvs. eauto. }
      assert (Hg : forall f, In f fs -> get_at f a = Ok (fv f a)).
      { intros f Hf. apply get_at_fv; auto. apply wf_fits. apply (H f Hf). }
      unfold add_at. destruct fs as [|f [|g r]]; auto; [apply Hg; simpl; auto|].
      apply sum_of_ok. auto.
Qed.

(** Sums over the outcomes of several variables, one after the other. *)
Fixpoint sums_at (F : asg -> A) (us : list variable) (a : asg) : A :=
  match us with
  | [] => F a
  | u :: r => sums_at (fun b => fold_left nadd (map (fun k => F (upd b (v_id u) k)) (seq 0 (v_outcomes u))) n0) r a
  end.
Lemma sums_at_ext V us : wf_vars V -> incl us V -> forall F G, (forall a, in_range V a -> F a = G a) -> forall a, in_range V a -> sums_at F us a = sums_at G us a.
Proof.
  intros HV. induction us as [|u us IH]; intros Hi F G H a Ha; simpl; auto. apply IH; auto.
  { intros x Hx. apply Hi. simpl; auto. }
  intros b Hb. f_equal. apply map_ext_in. intros k Hk. apply in_seq in Hk. apply H. apply in_range_upd'; auto; [apply Hi; simpl; auto|lia].
Qed.

Lemma any_sum_out_list V : wf_vars V -> (forall i v, nth_error V i = Some v -> v_index v = i) -> forall us vs (tot : fac) elim,
  wf_factor tot -> incl (f_vars tot) V -> incl us (f_vars tot) -> wf_vars us ->
  length elim = length V -> us <> [] ->
  exists vs' tot' elim', foldM (fun '(vs, total, elim) u =>
        let! (vs', total') := sum_out vs total u in
        let! elim' := sset elim (Z.of_nat (v_index u)) true in
        Ok (vs', total', elim')) (vs, tot, elim) us = Ok (vs', tot', elim') /\
    wf_factor tot' /\ incl (f_vars tot') V /\
    vs_vars vs' = vs_vars vs /\ vs_counter vs <= f_id tot' < vs_counter vs' /\ length elim' = length V /\
    (forall i, nth i elim' false = nth i elim false || existsb (fun u => (v_index u =? i)%nat) us) /\
    (forall u, In u (f_vars tot') <-> In u (f_vars tot) /\ ~ In (v_id u) (map v_id us)) /\
    (forall a, in_range V a -> fv tot' a = sums_at (fv tot) us a).
Proof.
  intros HV Hix. induction us as [|u us]; intros vs tot elim Hw Hi Hus Hwu Hl Hne; [congruence|].
  cbn [foldM].
  assert (Hu : In u (f_vars tot)) by (apply Hus; simpl; auto).
  destruct (any_sum_out V vs tot u) as (tot1 & E1 & Hid1 & Hw1 & Hvs1 & Hval1); auto.
  rewrite E1. cbn [gbind]. assert (Hiu : (v_index u < length elim)%nat) by (rewrite Hl; apply index_lt; auto).
  rewrite sset_ok by auto. cbn [gbind].
  assert (Hi1 : incl (f_vars tot1) V). { rewrite Hvs1. intros x Hx. apply in_others in Hx. apply Hi. tauto. }
  assert (Hel1 : forall i, nth i (upd_nth elim (v_index u) true) false = nth i elim false || (v_index u =? i)%nat).
  { intros i. destruct (Nat.eqb_spec (v_index u) i).
    - subst i. rewrite orb_true_r. apply nth_error_nth. apply upd_nth_same. auto.
    - rewrite orb_false_r. destruct (Nat.lt_ge_cases i (length elim)).
      + apply nth_error_nth. rewrite upd_nth_other by auto. apply nth_error_nth'. auto.
      + rewrite !nth_overflow; auto. rewrite upd_nth_length. auto. }
  assert (Hval1' : forall a, in_range V a -> fv tot1 a = fold_left nadd (map (fun k => fv tot (upd a (v_id u) k)) (seq 0 (v_outcomes u))) n0).
  { intros a Ha. apply Hval1. eapply in_range_incl; eauto. }
  destruct us as [|u2 us].
  - exists (bump vs), tot1, (upd_nth elim (v_index u) true). simpl foldM. split; auto. do 2 (split; auto).
    split; auto. split; [rewrite bump_counter; lia|]. split; [rewrite upd_nth_length; auto|].
    split. { intros i. rewrite Hel1. simpl. rewrite orb_false_r. auto. }
    split; auto. intros x. rewrite Hvs1, in_others. simpl. intuition.
  - inversion Hwu as [|? ? Hnu Hwu']; subst.
    destruct (IHus (bump vs) tot1 (upd_nth elim (v_index u) true)) as (vs' & tot' & elim' & E' & Hw' & Hi' & Hv' & Hc' & Hl' & Hel' & Hvs' & Hval'); auto.
    { intros x Hx. rewrite Hvs1. apply in_others. split. apply Hus; simpl; auto.
      intros Ex. apply Hnu. rewrite <- Ex. change (In (v_id x) (map v_id (u2 :: us))). apply in_map. auto. }
    { rewrite upd_nth_length. auto. }
    { discriminate. }
    exists vs', tot', elim'. split; auto. do 2 (split; auto).
    split; auto. split; [rewrite bump_counter in Hc'; lia|]. split; auto.
    split. { intros i. rewrite Hel', Hel1. rewrite <- orb_assoc. auto. }
    split. { intros x. rewrite Hvs', Hvs1, in_others. cbn [map In]. intuition. }
    intros a Ha. rewrite Hval' by auto. change (sums_at (fv tot) (u :: u2 :: us) a) with
      (sums_at (fun b => fold_left nadd (map (fun k => fv tot (upd b (v_id u) k)) (seq 0 (v_outcomes u))) n0) (u2 :: us) a).
    apply (sums_at_ext V); auto. intros x Hx. apply Hi, Hus. simpl; auto.
Qed.

Lemma any_is_utility (f : fac) : is_utility_factor f = true <-> exists u, In u (f_vars f) /\ v_type u = Utility.
Proof.
  unfold is_utility_factor. rewrite existsb_exists. split; intros (u & H1 & H2); exists u; split; auto; apply nodeType_eqb_spec; auto.
Qed.
Lemma any_first_utility V (f : fac) : incl (f_vars f) V ->
  (index_func (contains_var (f_vars f)) (utilities_of V) <? 0) = negb (is_utility_factor f) /\
  (is_utility_factor f = true -> 0 <= index_func (contains_var (f_vars f)) (utilities_of V) < zlen (utilities_of V)).
Proof.
  intros Hi. destruct (index_func_spec (contains_var (f_vars f)) (utilities_of V)) as [[E H]|(k & x & E & Hn & Hx & _)].
  - rewrite E. assert (is_utility_factor f = false).
    { apply not_true_iff_false. rewrite any_is_utility. intros (u & Hu & Ht).
      specialize (H u). rewrite (proj2 (contains_var_spec _ _) Hu) in H. discriminate H. apply filter_In. split; auto.
      apply nodeType_eqb_spec; auto. }
    rewrite H0. split; auto. discriminate.
  - rewrite E. assert (is_utility_factor f = true).
    { apply any_is_utility. exists x. apply contains_var_spec in Hx. split; auto.
      apply nth_error_In in Hn. apply filter_In in Hn. apply nodeType_eqb_spec. tauto. }
    rewrite H. assert ((k < length (utilities_of V))%nat) by (apply nth_error_Some; congruence). unfold zlen. split; lia.
Qed.
Lemma any_utility_or_prob (fs : list fac) f : In f fs -> In f (prob_factors fs) \/ In f (utility_factors fs).
Proof. intros H. unfold prob_factors, utility_factors. rewrite !filter_In. destruct (is_utility_factor f); auto. Qed.

(** The entry of a utility factor multiplied with its weight. *)
Definition scaled_at (V : list variable) (w : option (list A)) (f : fac) (a : asg) : A :=
  match w with
  | None => fv f a
  | Some l => nmul (nmul n1 (fv f a)) (nth (Z.to_nat (index_func (contains_var (f_vars f)) (utilities_of V))) l n0)
  end.

Lemma const_sound V c id (x : A) : id < c -> sound_factor V c (mkFactor id [] [x]).
Proof. intros. split; [|split]; auto. - split; simpl; auto. constructor. - intros v []. Qed.

(** sumUtilities *)
Lemma any_sum_utilities V s w : wf_vars V -> (forall i v, nth_error V i = Some v -> v_index v = i) ->
  sound V s -> utility_vars s = utilities_of V -> length (ve_elim s) = length V ->
  ve_weights s = w ->
  match w with None => True | Some l => length l = length (utilities_of V) end ->
  utilities_of V <> [] -> (forall u, In u (utilities_of V) -> in_scope s u) ->
  exists s' tot us, sum_utilities sc s = Ok s' /\ sound V s' /\ frame s s' /\
    length (ve_elim s') = length V /\
    (forall i, nth i (ve_elim s') false = nth i (ve_elim s) false || existsb (fun u => (v_index u =? i)%nat) (utilities_of V)) /\
    live s' = prob_factors (live s) ++ [tot] /\
    (forall u, In u V -> (In u (f_vars tot) <-> (exists f, In f (utility_factors (live s)) /\ In u (f_vars f)) /\ v_type u <> Utility)) /\
    Permutation us (utility_factors (live s)) /\
    (forall a, in_range V a -> fv tot a = sums_at (fun b => add_at (map (fun f => scaled_at V w f b) us)) (utilities_of V) a).
Proof.
  intros HV Hix Hg HU Hl Hwt Hwl Hne Hcov. unfold sum_utilities. rewrite HU.
  set (U := utilities_of V) in *. assert (HU0 : exists u r, U = u :: r) by (destruct U; eauto; congruence).
  destruct HU0 as (u0 & r0 & EU0). rewrite EU0. rewrite <- EU0. clear EU0 u0 r0.
  unfold range_factors. cbn [with_tick ve_vs ve_weights ve_factors ve_elim].
  pose proof (shuffle_perm sc (ve_tick s) _ (ve_factors s)) as Hp.
  set (entries := shuffle sc (ve_tick s) (ve_factors s)) in *.
  match goal with |- context [foldM ?f (ve_vs s, [], []) entries] => set (step := f) end.
  set (p := fun '((_, f) : Z * fac) => is_utility_factor f).
  assert (Hent : forall e, In e entries -> sound_factor V (vs_counter (ve_vs s)) (snd e)).
  { intros e He. apply (s_fac _ _ Hg). apply in_map. eapply Permutation_in; [apply Permutation_sym|]; eauto. }
  (* scaled factors *)
  set (R := fun (e : Z * fac) (g : fac) => wf_factor g /\
     (forall v, In v (f_vars g) <-> In v (f_vars (snd e))) /\
     forall a, in_range V a -> fv g a = scaled_at V w (snd e) a).
  assert (G : forall es vs0 ids fs0, (forall e, In e es -> In e entries) -> vs_vars vs0 = vs_vars (ve_vs s) ->
    vs_counter (ve_vs s) <= vs_counter vs0 ->
    exists vs1 gs, foldM step (vs0, ids, fs0) es = Ok (vs1, ids ++ map fst (filter p es), fs0 ++ gs) /\
      Forall2 R (filter p es) gs /\ vs_vars vs1 = vs_vars (ve_vs s) /\ vs_counter vs0 <= vs_counter vs1).
  { induction es as [|[k f] es IH]; intros vs0 ids fs0 Hes Hv0 Hc0; cbn [foldM filter].
    - exists vs0, []. simpl. rewrite !app_nil_r. repeat split; auto. lia.
    - assert (Hf : sound_factor V (vs_counter (ve_vs s)) f) by (apply (Hent (k, f)), Hes; simpl; auto).
      destruct Hf as (Hwf & Hi & Hid). destruct (any_first_utility V f Hi) as [Hneg Hpos]. fold U in Hneg, Hpos.
      assert (Es : step (vs0, ids, fs0) (k, f) =
        let i := index_func (contains_var (f_vars f)) U in
        if i <? 0 then Ok (vs0, ids, fs0)
        else match ve_weights s with
          | None => Ok (vs0, ids ++ [k], fs0 ++ [f])
          | Some w => let! wi := sget w i in
              let! (vs', ff) := product vs0 [f; mkFactor 0 [] [wi]] in
              Ok (vs', ids ++ [k], fs0 ++ [ff]) end) by reflexivity.
      rewrite Es. clear Es. cbn zeta. rewrite Hneg. replace (p (k, f)) with (is_utility_factor f) by reflexivity.
      destruct (is_utility_factor f) eqn:Eu; cbn [negb gbind].
      2: { apply IH; auto. intros e He; apply Hes; simpl; auto. }
      specialize (Hpos eq_refl). rewrite Hwt. destruct w as [l|]; cbn [gbind].
      + set (wi := nth (Z.to_nat (index_func (contains_var (f_vars f)) U)) l n0).
        assert (Hn : nth_error l (Z.to_nat (index_func (contains_var (f_vars f)) U)) = Some wi).
        { apply nth_error_nth'. rewrite Hwl. unfold zlen in Hpos. lia. }
        apply sget_ok in Hn. rewrite Z2Nat.id in Hn by lia. rewrite Hn. cbn [gbind].
        destruct (any_product V (Z.max 1 (vs_counter (ve_vs s))) vs0 [f; mkFactor 0 [] [wi]])
          as (ff & E & Hidf & Hwff & Hiff & Hvff & Hvalf); auto.
        { intros g [<-|[<-|[]]]. split; auto. split; auto. lia. apply const_sound. lia. }
        rewrite E. cbn [gbind].
        destruct (IH (bump vs0) (ids ++ [k]) (fs0 ++ [ff])) as (vs1 & gs & E1 & HR & Hv1 & Hc1); auto.
        { intros e He; apply Hes; simpl; auto. } { rewrite bump_counter. lia. }
        rewrite E1. exists vs1, (ff :: gs). rewrite <- !app_assoc. simpl. split; auto. split; [|rewrite bump_counter in Hc1; split; auto; lia].
        constructor; auto. unfold R. simpl. split; auto. split.
        * intros v. rewrite Hvff. split; [intros (g & [<-|[<-|[]]] & Hv); auto; destruct Hv|]. intros Hv. exists f. simpl; auto.
        * intros a Ha. rewrite Hvalf by (eapply in_range_incl; eauto). reflexivity.
      + destruct (IH vs0 (ids ++ [k]) (fs0 ++ [f])) as (vs1 & gs & E1 & HR & Hv1 & Hc1); auto.
        { intros e He; apply Hes; simpl; auto. }
        rewrite E1. exists vs1, (f :: gs). rewrite <- !app_assoc. simpl. split; auto. split; auto.
        constructor; auto. unfold R. simpl. split; auto. split; [tauto|]. intros. reflexivity. }
  destruct (G entries (ve_vs s) [] []) as (vs1 & gs & E1 & HR & Hv1 & Hc1); auto; try lia.
  rewrite E1. cbn [gbind app].
  assert (Hgs : forall g, In g gs -> exists f, In f (utility_factors (live s)) /\ (forall v, In v (f_vars g) <-> In v (f_vars f)) /\
     wf_factor g).
  { intros g Hin. clear - HR Hin Hp. assert (exists e, In e (filter p entries) /\ R e g).
    { clear Hp. induction HR; simpl in Hin; [tauto|]. destruct Hin as [<-|Hin]. exists x. simpl; auto.
      destruct (IHHR Hin) as (e & He & HRe). exists e. simpl; auto. }
    destruct H as ([k f] & He & (H1 & H3 & _)). exists f. apply filter_In in He. destruct He as [He Hpe]. split; auto.
    apply filter_In. split; auto. apply in_map_iff. exists (k, f). split; auto.
    eapply Permutation_in; [apply Permutation_sym|]; eauto. }
  assert (Hgs' : forall f, In f (utility_factors (live s)) -> exists g, In g gs /\ forall v, In v (f_vars g) <-> In v (f_vars f)).
  { intros f Hf. apply filter_In in Hf. destruct Hf as [Hf Hu]. apply in_map_iff in Hf. destruct Hf as ([k f'] & Ef & Hf). simpl in Ef. subst f'.
    assert (He : In (k, f) (filter p entries)). { apply filter_In. split; auto. eapply Permutation_in; eauto. }
    clear - HR He. induction HR; simpl in He; [tauto|]. destruct He as [->|He].
    - exists y. split; simpl; auto. apply H.
    - destruct (IHHR He) as (g & Hg & Hgv). exists g. simpl; auto. }
  destruct (any_sum V (1 + fold_right Z.max 0 (map f_id gs)) vs1 gs) as (tot & E2 & Hid2 & Hw2 & Hi2 & Hvs2 & Hval2); auto.
  { intros g Hin. destruct (Hgs g Hin) as (f & Hf & Hv & Hwg). split; auto. split.
    - intros v Hv'. apply Hv in Hv'. apply filter_In in Hf. apply (s_fac _ _ Hg f (proj1 Hf)). auto.
    - clear - Hin. induction gs; simpl in *; [tauto|]. destruct Hin as [->|Hin]; [lia|]. apply IHgs in Hin. lia. }
  rewrite E2. cbn [gbind].
  destruct (any_sum_out_list V HV Hix U (bump vs1) tot (ve_elim s)) as (vs2 & tot2 & elim2 & E3 & Hw3 & Hi3 & Hv3 & Hc3 & Hl3 & Hel3 & Hvs3 & Hval3); auto.
  { intros u Hu. destruct (Hcov u Hu) as (f & Hf & Huf).
    destruct (Hgs' f) as (g & Hg1 & Hg2).
    - apply filter_In. split; auto. apply any_is_utility. exists u. split; auto. apply filter_In in Hu. apply nodeType_eqb_spec. tauto.
    - apply Hvs2. exists g. split; auto. apply Hg2. auto. }
  { apply NoDup_filter_map. auto. }
  match goal with |- context [foldM ?f (bump vs1, tot, ve_elim s) U] => replace (foldM f (bump vs1, tot, ve_elim s) U) with (@Ok _ (vs2, tot2, elim2)) by (symmetry; exact E3) end.
  cbn [gbind].
  assert (Ed : del_all (ve_factors s) (map fst (filter p entries)) = filter (fun e => negb (p e)) (ve_factors s)).
  { apply del_all_sel; auto. apply Hg. }
  rewrite Ed.
  destruct (sound_add V s (filter (fun e => negb (p e)) (ve_factors s)) tot2 vs2) as [Hset Hgood]; auto.
  { intros e He. apply filter_In in He. tauto. }
  { apply NoDup_filter_map. apply Hg. }
  { rewrite bump_counter in Hc3. lia. }
  rewrite Hset. eexists. exists tot2, (map snd (filter p entries)). split; [reflexivity|]. split; [apply Hgood|]. split.
  { constructor; simpl; auto. rewrite Hv3, bump_vars. auto. rewrite bump_counter in Hc3. lia. }
  split; [auto|]. split; [auto|]. split.
  { unfold live, prob_factors. simpl. rewrite map_app. simpl. f_equal. rewrite filter_map_comm. f_equal.
    apply filter_ext. intros [k f]. auto. }
  assert (HinU : forall u, In u V -> (In (v_id u) (map v_id U) <-> v_type u = Utility)).
  { intros u Hu. rewrite in_map_iff. split.
    - intros (x & Ex & Hx). apply filter_In in Hx. destruct Hx as [Hx Ht]. apply nodeType_eqb_spec in Ht.
      replace u with x; auto. apply (wf_vars_inj V); auto.
    - intros Ht. exists u. split; auto. apply filter_In. split; auto. apply nodeType_eqb_spec; auto. }
  split.
  { intros u Hu. rewrite Hvs3, HinU, Hvs2 by auto. split; intros [(g & Hgin & Hug) Ht]; split; auto.
    - destruct (Hgs g Hgin) as (f & Hf & Hv & _). exists f. split; auto. apply Hv. auto.
    - destruct (Hgs' g Hgin) as (f & Hf & Hv). exists f. split; auto. apply Hv. auto. }
  split.
  { unfold utility_factors, live. rewrite filter_map_comm. apply Permutation_map.
    rewrite (filter_ext (fun x => is_utility_factor (snd x)) p) by (intros [k f]; auto).
    apply Permutation_filter. apply Permutation_sym. auto. }
  intros a Ha. rewrite Hval3 by auto. apply (sums_at_ext V); auto.
  { intros u Hu. apply filter_In in Hu. tauto. }
  intros b Hb. rewrite Hval2 by (eapply in_range_incl; eauto). f_equal. rewrite map_map.
  clear - HR Hb. induction HR; simpl; auto. f_equal; auto. apply H. auto.
Qed.

(** removeUtilities(u): the factors mentioning other utility variables are dropped. *)
Lemma any_remove_other_utilities V (s : state) u : wf_vars V -> sound V s -> vs_vars (ve_vs s) = V ->
  sound V (remove_utilities sc s (Some u)) /\ frame s (remove_utilities sc s (Some u)) /\
  ve_elim (remove_utilities sc s (Some u)) = ve_elim s /\
  live (remove_utilities sc s (Some u)) = factors_without_other_utilities u (live s).
Proof.
  intros HV Hg EV. unfold remove_utilities, utility_vars. rewrite EV.
  set (us := filter _ (filter _ V)).
  assert (Hcu : forall f : fac, incl (f_vars f) V -> negb (existsb (contains_var (f_vars f)) us) =
    forallb (fun v => negb (nodeType_eqb (v_type v) Utility) || (v_id v =? v_id u)) (f_vars f)).
  { intros f Hi. apply eq_true_iff_eq. rewrite negb_true_iff, <- not_true_iff_false, existsb_exists, forallb_forall. split.
    - intros Hn v Hv. destruct (nodeType_eqb (v_type v) Utility) eqn:Et; simpl; auto. destruct (v_id v =? v_id u) eqn:Eu; auto.
      exfalso. apply Hn. exists v. split; [|apply contains_var_spec; auto]. apply filter_In. rewrite Eu. split; auto. apply filter_In. auto.
    - intros Ha (v & Hv & Hc). apply contains_var_spec in Hc. apply Ha in Hc. apply filter_In in Hv. destruct Hv as [Hv He].
      apply filter_In in Hv. destruct Hv as [_ Ht]. rewrite Ht in Hc. simpl in Hc. rewrite Hc in He. discriminate. }
  clearbody us. destruct us as [|u0 r].
  - split; auto. split; [apply frame_refl|]. split; auto. unfold factors_without_other_utilities. symmetry. apply filter_all_true.
    intros f Hf. rewrite <- Hcu; auto. apply (s_fac _ _ Hg f Hf).
  - unfold range_factors.
    pose proof (shuffle_perm sc (ve_tick s) _ (ve_factors s)) as Hp.
    match goal with |- context [filter ?f (shuffle _ _ _)] => set (p := f) end.
    match goal with |- context [fold_left ?f ?l ?m] => change (fold_left f l m) with (del_all m l) end.
    rewrite (del_all_sel (ve_factors s) _ p) by (try apply Hg; auto).
    assert (Hin : forall e, In e (filter (fun e => negb (p e)) (ve_factors s)) -> In e (ve_factors s)).
    { intros e He. apply filter_In in He. tauto. }
    split; [|split; [|split]].
    + destruct Hg as [Hgk Hgf Hgn]. constructor; simpl; auto.
      * intros f Hf. apply Hgf. apply in_map_iff in Hf. destruct Hf as (e & <- & He). apply in_map. auto.
      * apply NoDup_filter_map. auto.
    + constructor; simpl; auto. lia.
    + auto.
    + unfold live, factors_without_other_utilities. simpl. rewrite filter_map_comm. f_equal. apply filter_ext_in. intros [k f] He.
      cbn [snd]. rewrite <- Hcu; auto. apply (s_fac _ _ Hg f). apply in_map_iff. exists (k, f). auto.
Qed.

(** Plugging in observations changes neither which utility a factor belongs to nor its weight. *)
Lemma any_plug_index V evs (f f' : fac) : wf_vars V -> valid_evidence V evs -> incl (f_vars f) V -> incl (f_vars f') V ->
  any_rel_plug V evs f f' -> index_func (contains_var (f_vars f)) (utilities_of V) = index_func (contains_var (f_vars f')) (utilities_of V).
Proof.
  intros HV He Hi Hi' [Hr _].
  assert (G : forall us, incl us (utilities_of V) -> forall i, index_func_from (fun u => contains_var (f_vars f) u) us i = index_func_from (fun u => contains_var (f_vars f') u) us i).
  { induction us as [|u us IH]; intros Hin i; simpl; auto.
    assert (Hu : In u V /\ v_type u = Utility). { specialize (Hin u (or_introl eq_refl)). apply filter_In in Hin. rewrite nodeType_eqb_spec in Hin. auto. }
    assert (contains_var (f_vars f) u = contains_var (f_vars f') u) as ->.
    { apply eq_true_iff_eq. rewrite !contains_var_spec. rewrite Hr by tauto. split; [|tauto]. intros Hc. split; auto.
      apply not_true_iff_false. intros Hev. apply existsb_exists in Hev. destruct Hev as (ev & Hev & Eid).
      destruct (He ev Hev) as (H1 & H2 & _). apply H2. replace (ev_var ev) with u; [tauto|]. apply (wf_vars_inj V); auto; first [tauto|lia]. }
    destruct (contains_var (f_vars f') u); auto. apply IH. intros x Hx; apply Hin; simpl; auto. }
  apply (G (utilities_of V) (incl_refl _) 0).
Qed.
Lemma any_plug_other V evs u (f f' : fac) : wf_vars V -> valid_evidence V evs -> incl (f_vars f) V -> incl (f_vars f') V ->
  any_rel_plug V evs f f' ->
  forallb (fun v => negb (nodeType_eqb (v_type v) Utility) || (v_id v =? v_id u)) (f_vars f) =
  forallb (fun v => negb (nodeType_eqb (v_type v) Utility) || (v_id v =? v_id u)) (f_vars f').
Proof.
  intros HV He Hi Hi' [Hr _]. apply eq_true_iff_eq. rewrite !forallb_forall. split; intros H v Hv.
  - apply H. apply Hr in Hv; auto. tauto.
  - destruct (nodeType_eqb (v_type v) Utility) eqn:Et; auto. rewrite <- Et at 1. apply H. apply Hr; auto. split; auto.
    apply not_true_iff_false. intros Hc. unfold is_evidence in Hc.
    apply existsb_exists in Hc. destruct Hc as (ev & Hev & Eid). destruct (He ev Hev) as (H1 & H2 & _).
    apply H2. replace (ev_var ev) with v. apply nodeType_eqb_spec; auto. eapply wf_vars_inj; eauto. lia.
Qed.

Lemma any_plug_scope V evs fs gs : matched (any_rel_plug V evs) fs gs -> forall u, In u V ->
  ((exists g, In g gs /\ In u (f_vars g)) <-> (exists f, In f fs /\ In u (f_vars f)) /\ is_evidence evs u = false).
Proof.
  intros (gs' & Hp & H2) u Hu.
  assert (E : (exists g, In g gs /\ In u (f_vars g)) <-> (exists g, In g gs' /\ In u (f_vars g))).
  { split; intros (g & Hgin & Hug); exists g; split; auto.
    - eapply Permutation_in; eauto.
    - eapply Permutation_in; [apply Permutation_sym|]; eauto. }
  rewrite E. clear -H2 Hu. induction H2.
  - split; [intros (g & [] & _)|intros [(g & [] & _) _]].
  - split.
    + intros (g & [<-|Hg] & Hug).
      * apply H in Hug; auto. destruct Hug. split; auto. exists x. simpl; auto.
      * destruct (proj1 IHForall2) as [(f & Hf & Huf) He]; eauto. split; auto. exists f. simpl; auto.
    + intros [(f & [<-|Hf] & Huf) He].
      * exists y. split; simpl; auto. apply H; auto.
      * destruct (proj2 IHForall2) as (g & Hg & Hug); eauto. exists g. simpl; auto.
Qed.
End Any.
