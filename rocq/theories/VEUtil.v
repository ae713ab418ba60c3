(** Utilities: sumUtilities and SolveUtility. *)
From Coq Require Import ZArith List Bool Lia Permutation QArith Qcanon.
From Verif Require Import Num GoBase VarModel GoFacts SpecFactor Tuples FactorFacts FactorSum FactorAt XnumFacts ExactFactor
  FactorThms VEModel SpecVE VEWorlds VEFacts VETopo VEHidden VESolve VEThms.
Import ListNotations.
Open Scope Z_scope.

Lemma const_value id q a : value (mkFactor id [] [Fin q]) a = q.
Proof. reflexivity. Qed.

Lemma const_good V c id q : id < c -> good_factor V c (mkFactor id [] [Fin q]).
Proof.
  intros. split; [|split; [|split]]; auto.
  - split; simpl; auto. constructor.
  - intros a _. exists q. reflexivity.
  - intros v [].
Qed.

Lemma is_utility_spec (f : fac) : is_utility_factor f = true <-> exists u, In u (f_vars f) /\ v_type u = Utility.
Proof.
  unfold is_utility_factor. rewrite existsb_exists. split; intros (u & H1 & H2); exists u; split; auto; apply nodeType_eqb_spec; auto.
Qed.

Lemma first_utility V (f : fac) : incl (f_vars f) V ->
  (index_func (contains_var (f_vars f)) (utilities_of V) <? 0) = negb (is_utility_factor f) /\
  (is_utility_factor f = true -> 0 <= index_func (contains_var (f_vars f)) (utilities_of V) < zlen (utilities_of V)).
Proof.
  intros Hi. destruct (index_func_spec (contains_var (f_vars f)) (utilities_of V)) as [[E H]|(k & x & E & Hn & Hx & _)].
  - rewrite E. assert (is_utility_factor f = false).
    { apply not_true_iff_false. rewrite is_utility_spec. intros (u & Hu & Ht).
      specialize (H u). rewrite (proj2 (contains_var_spec _ _) Hu) in H. discriminate H. apply filter_In. split; auto.
      apply nodeType_eqb_spec; auto. }
    rewrite H0. split; auto. discriminate.
  - rewrite E. assert (is_utility_factor f = true).
    { apply is_utility_spec. exists x. apply contains_var_spec in Hx. split; auto.
      apply nth_error_In in Hn. apply filter_In in Hn. apply nodeType_eqb_spec. tauto. }
    rewrite H. assert ((k < length (utilities_of V))%nat) by (apply nth_error_Some; congruence). unfold zlen. split; lia.
Qed.

Lemma utility_or_prob V (f : fac) : In f (V : list fac) -> In f (prob_factors V) \/ In f (utility_factors V).
Proof.
  intros H. unfold prob_factors, utility_factors. rewrite !filter_In. destruct (is_utility_factor f); auto.
Qed.

Section U.
Variable sc : sched.

(** Summing utility variables out of one factor, one after the other. *)
Lemma sum_out_list V : wf_vars V -> (forall i v, nth_error V i = Some v -> v_index v = i) -> forall us vs tot elim,
  wf_factor tot -> finite_factor tot -> incl (f_vars tot) V -> incl us (f_vars tot) -> wf_vars us ->
  length elim = length V -> us <> [] ->
  exists vs' tot' elim', foldM (fun '(vs, total, elim) u =>
        let! (vs', total') := sum_out vs total u in
        let! elim' := sset elim (Z.of_nat (v_index u)) true in
        Ok (vs', total', elim')) (vs, tot, elim) us = Ok (vs', tot', elim') /\
    wf_factor tot' /\ finite_factor tot' /\ incl (f_vars tot') V /\
    vs_vars vs' = vs_vars vs /\ vs_counter vs <= f_id tot' < vs_counter vs' /\ length elim' = length V /\
    (forall i, nth i elim' false = nth i elim false || existsb (fun u => (v_index u =? i)%nat) us) /\
    (forall u, In u (f_vars tot') <-> In u (f_vars tot) /\ ~ In (v_id u) (map v_id us)) /\
    (forall a, in_range V a -> value tot' a = total (value tot) us a).
Proof.
  intros HV Hix. induction us as [|u us]; intros vs tot elim Hw Hf Hi Hus Hwu Hl Hne; [congruence|].
  cbn [foldM].
  assert (Hu : In u (f_vars tot)) by (apply Hus; simpl; auto).
  destruct (good_sum_out V vs tot u) as (tot1 & E1 & Hid1 & Hw1 & Hf1 & Hvs1 & Hval1); auto.
  rewrite E1. cbn [gbind]. assert (Hiu : (v_index u < length elim)%nat) by (rewrite Hl; apply index_lt; auto).
  rewrite sset_ok by auto. cbn [gbind].
  assert (Hi1 : incl (f_vars tot1) V). { rewrite Hvs1. intros x Hx. apply in_others in Hx. apply Hi. tauto. }
  assert (Hel1 : forall i, nth i (upd_nth elim (v_index u) true) false = nth i elim false || (v_index u =? i)%nat).
  { intros i. destruct (Nat.eqb_spec (v_index u) i).
    - subst i. rewrite orb_true_r. apply nth_error_nth. apply upd_nth_same. auto.
    - rewrite orb_false_r. destruct (Nat.lt_ge_cases i (length elim)).
      + apply nth_error_nth. rewrite upd_nth_other by auto. apply nth_error_nth'. auto.
      + rewrite !nth_overflow; auto. rewrite upd_nth_length. auto. }
  assert (Hval1' : forall a, in_range V a -> value tot1 a = total (value tot) [u] a).
  { intros a Ha. rewrite Hval1 by (eapply in_range_incl; eauto). rewrite total_cons. apply qsum_ext. intros. rewrite total_nil. auto. }
  destruct us as [|u2 us].
  - exists (bump vs), tot1, (upd_nth elim (v_index u) true). simpl foldM. split; auto. do 3 (split; auto).
    split; auto. split; [rewrite bump_counter; lia|]. split; [rewrite upd_nth_length; auto|].
    split. { intros i. rewrite Hel1. simpl. rewrite orb_false_r. auto. }
    split; auto. intros x. rewrite Hvs1, in_others. simpl. intuition.
  - inversion Hwu as [|? ? Hnu Hwu']; subst.
    destruct (IHus (bump vs) tot1 (upd_nth elim (v_index u) true)) as (vs' & tot' & elim' & E' & Hw' & Hf' & Hi' & Hv' & Hc' & Hl' & Hel' & Hvs' & Hval'); auto.
    { intros x Hx. rewrite Hvs1. apply in_others. split. apply Hus; simpl; auto.
      intros Ex. apply Hnu. rewrite <- Ex. change (In (v_id x) (map v_id (u2 :: us))). apply in_map. auto. }
    { rewrite upd_nth_length. auto. }
    { discriminate. }
    exists vs', tot', elim'. split; auto. do 3 (split; auto).
    split; auto. split; [rewrite bump_counter in Hc'; lia|]. split; auto.
    split. { intros i. rewrite Hel', Hel1. rewrite <- orb_assoc. auto. }
    split. { intros x. rewrite Hvs', Hvs1, in_others. cbn [map In]. intuition. }
    intros a Ha. rewrite Hval' by auto.
    rewrite (total_ext_range _ (total (value tot) [u]) V); auto.
    + rewrite <- total_app. apply total_perm; auto. apply value_proper.
      * eapply wf_perm; [|apply Hwu]. apply Permutation_cons_append.
      * apply Permutation_sym, Permutation_cons_append.
    + intros x Hx. apply Hi, Hus. simpl; auto.
Qed.

(** sumUtilities *)
Lemma sum_utilities_step V s w : wf_vars V -> (forall i v, nth_error V i = Some v -> v_index v = i) ->
  good V s -> utility_vars s = utilities_of V -> length (ve_elim s) = length V ->
  ve_weights s = finite_weights w ->
  match w with None => True | Some l => length l = length (utilities_of V) end ->
  utilities_of V <> [] -> (forall u, In u (utilities_of V) -> in_scope s u) ->
  exists s' tot, sum_utilities sc s = Ok s' /\ good V s' /\ frame s s' /\
    length (ve_elim s') = length V /\
    (forall i, nth i (ve_elim s') false = nth i (ve_elim s) false || existsb (fun u => (v_index u =? i)%nat) (utilities_of V)) /\
    live s' = prob_factors (live s) ++ [tot] /\
    (forall u, In u V -> (In u (f_vars tot) <-> (exists f, In f (utility_factors (live s)) /\ In u (f_vars f)) /\ v_type u <> Utility)) /\
    (forall a, in_range V a -> value tot a = total (total_utility V w (live s)) (utilities_of V) a).
Proof.
  intros HV Hix Hg HU Hl Hwt Hwl Hne Hcov. unfold sum_utilities. rewrite HU.
  set (U := utilities_of V) in *. assert (HU0 : exists u r, U = u :: r) by (destruct U; eauto; congruence).
  destruct HU0 as (u0 & r0 & EU0). rewrite EU0. rewrite <- EU0. clear EU0 u0 r0.
  unfold range_factors. cbn [with_tick ve_vs ve_weights ve_factors ve_elim].
  pose proof (shuffle_perm sc (ve_tick s) _ (ve_factors s)) as Hp.
  set (entries := shuffle sc (ve_tick s) (ve_factors s)) in *.
  match goal with |- context [foldM ?f (ve_vs s, [], []) entries] => set (step := f) end.
  set (p := fun '((_, f) : Z * fac) => is_utility_factor f).
  assert (Hent : forall e, In e entries -> good_factor V (vs_counter (ve_vs s)) (snd e)).
  { intros e He. apply (g_fac _ _ Hg). apply in_map. eapply Permutation_in; [apply Permutation_sym|]; eauto. }
  (* scaled factors *)
  set (R := fun (e : Z * fac) (g : fac) => wf_factor g /\ finite_factor g /\
     (forall v, In v (f_vars g) <-> In v (f_vars (snd e))) /\
     forall a, in_range V a -> value g a = (utility_weight V w (snd e) * value (snd e) a)%Qc).
  assert (G : forall es vs0 ids fs0, (forall e, In e es -> In e entries) -> vs_vars vs0 = vs_vars (ve_vs s) ->
    vs_counter (ve_vs s) <= vs_counter vs0 ->
    exists vs1 gs, foldM step (vs0, ids, fs0) es = Ok (vs1, ids ++ map fst (filter p es), fs0 ++ gs) /\
      Forall2 R (filter p es) gs /\ vs_vars vs1 = vs_vars (ve_vs s) /\ vs_counter vs0 <= vs_counter vs1).
  { induction es as [|[k f] es IH]; intros vs0 ids fs0 Hes Hv0 Hc0; cbn [foldM filter].
    - exists vs0, []. simpl. rewrite !app_nil_r. repeat split; auto. lia.
    - assert (Hf : good_factor V (vs_counter (ve_vs s)) f) by (apply (Hent (k, f)), Hes; simpl; auto).
      destruct Hf as (Hwf & Hfin & Hi & Hid). destruct (first_utility V f Hi) as [Hneg Hpos]. fold U in Hneg, Hpos.
      assert (Es : step (vs0, ids, fs0) (k, f) =
        let i := index_func (contains_var (f_vars f)) U in
        if i <? 0 then Ok (vs0, ids, fs0)
        else match ve_weights s with
          | None => Ok (vs0, ids ++ [k], fs0 ++ [f])
          | Some w => let! wi := sget w i in
              let! (vs', ff) := product vs0 [f; mkFactor 0 [] [wi]] in
              Ok (vs', ids ++ [k], fs0 ++ [ff]) end) by reflexivity.
      rewrite Es. clear Es. cbn zeta. rewrite Hneg. replace (p (k, f)) with (is_utility_factor f) by reflexivity.
      destruct (is_utility_factor f) eqn:Eu; cbn [negb gbind].
      2: { apply IH; auto. intros e He; apply Hes; simpl; auto. }
      specialize (Hpos eq_refl). rewrite Hwt. unfold finite_weights. destruct w as [l|]; cbn [option_map gbind].
      + assert (Hn : nth_error (map Fin l) (Z.to_nat (index_func (contains_var (f_vars f)) U)) =
           Some (Fin (utility_weight V (Some l) f))).
        { rewrite nth_error_map. unfold utility_weight. fold U. rewrite nth_error_nth' with (d := 0%Qc); auto.
          rewrite Hwl. unfold zlen in Hpos. lia. }
        apply sget_ok in Hn. rewrite Z2Nat.id in Hn by lia. rewrite Hn. cbn [gbind].
        destruct (good_product V (Z.max 1 (vs_counter (ve_vs s))) vs0 [f; mkFactor 0 [] [Fin (utility_weight V (Some l) f)]])
          as (ff & E & Hidf & Hwff & Hfff & Hiff & Hvff & Hvalf); auto.
        { intros g [<-|[<-|[]]]. split; auto. split; auto. split; auto. lia. apply const_good. lia. }
        rewrite E. cbn [gbind].
        destruct (IH (bump vs0) (ids ++ [k]) (fs0 ++ [ff])) as (vs1 & gs & E1 & HR & Hv1 & Hc1); auto.
        { intros e He; apply Hes; simpl; auto. } { rewrite bump_counter. lia. }
        rewrite E1. exists vs1, (ff :: gs). rewrite <- !app_assoc. simpl. split; auto. split; [|rewrite bump_counter in Hc1; split; auto; lia].
        constructor; auto. unfold R. simpl. split; auto. split; auto. split.
        * intros v. rewrite Hvff. split; [intros (g & [<-|[<-|[]]] & Hv); auto; destruct Hv|]. intros Hv. exists f. simpl; auto.
        * intros a Ha. rewrite Hvalf by (eapply in_range_incl; eauto). unfold weight_of. simpl. rewrite const_value.
          change (utility_weight V (Some l) f) with (nth (Z.to_nat (index_func (contains_var (f_vars f)) U)) l 0%Qc). ring.
      + destruct (IH vs0 (ids ++ [k]) (fs0 ++ [f])) as (vs1 & gs & E1 & HR & Hv1 & Hc1); auto.
        { intros e He; apply Hes; simpl; auto. }
        rewrite E1. exists vs1, (f :: gs). rewrite <- !app_assoc. simpl. split; auto. split; auto.
        constructor; auto. unfold R. simpl. split; auto. split; auto. split; [tauto|]. intros. ring. }
  destruct (G entries (ve_vs s) [] []) as (vs1 & gs & E1 & HR & Hv1 & Hc1); auto; try lia.
  rewrite E1. cbn [gbind app].
  assert (Hgs : forall g, In g gs -> exists f, In f (utility_factors (live s)) /\ (forall v, In v (f_vars g) <-> In v (f_vars f)) /\
     wf_factor g /\ finite_factor g).
  { intros g Hin. clear - HR Hin Hp. assert (exists e, In e (filter p entries) /\ R e g).
    { clear Hp. induction HR; simpl in Hin; [tauto|]. destruct Hin as [<-|Hin]. exists x. simpl; auto.
      destruct (IHHR Hin) as (e & He & HRe). exists e. simpl; auto. }
    destruct H as ([k f] & He & (H1 & H2 & H3 & _)). exists f. apply filter_In in He. destruct He as [He Hpe]. split; auto.
    apply filter_In. split; auto. apply in_map_iff. exists (k, f). split; auto.
    eapply Permutation_in; [apply Permutation_sym|]; eauto. }
  assert (Hgs' : forall f, In f (utility_factors (live s)) -> exists g, In g gs /\ forall v, In v (f_vars g) <-> In v (f_vars f)).
  { intros f Hf. apply filter_In in Hf. destruct Hf as [Hf Hu]. apply in_map_iff in Hf. destruct Hf as ([k f'] & Ef & Hf). simpl in Ef. subst f'.
    assert (He : In (k, f) (filter p entries)). { apply filter_In. split; auto. eapply Permutation_in; eauto. }
    clear - HR He. induction HR; simpl in He; [tauto|]. destruct He as [->|He].
    - exists y. split; simpl; auto. apply H.
    - destruct (IHHR He) as (g & Hg & Hgv). exists g. simpl; auto. }
  destruct (good_sum_factors V (1 + fold_right Z.max 0 (map f_id gs)) vs1 gs) as (tot & E2 & Hid2 & Hw2 & Hf2 & Hi2 & Hvs2 & Hval2); auto.
  { intros g Hin. destruct (Hgs g Hin) as (f & Hf & Hv & Hwg & Hfg). split; auto. split; auto. split.
    - intros v Hv'. apply Hv in Hv'. apply filter_In in Hf. apply (g_fac _ _ Hg f (proj1 Hf)). auto.
    - clear - Hin. induction gs; simpl in *; [tauto|]. destruct Hin as [->|Hin]; [lia|]. apply IHgs in Hin. lia. }
  rewrite E2. cbn [gbind].
  destruct (sum_out_list V HV Hix U (bump vs1) tot (ve_elim s)) as (vs2 & tot2 & elim2 & E3 & Hw3 & Hf3 & Hi3 & Hv3 & Hc3 & Hl3 & Hel3 & Hvs3 & Hval3); auto.
  { intros u Hu. destruct (Hcov u Hu) as (f & Hf & Huf).
    destruct (Hgs' f) as (g & Hg1 & Hg2).
    - apply filter_In. split; auto. apply is_utility_spec. exists u. split; auto. apply filter_In in Hu. apply nodeType_eqb_spec. tauto.
    - apply Hvs2. exists g. split; auto. apply Hg2. auto. }
  { apply NoDup_filter_map. auto. }
  match goal with |- context [foldM ?f (bump vs1, tot, ve_elim s) U] => replace (foldM f (bump vs1, tot, ve_elim s) U) with (@Ok _ (vs2, tot2, elim2)) by (symmetry; exact E3) end.
  cbn [gbind].
  assert (Ed : del_all (ve_factors s) (map fst (filter p entries)) = filter (fun e => negb (p e)) (ve_factors s)).
  { apply del_all_sel; auto. apply Hg. }
  rewrite Ed.
  destruct (good_add V s (filter (fun e => negb (p e)) (ve_factors s)) tot2 vs2) as [Hset Hgood]; auto.
  { intros e He. apply filter_In in He. tauto. }
  { apply NoDup_filter_map. apply Hg. }
  { rewrite bump_counter in Hc3. lia. }
  rewrite Hset. eexists. exists tot2. split; [reflexivity|]. split; [apply Hgood|]. split.
  { constructor; simpl; auto. rewrite Hv3, bump_vars. auto. rewrite bump_counter in Hc3. lia. }
  split; [auto|]. split; [auto|]. split.
  { unfold live, prob_factors. simpl. rewrite map_app. simpl. f_equal. rewrite filter_map_comm. f_equal.
    apply filter_ext. intros [k f]. auto. }
  assert (HinU : forall u, In u V -> (In (v_id u) (map v_id U) <-> v_type u = Utility)).
  { intros u Hu. rewrite in_map_iff. split.
    - intros (x & Ex & Hx). apply filter_In in Hx. destruct Hx as [Hx Ht]. apply nodeType_eqb_spec in Ht.
      replace u with x; auto. apply (wf_vars_inj V); auto.
    - intros Ht. exists u. split; auto. apply filter_In. split; auto. apply nodeType_eqb_spec; auto. }
  split.
  { intros u Hu. rewrite Hvs3, HinU, Hvs2 by auto. split; intros [(g & Hgin & Hug) Ht]; split; auto.
    - destruct (Hgs g Hgin) as (f & Hf & Hv & _). exists f. split; auto. apply Hv. auto.
    - destruct (Hgs' g Hgin) as (f & Hf & Hv). exists f. split; auto. apply Hv. auto. }
  intros a Ha. rewrite Hval3 by auto. apply (total_ext_range _ _ V); auto.
  { intros u Hu. apply filter_In in Hu. tauto. }
  intros b Hb. rewrite Hval2 by (eapply in_range_incl; eauto). unfold total_utility.
  assert (Hpu : Permutation (map snd (filter p entries)) (utility_factors (live s))).
  { unfold utility_factors, live. rewrite filter_map_comm. apply Permutation_map.
    rewrite (filter_ext (fun x => is_utility_factor (snd x)) p) by (intros [k f]; auto).
    apply Permutation_filter. apply Permutation_sym. auto. }
  rewrite <- (qsum_perm _ _ (Permutation_map _ Hpu)). rewrite map_map.
  clear - HR Hb. induction HR; simpl; auto. f_equal; auto. apply H. auto.
Qed.

Lemma rel_plug_utility_weight V evs w f f' : wf_vars V -> valid_evidence V evs -> incl (f_vars f) V -> incl (f_vars f') V ->
  rel_plug V evs f f' -> utility_weight V w f = utility_weight V w f'.
Proof.
  intros HV He Hi Hi' [Hr _]. unfold utility_weight. destruct w as [l|]; auto. do 2 f_equal.
  assert (G : forall us, incl us (utilities_of V) -> forall i, index_func_from (fun u => contains_var (f_vars f) u) us i = index_func_from (fun u => contains_var (f_vars f') u) us i).
  { induction us as [|u us IH]; intros Hin i; simpl; auto.
    assert (Hu : In u V /\ v_type u = Utility). { specialize (Hin u (or_introl eq_refl)). apply filter_In in Hin. rewrite nodeType_eqb_spec in Hin. auto. }
    assert (contains_var (f_vars f) u = contains_var (f_vars f') u) as ->.
    { apply eq_true_iff_eq. rewrite !contains_var_spec. rewrite Hr by tauto. split; [|tauto]. intros Hc. split; auto.
      apply not_true_iff_false. intros Hev. apply existsb_exists in Hev. destruct Hev as (ev & Hev & Eid).
      destruct (He ev Hev) as (H1 & H2 & _). apply H2. replace (ev_var ev) with u; [tauto|]. apply (wf_vars_inj V); auto; first [tauto|lia]. }
    destruct (contains_var (f_vars f') u); auto. apply IH. intros x Hx; apply Hin; simpl; auto. }
  apply (G (utilities_of V) (incl_refl _) 0).
Qed.

Lemma matched_sum {X} (R : X -> X -> Prop) (F G : X -> Qc) l l' : matched R l l' ->
  (forall x y, In x l -> In y l' -> R x y -> F x = G y) -> qsum (map F l) = qsum (map G l').
Proof.
  intros (l2 & Hp & H2) H. rewrite (qsum_perm _ _ (Permutation_map G Hp)).
  assert (H' : forall x y, In x l -> In y l2 -> R x y -> F x = G y).
  { intros x y Hx Hy. apply H; auto. eapply Permutation_in; [apply Permutation_sym|]; eauto. }
  clear Hp H. induction H2; simpl; auto. f_equal; auto.
  - apply H'; simpl; auto.
  - apply IHForall2. intros; apply H'; simpl; auto.
Qed.

Lemma total_utility_proper V w fs : proper (total_utility V w fs).
Proof.
  intros a b Hab. unfold total_utility. apply qsum_ext. intros f _. f_equal. apply value_proper. auto.
Qed.

(** SolveUtility without a utility variable: the expectation of the weighted sum of all utilities. *)
Theorem solve_utility_exact t vs fs deps w evs query :
  ve_problem vs fs deps -> valid_evidence (vs_vars vs) evs ->
  let V := vs_vars vs in
  let H := hidden_in V deps evs query in
  let U := utilities_of V in
  U <> [] -> match w with None => True | Some l => length l = length U end ->
  (forall h, In h (U ++ H) -> exists f, In f fs /\ In h (f_vars f)) ->
  exists s' f, ve_solve_utility sc (ve_new t vs fs deps (finite_weights w)) evs query None = Ok (s', f) /\
    wf_factor f /\ incl (f_vars f) V /\
    (forall v, In v V -> (In v (f_vars f) <->
       (exists g, In g fs /\ In v (f_vars g)) /\ v_type v <> Utility /\ is_evidence evs v = false /\ ~ In v H)) /\
    frame (ve_new t vs fs deps (finite_weights w)) s' /\ f_id f < vs_counter (ve_vs s') /\
    (forall a, in_range V a -> get_at f a = Ok (Fin (qsum (map (fun x =>
        weight_of (prob_factors fs) x * qsum (map (total_utility V w fs) (worlds U x)))%Qc (worlds H (plug evs a)))))).
Proof.
  intros Hpb Hev V H U HU Hwl Hcov. destruct (problem_good vs fs deps t (finite_weights w) Hpb) as [Hg0 Hl0].
  assert (HV : wf_vars V) by apply Hpb.
  assert (Hix : forall i v, nth_error V i = Some v -> v_index v = i) by apply Hpb.
  unfold ve_solve_utility, ve_solve.
  destruct (eliminate_evidence_step sc V HV evs (ve_new t vs fs deps (finite_weights w))) as (s1 & E1 & Hg1 & Hf1 & Hel1 & Hm1); auto.
  rewrite E1. cbn [gbind]. rewrite Hl0 in Hm1.
  assert (Hgv1 : forall y, In y (live s1) -> incl (f_vars y) V) by (intros y Hy; apply (g_fac _ _ Hg1 y Hy)).
  assert (Hfv : forall f, In f fs -> incl (f_vars f) V) by (intros f Hf; apply (vp_factors _ _ _ Hpb f Hf)).
  assert (Hmu : matched (rel_plug V evs) (utility_factors fs) (utility_factors (live s1))).
  { apply matched_filter; auto. intros x y Hx Hy HR. eapply rel_plug_utility; eauto. }
  assert (Hmp : matched (rel_plug V evs) (prob_factors fs) (prob_factors (live s1))).
  { apply matched_filter; auto. intros x y Hx Hy HR. f_equal. eapply rel_plug_utility; eauto. }
  assert (HUe : forall u, In u V -> v_type u = Utility -> is_evidence evs u = false).
  { intros u Hu Ht. apply not_true_iff_false. intros He. apply existsb_exists in He. destruct He as (ev & Hin & Eid).
    destruct (Hev ev Hin) as (H1 & H2 & _). apply H2. replace (ev_var ev) with u; auto. eapply wf_vars_inj; eauto. lia. }
  assert (HUV : incl U V) by (intros u Hu; apply filter_In in Hu; tauto).
  assert (HUt : forall u, In u U -> v_type u = Utility) by (intros u Hu; apply filter_In in Hu; apply nodeType_eqb_spec; tauto).
  assert (HHV : incl H V) by (intros u Hu; apply filter_In in Hu; tauto).
  assert (HHt : forall u, In u H -> v_type u = Chance /\ is_evidence evs u = false).
  { intros u Hu. apply filter_In in Hu. rewrite !andb_true_iff, !negb_true_iff, nodeType_eqb_spec in Hu. tauto. }
  assert (Hsc1 : forall u, In u V -> (in_scope s1 u <-> (exists f, In f fs /\ In u (f_vars f)) /\ is_evidence evs u = false)).
  { intros u Hu. unfold in_scope. apply (rel_plug_scope V); auto. }
  destruct (sum_utilities_step V s1 w) as (s2 & tot & E2 & Hg2 & Hf2 & Hle2 & Hel2 & Hl2 & Htv2 & Hval2); auto.
  { unfold utility_vars. rewrite (fr_vars _ _ Hf1). reflexivity. }
  { rewrite Hel1. apply repeat_length. }
  { rewrite (fr_weights _ _ Hf1). reflexivity. }
  { intros u Hu. apply Hsc1; auto. split; [apply Hcov, in_app_iff; auto|]. auto. }
  rewrite E2. cbn [gbind].
  assert (Hfr2 : frame (ve_new t vs fs deps (finite_weights w)) s2) by (eapply frame_trans; eauto).
  assert (Hsc2 : forall u, In u V -> (in_scope s2 u <-> (exists f, In f fs /\ In u (f_vars f)) /\ v_type u <> Utility /\ is_evidence evs u = false)).
  { intros u Hu. split.
    - intros (f & Hf & Huf). rewrite Hl2, in_app_iff in Hf. destruct Hf as [Hf|[<-|[]]].
      + apply filter_In in Hf. destruct Hf as [Hf Hnu]. destruct (proj1 (Hsc1 u Hu)) as [Ha Hb]; [exists f; auto|].
        split; auto. split; auto. intros Ht. apply negb_true_iff in Hnu. assert (is_utility_factor f = true) by (apply is_utility_spec; eauto). congruence.
      + apply Htv2 in Huf; auto. destruct Huf as [(f & Hf & Huf) Ht]. apply filter_In in Hf.
        destruct (proj1 (Hsc1 u Hu)) as [Ha Hb]; [exists f; tauto|]. auto.
    - intros (Hf & Ht & He). destruct (proj2 (Hsc1 u Hu)) as (f & Hf' & Huf); [auto|].
      destruct (utility_or_prob _ _ Hf') as [Hp|Hp].
      + exists f. split; auto. rewrite Hl2. apply in_app_iff. auto.
      + exists tot. split. { rewrite Hl2. apply in_app_iff. simpl; auto. } apply Htv2; auto. split; auto. exists f. auto. }
  destruct (eliminate_hidden_query sc vs fs deps s2 evs query) as (s3 & E3 & Hg3 & Hf3 & Hsc3 & Hw3); auto.
  { rewrite (fr_vars _ _ Hfr2). auto. }
  { rewrite (fr_deps _ _ Hfr2). auto. }
  { intros i v Hi Ht. rewrite Hel2, Hel1. cbn [ve_new ve_elim]. rewrite nth_repeat. simpl.
    apply not_true_iff_false. intros Hc. apply existsb_exists in Hc. destruct Hc as (u & Hu & Ei). apply Nat.eqb_eq in Ei.
    assert (u = v). { apply (index_inj V); auto. eapply nth_error_In; eauto. rewrite (Hix _ _ Hi). auto. }
    subst u. rewrite (HUt v Hu) in Ht. discriminate. }
  { intros v Hv. apply Hsc2; auto. destruct (HHt v Hv) as [Hc He]. split; [apply Hcov, in_app_iff; auto|]. rewrite Hc. split; auto. discriminate. }
  rewrite E3. cbn [gbind].
  destruct (multiply_all_step sc V s3) as (s4 & f & E4 & Hw4 & Hfin4 & Hid4 & Hf4 & Hc4 & Hvs4 & Hi4 & Hval4); auto.
  exists s4, f. split; auto. split; auto. split; auto. split.
  { intros v Hv. rewrite Hvs4, Hsc3, Hsc2 by auto. tauto. }
  split. { do 2 (eapply frame_trans; [|eassumption]). auto. }
  split. { lia. }
  intros a Ha. rewrite (finite_denotes f Hfin4) by (eapply in_range_incl; eauto).
  rewrite Hval4, Hw3 by auto. do 2 f_equal.
  set (F := fun x => (weight_of (prob_factors fs) x * total (total_utility V w fs) U x)%Qc).
  rewrite (total_ext_range _ (fun x => F (plug evs x)) V); auto.
  - change (total (fun x => F (plug evs x)) H a = total F H (plug evs a)). apply total_plug.
    + intros b b' Hb. unfold F. f_equal. apply weight_proper; auto. apply total_proper; auto. apply total_utility_proper.
    + intros v Hv. apply HHt. auto.
  - intros b Hb. rewrite Hl2, weight_app. unfold F. f_equal.
    + eapply rel_plug_weight; eauto.
    + unfold weight_of. simpl. rewrite Hval2 by auto. rewrite Qcmult_1_r.
      rewrite <- total_plug; [|apply total_utility_proper|intros; auto].
      apply (total_ext_range _ _ V); auto. intros c Hc. unfold total_utility. symmetry.
      eapply matched_sum; eauto. intros x y Hx Hy HR. f_equal.
      * apply filter_In in Hx. apply filter_In in Hy. eapply rel_plug_utility_weight; eauto; [apply Hfv|apply Hgv1]; tauto.
      * destruct HR as [_ HR]. rewrite HR; auto.
Qed.

(** removeUtilities(u): the factors mentioning other utility variables are dropped. *)
Lemma remove_other_utilities_step V s u : wf_vars V -> good V s -> vs_vars (ve_vs s) = V ->
  good V (remove_utilities sc s (Some u)) /\ frame s (remove_utilities sc s (Some u)) /\
  ve_elim (remove_utilities sc s (Some u)) = ve_elim s /\
  live (remove_utilities sc s (Some u)) = factors_without_other_utilities u (live s).
Proof.
  intros HV Hg EV. unfold remove_utilities, utility_vars. rewrite EV.
  set (us := filter _ (filter _ V)).
  assert (Hcu : forall f : fac, incl (f_vars f) V -> negb (existsb (contains_var (f_vars f)) us) =
    forallb (fun v => negb (nodeType_eqb (v_type v) Utility) || (v_id v =? v_id u)) (f_vars f)).
  { intros f Hi. apply eq_true_iff_eq. rewrite negb_true_iff, <- not_true_iff_false, existsb_exists, forallb_forall. split.
    - intros Hn v Hv. destruct (nodeType_eqb (v_type v) Utility) eqn:Et; simpl; auto. destruct (v_id v =? v_id u) eqn:Eu; auto.
      exfalso. apply Hn. exists v. split; [|apply contains_var_spec; auto]. apply filter_In. rewrite Eu. split; auto. apply filter_In. auto.
    - intros Ha (v & Hv & Hc). apply contains_var_spec in Hc. apply Ha in Hc. apply filter_In in Hv. destruct Hv as [Hv He].
      apply filter_In in Hv. destruct Hv as [_ Ht]. rewrite Ht in Hc. simpl in Hc. rewrite Hc in He. discriminate. }
  clearbody us. destruct us as [|u0 r].
  - split; auto. split; [apply frame_refl|]. split; auto. unfold factors_without_other_utilities. symmetry. apply filter_all_true.
    intros f Hf. rewrite <- Hcu; auto. apply (g_fac _ _ Hg f Hf).
  - unfold range_factors.
    pose proof (shuffle_perm sc (ve_tick s) _ (ve_factors s)) as Hp.
    match goal with |- context [filter ?f (shuffle _ _ _)] => set (p := f) end.
    match goal with |- context [fold_left ?f ?l ?m] => change (fold_left f l m) with (del_all m l) end.
    rewrite (del_all_sel (ve_factors s) _ p) by (try apply Hg; auto).
    assert (Hin : forall e, In e (filter (fun e => negb (p e)) (ve_factors s)) -> In e (ve_factors s)).
    { intros e He. apply filter_In in He. tauto. }
    split; [|split; [|split]].
    + destruct Hg as [Hgk Hgf Hgn]. constructor; simpl; auto.
      * intros f Hf. apply Hgf. apply in_map_iff in Hf. destruct Hf as (e & <- & He). apply in_map. auto.
      * apply NoDup_filter_map. auto.
    + constructor; simpl; auto. lia.
    + auto.
    + unfold live, factors_without_other_utilities. simpl. rewrite filter_map_comm. f_equal. apply filter_ext_in. intros [k f] He.
      cbn [snd]. rewrite <- Hcu; auto. apply (g_fac _ _ Hg f). apply in_map_iff. exists (k, f). auto.
Qed.

Lemma rel_plug_other V evs u f f' : wf_vars V -> valid_evidence V evs -> incl (f_vars f) V -> incl (f_vars f') V ->
  rel_plug V evs f f' -> 
  forallb (fun v => negb (nodeType_eqb (v_type v) Utility) || (v_id v =? v_id u)) (f_vars f) =
  forallb (fun v => negb (nodeType_eqb (v_type v) Utility) || (v_id v =? v_id u)) (f_vars f').
Proof.
  intros HV He Hi Hi' [Hr _]. apply eq_true_iff_eq. rewrite !forallb_forall. split; intros H v Hv.
  - apply H. apply Hr in Hv; auto. tauto.
  - destruct (nodeType_eqb (v_type v) Utility) eqn:Et; auto. rewrite <- Et at 1. apply H. apply Hr; auto. split; auto.
    apply not_true_iff_false. intros Hc. unfold is_evidence in Hc.
    apply existsb_exists in Hc. destruct Hc as (ev & Hev & Eid). destruct (He ev Hev) as (H1 & H2 & _).
    apply H2. replace (ev_var ev) with v. apply nodeType_eqb_spec; auto. eapply wf_vars_inj; eauto. lia.
Qed.

(** SolveUtility for one utility variable: the sum-product of the probability factors and the
    factors of that variable, unweighted. *)
Theorem solve_one_utility_exact t vs fs deps w evs query u :
  ve_problem vs fs deps -> valid_evidence (vs_vars vs) evs ->
  let V := vs_vars vs in
  let H := hidden_in V deps evs query in
  let K := factors_without_other_utilities u fs in
  (forall h, In h H -> exists f, In f K /\ In h (f_vars f)) ->
  exists s' f, ve_solve_utility sc (ve_new t vs fs deps w) evs query (Some u) = Ok (s', f) /\
    wf_factor f /\ incl (f_vars f) V /\
    (forall v, In v V -> (In v (f_vars f) <->
       (exists g, In g K /\ In v (f_vars g)) /\ is_evidence evs v = false /\ ~ In v H)) /\
    frame (ve_new t vs fs deps w) s' /\ f_id f < vs_counter (ve_vs s') /\
    (forall a, in_range V a -> get_at f a = Ok (Fin (qsum (map (weight_of K) (worlds H (plug evs a)))))).
Proof.
  intros Hpb Hev V H K Hcov. destruct (problem_good vs fs deps t w Hpb) as [Hg0 Hl0].
  assert (HV : wf_vars V) by apply Hpb.
  unfold ve_solve_utility, ve_solve.
  destruct (eliminate_evidence_step sc V HV evs (ve_new t vs fs deps w)) as (s1 & E1 & Hg1 & Hf1 & Hel1 & Hm1); auto.
  rewrite E1. cbn [gbind]. rewrite Hl0 in Hm1.
  destruct (remove_other_utilities_step V s1 u) as (Hg2 & Hf2 & Hel2 & Hl2); auto.
  { rewrite (fr_vars _ _ Hf1). auto. }
  set (s2 := remove_utilities sc s1 (Some u)) in *.
  assert (Hm2 : matched (rel_plug V evs) K (live s2)).
  { rewrite Hl2. apply matched_filter; auto. intros x y Hx Hy HR. eapply rel_plug_other; eauto.
    - apply (vp_factors _ _ _ Hpb x Hx).
    - apply (g_fac _ _ Hg1 y Hy). }
  assert (Hsc2 : forall v, In v V -> (in_scope s2 v <-> (exists f, In f K /\ In v (f_vars f)) /\ is_evidence evs v = false)).
  { intros v Hv. unfold in_scope. apply (rel_plug_scope V); auto. intros g Hgin. apply (g_fac _ _ Hg2 g Hgin). }
  assert (Hfr2 : frame (ve_new t vs fs deps w) s2) by (eapply frame_trans; eauto).
  assert (Hne : forall v, In v H -> is_evidence evs v = false).
  { intros v Hv. apply filter_In in Hv. rewrite !andb_true_iff in Hv. apply negb_true_iff. tauto. }
  destruct (eliminate_hidden_query sc vs fs deps s2 evs query) as (s3 & E3 & Hg3 & Hf3 & Hsc3 & Hw3); auto.
  { rewrite (fr_vars _ _ Hfr2). auto. }
  { rewrite (fr_deps _ _ Hfr2). auto. }
  { rewrite Hel2, Hel1. simpl. apply repeat_length. }
  { intros i v Hi _. rewrite Hel2, Hel1. simpl. apply nth_repeat. }
  { intros v Hv. assert (HvV : In v V) by (apply filter_In in Hv; tauto). apply Hsc2; auto. }
  rewrite E3. cbn [gbind].
  destruct (multiply_all_step sc V s3) as (s4 & f & E4 & Hw4 & Hfin4 & Hid4 & Hf4 & Hc4 & Hvs4 & Hi4 & Hval4); auto.
  exists s4, f. split; auto. split; auto. split; auto. split.
  { intros v Hv. rewrite Hvs4, Hsc3, Hsc2 by auto. tauto. }
  split. { do 2 (eapply frame_trans; [|eassumption]). auto. }
  split. { lia. }
  intros a Ha. rewrite (finite_denotes f Hfin4) by (eapply in_range_incl; eauto).
  rewrite Hval4, Hw3 by auto. do 2 f_equal. fold H.
  rewrite (total_ext_range _ (fun w => weight_of K (plug evs w)) V); auto.
  2: { intros v Hv. apply filter_In in Hv. tauto. }
  2: { intros w0 Hw0. eapply rel_plug_weight; eauto. }
  fold (total (weight_of K) H (plug evs a)).
  apply total_plug; auto. apply weight_proper.
Qed.

End U.
