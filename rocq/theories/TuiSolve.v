(** Proofs about tui.Solve. *)
From Coq Require Import ZArith List Bool String Lia Permutation QArith Qcanon.
From Verif Require Import Num GoBase VarModel GoFacts Tuples SpecFactor FactorFacts FactorAt XnumFacts ExactFactor FactorThms
  VEModel SpecVE VEWorlds VEFacts VEHidden VESolve VEThms VEUtil NetModel SpecNet NetVars NetFactors NetVE NetSums NetQuery NetEvents NetUtil
  NetHistory NetMass NetCor NetExtra SpecNetPolicy NetPolicyLoop TrainFacts SpecTui TuiModel.
Import ListNotations.
Open Scope string_scope.
Open Scope list_scope.
Open Scope Z_scope.

(** ** Utilities without utility nodes *)
Section NoUtil.
Context {A : Type} {N : NumOps A}.
Variable sc : sched.
Lemma restrict_evidence_vars (s : vestate A) e s' : restrict_evidence sc s e = Ok s' -> vs_vars (ve_vs s') = vs_vars (ve_vs s).
Proof.
  unfold restrict_evidence, range_factors. set (s0 := with_tick s (S (ve_tick s))).
  change (vs_vars (ve_vs s)) with (vs_vars (ve_vs s0)). generalize (map fst (filter (fun '(_, f) => contains_var (f_vars f) (ev_var e)) (shuffle sc (ve_tick s) (ve_factors s)))).
  clearbody s0. clear s. intros l. revert s0. induction l as [|k l IH]; cbn [foldM]; intros s E; [injection E as <-; auto|].
  destruct (mget Z.eqb (ve_factors s) k) as [f|]; [|discriminate].
  destruct (restrict _ f (ev_var e) (ev_value e)) as [[vs g]| |] eqn:Er; cbn [gbind] in E; try discriminate.
  apply restrict_id in Er. destruct Er as [-> _]. apply IH in E. rewrite E. reflexivity.
Qed.
Lemma eliminate_evidence_vars evs : forall (s : vestate A) s', eliminate_evidence sc s evs = Ok s' -> vs_vars (ve_vs s') = vs_vars (ve_vs s).
Proof.
  unfold eliminate_evidence. induction evs as [|e l IH]; cbn [foldM]; intros s s' E; [injection E as <-; auto|].
  destruct (restrict_evidence sc s e) as [s1| |] eqn:E1; cbn [gbind] in E; try discriminate.
  rewrite (IH _ _ E). eapply restrict_evidence_vars; eauto.
Qed.
Lemma utility_is_query (s : vestate A) evs query : utility_vars s = [] -> ve_solve_utility sc s evs query None = ve_solve_query sc s evs query.
Proof.
  intros Hu. unfold ve_solve_utility, ve_solve_query, ve_solve. destruct (eliminate_evidence sc s evs) as [s1| |] eqn:E; cbn [gbind]; auto.
  assert (Hu1 : utility_vars s1 = []) by (unfold utility_vars in *; rewrite (eliminate_evidence_vars _ _ _ E); auto).
  unfold sum_utilities, remove_utilities. rewrite Hu1. cbn [filter gbind]. auto.
Qed.
End NoUtil.

Lemma worlds_single vs : forall a, (forall v, In v vs -> v_outcomes v = 1%nat /\ a (v_id v) = 0%nat) ->
  exists w, worlds vs a = [w] /\ forall i, w i = a i.
Proof.
  induction vs as [|v l IH]; intros a H; [exists a; auto|]. cbn [worlds]. destruct (H v (or_introl eq_refl)) as [H1 H0]. rewrite H1. cbn [seq flat_map].
  assert (Ea : forall i, upd a (v_id v) 0 i = a i) by (intros i; unfold upd; destruct (Z.eqb_spec i (v_id v)); subst; auto).
  destruct (IH (upd a (v_id v) 0)) as (w & Ew & Hw).
  - intros u Hu. rewrite Ea. apply H. right. auto.
  - exists w. rewrite Ew. split; auto. intros i. rewrite Hw. auto.
Qed.

Section Solve.
Variable n : network xnum.
Hypothesis Hd : displayable n.
Let Hwf : wf_network n := dp_wf n Hd.
Notation vars := (n_vars n).

Lemma displayable_with a b : displayable (with_solver n a b).
Proof.
  destruct Hd as [H1 H2 H3 H4 H5 H6 H7]. constructor; auto. apply wf_with_solver. auto.
Qed.

Lemma no_open d : ~ open_decision n d.
Proof.
  intros [Hk Hh]. unfold kind in Hk. destruct (var_named vars d) as [v|] eqn:Ev; [|discriminate]. apply (var_named_in n Hwf) in Ev. destruct Ev as [Hin <-].
  injection Hk as Hk. rewrite (dp_solved n Hd v Hin Hk) in Hh. discriminate.
Qed.
Lemma no_informs x : ~ informs n x.
Proof. intros (f & _ & Ho & _). eapply no_open; eauto. Qed.

Lemma vars_mentioned ig ev v : In v vars -> nv_type v <> Utility -> ~ In (nv_name v) (map fst ev) -> mentioned n (ignored_by ig ev) (nv_name v).
Proof.
  intros Hin Ht He. destruct (nv_type v) eqn:Et; [|right|congruence].
  - left. destruct (dp_complete n Hd v Hin Et) as (f & Hf & Hn). exists f. split.
    + unfold chance_factors. apply filter_In. split; auto. unfold kind. rewrite Hn, (proj2 (var_named_in n Hwf (nv_name v) v)) by auto. simpl. rewrite Et. auto.
    + apply in_or_app. right. simpl. auto.
  - pose proof (dp_solved n Hd v Hin Et) as Hk. apply has_key_spec in Hk. apply in_map_iff in Hk. destruct Hk as ([d p] & Hdn & Hp). simpl in Hdn. subst d.
    destruct (wp_own n _ _ (wn_policies n Hwf _ _ Hp)) as (i & nv & w & Hi & Hnm & Hw & Hid). exists (nv_name v), p, i, nv, w.
    split; auto. split; [|repeat split; auto]. unfold ignored_by. destruct ig; auto. simpl. destruct (has_key ev (nv_name v)) eqn:E; auto.
    apply has_key_spec in E. contradiction.
Qed.
Lemma vars_askable ig ev v : In v vars -> nv_type v <> Utility -> ~ In (nv_name v) (map fst ev) -> askable n (ignored_by ig ev) ev (nv_name v).
Proof.
  intros Hin Ht He. split; [|split; auto; apply vars_mentioned; auto]. exists v. split; auto. apply (var_named_in n Hwf). auto.
Qed.

(** The value of a result without query. *)
Lemma single_result ev uts occurs Fa rel F f : solver_result n ev [] uts occurs Fa f -> result_factor n ev [] uts rel F f ->
  (forall v, In v vars -> nv_type v <> Utility -> ~ In (nv_name v) (map fst ev) -> rel (nv_name v)) ->
  f_data f = [Fin (sum_over n F (agrees vars ev))].
Proof.
  intros Hr Hf Hrel.
  assert (Hone : forall v, In v (f_vars f) -> v_outcomes v = 1%nat).
  { intros v Hv. pose proof (sr_incl n _ _ _ _ _ _ Hr v Hv) as HV. destruct (vv_surj n Hwf v HV) as (x & Hk & ->).
    destruct (v_type (vv n x)) eqn:Et; [exfalso|exfalso|apply (sr_utility n _ _ _ _ _ _ Hr _ Hv Et)];
    (apply (sr_scope n _ _ _ _ _ _ Hr _ HV) in Hv; [|congruence]; destruct Hv as (_ & He & Hh);
     destruct (not_hidden n Hwf (map (obs n) ev) [] x Hk) as [[]|[Ho|Ho]]; [congruence|auto|intros q []|auto|eapply no_open; eauto|eapply no_informs; eauto]). }
  destruct (rf_value _ _ _ _ _ _ _ Hf) as (c & _ & Hc1 & Hval). rewrite (Hc1 Hrel) in Hval.
  assert (Hs0 : proper_state n nowhere).
  { intros v Hvin. unfold nowhere. pose proof (wn_outcomes n Hwf v Hvin) as H0. unfold zlen in H0. lia. }
  specialize (Hval nowhere Hs0). rewrite Qcmult_1_l in Hval.
  assert (H0 : forall i, positions vars nowhere i = 0%nat) by (intros i; unfold positions, nowhere; destruct (nth_error vars (Z.to_nat i)); auto).
  destruct (worlds_single (f_vars f) (positions vars nowhere)) as (w & Ew & Hw); [auto|].
  rewrite (denotes_data f (value f) (positions vars nowhere) (rf_wf _ _ _ _ _ _ _ Hf)), Ew.
  2:{ intros a Ha. destruct (rf_finite _ _ _ _ _ _ _ Hf a Ha) as (q & Eq). unfold value. rewrite Eq. auto. }
  cbn [map]. do 2 f_equal. unfold factor_value in Hval.
  replace (value f w) with (value f (positions vars nowhere)).
  2:{ unfold value, get_at. replace (tuple_of (f_vars f) w) with (tuple_of (f_vars f) (positions vars nowhere)); auto. apply map_ext. intros v. rewrite Hw. auto. }
  rewrite Hval. apply sum_over_ext. intros s Hs.
  replace (same_on (factor_names n f) nowhere s) with true; [apply andb_true_r|]. symmetry. apply forallb_forall. intros x Hx.
  apply Nat.eqb_eq. unfold nowhere. unfold factor_names in Hx. apply in_map_iff in Hx. destruct Hx as (v & <- & Hv).
  pose proof (sr_incl n _ _ _ _ _ _ Hr v Hv) as HV. destruct (vv_surj n Hwf v HV) as (x & Hk & ->). rewrite (name_at n Hwf x Hk).
  apply (worlds_utility n Hwf s x Hk); auto. destruct (v_type (vv n x)) eqn:Et; auto; exfalso;
    (apply (sr_scope n _ _ _ _ _ _ Hr _ HV) in Hv; [|congruence]; destruct Hv as (_ & He & Hh);
     destruct (not_hidden n Hwf (map (obs n) ev) [] x Hk) as [[]|[Ho|Ho]]; [congruence|auto|intros q []|auto|eapply no_open; eauto|eapply no_informs; eauto]).
Qed.

Lemma joint_mass ign ev : sum_over n (joint n ign) (agrees vars ev) = mass n ign (agrees vars ev).
Proof. reflexivity. Qed.

Lemma no_query : valid_query n []. Proof. intros q []. Qed.

Lemma total_prob sc ig ev : valid_observations n ev ->
  exists a b f, net_solve_query sc n ev [] ig = (with_solver n a b, Ok ([], f)) /\ f_data f = [Fin (mass n (ignored_by ig ev) (agrees vars ev))].
Proof.
  intros Hv. destruct (solve_query_raw n Hwf sc ig ev [] (dp_complete n Hd) Hv no_query) as (s & f & vs & fs & E & _ & Hcr & Hr).
  unfold net_solve_query. rewrite E. cbn [query_marginals foldM gbind]. eexists _, _, f. split; [reflexivity|].
  rewrite <- joint_mass. eapply single_result; eauto.
  - eapply result_ok; eauto using no_query.
    + apply joint_proper.
    + intros a Ha _. apply (weight_joint n Hwf ig ev vs fs Hcr); auto.
    + intros x Hk. apply (scope_mentioned n Hwf ig ev vs fs Hcr x Hk).
  - intros v Hin Ht He. apply vars_mentioned; auto.
Qed.

Lemma one_utility_value sc ig ev u : plain_utility n u -> valid_observations n ev ->
  exists a b f, net_solve_utility sc n ev [] u ig = (with_solver n a b, Ok f) /\
    f_data f = [Fin (sum_over n (fun s => joint n (ignored_by ig ev) s * one_utility n u s)%Qc (agrees vars ev))].
Proof.
  intros Hp Hv. destruct (solve_one_utility_raw n Hwf sc ig ev [] u (dp_complete n Hd) Hp Hv no_query) as (s & f & vs & fs & E & _ & Hcr & Hr).
  destruct (plain_utility_vv n Hwf u Hp) as (Hk & Hu & H1 & Hne).
  eexists _, _, f. split; [exact E|]. eapply single_result; eauto.
  - eapply result_ok; eauto using no_query.
    + apply product_proper; [apply joint_proper|]. intros s1 s2 E12. unfold one_utility. apply qprod_ext. intros g _. apply entry_proper. auto.
    + eapply one_matches; eauto.
    + intros x Hkx. eapply one_occurs; eauto.
  - intros v Hin Ht He. left. apply vars_mentioned; auto.
Qed.

Lemma all_utility_value sc ig ev : some_utility n -> valid_observations n ev ->
  exists a b f, net_solve_utility sc n ev [] "" ig = (with_solver n a b, Ok f) /\
    f_data f = [Fin (sum_over n (fun s => joint n (ignored_by ig ev) s * utility_of n s)%Qc (agrees vars ev))].
Proof.
  intros Hs Hv. destruct (solve_utility_raw n Hwf sc ig ev [] (dp_complete n Hd) (dp_plain n Hd) Hs Hv no_query) as (s & f & vs & fs & E & _ & Hcr & Hr).
  eexists _, _, f. split; [exact E|]. eapply single_result; eauto.
  - eapply result_ok; eauto using no_query.
    + apply product_proper; [apply joint_proper|apply utility_of_proper].
    + eapply util_matches; eauto. apply Hd.
    + intros x Hk. eapply occurs_mentioned; eauto.
  - intros v Hin Ht He. left. apply vars_mentioned; auto.
Qed.

Lemma some_utility_dec : some_utility n \/ ~ some_utility n.
Proof.
  destruct (existsb (fun v => nodeType_eqb (nv_type v) Utility && negb (is_total n (nv_name v))) vars) eqn:E.
  - left. apply existsb_exists in E. destruct E as (v & Hin & E). apply andb_true_iff in E. destruct E as [E1 E2].
    exists v. split; auto. split; [destruct (nv_type v); auto; discriminate|]. destruct (is_total n (nv_name v)); auto; discriminate.
  - right. intros (v & Hin & Ht & Hto). assert (existsb (fun v => nodeType_eqb (nv_type v) Utility && negb (is_total n (nv_name v))) vars = true); [|congruence].
    apply existsb_exists. exists v. split; auto. rewrite Ht, Hto. auto.
Qed.

Lemma no_utility_value sc ig ev : ~ some_utility n -> valid_observations n ev ->
  exists a b f, net_solve_utility sc n ev [] "" ig = (with_solver n a b, Ok f).
Proof.
  intros Hs Hv. destruct (solve_query_raw n Hwf sc ig ev [] (dp_complete n Hd) Hv no_query) as (s & f & vs & fs & E & _).
  exists (Some s), (name_map (entries n)), f.
  assert (E2 : net_solve_utility sc n ev [] "" ig = net_solve sc n ev [] false "" ig); [|rewrite E2, E; reflexivity].
  unfold net_solve_utility, net_solve, assign_ve. destruct (to_ve_ok n Hwf sc 0 (if ig then ev else [])) as (vs0 & fs0 & Et & Hcr). rewrite Et.
  unfold solve_names. destruct (net_evidence _ _) as [evs| |]; cbn [gbind]; auto.
  destruct (net_query_vars _ _) as [q| |]; cbn [gbind]; auto. cbn [String.eqb gbind].
  rewrite utility_is_query; auto. unfold utility_vars. cbn [ve_vs with_tick ve_new].
  destruct (filter _ (vs_vars vs0)) as [|u l] eqn:Ef; auto. exfalso. apply Hs.
  assert (Hu : In u (filter (fun v => nodeType_eqb (v_type v) Utility) (vs_vars vs0))) by (rewrite Ef; left; auto).
  apply filter_In in Hu. destruct Hu as [HV Hu]. rewrite (cr_vars _ _ _ _ Hcr) in HV. destruct (vv_surj n Hwf u HV) as (x & Hk & ->).
  destruct (kind_known n Hwf x Hk) as (t & Ek & Ht). unfold kind in Ek. destruct (var_named vars x) as [v|] eqn:Ev; [|discriminate].
  apply (var_named_in n Hwf) in Ev. destruct Ev as [Hin <-]. exists v. split; auto. split; [|apply Hk].
  injection Ek as Ek. rewrite Ek. destruct (v_type (vv n (nv_name v))); try discriminate. destruct t; auto; simpl in Ht; try discriminate.
  destruct (has_key (n_policies n) (nv_name v)); discriminate.
Qed.

End Solve.

(** ** The parts of Solve *)
Section Parts.
Variable n : network xnum.
Hypothesis Hd : displayable n.
Let Hwf : wf_network n := dp_wf n Hd.
Notation vars := (n_vars n).
Notation displayable_with := (displayable_with n Hd).
Variable scs : nat -> sched.
Variables (ig : bool) (ev : list (string * string)).
Hypothesis Hev : valid_observations n ev.
Notation ign := (ignored_by ig ev).
Notation ready m := (exists a, m = with_solver n a (name_map (entries n))).

Lemma query_one sc a b x v : In v vars -> nv_name v = x -> nv_type v <> Utility -> ~ In x (map fst ev) ->
  exists m res f, net_solve_query sc (with_solver n a b) ev [x] ig = (m, Ok (res, f)) /\ ready m /\
    sget_map res x = Some (map (shown_posterior n ign ev x) (seq 0 (List.length (nv_outcomes v)))).
Proof.
  intros Hin Hn Ht He.
  destruct (query_exact (with_solver n a b) (dp_wf _ (displayable_with a b)) sc ig ev [x] (dp_complete n Hd) Hev) as (m & res & f & E & Hres).
  - intros q [<-|[]]. subst x. apply (vars_askable n Hd); auto.
  - exists m, res, f. split; auto. split.
    + pose proof (solve_names_kept (with_solver n a b) (dp_wf _ (displayable_with a b)) sc ev [x] ig) as Hk. rewrite E in Hk. cbn [fst] in Hk.
      rewrite net_solve_query_core in E. injection E as E _. destruct (put_shape (with_solver n a b) (fst (query_core sc (to_ve sc 0 (with_solver n a b) (if ig then ev else [])) ev [x]))) as (a' & b' & Es).
      rewrite Es in E. subst m. exists a'. cbn [n_names with_solver] in Hk. rewrite Hk. reflexivity.
    + destruct (proj1 (Hres x) (or_introl eq_refl)) as (l & El & Hd1 & Hd0). rewrite El. f_equal.
      assert (Hno : num_outcomes vars x = List.length (nv_outcomes v)).
      { unfold num_outcomes. rewrite (proj2 (var_named_in n Hwf x v)) by auto. auto. }
      change (n_vars (with_solver n a b)) with vars in Hd1, Hd0. rewrite Hno in Hd1, Hd0.
      unfold shown_posterior. destruct (qeq (mass n ign (agrees vars ev)) 0) eqn:Eq.
      * apply qeq_spec in Eq. rewrite (Hd0 (dp_nonneg n Hd) Eq). clear. generalize 0%nat. induction (List.length (nv_outcomes v)); intros k; simpl; f_equal; auto.
      * apply Hd1. intros H. rewrite <- qeq_spec in H. change (mass (with_solver n a b) ign (agrees vars ev)) with (mass n ign (agrees vars ev)) in H. congruence.
Qed.

Definition listed (x : string) (l : list string) : bool := existsb (String.eqb x) l.
Lemma listed_In x l : listed x l = true <-> In x l.
Proof. unfold listed. rewrite existsb_exists. split; [intros (y & Hy & E); apply String.eqb_eq in E; subst; auto|intros H; exists x; split; auto; apply String.eqb_refl]. Qed.

Lemma each_query queries : forall k m res, (forall x, In x queries -> exists v, In v vars /\ nv_name v = x /\ nv_type v <> Utility /\ ~ In x (map fst ev)) -> ready m ->
  exists m' res', solve_each scs k m ev queries ig res = (m', Ok res') /\ ready m' /\
    forall x, sget_map res' x = if listed x queries then Some (map (shown_posterior n ign ev x) (seq 0 (num_outcomes vars x))) else sget_map res x.
Proof.
  induction queries as [|q l IH]; intros k m res Hq Hm; cbn [solve_each]; [exists m, res; auto|].
  destruct Hm as (a & ->). destruct (Hq q (or_introl eq_refl)) as (v & Hin & Hn & Ht & He).
  destruct (query_one (scs k) a (name_map (entries n)) q v Hin Hn Ht He) as (m1 & r1 & f & E & Hm1 & Er). rewrite E, Er.
  destruct (IH (S k) m1 (sset_map res q (map (shown_posterior n ign ev q) (seq 0 (List.length (nv_outcomes v))))) (fun x Hx => Hq x (or_intror Hx)) Hm1) as (m2 & res2 & E2 & Hm2 & Hres).
  exists m2, res2. split; auto. split; auto. intros x. rewrite Hres. unfold listed. cbn [existsb]. fold (listed x l).
  destruct (listed x l); [rewrite orb_true_r; auto|]. rewrite sset_map_get. destruct (String.eqb_spec x q); auto. subst x. simpl.
  unfold num_outcomes. rewrite (proj2 (var_named_in n Hwf q v)) by auto. auto.
Qed.

(** *** Evidence *)
Hypothesis Hub : used_before n.
Lemma evidence_total x o : In (x, o) ev -> is_total n x = false.
Proof.
  intros H. destruct (proj2 Hev x o H) as (v & Hv & Ht & _). destruct (is_total n x) eqn:E; auto.
  apply (total_kind n Hwf) in E. unfold kind in E. rewrite Hv in E. simpl in E. congruence.
Qed.
Lemma evidence_one x o : In (x, o) ev -> exists v, var_named vars x = Some v /\ net_to_evidence n x o = Ok (one_hot v o).
Proof.
  intros H. destruct (proj2 Hev x o H) as (v & Hv & Ht & Ho). exists v. split; auto. unfold net_to_evidence.
  destruct (Hub x v Hv (evidence_total x o H)) as (e & -> & ->).
  pose proof (proj1 (var_named_in n Hwf x v) Hv) as [Hvin _].
  destruct (str_index_spec (nv_outcomes v) o (wn_distinct n Hwf v Hvin) Ho) as (k & Ek & Hk). rewrite Ek.
  replace (Z.of_nat k <? 0) with false by lia. unfold smake. replace (zlen (nv_outcomes v) <? 0) with false by (unfold zlen; lia). cbn [gbind].
  assert (Hkl : (k < List.length (nv_outcomes v))%nat) by (apply nth_error_Some; rewrite (proj2 (Hk k) eq_refl); discriminate).
  unfold zlen. rewrite Nat2Z.id, sset_ok by (rewrite repeat_length; auto). f_equal. unfold one_hot.
  apply nth_error_ext. intros j. rewrite nth_error_map. destruct (Nat.eq_dec j k) as [->|Hjk].
  - rewrite upd_nth_same by (rewrite repeat_length; auto). rewrite (proj2 (Hk k) eq_refl). simpl. rewrite String.eqb_refl. auto.
  - rewrite upd_nth_other by auto. destruct (nth_error (nv_outcomes v) j) as [o'|] eqn:Ej.
    + rewrite nth_error_repeat by (apply nth_error_Some; congruence). simpl. destruct (String.eqb o' o) eqn:Eo; auto.
      apply String.eqb_eq in Eo. subst o'. apply Hk in Ej. congruence.
    + apply nth_error_None. rewrite repeat_length. apply nth_error_None. auto.
Qed.

Definition observed_hot (l : list (string * string)) (x : string) : option (list xnum) :=
  match sget_map l x with Some o => option_map (fun v => one_hot v o) (var_named vars x) | None => None end.
Lemma evidence_fold : forall l res, incl l ev -> NoDup (map fst l) ->
  exists res', foldM (fun res '((x, o) : string * string) => let! p := net_to_evidence n x o in Ok (sset_map res x p)) res l = Ok res' /\
    forall x, sget_map res' x = match observed_hot l x with Some p => Some p | None => sget_map res x end.
Proof.
  induction l as [|[x o] l IH]; intros res Hi Hnd; [exists res; auto|]. cbn [foldM]. inversion Hnd as [|? ? Hx Hnd']; subst.
  destruct (evidence_one x o (Hi _ (or_introl eq_refl))) as (v & Hv & E). rewrite E. cbn [gbind].
  destruct (IH (sset_map res x (one_hot v o)) (fun y Hy => Hi y (or_intror Hy)) Hnd') as (res' & E' & Hres). exists res'. split; auto.
  intros y. rewrite Hres, sset_map_get. unfold observed_hot. cbn [mget]. destruct (String.eqb_spec y x).
  - subst y. rewrite Hv. simpl. destruct (sget_map l x) as [o'|] eqn:El; auto. exfalso. apply Hx. apply mget_In in El; [|apply String.eqb_eq]. apply in_map_iff. exists (x, o'). auto.
  - destruct (sget_map l y) as [o'|]; auto.
Qed.
Lemma evidence_ok_all : exists res, solve_evidence scs n ev = Ok res /\ forall x, sget_map res x = observed_hot ev x.
Proof.
  unfold solve_evidence. assert (Hp : Permutation ev (shuffle (scs 0%nat) 0 ev)) by apply shuffle_perm.
  destruct (evidence_fold (shuffle (scs 0%nat) 0 ev) []) as (res & E & Hres).
  - intros y Hy. eapply Permutation_in; [apply Permutation_sym; eauto|auto].
  - eapply Permutation_NoDup; [apply Permutation_map; eauto|apply Hev].
  - exists res. split; auto. intros x. rewrite Hres. cbn [mget]. unfold observed_hot.
    assert (E2 : sget_map (shuffle (scs 0%nat) 0 ev) x = sget_map ev x); [|rewrite E2; destruct (sget_map ev x); auto; destruct (var_named vars x); auto].
    destruct (sget_map ev x) as [o|] eqn:Eo.
    + apply mget_In in Eo; [|apply String.eqb_eq]. apply In_mget; [apply String.eqb_eq| |eapply Permutation_in; eauto].
      eapply Permutation_NoDup; [apply Permutation_map; eauto|apply Hev].
    + destruct (sget_map (shuffle (scs 0%nat) 0 ev) x) as [o|] eqn:Es; auto. apply mget_In in Es; [|apply String.eqb_eq].
      apply Permutation_sym in Hp. eapply Permutation_in in Es; [|eauto]. rewrite (In_mget String.eqb String.eqb_eq) with (v := o) in Eo; [discriminate|apply Hev|auto].
Qed.

(** *** Utilities *)
Lemma expectation F : ndiv (Fin (sum_over n (fun s => joint n ign s * F s)%Qc (agrees vars ev))) (Fin (mass n ign (agrees vars ev))) = shown_expectation n ign ev F.
Proof.
  unfold shown_expectation. destruct (qeq (mass n ign (agrees vars ev)) 0) eqn:E.
  - apply qeq_spec in E. rewrite E. replace (sum_over n (fun s => joint n ign s * F s)%Qc (agrees vars ev)) with 0%Qc; [reflexivity|].
    symmetry. unfold sum_over. apply qsum_zero. intros s Hs. unfold mass in E.
    assert (Hnn' : forall x, In x (map (joint n ign) (filter (agrees vars ev) (worlds_of n))) -> (0 <= x)%Qc)
      by (intros x Hx; apply in_map_iff in Hx; destruct Hx as (z & <- & _); apply (joint_nonneg n); apply Hd).
    rewrite (qsum_zero_all _ Hnn' E (joint n ign s) (in_map _ _ _ Hs)). ring.
  - apply xdiv_fin. intros H. rewrite <- qeq_spec in H. congruence.
Qed.

Definition is_plain (x : string) : Prop := exists v, In v vars /\ nv_name v = x /\ nv_type v = Utility /\ is_total n x = false.
Lemma is_plain_utility x : is_plain x -> plain_utility n x.
Proof.
  intros (v & Hin & Hn & Ht & Hto). exists v. split; [apply (var_named_in n Hwf); auto|]. split; auto. split; auto.
  apply (dp_plain n Hd v Hin Ht). congruence.
Qed.
Lemma keep_ready m r sc query u : ready m -> net_solve_utility sc m ev query u ig = r -> ready (fst r).
Proof.
  intros (a & ->) <-. pose proof (utility_names_kept (with_solver n a (name_map (entries n))) (dp_wf _ (displayable_with _ _)) sc ev query u ig) as Hk.
  unfold net_solve_utility in *. rewrite net_solve_core in *. cbn [fst] in *.
  destruct (put_shape (with_solver n a (name_map (entries n))) (fst (solve_core sc (to_ve sc 0 (with_solver n a (name_map (entries n))) (if ig then ev else [])) ev query true u))) as (a' & b' & Es).
  rewrite Es in *. exists a'. cbn [n_names with_solver] in Hk. rewrite Hk. reflexivity.
Qed.

Lemma each_utility totalUtility us : forall k m res, (forall x, In x us -> is_plain x) -> ready m ->
  exists m' res', solve_utilities scs k m ev us ig (Fin (mass n ign (agrees vars ev))) totalUtility res = (m', Ok res') /\ ready m' /\
    forall x, sget_map res' x = if listed x us then Some [shown_expectation n ign ev (one_utility n x); totalUtility] else sget_map res x.
Proof.
  induction us as [|u l IH]; intros k m res Hq Hm; cbn [solve_utilities]; [exists m, res; auto|].
  destruct Hm as (a & ->). set (b := name_map (entries n)).
  destruct (@one_utility_value (with_solver n a b) (displayable_with a b) (scs k) ig ev u) as (a1 & b1 & f & E & Ef).
  { apply is_plain_utility. apply Hq. left. auto. } { exact Hev. }
  pose proof (keep_ready (with_solver n a b) _ (scs k) [] u (ex_intro _ a eq_refl) E) as Hm1. cbn [fst] in Hm1. rewrite E. unfold single_value. rewrite Ef.
  change (sum_over (with_solver n a b) (fun s => joint (with_solver n a b) ign s * one_utility (with_solver n a b) u s)%Qc (agrees (n_vars (with_solver n a b)) ev))
    with (sum_over n (fun s => joint n ign s * one_utility n u s)%Qc (agrees vars ev)).
  rewrite expectation.
  destruct (IH (S k) _ (sset_map res u [shown_expectation n ign ev (one_utility n u); totalUtility]) (fun x Hx => Hq x (or_intror Hx)) Hm1) as (m2 & res2 & E2 & Hm2 & Hres).
  exists m2, res2. split; [exact E2|]. split; auto. intros x. rewrite Hres. unfold listed. cbn [existsb]. fold (listed x l).
  destruct (listed x l); [rewrite orb_true_r; auto|]. rewrite sset_map_get. destruct (String.eqb_spec x u); auto. subst x. auto.
Qed.

Variable nodes : list (nvar * option (nfactor xnum)).
Hypothesis Hnodes : nodes_of n nodes.

Lemma node_at k : match nth_error vars k, nth_error nodes k with
  | Some v, Some t => nv_name (fst t) = nv_name v /\ nv_type (fst t) = nv_type v
  | None, None => True | _, _ => False end.
Proof.
  destruct Hnodes as [HF _]. revert k HF. generalize nodes. induction vars as [|v l IH]; intros nodes0 k HF; inversion HF; subst; destruct k; simpl; auto. apply IH. auto.
Qed.

Lemma queries_spec x : In x (solve_names_of ev nodes) <-> exists v, In v vars /\ nv_name v = x /\ nv_type v <> Utility /\ ~ In x (map fst ev).
Proof.
  unfold solve_names_of. rewrite in_map_iff. split.
  - intros (t & <- & Ht). apply filter_In in Ht. destruct Ht as [Hin Hc]. apply In_nth_error in Hin. destruct Hin as [k Hk].
    pose proof (node_at k) as H. rewrite Hk in H. destruct (nth_error vars k) as [v|] eqn:Ev; [|contradiction]. destruct H as [Hn Ht].
    apply andb_true_iff in Hc. destruct Hc as [H1 H2]. exists v. split; [eapply nth_error_In; eauto|]. split; auto. split.
    + intros E. unfold is_utility in H1. rewrite Ht, E in H1. discriminate.
    + intros E. apply has_key_spec in E. rewrite E in H2. discriminate.
  - intros (v & Hin & Hn & Ht & He). apply In_nth_error in Hin. destruct Hin as [k Hk]. pose proof (node_at k) as H. rewrite Hk in H.
    destruct (nth_error nodes k) as [t|] eqn:Et; [|contradiction]. destruct H as [H1 H2]. exists t. split; [congruence|]. apply filter_In. split; [eapply nth_error_In; eauto|].
    unfold is_utility. rewrite H1, H2, Hn. destruct (has_key ev x) eqn:E; [apply has_key_spec in E; contradiction|].
    destruct (nv_type v); auto.
Qed.

Lemma total_at k v : nth_error vars k = Some v -> (is_total n (nv_name v) = (Z.of_nat k =? n_tui n)).
Proof.
  intros Hk. unfold is_total. destruct (Z.eqb_spec (Z.of_nat k) (n_tui n)).
  - rewrite <- e, Nat2Z.id, Hk, String.eqb_refl. lia.
  - destruct (nth_error vars (Z.to_nat (n_tui n))) as [u|] eqn:Eu; auto. destruct (0 <=? n_tui n) eqn:E0; auto. simpl.
    destruct (String.eqb_spec (nv_name u) (nv_name v)); auto. exfalso. apply n0.
    assert (k = Z.to_nat (n_tui n)); [|lia].
    eapply (proj1 (NoDup_nth_error _) (wn_names n Hwf)); [rewrite map_length; apply nth_error_Some; congruence|].
    rewrite (map_nth_error _ _ _ Hk), (map_nth_error _ _ _ Eu). congruence.
Qed.

Lemma utilities_spec x : In x (utility_names n nodes) <-> is_plain x.
Proof.
  unfold utility_names, is_plain. rewrite in_map_iff. split.
  - intros ([i t] & <- & Ht). apply filter_In in Ht. destruct Ht as [Hin Hc]. apply In_nth_error in Hin. destruct Hin as [k Hk].
    rewrite numbered_at in Hk. destruct (nth_error nodes k) as [t'|] eqn:Et; [|discriminate]. injection Hk as <- <-. cbn [fst snd] in *.
    pose proof (node_at k) as H. rewrite Et in H. destruct (nth_error vars k) as [v|] eqn:Ev; [|contradiction]. destruct H as [Hn Ht].
    apply andb_true_iff in Hc. destruct Hc as [H1 H2]. exists v. split; [eapply nth_error_In; eauto|]. split; auto. split.
    + unfold is_utility in H2. rewrite Ht in H2. destruct (nv_type v); auto; discriminate.
    + rewrite Hn, (total_at k v Ev). destruct (Z.of_nat k =? n_tui n); auto; discriminate.
  - intros (v & Hin & Hn & Ht & Hto). apply In_nth_error in Hin. destruct Hin as [k Hk]. pose proof (node_at k) as H. rewrite Hk in H.
    destruct (nth_error nodes k) as [t|] eqn:Et; [|contradiction]. destruct H as [H1 H2]. exists (Z.of_nat k, t). split; [cbn [fst snd]; congruence|]. apply filter_In. split.
    + eapply nth_error_In with (n := k). rewrite numbered_at, Et. auto.
    + cbn [fst snd]. unfold is_utility. rewrite H2, Ht. rewrite <- Hn, (total_at k v Hk) in Hto. rewrite Hto. auto.
Qed.

Lemma find_numbered {X} (l : list X) i : option_map snd (find (fun p => fst p =? i) (combine (zrange 0 (zlen l)) l)) = if i <? 0 then None else nth_error l (Z.to_nat i).
Proof.
  destruct (find (fun p => fst p =? i) (combine (zrange 0 (zlen l)) l)) as [[j x]|] eqn:E.
  - apply find_some in E. destruct E as [Hin Hj]. cbn [fst] in Hj. apply Z.eqb_eq in Hj. subst j. apply In_nth_error in Hin. destruct Hin as [k Hk].
    rewrite numbered_at in Hk. destruct (nth_error l k) as [x'|] eqn:Ek; [|discriminate]. injection Hk as <- <-. replace (Z.of_nat k <? 0) with false by lia. rewrite Nat2Z.id. auto.
  - destruct (i <? 0) eqn:Ei; auto. destruct (nth_error l (Z.to_nat i)) as [x|] eqn:Ex; auto. exfalso.
    assert (Hin : In (i, x) (combine (zrange 0 (zlen l)) l)).
    { eapply nth_error_In with (n := Z.to_nat i). rewrite numbered_at, Ex. simpl. f_equal. f_equal. lia. }
    pose proof (find_none _ _ E _ Hin) as H. cbn [fst] in H. lia.
Qed.

Lemma mapM_numbered {X Y} (F : Z * X -> gores Y) (G : X -> Y -> Prop) l : (forall k x, nth_error l k = Some x -> exists y, F (Z.of_nat k, x) = Ok y) ->
  exists r, mapM F (combine (zrange 0 (zlen l)) l) = Ok r /\ forall k, nth_error r k = match nth_error l k with Some x => match F (Z.of_nat k, x) with Ok y => Some y | _ => None end | None => None end.
Proof.
  intros H.
  assert (D : forall p : Z * X, exists o, F p = o) by eauto.
  assert (L : forall L, (forall p, In p L -> exists y, F p = Ok y) -> exists r, mapM F L = Ok r /\ forall k, nth_error r k = match nth_error L k with Some p => match F p with Ok y => Some y | _ => None end | None => None end).
  { induction L as [|p L IH]; intros HL; [exists []; split; auto; intros [|k]; auto|]. destruct (HL p (or_introl eq_refl)) as (y & Ey).
    destruct IH as (r & Er & Hr); [intros q Hq; apply HL; right; auto|]. exists (y :: r). cbn [mapM]. rewrite Ey. cbn [gbind]. rewrite Er. split; auto.
    intros [|k]; cbn [nth_error]; [rewrite Ey; auto|apply Hr]. }
  destruct (L (combine (zrange 0 (zlen l)) l)) as (r & Er & Hr).
  - intros p Hp. apply In_nth_error in Hp. destruct Hp as [k Hk]. rewrite numbered_at in Hk. destruct (nth_error l k) as [x|] eqn:Ex; [|discriminate]. injection Hk as <-. apply H. auto.
  - exists r. split; auto. intros k. rewrite Hr, numbered_at. destruct (nth_error l k); auto.
Qed.

Lemma total_part res : (forall x, is_plain x -> exists l, sget_map res x = Some (shown_expectation n ign ev (one_utility n x) :: l)) ->
  forall tot, exists res', match total_node n nodes with None => Ok res | Some node => total_values node tot res end = Ok res' /\
    forall x, sget_map res' x = if is_total n x then
        match total_factor n with
        | None => Some []
        | Some f => Some (map (fun '((g, w) : string * xnum) => nmul (shown_expectation n ign ev (one_utility n g)) w) (combine (nf_given f) (slice_of (nf_table f))) ++ [tot])
        end else sget_map res x.
Proof.
  intros Hres tot. unfold total_node. rewrite find_numbered.
  destruct (wn_total n Hwf) as [E|(i & v & k & f & l & Ei & Hv & Ht & Hk & Hf & Htab & Hlen & Hall)].
  - rewrite E. cbn [Z.ltb Z.compare]. exists res. split; auto. intros x. unfold is_total. rewrite E. destruct (nth_error vars _); auto.
  - rewrite Ei. replace (Z.of_nat i <? 0) with false by lia. rewrite Nat2Z.id. pose proof (node_at i) as H. rewrite Hv in H.
    destruct (nth_error nodes i) as [t|] eqn:Et; [|contradiction]. destruct H as [H1 H2].
    assert (Etf : total_factor n = Some f).
    { unfold total_factor. rewrite Ei. replace (Z.of_nat i <? 0) with false by lia. rewrite Nat2Z.id, Hv, Hk. auto. }
    assert (Est : snd t = Some f). { rewrite <- Etf. apply (proj2 Hnodes); [lia|]. rewrite Ei, Nat2Z.id. auto. }
    unfold total_values. rewrite Est.
    assert (Hone : forall j g, nth_error (nf_given f) j = Some g -> exists w, nth_error l j = Some w /\
      (let! x := sget (slice_of (sget_map res g)) 0 in let! w := sget (slice_of (nf_table f)) (Z.of_nat j) in Ok (nmul x w)) = Ok (nmul (shown_expectation n ign ev (one_utility n g)) (Fin w))).
    { intros j g Hj. destruct (dp_total n Hd f g Etf (nth_error_In _ _ Hj)) as [Hg1 Hg2]. unfold kind in Hg2. destruct (var_named vars g) as [u|] eqn:Eu; [|discriminate].
      apply (var_named_in n Hwf) in Eu. destruct Eu as [Huin Hun]. injection Hg2 as Hg2.
      destruct (Hres g) as (l' & El'); [exists u; auto|]. rewrite El'. cbn [slice_of]. change 0 with (Z.of_nat 0). rewrite sget_nat. cbn [nth_error gbind].
      destruct (nth_error l j) as [w|] eqn:Ew; [|apply nth_error_None in Ew; assert (j < List.length (nf_given f))%nat by (apply nth_error_Some; congruence); lia].
      exists w. split; auto. rewrite Htab. cbn [slice_of]. rewrite sget_nat, (map_nth_error _ _ _ Ew). auto. }
    destruct (@mapM_numbered _ _ (fun '((i, g) : Z * string) => let! x := sget (slice_of (sget_map res g)) 0 in let! w := sget (slice_of (nf_table f)) i in Ok (nmul x w))
       (fun _ _ => True) (nf_given f)) as (r & Er & Hr).
    { intros j g Hj. destruct (Hone j g Hj) as (w & _ & E). eauto. }
    rewrite Er. cbn [gbind]. eexists. split; [reflexivity|]. intros x. rewrite sset_map_get, Etf.
    replace (is_total n x) with (String.eqb x (nv_name (fst t))).
    2:{ unfold is_total. rewrite Ei, Nat2Z.id, Hv, H1. replace (0 <=? Z.of_nat i) with true by lia. apply String.eqb_sym. }
    destruct (String.eqb x (nv_name (fst t))); auto. do 2 f_equal.
    apply nth_error_ext. intros j. rewrite Hr, nth_error_map. destruct (nth_error (nf_given f) j) as [g|] eqn:Eg.
    + destruct (Hone j g Eg) as (w & Hw & E). cbv beta iota. rewrite E, Htab. cbn [slice_of]. rewrite nth_error_combine', Eg, (map_nth_error _ _ _ Hw). auto.
    + rewrite Htab. cbn [slice_of]. destruct (nth_error (combine (nf_given f) (map Fin l)) j) as [p|] eqn:Ep; auto. exfalso. apply nth_error_None in Eg.
      assert (j < List.length (combine (nf_given f) (map Fin l)))%nat by (apply nth_error_Some; congruence). rewrite combine_length in H. lia.
Qed.

Theorem solve_displays : exists n' m, tui_solve scs n ev nodes ig = (n', Ok m) /\ displayed n ig ev m /\ ready n'.
Proof.
  unfold tui_solve. destruct evidence_ok_all as (res0 & E0 & H0). rewrite E0. unfold solve_queries.
  destruct (total_prob n Hd (scs 1%nat) ig ev Hev) as (a & b & f & E1 & Ef1). rewrite E1.
  assert (Hm1 : ready (with_solver n a b)).
  { pose proof (solve_names_kept n Hwf (scs 1%nat) ev [] ig) as Hk. rewrite E1 in Hk. cbn [fst n_names with_solver] in Hk. rewrite Hk. eauto. }
  destruct (each_query (solve_names_of ev nodes) 4 _ res0 (fun x Hx => proj1 (queries_spec x) Hx) Hm1) as (m2 & res1 & E2 & Hm2 & H1). rewrite E2. cbn [gbind].
  unfold single_value at 1. rewrite Ef1. unfold solve_utility_nodes.
  assert (Htot : exists m3 g, net_solve_utility (scs 2%nat) m2 ev [] "" ig = (m3, Ok g) /\ ready m3 /\
     (some_utility n -> ndiv (single_value g) (Fin (mass n ign (agrees vars ev))) = shown_expectation n ign ev (utility_of n))).
  { pose proof Hm2 as Hm2'. destruct Hm2' as (a2 & ->). set (b2 := name_map (entries n)) in *.
    destruct (some_utility_dec n) as [Hs|Hs].
    - destruct (@all_utility_value (with_solver n a2 b2) (displayable_with a2 b2) (scs 2%nat) ig ev Hs Hev) as (a3 & b3 & g & E3 & Eg).
      exists (with_solver n a3 b3), g. split; [exact E3|]. split; [exact (keep_ready _ _ _ _ _ Hm2 E3)|]. intros _. unfold single_value. rewrite Eg. apply expectation.
    - destruct (@no_utility_value (with_solver n a2 b2) (displayable_with a2 b2) (scs 2%nat) ig ev Hs Hev) as (a3 & b3 & g & E3).
      exists (with_solver n a3 b3), g. split; [exact E3|]. split; [exact (keep_ready _ _ _ _ _ Hm2 E3)|]. intros H. contradiction. }
  destruct Htot as (m3 & g & E3 & Hm3 & Hg). rewrite E3.
  assert (Hus : utility_names m2 nodes = utility_names n nodes) by (destruct Hm2 as (a2 & ->); reflexivity).
  assert (Hts : total_node m2 nodes = total_node n nodes) by (destruct Hm2 as (a2 & ->); reflexivity).
  rewrite Hus, Hts. set (tot := ndiv (single_value g) (Fin (mass n ign (agrees vars ev)))) in *.
  destruct (each_utility tot (utility_names n nodes) (4 + List.length nodes) m3 res1 (fun x Hx => proj1 (utilities_spec x) Hx) Hm3) as (m4 & res2 & E4 & Hm4 & H2).
  rewrite E4. cbn [gbind].
  destruct (total_part res2) with (tot := tot) as (res3 & E5 & H3).
  { intros x Hx. exists [tot]. rewrite H2, (proj2 (listed_In x _)); auto. apply utilities_spec. auto. }
  rewrite E5. exists m4, res3. split; auto. split; auto. intros x. rewrite H3.
  destruct (var_named vars x) as [v|] eqn:Ev.
  - pose proof (proj1 (var_named_in n Hwf x v) Ev) as [Hin Hn]. cbn [option_map]. unfold shown_numbers. rewrite Hn.
    destruct (sget_map ev x) as [o|] eqn:Eo.
    + apply mget_In in Eo as Ho; [|apply String.eqb_eq]. rewrite (evidence_total x o Ho), H2.
      destruct (proj2 Hev x o Ho) as (v' & Hv' & Ht & _). assert (v' = v) by congruence. subst v'.
      replace (listed x (utility_names n nodes)) with false.
      2:{ symmetry. apply not_true_iff_false. rewrite listed_In, utilities_spec. intros (u & Hu & Hun & Hut & _). assert (u = v); [|congruence].
          pose proof (proj2 (var_named_in n Hwf x u) (conj Hu Hun)). congruence. }
      rewrite H1. replace (listed x (solve_names_of ev nodes)) with false.
      2:{ symmetry. apply not_true_iff_false. rewrite listed_In, queries_spec. intros (u & _ & _ & _ & He). apply He. apply in_map_iff. exists (x, o). auto. }
      rewrite H0. unfold observed_hot. rewrite Eo, Ev. auto.
    + destruct (is_total n x) eqn:Eto.
      * destruct (total_factor n) as [ft|] eqn:Etf; auto. do 3 f_equal. apply Hg.
        destruct (nf_given ft) as [|u l] eqn:Egv; [destruct (dp_parents n Hd ft Etf Egv)|].
        destruct (dp_total n Hd ft u Etf) as [Hu1 Hu2]; [rewrite Egv; left; auto|]. unfold kind in Hu2. destruct (var_named vars u) as [w|] eqn:Ew; [|discriminate].
        apply (var_named_in n Hwf) in Ew. destruct Ew as [Hwin Hwn]. exists w. split; auto. split; [injection Hu2; auto|congruence].
      * rewrite H2. destruct (nv_type v) eqn:Ety.
        -- replace (listed x (utility_names n nodes)) with false.
           2:{ symmetry. apply not_true_iff_false. rewrite listed_In, utilities_spec. intros (u & Hu & Hun & Hut & _). assert (u = v); [|congruence].
               pose proof (proj2 (var_named_in n Hwf x u) (conj Hu Hun)). congruence. }
           rewrite H1, (proj2 (listed_In x _)); [unfold num_outcomes; rewrite Ev; auto|]. apply queries_spec. exists v. split; auto. split; auto. split; [congruence|].
           intros He. apply has_key_spec in He. unfold has_key in He. rewrite Eo in He. discriminate.
        -- replace (listed x (utility_names n nodes)) with false.
           2:{ symmetry. apply not_true_iff_false. rewrite listed_In, utilities_spec. intros (u & Hu & Hun & Hut & _). assert (u = v); [|congruence].
               pose proof (proj2 (var_named_in n Hwf x u) (conj Hu Hun)). congruence. }
           rewrite H1, (proj2 (listed_In x _)); [unfold num_outcomes; rewrite Ev; auto|]. apply queries_spec. exists v. split; auto. split; auto. split; [congruence|].
           intros He. apply has_key_spec in He. unfold has_key in He. rewrite Eo in He. discriminate.
        -- assert (Hpl : is_plain x) by (exists v; auto). rewrite (proj2 (listed_In x _)) by (apply utilities_spec; auto). rewrite Hg; auto.
           exists v. split; auto. split; auto. congruence.
  - cbn [option_map]. destruct (is_total n x) eqn:Eto.
    { apply (total_kind n Hwf) in Eto. unfold kind in Eto. rewrite Ev in Eto. discriminate. }
    assert (Hno : forall v, In v vars -> nv_name v <> x).
    { intros v Hin Hn. rewrite (proj2 (var_named_in n Hwf x v)) in Ev; auto. discriminate. }
    rewrite H2. replace (listed x (utility_names n nodes)) with false.
    2:{ symmetry. apply not_true_iff_false. rewrite listed_In, utilities_spec. intros (u & Hu & Hun & _). eapply Hno; eauto. }
    rewrite H1. replace (listed x (solve_names_of ev nodes)) with false.
    2:{ symmetry. apply not_true_iff_false. rewrite listed_In, queries_spec. intros (u & Hu & Hun & _). eapply Hno; eauto. }
    rewrite H0. unfold observed_hot. rewrite Ev. destruct (sget_map ev x); auto.
Qed.

Lemma used_ready m : ready m -> used_before m.
Proof.
  intros (a & ->) x v Hv Ht. cbn [n_names with_solver]. destruct (lookup_known n Hwf x) as (i & w & Hi & Hn & Hw & _ & L); [split; eauto|].
  unfold lookup in L. exists (ve_entry n (Z.of_nat i, w)). split; auto. change (en_var (ve_entry n (Z.of_nat i, w))) with w.
  change (n_vars (with_solver n a (name_map (entries n)))) with vars in Hv. congruence.
Qed.
End Parts.
