(** Consequences for the public API: mass, scaling, wrong names, evidence vectors, rearranging. *)
From Coq Require Import ZArith List Bool String Lia Permutation QArith Qcanon.
From Verif Require Import Num GoBase VarModel GoFacts Tuples SpecFactor FactorFacts FactorAt XnumFacts ExactFactor FactorThms
  VEModel SpecVE VEWorlds VEFacts VEHidden VESolve VEThms VEUtil NetModel SpecNet NetVars NetFactors NetVE NetSums NetQuery NetEvents NetUtil
  NetHistory NetMass.
Import ListNotations.
Open Scope string_scope.
Open Scope list_scope.
Open Scope Z_scope.

Lemma factor_eq {A} (f g : factor A) : f_id f = f_id g -> f_vars f = f_vars g -> f_data f = f_data g -> f = g.
Proof. destruct f, g; simpl; intros; subst; auto. Qed.

Section NC.
Variable n : network xnum.
Hypothesis Hwf : wf_network n.
Notation vars := (n_vars n).
Notation vv := (vv n).
Notation by_name := (by_name n).
Notation known := (known n).
Notation V := (net_vars n).

(** ** Probability mass *)
Lemma causal_complete ign : causal n ign [] -> complete n.
Proof.
  intros Hca v Hv Ht. assert (Hin : In (nv_name v) (conditionals n ign)) by (apply (ca_all _ _ _ Hca v); auto; congruence).
  apply in_app_iff in Hin. destruct Hin as [Hin|Hin]; apply in_map_iff in Hin; destruct Hin as (f & E & Hf).
  - exists f. split; auto. apply filter_In in Hf. tauto.
  - apply filter_In in Hf. destruct Hf as [Hf _]. destruct f as [d p]. simpl in E. subst d. pose proof (wp_decision _ _ _ (wn_policies n Hwf _ _ Hf)) as Hk.
    unfold kind in Hk. rewrite (proj2 (var_named_in n Hwf (nv_name v) v)) in Hk by auto. simpl in Hk. congruence.
Qed.

Lemma causal_mentioned ign v : causal n ign [] -> In v vars -> nv_type v <> Utility -> mentioned n ign (nv_name v).
Proof.
  intros Hca Hv Ht. assert (Hin : In (nv_name v) (conditionals n ign)) by (apply (ca_all _ _ _ Hca v); auto).
  apply in_app_iff in Hin. destruct Hin as [Hin|Hin]; apply in_map_iff in Hin; destruct Hin as (f & E & Hf).
  - left. exists f. split; auto. apply in_app_iff. simpl. auto.
  - right. apply filter_In in Hf. destruct Hf as [Hf Hi]. apply negb_true_iff in Hi. destruct f as [d p]. simpl in E, Hi. subst d.
    destruct (wp_own _ _ _ (wn_policies n Hwf _ _ Hf)) as (i & nv & w & H1 & H2 & H3 & H4). exists (nv_name v), p, i, nv, w. repeat (split; auto).
Qed.

Lemma causal_solved v : causal n (fun _ => false) [] -> In v vars -> nv_type v = Decision -> has_key (n_policies n) (nv_name v) = true.
Proof.
  intros Hca Hv Ht. assert (Hin : In (nv_name v) (conditionals n (fun _ => false))) by (apply (ca_all _ _ _ Hca v); auto; congruence).
  apply in_app_iff in Hin. destruct Hin as [Hin|Hin]; apply in_map_iff in Hin; destruct Hin as (f & E & Hf).
  - destruct (chance_in n Hwf f Hf) as (_ & Hk & _). rewrite E in Hk. unfold kind in Hk. rewrite (proj2 (var_named_in n Hwf (nv_name v) v)) in Hk by auto.
    simpl in Hk. congruence.
  - apply filter_In in Hf. destruct Hf as [Hf _]. apply has_key_spec. rewrite <- E. apply in_map. auto.
Qed.

Lemma mass_le ign p q : nonnegative n -> (forall s, p s = true -> q s = true) -> (mass n ign p <= mass n ign q)%Qc.
Proof.
  intros Hnn Hpq. unfold mass. induction (worlds_of n) as [|s l IH]; simpl; [apply Qcle_refl|].
  pose proof (joint_nonneg n ign s Hnn) as Hs.
  destruct (p s) eqn:Ep.
  - rewrite (Hpq s Ep). simpl. apply Qcplus_le_compat; auto. apply Qcle_refl.
  - destruct (q s); simpl; auto.
    rewrite <- (Qcplus_0_l (qsum _)). apply Qcplus_le_compat; auto.
Qed.

Theorem mass_one : causal n (fun _ => false) [] -> mass n (fun _ => false) (agrees vars []) = 1%Qc.
Proof.
  intros Hca. transitivity (mass n (fun _ => false) (fun s => agrees vars [] s && same_on [] nowhere s)).
  - unfold mass. do 2 f_equal. 
  - apply (causal_mass n Hwf _ []); auto.
    + split; [constructor|intros ? ? []].
    + intros v Hv. unfold nowhere. pose proof (wn_outcomes n Hwf v Hv) as H. unfold zlen in H. lia.
    + constructor.
    + intros x. simpl. tauto.
    + intros x [].
Qed.

Theorem probability_of_evidence sc ev : causal n (fun _ => false) [] -> valid_observations n ev ->
  exists n' f, net_solve_query sc n ev [] false = (n', Ok ([], f)) /\ f_vars f = [] /\
    f_data f = [Fin (mass n (fun _ => false) (agrees vars ev))] /\
    (nonnegative n -> (0 <= mass n (fun _ => false) (agrees vars ev) <= 1)%Qc).
Proof.
  intros Hca Hv. pose proof (causal_complete _ Hca) as Hco.
  destruct (solve_query_factor n Hwf sc false ev [] Hco Hv) as (n' & f & E & Hr); [intros q []|].
  unfold net_solve_query. rewrite E. simpl. exists n', f. split; auto.
  assert (Hnames : f_vars f = []).
  { destruct (f_vars f) as [|v l] eqn:Ef; auto. exfalso.
    pose proof (rf_names _ _ _ _ _ _ _ Hr) as Hn. unfold factor_names in Hn. rewrite Ef in Hn.
    destruct (Hn _ (or_introl eq_refl)) as (_ & _ & t & Ht & [[_ []]|[_ [[]|Ho]]]).
    assert (Hop : exists d, open_decision n d) by (destruct Ho as [Ho|(g & _ & Ho & _)]; eauto).
    destruct Hop as (d & Hd1 & Hd2). unfold kind in Hd1. destruct (var_named vars d) as [w|] eqn:Ew; [|discriminate].
    apply (var_named_in n Hwf) in Ew. destruct Ew as [Hw <-]. simpl in Hd1. inversion Hd1 as [Hty].
    rewrite (causal_solved w Hca Hw Hty) in Hd2. discriminate. }
  split; auto.
  destruct (rf_value _ _ _ _ _ _ _ Hr) as (c & Hc & Hc1 & Hval).
  assert (c = 1%Qc). { apply Hc1. intros v Hvin Ht _. apply (causal_mentioned _ v Hca); auto. }
  assert (Hs0 : proper_state n nowhere).
  { intros v Hvin. unfold nowhere. pose proof (wn_outcomes n Hwf v Hvin) as H0. unfold zlen in H0. lia. }
  specialize (Hval nowhere Hs0). rewrite H, Qcmult_1_l in Hval.
  unfold factor_names in Hval. rewrite Hnames in Hval. simpl in Hval.
  assert (Hm : sum_over n (joint n (fun _ => false)) (fun s' => agrees vars ev s' && true) = mass n (fun _ => false) (agrees vars ev)).
  { unfold sum_over, mass. do 2 f_equal. apply filter_ext. intros s. apply andb_true_r. }
  split.
  - pose proof (rf_finite _ _ _ _ _ _ _ Hr) as Hfin. pose proof (rf_wf _ _ _ _ _ _ _ Hr) as Hw.
    rewrite (denotes_data f (value f) (positions vars nowhere) Hw (finite_denotes f Hfin)), Hnames. simpl. do 2 f_equal.
    unfold factor_value in Hval. rewrite Hval, <- Hm. reflexivity.
  - intros Hnn. split; [apply (mass_nonneg n); auto|]. rewrite <- (mass_one Hca). apply mass_le; auto.
Qed.

(** ** Wrong names *)
Lemma bad_lookup x : bad_name n x <-> sget_map (name_map (entries n)) x = None.
Proof.
  split.
  - intros H. destruct (sget_map (name_map (entries n)) x) as [e|] eqn:E; auto. exfalso. apply (lookup_inv n Hwf) in E.
    destruct E as ((H1 & v & H2) & _). destruct H; congruence.
  - intros E. destruct (is_total n x) eqn:Et; [right; auto|]. destruct (var_named vars x) as [v|] eqn:Ev; [|left; auto].
    exfalso. destruct (lookup_known n Hwf x) as (i & w & _ & _ & _ & _ & L); [split; eauto|]. unfold lookup in L. congruence.
Qed.

Lemma mapM_err {X Y} (f : X -> gores Y) l : (forall x, In x l -> exists r, f x = r /\ match r with Panic _ => False | _ => True end) ->
  (exists x e, In x l /\ f x = Err e) -> exists e, mapM f l = Err e.
Proof.
  induction l as [|y l IH]; intros Hall (x & e & Hx & E); [destruct Hx|]. cbn [mapM].
  destruct (Hall y (or_introl eq_refl)) as (r & Er & Hr). rewrite Er. destruct r as [z|e'|p]; [|cbn [gbind]; eauto|destruct Hr].
  cbn [gbind]. destruct Hx as [->|Hx]; [congruence|]. destruct (IH (fun u Hu => Hall u (or_intror Hu))) as (e1 & ->); eauto. cbn [gbind]. eauto.
Qed.

Lemma index_in l o : str_index l o < 0 <-> ~ In o l.
Proof.
  unfold str_index. rewrite index_func_neg. split.
  - intros H Hin. specialize (H o Hin). rewrite String.eqb_refl in H. discriminate.
  - intros H x Hx. apply String.eqb_neq. intros ->. auto.
Qed.

Theorem bad_names_err sc ev query utility u ig :
  (exists x o, In (x, o) ev /\ bad_observation n x o) \/ (exists q, In q query /\ bad_name n q) \/ (utility = true /\ u <> "" /\ bad_name n u) ->
  exists e, snd (net_solve sc n ev query utility u ig) = Err e.
Proof.
  intros Hbad. rewrite net_solve_core. cbn [fst snd].
  destruct (to_ve_ok n Hwf sc 0 (if ig then ev else [])) as (vs & fs & E & Hcr). rewrite E. cbn [solve_core].
  unfold solve_names. cbn [ve_tick ve_new].
  assert (Hev : forall x, In x (shuffle sc 1 ev) -> In x ev) by (intros x Hx; apply (Permutation_in _ (Permutation_sym (shuffle_perm sc 1%nat _ ev))); auto).
  assert (Hnp : exists r, net_evidence (name_map (entries n)) (shuffle sc 1 ev) = r /\ match r with Panic _ => False | _ => True end).
  { eexists. split; [reflexivity|]. unfold net_evidence. induction (shuffle sc 1 ev) as [|[x o] l IH]; simpl; auto.
    destruct (sget_map (name_map (entries n)) x) as [e|]; simpl; auto. destruct (_ <? 0); simpl; auto.
    destruct (mapM _ l); simpl; auto. apply IH. intros y Hy. apply Hev. simpl. auto. }
  destruct Hbad as [(x & o & Hin & Hb)|[(q & Hq & Hb)|(Hu & Hne & Hb)]].
  - assert (Hx : exists e, net_evidence (name_map (entries n)) (shuffle sc 1 ev) = Err e).
    { apply mapM_err.
      - intros [y p] _. eexists. split; [reflexivity|]. destruct (sget_map (name_map (entries n)) y); simpl; auto. destruct (_ <? 0); auto.
      - exists (x, o). destruct (sget_map (name_map (entries n)) x) as [e|] eqn:El.
        + assert (Hno : ~ In o (nv_outcomes (en_var e))).
          { destruct Hb as [Hb|(v & Hv & Hno)].
            - apply bad_lookup in Hb. congruence.
            - apply (lookup_inv n Hwf) in El. destruct El as (_ & El & _). assert (v = en_var e) by congruence. subst v. auto. }
          assert (Hlt : (str_index (nv_outcomes (en_var e)) o <? 0) = true) by (apply Z.ltb_lt; apply index_in; auto).
          exists (EMsg "outcome for evidence variable not found"). split; [apply (Permutation_in _ (shuffle_perm sc 1%nat _ ev)); auto|].
          cbv beta iota zeta. rewrite ?El, Hlt. reflexivity.
        + exists (EMsg "evidence variable not found"). split; [apply (Permutation_in _ (shuffle_perm sc 1%nat _ ev)); auto|].
          cbv beta iota zeta. rewrite ?El. reflexivity. }
    destruct Hx as (e & ->). cbn [gbind snd]. eauto.
  - destruct Hnp as (r & -> & Hr). destruct r as [l|e|]; [|cbn [gbind snd]; eauto|destruct Hr]. cbn [gbind].
    assert (Hx : exists e, net_query_vars (name_map (entries n)) query = Err e).
    { apply mapM_err.
      - intros y _. eexists. split; [reflexivity|]. destruct (sget_map (name_map (entries n)) y); auto.
      - exists q. apply bad_lookup in Hb. rewrite Hb. eauto. }
    destruct Hx as (e & ->). cbn [gbind snd]. eauto.
  - destruct Hnp as (r & -> & Hr). destruct r as [l|e|]; [|cbn [gbind snd]; eauto|destruct Hr]. cbn [gbind].
    assert (Hnq : match net_query_vars (name_map (entries n)) query with Panic _ => False | _ => True end).
    { unfold net_query_vars. clear. induction query as [|y l IH]; simpl; auto. destruct (sget_map (name_map (entries n)) y); simpl; auto.
      destruct (mapM _ l); simpl; auto. }
    destruct (net_query_vars (name_map (entries n)) query) as [l'|e|]; [|cbn [gbind snd]; eauto|destruct Hnq]. cbn [gbind]. rewrite Hu.
    replace (String.eqb u "") with false by (symmetry; apply String.eqb_neq; auto).
    apply bad_lookup in Hb. rewrite Hb. cbn [gbind snd]. eauto.
Qed.

Theorem bad_names_query_err sc ev query ig :
  (exists x o, In (x, o) ev /\ bad_observation n x o) \/ (exists q, In q query /\ bad_name n q) ->
  exists e, snd (net_solve_query sc n ev query ig) = Err e.
Proof.
  intros Hbad. destruct (bad_names_err sc ev query false "" ig) as (e & E); [tauto|]. unfold net_solve_query.
  destruct (net_solve sc n ev query false "" ig) as [m r]. cbn [snd] in E. subst r. exists e. reflexivity.
Qed.

(** ** Queries about variables that are not in the result *)
Theorem missing_panics sc ig ev query q : complete n -> valid_observations n ev -> valid_query n query -> In q query ->
  In q (map fst ev) \/ ~ mentioned n (ignored_by ig ev) q -> exists p, snd (net_solve_query sc n ev query ig) = Panic p.
Proof.
  intros Hco Hv Hvq Hq Hmis. destruct (solve_query_raw n Hwf sc ig ev query Hco Hv Hvq) as (s & f & vs & fs & E & HV & Hcr & Hr).
  unfold net_solve_query. rewrite E. unfold NetUtil.with_state. rewrite query_marginals_core. cbn [n_names n_ve with_solver].
  pose proof (query_known n Hwf query Hvq) as Hqk.
  assert (Hnin : ~ In (vv q) (f_vars f)).
  { intros Hin. destruct (Hqk q Hq) as [Hk Hu]. apply (sr_scope _ _ _ _ _ _ _ Hr) in Hin; auto; [|apply (vv_in n Hwf); auto].
    destruct Hin as (Hoc & He & _). destruct Hmis as [H|H].
    - apply (evidence_key n Hwf ev q Hv Hk) in H. congruence.
    - apply H. apply (scope_mentioned n Hwf ig ev vs fs Hcr); auto. }
  assert (Hf : finite_factor f). { apply (finite_of_range n Hwf); auto; [apply Hr|]. intros a Ha. eexists. apply (sr_value _ _ _ _ _ _ _ Hr). auto. }
  assert (dec : forall u v : variable, {u = v} + {u <> v}) by (repeat decide equality).
  assert (G : forall L s res, incl L query -> In q L -> exists p, foldM (fun '((ve, res) : option (vestate xnum) * list (string * list xnum)) q =>
    let! (ve, m) := match sget_map (name_map (entries n)) q with
                    | None => Panic (PMsg "marginal: variable not found")
                    | Some vv => on_solver ve (fun vs => marginal vs f (en_ve vv))
                    end in
    let! (ve, m) := on_solver ve (fun vs => normalize vs m) in
    Ok (ve, sset_map res q (f_data m))) (Some s, res) L = Panic p).
  { induction L as [|y L IH]; intros s1 res Hi HL; [destruct HL|]. cbn [foldM].
    destruct (Hqk y (Hi y (or_introl eq_refl))) as [Hk Hu]. destruct (lookup_known n Hwf y Hk) as (i & v & _ & _ & _ & _ & Lk).
    unfold lookup in Lk. rewrite Lk. replace (en_ve (ve_entry n (Z.of_nat i, v))) with (vv y) by (unfold NetFactors.vv, lookup; rewrite Lk; auto).
    cbn [on_solver]. destruct (in_dec dec (vv y) (f_vars f)) as [Hin|Hno].
    - destruct (denotes_marginal (ve_vs s1) f (vv y) (value f)) as (m & Em & _ & Hwm & _ & Hdm); auto; [apply Hr|apply finite_denotes; auto|].
      rewrite Em. cbn [gbind on_solver]. destruct (denotes_normalize (ve_vs (with_vs s1 (bump (ve_vs s1)))) m _ zero_asg Hwm Hdm) as (m' & En & _).
      rewrite En. cbn [gbind]. apply IH; [intros z Hz; apply Hi; simpl; auto|]. destruct HL as [->|HL]; auto. congruence.
    - exists (PMsg "variable not in this factor"). unfold marginal.
      replace (index_func _ (f_vars f) <? 0) with true; [reflexivity|]. symmetry. apply Z.ltb_lt. apply index_func_neg.
      intros u Hu0. apply Z.eqb_neq. intros E0. apply Hno. replace (vv y) with u; auto. apply (wf_vars_inj V); auto; [apply net_vars_wf|apply Hr; auto|apply (vv_in n Hwf); auto]. }
  destruct (G query s [] (incl_refl _) Hq) as (p & Ep). unfold marginals_core. rewrite Ep. cbn [gbind snd]. eauto.
Qed.

(** ** ToEvidence and Rearrange after a solve *)
Lemma solve_names_kept sc ev query ig : n_names (fst (net_solve_query sc n ev query ig)) = name_map (entries n).
Proof.
  rewrite net_solve_query_core. cbn [fst]. destruct (to_ve_ok n Hwf sc 0 (if ig then ev else [])) as (vs & fs & E & _). rewrite E.
  unfold query_core. cbn [solve_core]. destruct (solve_names _ _ _ _ _ _ _) as [[s' f]| |]; auto.
  destruct (marginals_core _ _ _ _) as [[ve' res]| |]; auto.
Qed.

Theorem to_evidence_ok m x o v : n_names m = name_map (entries n) -> is_total n x = false -> var_named vars x = Some v -> In o (nv_outcomes v) ->
  net_to_evidence (N := xnum_ops) m x o = Ok (map (fun o' => if String.eqb o' o then Fin 1%Qc else Fin 0%Qc) (nv_outcomes v)).
Proof.
  intros Hm Ht Hv Ho. unfold net_to_evidence. rewrite Hm.
  destruct (lookup_known n Hwf x) as (i & w & Hi & Hn & Hw & _ & L); [split; eauto|]. unfold lookup in L. rewrite L.
  assert (w = v) by congruence. subst w. change (en_var (ve_entry n (Z.of_nat i, v))) with v.
  assert (Hvin : In v vars) by (eapply nth_error_In; eauto).
  destruct (str_index_spec (nv_outcomes v) o (wn_distinct n Hwf v Hvin) Ho) as (k & Ek & Hk). rewrite Ek.
  replace (Z.of_nat k <? 0) with false by lia. unfold smake. replace (zlen (nv_outcomes v) <? 0) with false by (unfold zlen; lia). cbn [gbind].
  assert (Hkl : (k < List.length (nv_outcomes v))%nat) by (apply nth_error_Some; rewrite (proj2 (Hk k) eq_refl); discriminate).
  unfold zlen. rewrite Nat2Z.id, sset_ok by (rewrite repeat_length; auto). f_equal.
  apply nth_error_ext. intros j. rewrite nth_error_map. destruct (Nat.eq_dec j k) as [->|Hjk].
  - rewrite upd_nth_same by (rewrite repeat_length; auto). rewrite (proj2 (Hk k) eq_refl). simpl. rewrite String.eqb_refl. auto.
  - rewrite upd_nth_other by auto. destruct (nth_error (nv_outcomes v) j) as [o'|] eqn:Ej.
    + rewrite nth_error_repeat by (apply nth_error_Some; congruence). simpl. destruct (String.eqb o' o) eqn:Eo; auto.
      apply String.eqb_eq in Eo. subst o'. apply Hk in Ej. congruence.
    + apply nth_error_None. rewrite repeat_length. apply nth_error_None. auto.
Qed.

Theorem to_evidence_err m x o : n_names m = name_map (entries n) -> bad_observation n x o -> exists e, net_to_evidence (N := xnum_ops) m x o = Err e.
Proof.
  intros Hm Hb. unfold net_to_evidence. rewrite Hm. destruct (sget_map (name_map (entries n)) x) as [e|] eqn:El; eauto.
  destruct Hb as [Hb|(v & Hv & Hno)]; [apply bad_lookup in Hb; congruence|].
  apply (lookup_inv n Hwf) in El. destruct El as (_ & El & _). assert (v = en_var e) by congruence. subst v.
  replace (_ <? 0) with true; eauto. symmetry. apply Z.ltb_lt. apply index_in. auto.
Qed.

Lemma last_removelast {X} (l : list X) d : l <> [] -> l = removelast l ++ [last l d].
Proof. apply app_removelast_last. Qed.

Lemma filter_combine {X} (p : bool -> X -> bool) (g : X -> bool) l :
  map snd (filter (fun '((d, x) : bool * X) => p d x) (combine (map g l) l)) = filter (fun x => p (g x) x) l.
Proof. induction l as [|x l IH]; simpl; auto. destruct (p (g x) x); simpl; rewrite IH; auto. Qed.

Lemma lookup_ok (m : network xnum) (f : factor xnum) x : n_names m = name_map (entries n) -> wf_factor f -> incl (f_vars f) V -> known x -> In (vv x) (f_vars f) ->
  exists k, nth_error (f_vars f) k = Some (vv x) /\ rearrange_lookup m f x = Ok (Z.of_nat k, vv x).
Proof.
  intros Hm Hw Hi Hk Hin. unfold rearrange_lookup, variable_index. rewrite Hm.
  destruct (lookup_known n Hwf x Hk) as (i & v & _ & _ & _ & _ & L). unfold lookup in L. rewrite L.
  replace (en_ve (ve_entry n (Z.of_nat i, v))) with (vv x) by (unfold NetFactors.vv, lookup; rewrite L; auto).
  destruct (index_func_spec (var_is (vv x)) (f_vars f)) as [[_ H]|(k & u & E & Hu & Hp & _)].
  - specialize (H _ Hin). unfold var_is in H. rewrite Z.eqb_refl in H. discriminate.
  - assert (u = vv x). { apply (wf_vars_inj V); [apply net_vars_wf|apply Hi; eapply nth_error_In; eauto|apply (vv_in n Hwf); auto|]. unfold var_is in Hp. apply Z.eqb_eq in Hp. auto. }
    subst u. exists k. split; auto. rewrite E. replace (Z.of_nat k <? 0) with false by lia. cbn [gbind].
    rewrite sget_ok with (x := vv x) by auto. reflexivity.
Qed.

Definition marked (names : list string) (v : variable) : bool := existsb (fun x => v_id v =? v_id (vv x)) names.

Lemma mark_step f k x names : wf_factor f -> nth_error (@f_vars xnum f) k = Some (vv x) ->
  sset (map (marked names) (f_vars f)) (Z.of_nat k) true = Ok (map (marked (names ++ [x])) (f_vars f)).
Proof.
  intros Hw Hk. assert (Hl : (k < List.length (f_vars f))%nat) by (apply nth_error_Some; congruence).
  rewrite sset_ok by (rewrite map_length; auto). f_equal. apply nth_error_ext. intros j. destruct (Nat.eq_dec j k) as [->|Hjk].
  - rewrite upd_nth_same by (rewrite map_length; auto). rewrite nth_error_map, Hk. simpl. unfold marked. rewrite existsb_app. simpl. rewrite Z.eqb_refl, orb_true_r. auto.
  - rewrite upd_nth_other by auto. rewrite !nth_error_map. destruct (nth_error (f_vars f) j) as [v|] eqn:Ej; auto. simpl. unfold marked. rewrite existsb_app. simpl.
    replace (v_id v =? v_id (vv x)) with false; [rewrite !orb_false_r; auto|]. symmetry. apply Z.eqb_neq. intros E. apply Hjk.
    assert (Hnd : NoDup (map v_id (f_vars f))) by apply Hw. rewrite NoDup_nth_error in Hnd. apply Hnd; [rewrite map_length; apply nth_error_Some; congruence|].
    rewrite !nth_error_map, Ej, Hk. simpl. congruence.
Qed.

Theorem rearrange_ok (m : network xnum) (f : factor xnum) names : n_names m = name_map (entries n) -> n_ve m <> None -> wf_factor f -> incl (f_vars f) V ->
  names <> [] -> NoDup names -> incl names (factor_names n f) ->
  exists m' g, net_rearrange m f names = Ok (m', g) /\ wf_factor g /\
    factor_names n g = removelast names ++ filter (fun x => negb (existsb (String.eqb x) names)) (factor_names n f) ++ [last names ""] /\
    forall s, proper_state n s -> get_at g (positions vars s) = get_at f (positions vars s).
Proof.
  intros Hm Hve Hw Hi Hne Hnd Hin.
  assert (Hkn : forall x, In x names -> known x /\ In (vv x) (f_vars f)) by (intros x Hx; apply (in_factor_names n Hwf); auto).
  set (front := removelast names). set (la := last names ""). assert (Esp : names = front ++ [la]) by (apply app_removelast_last; auto).
  assert (Hla : In la names) by (rewrite Esp; apply in_app_iff; simpl; auto).
  assert (Hfr : incl front names) by (intros x Hx; rewrite Esp; apply in_app_iff; auto).
  assert (HF : forall L done vs, incl L front -> foldM (fun '((vars, done) : list variable * list bool) name =>
      let! (idx, x) := rearrange_lookup m f name in
      let! done' := sset done idx true in
      Ok ((vars ++ [x]), done')) (vs, map (marked done) (f_vars f)) L = Ok (vs ++ map vv L, map (marked (done ++ L)) (f_vars f))).
  { induction L as [|x L IH]; intros done vs HL; cbn [foldM].
    - rewrite !app_nil_r. auto.
    - destruct (Hkn x (Hfr x (HL x (or_introl eq_refl)))) as [Hk Hx]. destruct (lookup_ok m f x Hm Hw Hi Hk Hx) as (k & Hk' & ->). cbn [gbind].
      rewrite (mark_step f k x) by auto. cbn [gbind]. rewrite IH by (intros y Hy; apply HL; simpl; auto). simpl. rewrite <- !app_assoc. auto. }
  unfold net_rearrange, rearrange_variables. fold front.
  assert (E0 : repeat false (List.length (f_vars f)) = map (marked []) (f_vars f)).
  { clear. induction (f_vars f); simpl; auto. f_equal. auto. }
  rewrite E0, (HF front [] [] (incl_refl _)). cbn [gbind app].
  assert (El : sget names (zlen names - 1) = Ok la).
  { replace (zlen names - 1) with (Z.of_nat (List.length front)).
    - apply sget_ok. rewrite Esp, nth_error_app2, Nat.sub_diag by lia. auto.
    - unfold zlen. rewrite Esp. rewrite app_length. simpl. lia. }
  rewrite El. cbn [gbind]. destruct (Hkn la Hla) as [Hkl Hinl]. destruct (lookup_ok m f la Hm Hw Hi Hkl Hinl) as (k & Hk' & ->). cbn [gbind].
  rewrite (filter_combine (fun d x => negb (d || var_is x (vv la))) (marked front) (f_vars f)).
  set (others := filter (fun x => negb (marked front x || var_is x (vv la))) (f_vars f)).
  assert (Hoth : others = filter (fun v => negb (marked names v)) (f_vars f)).
  { apply filter_ext. intros v. f_equal. rewrite Esp. unfold marked. rewrite existsb_app. simpl. rewrite orb_false_r. unfold var_is. auto. }
  assert (Hnm : forall v, In v (f_vars f) -> (marked names v = true <-> exists x, In x names /\ v = vv x)).
  { intros v Hv. unfold marked. rewrite existsb_exists. split.
    - intros (x & Hx & E). exists x. split; auto. apply Z.eqb_eq in E. apply (wf_vars_inj V); auto; [apply net_vars_wf|apply (vv_in n Hwf); apply Hkn; auto].
    - intros (x & Hx & ->). exists x. split; auto. apply Z.eqb_refl. }
  assert (Hndv : NoDup (f_vars f)) by (eapply NoDup_map_inv; apply Hw).
  assert (HP : Permutation (map vv front ++ others ++ [vv la]) (f_vars f)).
  { apply (Permutation_trans (l' := map vv names ++ others)).
    - rewrite Esp, map_app, <- app_assoc. apply Permutation_app_head. simpl. apply Permutation_sym. apply Permutation_cons_append.
    - rewrite Hoth. apply NoDup_Permutation; auto.
      + apply NoDup_app_intro.
        * apply (NoDup_map_inv v_id). apply (wf_vars_vv n Hwf); auto. intros x Hx. apply Hkn; auto.
        * apply NoDup_filter. auto.
        * intros v H1 H2. apply filter_In in H2. destruct H2 as [H2 H3]. apply negb_true_iff in H3. apply in_map_iff in H1. destruct H1 as (x & <- & Hx).
          apply not_true_iff_false in H3. apply H3. apply Hnm; eauto.
      + intros v. rewrite in_app_iff, filter_In, in_map_iff. split.
        * intros [(x & <- & Hx)|[H _]]; auto. apply Hkn; auto.
        * intros Hv. destruct (marked names v) eqn:E; auto. left. apply Hnm in E; auto. destruct E as (x & Hx & ->). eauto. }
  destruct (n_ve m) as [s|] eqn:Es; [|congruence]. unfold on_variables. rewrite Es.
  destruct (rearrange_at (ve_vs s) f _ Hw HP) as (g & Eg & _ & Hwg & Hvg & Hat). rewrite Eg. cbn [gbind].
  eexists. exists g. split; [reflexivity|]. split; auto. split.
  - unfold factor_names at 1. rewrite Hvg, !map_app, map_map. simpl. f_equal; [|f_equal].
    + rewrite <- (map_id front) at 2. apply map_ext_in. intros x Hx. apply (name_at n Hwf). apply Hkn; auto.
    + rewrite Hoth. unfold factor_names. rewrite filter_map_comm'. f_equal. apply filter_ext_in. intros v Hv. f_equal.
      destruct (vv_surj n Hwf v (Hi v Hv)) as (y & Hky & ->). rewrite (name_at n Hwf y Hky). apply eq_true_iff_eq. rewrite Hnm by auto. rewrite existsb_exists. split.
      * intros (x & Hx & E). exists x. split; auto. apply String.eqb_eq. apply (vv_inj n Hwf); auto; [apply Hkn; auto|congruence].
      * intros (x & Hx & E). apply String.eqb_eq in E. subst x. eauto.
    + f_equal. apply (name_at n Hwf). auto.
  - intros st Hst. apply Hat. intros v Hv. apply (Permutation_in _ HP) in Hv. destruct (vv_surj n Hwf v (Hi v Hv)) as (x & Hk & ->).
    rewrite (positions_vv n Hwf) by auto. destruct (vv_outcomes n Hwf x Hk) as [-> _].
    destruct Hk as [_ (w & Hw0)]. unfold num_outcomes. rewrite Hw0. apply (var_named_in n Hwf) in Hw0. destruct Hw0 as [Hin' <-]. apply Hst. auto.
Qed.
End NC.
