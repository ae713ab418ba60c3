(** The factor that SolveQuery returns, and answers of several calls. *)
From Coq Require Import ZArith List Bool String Lia Permutation QArith Qcanon.
From Verif Require Import Num GoBase VarModel GoFacts Tuples SpecFactor FactorFacts FactorAt XnumFacts ExactFactor FactorThms
  VEModel SpecVE VEWorlds VEFacts VESolve VEThms VEUtil NetModel SpecNet NetVars NetFactors NetVE NetSums NetQuery NetEvents NetUtil NetHistory NetCor NetMarkov.
Import ListNotations.
Open Scope string_scope.
Open Scope list_scope.
Open Scope Z_scope.

(** ** The solver is kept after a query *)
Lemma on_solver_some {A} {N : NumOps A} {X} (s : vestate A) (op : vstate -> gores (vstate * X)) ve x :
  on_solver (Some s) op = Ok (ve, x) -> exists s', ve = Some s'.
Proof. cbn. destruct (op (ve_vs s)) as [[v y]| |]; cbn; intros E; inversion E; eauto. Qed.

Lemma marginals_some {A} {N : NumOps A} names f query : forall (ve ve' : option (vestate A)) res res' s, ve = Some s ->
  foldM (fun '((ve, res) : option (vestate A) * list (string * list A)) q =>
    let! (ve, m) := match sget_map names q with
                    | None => Panic (PMsg "marginal: variable not found")
                    | Some vv => on_solver ve (fun vs => marginal vs f (en_ve vv))
                    end in
    let! (ve, m) := on_solver ve (fun vs => normalize vs m) in
    Ok (ve, sset_map res q (f_data m))) (ve, res) query = Ok (ve', res') -> exists s', ve' = Some s'.
Proof.
  induction query as [|q l IH]; intros ve ve' res res' s -> E.
  - cbn in E. inversion E; eauto.
  - cbn [foldM] in E. destruct (sget_map names q) as [e|]; [|discriminate].
    destruct (on_solver (Some s) (fun vs => marginal vs f (en_ve e))) as [[v1 m1]| |] eqn:E1; [|discriminate|discriminate].
    cbn [gbind] in E. destruct (on_solver_some _ _ _ _ E1) as (s1 & ->).
    destruct (on_solver (Some s1) (fun vs => normalize vs m1)) as [[v2 m2]| |] eqn:E2; [|discriminate|discriminate].
    cbn [gbind] in E. destruct (on_solver_some _ _ _ _ E2) as (s2 & ->). eapply IH; [|exact E]; reflexivity.
Qed.

Lemma query_state {A} {N : NumOps A} sc (n n' : network A) ev query ig r : net_solve_query sc n ev query ig = (n', Ok r) -> exists s, n_ve n' = Some s.
Proof.
  rewrite net_solve_query_core. cbn zeta. intros E. assert (E1 := f_equal fst E). assert (E2 := f_equal snd E). cbn [fst snd] in E1, E2. clear E.
  unfold query_core in *. destruct (to_ve sc 0 n (if ig then ev else [])) as [[s names]| |] eqn:Et; cbn [solve_core] in *; try (cbn in E2; discriminate).
  destruct (solve_names sc s names ev query false "") as [[s' f]| |] eqn:Es; cbn [fst snd] in *; try discriminate.
  destruct (marginals_core names (Some s') f query) as [[ve' res]| |] eqn:Em; cbn [fst snd] in *; try discriminate.
  destruct (marginals_some _ _ _ _ _ _ _ s' eq_refl Em) as (s1 & ->). exists s1. rewrite <- E1. reflexivity.
Qed.

Lemma qsum_one x l : qsum (x :: l) = (x + qsum l)%Qc. Proof. reflexivity. Qed.

(** ** Sums over all assignments pick each state once *)
Definition matches_on (vs : list variable) (a b : asg) : bool := forallb (fun v => (b (v_id v) =? a (v_id v))%nat) vs.

Lemma matches_upd vs a b i k : ~ In i (map v_id vs) -> matches_on vs (upd a i k) b = matches_on vs a b.
Proof.
  intros Hn. unfold matches_on. induction vs as [|v l IH]; auto. cbn [forallb map] in *. rewrite IH by (intros H; apply Hn; right; auto).
  f_equal. unfold upd. destruct (Z.eqb_spec (v_id v) i); auto. exfalso; apply Hn; left; auto.
Qed.
Lemma worlds_other vs : forall a w i, In w (worlds vs a) -> ~ In i (map v_id vs) -> w i = a i.
Proof.
  induction vs as [|v l IH]; intros a w i Hw Hn; cbn [worlds map] in *.
  - destruct Hw as [<-|[]]; auto.
  - apply in_flat_map in Hw as (k & Hk & Hw). rewrite (IH _ _ i Hw) by (intros H; apply Hn; right; auto).
    unfold upd. destruct (Z.eqb_spec i (v_id v)); auto. subst. exfalso; apply Hn; left; auto.
Qed.

Lemma qsum_flat_map {X Y} (g : Y -> Qc) (h : X -> list Y) l : qsum (map g (flat_map h l)) = qsum (map (fun x => qsum (map g (h x))) l).
Proof. induction l as [|x l IH]; auto. cbn [flat_map map]. rewrite map_app, qsum_app, IH. reflexivity. Qed.

Lemma pick_one vs b (c : Qc) : NoDup (map v_id vs) -> (forall v, In v vs -> (b (v_id v) < v_outcomes v)%nat) ->
  forall a, qsum (map (fun w => if matches_on vs w b then c else 0%Qc) (worlds vs a)) = c.
Proof.
  induction vs as [|v l IH]; intros Hnd Hb a.
  - cbn [worlds map matches_on forallb]. rewrite qsum_one. change (qsum []) with 0%Qc. ring.
  - cbn [map] in Hnd. inversion Hnd as [|? ? Hni Hnd']; subst. cbn [worlds]. rewrite qsum_flat_map.
    rewrite (qsum_ext _ (fun k => if (k =? b (v_id v))%nat then c else 0%Qc)).
    + rewrite (qsum_pick (fun _ => c)); auto. apply Hb; left; auto.
    + intros k _. rewrite (qsum_ext _ (fun w => if (k =? b (v_id v))%nat then (if matches_on l w b then c else 0%Qc) else 0%Qc)).
      * destruct (k =? b (v_id v))%nat; [apply IH; auto; intros; apply Hb; right; auto|].
        induction (worlds l (upd a (v_id v) k)) as [|w r IHr]; auto. cbn [map]. rewrite qsum_one, IHr. ring.
      * intros w Hw. unfold matches_on. cbn [forallb]. rewrite (worlds_other l _ _ (v_id v) Hw Hni). unfold upd at 1. rewrite Z.eqb_refl.
        rewrite (Nat.eqb_sym (b (v_id v)) k). destruct (k =? b (v_id v))%nat; auto.
Qed.

Section NJ.
Variable n : network xnum.
Hypothesis Hwf : wf_network n.
Notation vars := (n_vars n).
Notation vv := (vv n).
Notation by_name := (by_name n).
Notation known := (known n).
Notation V := (net_vars n).

Lemma same_matches (f : factor xnum) a s : incl (f_vars f) V -> same_on (factor_names n f) (by_name a) s = matches_on (f_vars f) a (positions vars s).
Proof.
  intros Hi. unfold same_on, matches_on, factor_names. induction (f_vars f) as [|v l IH]; auto. cbn [map forallb].
  rewrite IH by (intros x Hx; apply Hi; right; auto). f_equal. destruct (vv_surj n Hwf v (Hi v (or_introl eq_refl))) as (x & Hk & ->).
  rewrite (name_at n Hwf x Hk), (by_name_vv n Hwf a x Hk), (positions_vv n Hwf s x Hk). reflexivity.
Qed.

Lemma sum_over_if F event : sum_over n F event = qsum (map (fun s => if event s then F s else 0%Qc) (worlds_of n)).
Proof.
  unfold sum_over. induction (worlds_of n) as [|s l IH]; auto. cbn [filter map]. destruct (event s); cbn [map]; rewrite !qsum_one, ?IH; auto. ring.
Qed.

Theorem sum_partition F event (f : factor xnum) a : wf_factor f -> incl (f_vars f) V ->
  qsum (map (fun w => sum_over n F (fun s => event s && same_on (factor_names n f) (by_name w) s)) (worlds (f_vars f) a)) = sum_over n F event.
Proof.
  intros Hw Hi. rewrite sum_over_if.
  rewrite (qsum_ext _ (fun w => qsum (map (fun s => if matches_on (f_vars f) w (positions vars s) then (if event s then F s else 0%Qc) else 0%Qc) (worlds_of n)))).
  - rewrite qsum_swap. apply qsum_ext. intros s Hs. apply pick_one.
    + apply Hw.
    + intros v Hv. destruct (vv_surj n Hwf v (Hi v Hv)) as (x & Hk & ->). rewrite (positions_vv n Hwf s x Hk).
      destruct (lookup_known n Hwf x Hk) as (i & nv & Hi' & Hn & Hvn & _ & _). destruct (vv_outcomes n Hwf x Hk) as [-> Hpos].
      unfold num_outcomes. rewrite Hvn. rewrite <- Hn.
      apply (world_proper n Hwf s Hs). eapply nth_error_In; eauto.
  - intros w _. rewrite sum_over_if. apply qsum_ext. intros s _. rewrite same_matches by auto. destruct (event s), (matches_on _ _ _); auto.
Qed.

Lemma names_range (f : factor xnum) s : incl (f_vars f) V -> proper_state n s -> in_range (f_vars f) (positions vars s).
Proof.
  intros Hi Hs v Hv. destruct (vv_surj n Hwf v (Hi v Hv)) as (x & Hk & ->). rewrite (positions_vv n Hwf s x Hk).
  destruct (lookup_known n Hwf x Hk) as (i & nv & Hi' & Hn & Hvn & _ & _). destruct (vv_outcomes n Hwf x Hk) as [-> _].
  unfold num_outcomes. rewrite Hvn, <- Hn. apply Hs. eapply nth_error_In; eauto.
Qed.

Lemma mentioned_solved ign (ev : list (string * string)) v : complete n -> solved n -> (forall x, ign x = true -> In x (map fst ev)) ->
  In v vars -> nv_type v <> Utility -> ~ In (nv_name v) (map fst ev) -> mentioned n ign (nv_name v).
Proof.
  intros Hco Hso Hig Hv Ht Hne. destruct (nv_type v) eqn:Et.
  - destruct (Hco v Hv Et) as (f & Hf & Hfor). left. exists f. split.
    + unfold chance_factors. apply filter_In. split; auto. unfold kind. rewrite Hfor.
      replace (var_named vars (nv_name v)) with (Some v) by (symmetry; apply (var_named_in n Hwf); auto). cbn. rewrite Et. auto.
    + rewrite <- Hfor. apply in_or_app. right; left; auto.
  - pose proof (Hso v Hv Et) as Hk. apply has_key_spec in Hk. apply in_map_iff in Hk as ((d & p) & E & Hp). cbn [fst] in E. subst d.
    destruct (wp_own _ _ _ (wn_policies _ Hwf _ _ Hp)) as (i & nv & w & Hi & Hn & Hw & Hid).
    right. exists (nv_name v), p, i, nv, w. repeat split; auto. destruct (ign (nv_name v)) eqn:Ei; auto. exfalso. auto.
  - congruence.
Qed.

Theorem joint_factor sc ig ev query : complete n -> solved n -> valid_observations n ev ->
  (forall q, In q query -> askable n (ignored_by ig ev) ev q) ->
  let weight := mass n (ignored_by ig ev) in
  exists n' res f, net_solve_query sc n ev query ig = (n', Ok (res, f)) /\ wf_factor f /\ NoDup (factor_names n f) /\
    (forall x, In x (factor_names n f) <-> In x query) /\
    (forall s, proper_state n s -> get_at f (positions vars s) = Ok (Fin (weight (fun s' => agrees vars ev s' && same_on query s s')))) /\
    (weight (agrees vars ev) <> 0%Qc -> exists n'' g, net_normalize n' f = Ok (n'', g) /\ f_vars g = f_vars f /\
       forall s, proper_state n s -> get_at g (positions vars s) = Ok (Fin (weight (fun s' => agrees vars ev s' && same_on query s s') / weight (agrees vars ev))%Qc)).
Proof.
  intros Hco Hso Hv Hask weight.
  destruct (query_exact n Hwf sc ig ev query Hco Hv Hask) as (n' & res & f & E & _).
  assert (Hvq : valid_query n query) by (intros q Hq; apply (Hask q Hq)).
  destruct (solve_query_raw n Hwf sc ig ev query Hco Hv Hvq) as (s0 & f0 & vs & fs & E0 & _ & Hcr & Hr).
  destruct (solve_query_factor n Hwf sc ig ev query Hco Hv Hvq) as (n1 & f1 & E1 & Hrf).
  assert (f0 = f) as ->. { unfold net_solve_query in E. rewrite E0 in E. destruct (query_marginals _ f0 query) as [[? ?]| |]; inversion E; auto. }
  assert (f1 = f) as -> by congruence.
  pose proof (sr_incl _ _ _ _ _ _ _ Hr) as Hi.
  assert (Hnames : forall x, In x (factor_names n f) <-> In x query).
  { intros x. split; intros Hx.
    - destruct (rf_names _ _ _ _ _ _ _ Hrf x Hx) as (_ & _ & t & Ht & [(_ & Hu)|(_ & [Hq|[Ho|Hinf]])]); auto.
      + destruct Hu.
      + exfalso. destruct Ho as (Hk & Hno). unfold kind in Hk. destruct (var_named vars x) as [v|] eqn:Ev; [|discriminate]. cbn in Hk. apply (var_named_in n Hwf) in Ev as (Hin & Hn).
        inversion Hk as [Hd]. pose proof (Hso v Hin Hd). subst x. congruence.
      + exfalso. destruct Hinf as (g & _ & (Hk & Hno) & _). unfold kind in Hk. destruct (var_named vars (nf_for g)) as [v|] eqn:Ev; [|discriminate]. cbn in Hk. apply (var_named_in n Hwf) in Ev as (Hin & Hn).
        inversion Hk as [Hd]. pose proof (Hso v Hin Hd). rewrite Hn in H. congruence.
    - destruct (Hask x Hx) as (_ & Hm & Hne). apply (rf_query _ _ _ _ _ _ _ Hrf); auto. }
  destruct (rf_value _ _ _ _ _ _ _ Hrf) as (c & _ & Hc & Hval).
  assert (c = 1%Qc) as ->.
  { apply Hc. intros v Hin Ht Hne. eapply mentioned_solved; eauto. unfold ignored_by. intros x Hx. apply andb_true_iff in Hx as [_ Hx]. apply has_key_spec; auto. }
  assert (Hsame : forall s s', same_on (factor_names n f) s s' = same_on query s s').
  { intros s s'. unfold same_on. apply Bool.eq_iff_eq_true. rewrite !forallb_forall. split; intros H x Hx; apply H; apply Hnames; auto. }
  assert (Hval' : forall s, proper_state n s -> factor_value n f s = weight (fun s' => agrees vars ev s' && same_on query s s')).
  { intros s Hs. specialize (Hval s Hs). rewrite Qcmult_1_l in Hval. rewrite Hval. unfold weight, mass, sum_over. f_equal. f_equal. apply filter_ext. intros s'. rewrite Hsame. auto. }
  pose proof (rf_finite _ _ _ _ _ _ _ Hrf) as Hfin. pose proof (rf_wf _ _ _ _ _ _ _ Hrf) as Hw.
  exists n', res, f. split; auto. split; auto. split; [apply factor_names_nodup; auto|]. split; auto. split.
  - intros s Hs. rewrite <- Hval' by auto. apply (finite_denotes f Hfin). apply names_range; auto.
  - intros Hne. destruct (query_state _ _ _ _ _ _ _ E) as (st & Est).
    unfold net_normalize, on_variables. rewrite Est.
    destruct (denotes_normalize (ve_vs st) f (value f) (fun _ => O) Hw (finite_denotes f Hfin)) as (g & Eg & _ & Hwg & Hvs & H1 & _).
    rewrite Eg. cbn [gbind]. exists (with_solver n' (Some (with_vs st (bump (ve_vs st)))) (n_names n')), g. split; auto. split; auto.
    assert (Htot : qsum (map (value f) (worlds (f_vars f) (fun _ => O))) = weight (agrees vars ev)).
    { change (weight (agrees vars ev)) with (sum_over n (joint n (ignored_by ig ev)) (agrees vars ev)). rewrite <- (sum_partition (joint n (ignored_by ig ev)) (agrees vars ev) f (fun _ => O)) by auto. apply qsum_ext. intros w Hwin.
      assert (Hwr : in_range V w). { eapply (worlds_range V (f_vars f)); eauto. - apply net_vars_wf; auto. - intros v Hv'. apply (V_pos n Hwf); auto. }
      transitivity (factor_value n f (by_name w)).
      - apply value_agree. intros v Hv'. destruct (vv_surj n Hwf v (Hi v Hv')) as (x & Hk & ->). rewrite (positions_vv n Hwf _ x Hk), (by_name_vv n Hwf w x Hk). auto.
      - specialize (Hval (by_name w) (NetMass.by_name_state n Hwf w Hwr)). rewrite Qcmult_1_l in Hval. exact Hval. }
    rewrite Htot in H1. intros s Hs. rewrite <- Hval' by auto. apply (H1 Hne). rewrite ?Hvs. apply names_range; auto.
Qed.
End NJ.
