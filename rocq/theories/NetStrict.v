(** Options that are always worse than another one. *)
From Coq Require Import ZArith List Bool String Lia Permutation QArith Qcanon.
From Verif Require Import Num GoBase VarModel GoFacts SpecFactor XnumFacts ExactFactor VEModel SpecVE VEWorlds NetModel SpecNet NetVars NetFactors NetVE NetSums NetQuery NetEvents NetUtil NetMass NetHistory NetCor SpecNetPolicy NetPolicy NetPolicyStep NetPolicyLoop NetPolicyThms NetJoint SpecGraph StateSums NetGraph NetMarkov VEHidden NetNew NetChange NetReorder NetInform NetAdvice SpecOptions NetOptions NetUnused SpecDominated NetDominated NetSame.
Import ListNotations.
Open Scope string_scope.
Open Scope list_scope.
Open Scope Z_scope.

Lemma agrees_same' vars l s s' : (forall x, In x (map fst l) -> s x = s' x) -> agrees vars l s = agrees vars l s'.
Proof.
  induction l as [|[x o] l IH]; intros H; auto. unfold agrees in *. cbn [forallb]. rewrite (H x) by (simpl; auto). f_equal. apply IH. intros; apply H; simpl; auto.
Qed.

Section Fix.
Variables (m : network xnum) (Hdm : decision_network m) (d : string) (Hd : In d (decisions m)) (ev : list (string * string)) (Hno : ~ In d (map fst ev)).
Notation vars := (n_vars m).
Let Hwm := dn_wf m Hdm.
Lemma fix_option : exists rest, (forall t, In t (joint_states rest nowhere) -> proper_state m t) /\
  forall F i, nproper F -> (i < num_outcomes vars d)%nat ->
    sum_over m F (fun s => agrees vars ev s && (s d =? i)%nat) = nsum (fun t => if agrees vars ev t then F (nupd t d i) else 0%Qc) rest nowhere.
Proof.
  pose proof Hd as Hv. apply in_map_iff in Hv. destruct Hv as (vd & Ed & Hvd). apply filter_In in Hvd. destruct Hvd as [Hvd Ht].
  assert (Hw : In vd (worldly_of vars)). { apply filter_In. split; auto. unfold is_kind in *. destruct (nv_type vd); auto; discriminate Ht. }
  assert (Hnd : NoDup (map nv_name (worldly_of vars))) by (apply names_filter; apply (wn_names m Hwm)).
  apply in_split in Hw. destruct Hw as (l1 & l2 & El).
  assert (Hperm : Permutation (worldly_of vars) ((l1 ++ l2) ++ [vd])).
  { rewrite El. rewrite <- app_assoc. apply Permutation_app_head. change (vd :: l2) with ([vd] ++ l2). apply Permutation_app_comm. }
  exists (l1 ++ l2). split.
  - intros t Ht'. apply (joint_in vars (wn_names m Hwm) (l1 ++ l2) nowhere); auto.
    + intros v Hv. apply (proj1 (proj1 (filter_In _ _ _) (eq_ind_r (fun L => In v L) (in_or_app l1 (vd :: l2) v (match in_app_or _ _ _ Hv with or_introl a => or_introl a | or_intror b => or_intror (or_intror b) end)) El))).
    + rewrite El in Hnd. rewrite !map_app in *. cbn [map] in Hnd. apply NoDup_remove_1 in Hnd. exact Hnd.
    + intros v Hv. unfold nowhere. pose proof (vars_nonempty m Hwm v Hv). destruct (nv_outcomes v); cbn; [congruence|lia].
  - intros F i HF Hi. rewrite sum_over_if. change (worlds_of m) with (joint_states (worldly_of vars) nowhere).
    set (G := fun s => if agrees vars ev s && (s d =? i)%nat then F s else 0%Qc). change (nsum G (worldly_of vars) nowhere = nsum (fun t => if agrees vars ev t then F (nupd t d i) else 0%Qc) (l1 ++ l2) nowhere).
    assert (HG : nproper G) by (intros s s' E; unfold G; rewrite (agrees_same' vars ev s s'), (E d), (HF s s' E) by auto; auto).
    rewrite (nsum_perm _ _ _ HG Hperm Hnd), (nsum_app _ (l1 ++ l2)). apply nsum_ext. intros t _. rewrite nsum_cons, Ed, <- (outcomes_of m Hdm vd Hvd), Ed.
    rewrite <- (qsum_pick (fun k => if agrees vars ev t then F (nupd t d k) else 0%Qc) i (num_outcomes vars d) Hi). f_equal. apply map_ext. intros k. rewrite nsum_nil. unfold G.
    replace (nupd t d k d) with k by (unfold nupd; rewrite String.eqb_refl; auto).
    rewrite (agrees_same' vars ev (nupd t d k) t) by (intros x Hx; unfold nupd; destruct (String.eqb_spec x d) as [->|]; [contradiction|auto]).
    destruct (agrees vars ev t); destruct (k =? i)%nat; reflexivity.
Qed.
End Fix.

Section Strict.
Variables (n n' : network xnum) (tables : list (string * nfactor xnum)).
Hypothesis Hs : policies_solved n n' tables.
Hypothesis Hf : no_forgetting n.
Let Hps := sv_partly _ _ _ Hs.
Let Hdn' := ps_net n' Hps.
Let Hwf' : wf_network n' := dn_wf _ Hdn'.
Theorem strictly_unused d v ev k k0 ok f s : last_decision n d -> var_named (n_vars n) d = Some v -> nv_type v = Decision -> nth_error (nv_outcomes v) k = Some ok -> (k0 < List.length (nv_outcomes v))%nat ->
  (forall s f, proper_state n s -> In f (chance_factors n) -> cond_prob (n_vars n) f (nupd s d k) = cond_prob (n_vars n) f (nupd s d k0)) ->
  (forall s, proper_state n s -> (utility_of n (nupd s d k) < utility_of n (nupd s d k0))%Qc) ->
  valid_observations n ev -> (forall x, In x (map fst ev) <-> In x (observed_by n d)) ->
  table_mass n tables (ignored_by true (ev ++ [(d, ok)])) (agrees (n_vars n) (ev ++ [(d, ok)])) <> 0%Qc ->
  sget_map tables d = Some f -> proper_state n s -> agrees (n_vars n) (ev ++ [(d, ok)]) s = true -> entry (n_vars n) f s = 0%Qc.
Proof.
  intros [Hd Hlast] Ev Ht Hk Hk0 Hch Hut Hev Hall Hmass Ef Hss Hag.
  destruct (Qc_eq_dec (entry (n_vars n) f s) 0%Qc) as [|Hne]; auto. exfalso.
  destruct (nth_error (nv_outcomes v) k0) as [ok0|] eqn:Ek0; [|apply nth_error_None in Ek0; lia].
  destruct (advice n n' tables Hs d v ev k k0 ok ok0 f s Ev Ht Hk Ek0 Hev Hall Ef Hss Hag Hne sched_id sched_id) as (n1 & f1 & ui & n2 & f2 & uj & C1 & D1 & F1 & C2 & D2 & F2 & Hle & _).
  pose proof (vars_same n n' tables Hs) as E1. pose proof (chance_same n n' tables Hs) as Ec.
  assert (Hdd' : In d (decisions n')) by (rewrite (decisions_same n n' tables Hs); auto).
  assert (Hev' : valid_observations n' ev) by (apply (observations_same n n' tables Hs); auto).
  assert (Hall' : forall x, In x (map fst ev) <-> In x (observed_by n' d)) by (rewrite (observed_same n n' tables Hs); auto).
  assert (Ed : ~ In d (map fst ev)) by (rewrite Hall'; apply (not_itself n' Hps); auto).
  assert (Hin' : In v (n_vars n') /\ nv_name v = d) by (apply (var_named_in n' Hwf'); rewrite E1; auto). destruct Hin' as [Hv' Nv'].
  assert (Hnd : NoDup (nv_outcomes v)) by (apply (wn_distinct _ Hwf' v); auto).
  assert (Hsplit : forall i o s, nth_error (nv_outcomes v) i = Some o -> agrees (n_vars n') (ev ++ [(d, o)]) s = agrees (n_vars n') ev s && (s d =? i)%nat).
  { intros i o s' Hi. unfold agrees. rewrite forallb_app. f_equal. cbn [forallb]. rewrite E1, Ev, andb_true_r. destruct (nth_error (nv_outcomes v) (s' d)) as [o'|] eqn:Eo.
    - apply eq_true_iff_eq. rewrite String.eqb_eq, Nat.eqb_eq. split; [|congruence]. intros ->. apply (proj1 (NoDup_nth_error _) Hnd); [apply nth_error_Some; congruence|congruence].
    - symmetry. apply Nat.eqb_neq. intros <-. congruence. }
  assert (Hvo : forall i o, nth_error (nv_outcomes v) i = Some o -> valid_observations n (ev ++ [(d, o)])).
  { intros i o Hi. destruct Hev as [H1 H2]. split.
    - rewrite map_app. cbn [map fst]. apply (Permutation_NoDup (Permutation_cons_append _ _)). constructor; auto.
    - intros x o' Hin. apply in_app_iff in Hin. destruct Hin as [Hin|[Hin|[]]]; auto. injection Hin as <- <-. exists v. split; auto. split; [congruence|]. eapply nth_error_In; eauto. }
  set (w := fun s => qprod (map (fun f => cond_prob (n_vars n') f s) (chance_factors n'))).
  assert (Hj : forall o s, joint n' (ignored_by true (ev ++ [(d, o)])) s = w s).
  { intros o s'. unfold joint. fold (w s'). replace (filter (fun dp => negb (ignored_by true (ev ++ [(d, o)]) (fst dp))) (n_policies n')) with (@nil (string * factor xnum)).
    - cbn [map]. unfold qprod. cbn [fold_right]. ring.
    - symmetry. assert (A : forall dp, In dp (n_policies n') -> negb (ignored_by true (ev ++ [(d, o)]) (fst dp)) = false).
      { intros [e q] He. apply negb_false_iff. unfold ignored_by. cbn [andb fst]. apply has_key_spec. rewrite map_app. cbn [map fst]. apply in_app_iff.
        destruct (string_dec e d) as [->|He']; [right; left; auto|]. left. assert (Hde : In e (decisions n)) by (apply (NetPolicyThms.stored n n' tables Hs); eauto).
        apply Hall. destruct (Hf d e Hd Hde) as [[H _]|[H _]]; auto. exfalso. apply (Hlast e Hde He' H). }
      revert A. generalize (n_policies n'). induction l as [|dp l IH]; intros A; auto. cbn [filter]. rewrite (A dp (or_introl eq_refl)). apply IH. intros; apply A; right; auto. }
  destruct (fix_option n' Hdn' d Hdd' ev Ed) as (rest & Hrest & Hfix).
  assert (Hnum : num_outcomes (n_vars n') d = List.length (nv_outcomes v)) by (unfold num_outcomes; rewrite E1, Ev; auto).
  assert (Hwp : nproper w). { intros a b E. unfold w. f_equal. apply map_ext_in. intros g Hg. apply cond_prob_looks. intros; apply E. }
  assert (Hup : nproper (fun s => w s * utility_of n' s)%Qc) by (intros a b E; f_equal; [apply Hwp; auto|apply utility_looks; auto]).
  assert (Hval : forall i o u fr nn, nth_error (nv_outcomes v) i = Some o -> net_solve_utility sched_id n' (ev ++ [(d, o)]) [] "" true = (nn, Ok fr) -> f_data fr = [Fin u] ->
    u = nsum (fun t => if agrees (n_vars n') ev t then w (nupd t d i) * utility_of n' (nupd t d i) else 0)%Qc rest nowhere).
  { intros i o u fr nn Hi C F. destruct (utility_at n n' tables Hs sched_id true _ (Hvo i o Hi)) as (nn' & fr' & C' & _ & F'). rewrite C in C'. injection C' as <- <-. rewrite F in F'. injection F' as ->.
    rewrite <- (Hfix (fun s => w s * utility_of n' s)%Qc i Hup) by (rewrite Hnum; apply nth_error_Some; congruence).
    unfold sum_over. erewrite filter_ext by (intros; apply (Hsplit i o); auto). f_equal. apply map_ext. intros s'. rewrite Hj. auto. }
  rewrite (Hval k ok ui f1 n1 Hk C1 F1), (Hval k0 ok0 uj f2 n2 Ek0 C2 F2) in Hle.
  assert (Hw : forall t, In t (joint_states rest nowhere) -> w (nupd t d k) = w (nupd t d k0)).
  { intros t Hin. unfold w. f_equal. apply map_ext_in. intros g Hg. rewrite Ec in Hg. rewrite E1. apply Hch; auto. apply (proper_same n n' tables Hs). apply Hrest; auto. }
  set (gap := fun t => (if agrees (n_vars n') ev t then w (nupd t d k) * (utility_of n' (nupd t d k0) - utility_of n' (nupd t d k)) else 0)%Qc).
  assert (Hu : forall t, In t (joint_states rest nowhere) -> (utility_of n' (nupd t d k) < utility_of n' (nupd t d k0))%Qc).
  { intros t Hin. rewrite !(utility_same n n' tables Hs). apply Hut. apply (proper_same n n' tables Hs). apply Hrest; auto. }
  assert (Hw0 : forall t, (0 <= w t)%Qc).
  { intros t. unfold w. apply NetQuery.qprod_nonneg. intros x Hx. apply in_map_iff in Hx. destruct Hx as (g & <- & Hg). apply NetQuery.cond_prob_nonneg. intros t'. apply (dn_nonneg _ Hdn'); auto. }
  assert (Hgap : nsum gap rest nowhere = 0%Qc).
  { apply Qcle_antisym.
    - assert (E : (nsum gap rest nowhere + nsum (fun t => if agrees (n_vars n') ev t then w (nupd t d k) * utility_of n' (nupd t d k) else 0)%Qc rest nowhere)%Qc = nsum (fun t => if agrees (n_vars n') ev t then w (nupd t d k0) * utility_of n' (nupd t d k0) else 0)%Qc rest nowhere).
      { rewrite <- nsum_add. apply nsum_ext. intros t Hin. unfold gap. rewrite <- (Hw t Hin). destruct (agrees (n_vars n') ev t); ring. }
      rewrite <- E in Hle. set (g0 := nsum gap rest nowhere) in *. set (h0 := nsum _ rest nowhere) in Hle. replace g0 with (g0 + h0 + - h0)%Qc by ring. replace 0%Qc with (h0 + - h0)%Qc by ring. apply Qcplus_le_compat; [auto|apply Qcle_refl].
    - apply XnumFacts.qsum_nonneg. intros x Hx. apply in_map_iff in Hx. destruct Hx as (t & <- & Hin). unfold gap. destruct (agrees (n_vars n') ev t); [|apply Qcle_refl]. apply qmult_nonneg0; auto.
      apply -> Qcle_minus_iff. apply Qclt_le_weak, Hu; auto. }
  apply Hmass. rewrite <- (mass_tables n n' tables Hs), <- E1. unfold mass.
  transitivity (sum_over n' w (fun s => agrees (n_vars n') ev s && (s d =? k)%nat)).
  - unfold sum_over. erewrite filter_ext by (intros; apply (Hsplit k ok); auto). f_equal. apply map_ext. intros s'. apply Hj.
  - rewrite (Hfix w k Hwp) by (rewrite Hnum; apply nth_error_Some; congruence). unfold nsum. apply XnumFacts.qsum_zero. intros t Hin.
    assert (G : gap t = 0%Qc).
    { refine (NetSame.zero_parts gap (joint_states rest nowhere) _ Hgap t Hin). intros t' Hin'. unfold gap. destruct (agrees (n_vars n') ev t'); [|apply Qcle_refl]. apply qmult_nonneg0; auto. apply -> Qcle_minus_iff. apply Qclt_le_weak, Hu; auto. }
    unfold gap in G. destruct (agrees (n_vars n') ev t); auto. apply Qcmult_integral in G. destruct G as [G|G]; auto. exfalso. apply (Qclt_not_eq _ _ (Hu t Hin)).
    set (a := utility_of n' (nupd t d k)) in *. set (b := utility_of n' (nupd t d k0)) in *. replace b with (b - a + a)%Qc by ring. rewrite G. ring.
Qed.
End Strict.
