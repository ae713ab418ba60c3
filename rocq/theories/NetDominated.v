(** Options that are never better than another one. *)
From Coq Require Import ZArith List Bool String Lia Permutation QArith Qcanon.
From Verif Require Import Num GoBase VarModel GoFacts SpecFactor XnumFacts VEModel SpecVE VEWorlds NetModel SpecNet NetVars NetFactors NetSums NetQuery NetMass NetCor NetNew
  SpecNetPolicy NetPolicyStep NetPolicyThms SpecGraph StateSums NetGraph NetMarkov NetChange NetReorder NetInform NetAdvice SpecOptions NetOptions NetUnused.
Import ListNotations.
Open Scope string_scope.
Open Scope list_scope.
Open Scope Z_scope.

(** ** Moving weights *)
Lemma qmult_nonneg0 a b : (0 <= a)%Qc -> (0 <= b)%Qc -> (0 <= a * b)%Qc.
Proof. intros Ha Hb. replace 0%Qc with (0 * b)%Qc by ring. apply Qcmult_le_compat_r; auto. Qed.
Section Shift.
Variables (K J : nat) (dom : nat -> nat) (a : nat -> Qc).
Hypothesis Hdom : forall j, (K <= j < K + J)%nat -> (dom j < K)%nat.
Definition moved (k : nat) : Qc := if (k <? K)%nat then (a k + qsum (map (fun j => if (dom j =? k)%nat then a j else 0%Qc) (seq K J)))%Qc else 0%Qc.
Lemma swap_dom u l : (forall j, In j l -> (dom j < K)%nat) ->
  qsum (map (fun k => qsum (map (fun j => if (dom j =? k)%nat then a j else 0%Qc) l) * u k)%Qc (seq 0 K)) = qsum (map (fun j => a j * u (dom j))%Qc l).
Proof.
  induction l as [|j l IH]; intros H.
  - cbn [map]. rewrite (map_ext _ (fun k => 0 * u k)%Qc) by auto. rewrite NetAdvice.qsum_scale. unfold qsum at 2. cbn [fold_right]. ring.
  - cbn [map]. rewrite (map_ext _ (fun k => (if (k =? dom j)%nat then a j * u k else 0) + qsum (map (fun j => if (dom j =? k)%nat then a j else 0) l) * u k)%Qc).
    + rewrite NetAdvice.qsum_plus, IH by (intros x Hx; apply H; right; auto). rewrite (qsum_pick (fun k => a j * u k)%Qc (dom j) K) by (apply H; left; auto). reflexivity.
    + intros k. change (qsum ((if (dom j =? k)%nat then a j else 0%Qc) :: map (fun j0 => if (dom j0 =? k)%nat then a j0 else 0%Qc) l)) with ((if (dom j =? k)%nat then a j else 0) + qsum (map (fun j0 => if (dom j0 =? k)%nat then a j0 else 0%Qc) l))%Qc.
      rewrite (Nat.eqb_sym k). destruct (dom j =? k)%nat; ring.
Qed.
Lemma moved_sum u : qsum (map (fun k => moved k * u k)%Qc (seq 0 (K + J))) =
  (qsum (map (fun k => a k * u k)%Qc (seq 0 K)) + qsum (map (fun j => a j * u (dom j))%Qc (seq K J)))%Qc.
Proof.
  rewrite seq_split, map_app, qsum_app. rewrite (map_ext_in (fun k => moved k * u k)%Qc (fun k => 0 * u k)%Qc (seq K J)).
  - rewrite NetAdvice.qsum_scale. rewrite (map_ext_in (fun k => moved k * u k)%Qc (fun k => a k * u k + qsum (map (fun j => if (dom j =? k)%nat then a j else 0) (seq K J)) * u k)%Qc (seq 0 K)).
    + rewrite NetAdvice.qsum_plus, swap_dom; [ring|]. intros j Hj. apply in_seq in Hj. apply Hdom. lia.
    + intros k Hk. apply in_seq in Hk. unfold moved. destruct (Nat.ltb_spec k K); [ring|lia].
  - intros k Hk. apply in_seq in Hk. unfold moved. destruct (Nat.ltb_spec k K); [lia|auto].
Qed.
Lemma moved_total : qsum (map moved (seq 0 (K + J))) = qsum (map a (seq 0 (K + J))).
Proof.
  rewrite (map_ext moved (fun k => moved k * 1)%Qc) by (intros k; ring). rewrite (moved_sum (fun _ => 1%Qc)). rewrite seq_split, map_app, qsum_app. f_equal; f_equal; apply map_ext; intros k; ring.
Qed.
Lemma moved_better u : (forall j, (K <= j < K + J)%nat -> (a j * u j <= a j * u (dom j))%Qc) ->
  (qsum (map (fun k => a k * u k)%Qc (seq 0 (K + J))) <= qsum (map (fun k => moved k * u k)%Qc (seq 0 (K + J))))%Qc.
Proof.
  intros H. rewrite moved_sum, seq_split, map_app, qsum_app. apply Qcplus_le_compat; [apply Qcle_refl|]. apply NetAdvice.qsum_le. intros j Hj. apply in_seq in Hj. apply H. lia.
Qed.
End Shift.

Section Dominated.
Variables n m : network xnum.
Hypothesis Hmo : more_options n m.
Hypothesis Hdn : decision_network n.
Hypothesis Hdm : decision_network m.
Notation vars := (n_vars n).
Notation vars' := (n_vars m).
Let Hwm := dn_wf m Hdm.
Variables (d : string) (dom : nat -> nat).
Hypothesis Hd : In d (decisions m).
Hypothesis Honly : forall e, In e (decisions m) -> e <> d -> num_outcomes vars' e = num_outcomes vars e.
Hypothesis Hlast : forall e, In e (decisions m) -> e <> d -> ~ In d (observed_by m e).
Notation K := (num_outcomes vars d).
Notation J := (num_outcomes vars' d - num_outcomes vars d)%nat.
Hypothesis Hdom : forall k, (K <= k < num_outcomes vars' d)%nat -> (dom k < K)%nat.
Hypothesis Hchance : forall k s f, (K <= k < num_outcomes vars' d)%nat -> proper_state m s -> In f (chance_factors m) -> cond_prob vars' f (nupd s d k) = cond_prob vars' f (nupd s d (dom k)).
Hypothesis Hutil : forall k s, (K <= k < num_outcomes vars' d)%nat -> proper_state m s -> (utility_of m (nupd s d k) <= utility_of m (nupd s d (dom k)))%Qc.
Variable p : string -> nstate -> Qc.
Hypothesis Hp : forall e, In e (decisions m) -> policy_for m e (p e).

Lemma KJ : num_outcomes vars' d = (K + J)%nat.
Proof. pose proof (mo_outcomes_le n m Hmo d). lia. Qed.
Definition at_option (s : nstate) (k : nat) : Qc := p d (nupd s d k).
Definition better (e : string) (s : nstate) : Qc := if String.eqb e d then moved K J dom (at_option s) (s d) else p e s.
Lemma at_option_same s s' : (forall y, In y (observed_by m d) -> s y = s' y) -> forall k, at_option s k = at_option s' k.
Proof. intros E k. unfold at_option. apply (pf_observed _ _ _ (Hp d Hd)). intros y Hy. unfold nupd. destruct (String.eqb_spec y d); auto. destruct Hy; [contradiction|auto]. Qed.
Lemma moved_ext a b k : (forall j, a j = b j) -> moved K J dom a k = moved K J dom b k.
Proof. intros E. unfold moved. rewrite E. rewrite (map_ext _ (fun j => if (dom j =? k)%nat then b j else 0%Qc)) by (intros j; rewrite E; auto). reflexivity. Qed.
Lemma twice s k j : at_option (nupd s d k) j = at_option s j.
Proof.
  unfold at_option. apply (pf_observed _ _ _ (Hp d Hd)). intros y _. unfold nupd. destruct (String.eqb y d); auto.
Qed.
Lemma proper_upd s k : proper_state m s -> (k < num_outcomes vars' d)%nat -> proper_state m (nupd s d k).
Proof. intros Hs Hk v Hv. unfold nupd. destruct (String.eqb_spec (nv_name v) d) as [E|E]; [|auto]. rewrite <- (outcomes_of m Hdm v Hv), E. auto. Qed.
Lemma better_policy e : In e (decisions m) -> policy_for m e (better e).
Proof.
  intros He. destruct (Hp e He) as [P1 P2 P3]. unfold better. destruct (String.eqb_spec e d) as [->|Hne]; [|constructor; auto]. pose proof KJ as EK. constructor.
  - intros s Hs. unfold moved. destruct (Nat.ltb_spec (s d) K) as [Hk|Hk]; [|apply Qcle_refl]. assert (N : forall k, (k < K + J)%nat -> (0 <= at_option s k)%Qc) by (intros k Hk'; apply P1, proper_upd; auto; lia).
    replace 0%Qc with (0 + 0)%Qc by ring. apply Qcplus_le_compat; [apply N; lia|]. apply XnumFacts.qsum_nonneg. intros x Hx. apply in_map_iff in Hx. destruct Hx as (j & <- & Hj). apply in_seq in Hj. destruct (dom j =? s d)%nat; [apply N; lia|apply Qcle_refl].
  - intros s Hs. rewrite <- (P2 s Hs). replace (seq 0 (num_outcomes vars' d)) with (seq 0 (K + J)) by (rewrite <- EK; auto). transitivity (qsum (map (moved K J dom (at_option s)) (seq 0 (K + J)))); [|apply (moved_total K J dom (at_option s)); intros j Hj; apply Hdom; lia]. f_equal. apply map_ext. intros k.
    replace (nupd s d k d) with k by (unfold nupd; rewrite String.eqb_refl; auto). apply moved_ext. intros j. apply twice.
  - intros s s' E. rewrite (E d) by auto. apply moved_ext. apply at_option_same. intros y Hy. apply E. auto.
Qed.
Lemma better_old e s : In e (decisions n) -> proper_state m s -> (num_outcomes vars e <= s e)%nat -> better e s = 0%Qc.
Proof.
  intros He Hs Hle. unfold better. destruct (String.eqb_spec e d) as [->|Hne].
  - unfold moved. destruct (Nat.ltb_spec (s d) K); [lia|auto].
  - exfalso. rewrite <- (mo_decisions n m Hmo) in He. rewrite <- (Honly e He Hne) in Hle. apply in_map_iff in He. destruct He as (v & <- & Hv). apply filter_In in Hv. destruct Hv as [Hv _]. pose proof (Hs v Hv). rewrite (outcomes_of m Hdm v Hv) in Hle. lia.
Qed.
Lemma nsum_le F G L s : (forall t, In t (joint_states L s) -> (F t <= G t)%Qc) -> (nsum F L s <= nsum G L s)%Qc.
Proof. intros H. unfold nsum. apply NetAdvice.qsum_le. auto. Qed.
Lemma better_value : (expected_value m p <= expected_value m better)%Qc.
Proof.
  pose proof KJ as EK. rewrite !value_nsum.
  pose proof Hd as Hv. apply in_map_iff in Hv. destruct Hv as (vd & Ed & Hvd). apply filter_In in Hvd. destruct Hvd as [Hvd Ht].
  assert (Hw : In vd (worldly_of vars')). { apply filter_In. split; auto. unfold is_kind in *. destruct (nv_type vd); auto; discriminate Ht. }
  assert (Hnd : NoDup (map nv_name (worldly_of vars'))) by (apply names_filter; apply (wn_names m Hwm)).
  apply in_split in Hw. destruct Hw as (l1 & l2 & El).
  assert (Hperm : Permutation (worldly_of vars') ((l1 ++ l2) ++ [vd])).
  { rewrite El. rewrite <- app_assoc. apply Permutation_app_head. change (vd :: l2) with ([vd] ++ l2). apply Permutation_app_comm. }
  assert (Hpp : forall q, (forall e, In e (decisions m) -> policy_for m e (q e)) -> nproper (fun s => tables_weight vars' (n_factors m) s * qprod (map (fun e => q e s) (decisions m)) * utility_of m s)%Qc).
  { intros q Hq s s' E. f_equal; [f_equal|].
    - apply (weight_looks_all vars' (n_factors m)). intros y _. apply E.
    - f_equal. apply map_ext_in. intros e He. apply (policy_proper' m e); auto.
    - apply utility_looks. auto. }
  rewrite (nsum_perm _ _ _ (Hpp p Hp) Hperm Hnd), (nsum_perm _ _ _ (Hpp better better_policy) Hperm Hnd), !(nsum_app _ (l1 ++ l2)). apply nsum_le. intros t Ht'.
  assert (Hpt : proper_state m t).
  { apply (joint_in vars' (wn_names m Hwm) (l1 ++ l2) nowhere); auto.
    - intros v Hv. apply (proj1 (proj1 (filter_In _ _ _) (eq_ind_r (fun L => In v L) (in_or_app l1 (vd :: l2) v (match in_app_or _ _ _ Hv with or_introl a => or_introl a | or_intror b => or_intror (or_intror b) end)) El))).
    - rewrite El in Hnd. rewrite !map_app in *. cbn [map] in Hnd. apply NoDup_remove_1 in Hnd. exact Hnd.
    - intros v Hv. unfold nowhere. pose proof (vars_nonempty m Hwm v Hv). destruct (nv_outcomes v); cbn; [congruence|lia]. }
  rewrite !nsum_cons. rewrite Ed. rewrite <- (outcomes_of m Hdm vd Hvd), Ed, EK.
  assert (Hdec : NoDup (decisions m)) by (apply names_filter; apply (wn_names m Hwm)).
  pose proof Hd as Hs. apply in_split in Hs. destruct Hs as (e1 & e2 & Ee).
  assert (Pd : Permutation (decisions m) (d :: e1 ++ e2)) by (rewrite Ee; apply Permutation_sym, Permutation_middle).
  assert (Hoth : forall e, In e (e1 ++ e2) -> In e (decisions m) /\ e <> d).
  { intros e He. split; [apply (Permutation_in e (Permutation_sym Pd)); right; auto|]. intros ->. apply (Permutation_NoDup Pd) in Hdec. inversion Hdec; auto. }
  set (g := fun k => (tables_weight vars' (n_factors m) (nupd t d k) * qprod (map (fun e => p e t) (e1 ++ e2)) * utility_of m (nupd t d k))%Qc).
  assert (Ho : forall k e, In e (e1 ++ e2) -> p e (nupd t d k) = p e t).
  { intros k e He. destruct (Hoth e He) as [H1 H2]. apply (pf_observed _ _ _ (Hp e H1)). intros y Hy. unfold nupd. destruct (String.eqb_spec y d) as [->|]; auto. destruct Hy as [Hy|Hy]; [congruence|]. exfalso. apply (Hlast e H1 H2 Hy). }
  rewrite (map_ext _ (fun k => at_option t k * g k)%Qc).
  - rewrite (map_ext (fun k => nsum _ [] (nupd t d k)) (fun k => moved K J dom (at_option t) k * g k)%Qc).
    + apply moved_better; [intros j Hj; apply Hdom; lia|]. intros j Hj. unfold g.
      assert (Ew : tables_weight vars' (n_factors m) (nupd t d j) = tables_weight vars' (n_factors m) (nupd t d (dom j))) by (unfold tables_weight; f_equal; apply map_ext_in; intros f Hf; apply Hchance; auto; lia). rewrite Ew.
      assert (W : (0 <= at_option t j * (tables_weight vars' (n_factors m) (nupd t d (dom j)) * qprod (map (fun e => p e t) (e1 ++ e2))))%Qc).
      { apply qmult_nonneg0; [apply (pf_nonneg _ _ _ (Hp d Hd)), proper_upd; auto; lia|]. apply qmult_nonneg0.
        - apply NetQuery.qprod_nonneg. intros x Hx. apply in_map_iff in Hx. destruct Hx as (f & <- & Hf). apply NetQuery.cond_prob_nonneg. intros t'. apply (dn_nonneg _ Hdm); auto.
        - apply NetQuery.qprod_nonneg. intros x Hx. apply in_map_iff in Hx. destruct Hx as (e & <- & He). apply (pf_nonneg _ _ _ (Hp e (proj1 (Hoth e He)))); auto. }
      pose proof (Hutil j t) as U. rewrite !Qcmult_assoc in *. rewrite (Qcmult_comm _ (utility_of m (nupd t d j))), (Qcmult_comm _ (utility_of m (nupd t d (dom j)))). apply Qcmult_le_compat_r; auto. apply U; auto. lia.
    + intros k. rewrite nsum_nil. rewrite (qprod_perm _ _ (Permutation_map (fun e => better e (nupd t d k)) Pd)). cbn [map]. change (qprod (better d (nupd t d k) :: ?l)) with (better d (nupd t d k) * qprod l)%Qc.
      unfold better at 1. rewrite String.eqb_refl. replace (nupd t d k d) with k by (unfold nupd; rewrite String.eqb_refl; auto). rewrite (moved_ext _ (at_option t) k (twice t k)).
      rewrite (map_ext_in (fun e => better e (nupd t d k)) (fun e => p e t)); [unfold g; ring|]. intros e He. unfold better. destruct (String.eqb_spec e d) as [E|_]; [destruct (Hoth e He); contradiction|apply Ho; auto].
  - intros k. rewrite nsum_nil. rewrite (qprod_perm _ _ (Permutation_map (fun e => p e (nupd t d k)) Pd)). cbn [map]. change (qprod (p d (nupd t d k) :: ?l)) with (p d (nupd t d k) * qprod l)%Qc.
    rewrite (map_ext_in (fun e => p e (nupd t d k)) (fun e => p e t)) by (intros e He; apply Ho; auto). unfold g, at_option. ring.
Qed.
End Dominated.

Theorem dominated_maximum n m d dom : more_options n m -> decision_network n -> no_forgetting n -> decision_network m ->
  In d (decisions m) ->
  (forall e, In e (decisions m) -> e <> d -> num_outcomes (n_vars m) e = num_outcomes (n_vars n) e) ->
  (forall e, In e (decisions m) -> e <> d -> ~ In d (observed_by m e)) ->
  (forall k, (num_outcomes (n_vars n) d <= k < num_outcomes (n_vars m) d)%nat -> (dom k < num_outcomes (n_vars n) d)%nat) ->
  (forall k s f, (num_outcomes (n_vars n) d <= k < num_outcomes (n_vars m) d)%nat -> proper_state m s -> In f (chance_factors m) ->
    cond_prob (n_vars m) f (nupd s d k) = cond_prob (n_vars m) f (nupd s d (dom k))) ->
  (forall k s, (num_outcomes (n_vars n) d <= k < num_outcomes (n_vars m) d)%nat -> proper_state m s ->
    (utility_of m (nupd s d k) <= utility_of m (nupd s d (dom k)))%Qc) ->
  exists b, maximum_utility n b /\ maximum_utility m b.
Proof.
  intros Hmo Hn Hf Hm Hd Ho Hl Hk Hc Hu. pose proof (mo_forgetting n m Hmo Hf) as Hfm.
  destruct (maximum_exists n Hn Hf) as (b & Hb & (q & Hq & Eq) & Hmax). destruct (maximum_exists m Hm Hfm) as (b' & Hb' & (q' & Hq' & Eq') & Hmax').
  exists b. split; auto. replace b with b'; auto. apply Qcle_antisym.
  - rewrite <- Eq'. set (r := better n m d dom q').
    assert (Hr : forall e, In e (decisions m) -> policy_for m e (r e)) by (intros e He; apply better_policy; auto).
    assert (Hz : forall e s, In e (decisions n) -> proper_state m s -> (num_outcomes (n_vars n) e <= s e)%nat -> r e s = 0%Qc) by (intros e s He Hs Hle; apply better_old; auto).
    apply Qcle_trans with (expected_value m r); [apply better_value; auto|].
    rewrite <- (unused_value n m Hmo Hn Hm r Hr Hz). apply Hmax. intros e He. apply (old_only_policy n m Hmo Hm r Hr Hz); auto.
  - destruct (mo_maximum n m Hmo Hn Hm Hf) as (c & c' & Hc0 & Hc' & Hle). rewrite (maximum_unique _ _ _ Hb Hc0), (maximum_unique _ _ _ Hb' Hc'). exact Hle.
Qed.
