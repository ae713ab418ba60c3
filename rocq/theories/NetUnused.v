(** Options that are never recommended. *)
From Coq Require Import ZArith List Bool String Lia Permutation QArith Qcanon.
From Verif Require Import Num GoBase VarModel GoFacts SpecFactor XnumFacts VEModel SpecVE VEWorlds NetModel SpecNet NetVars NetFactors NetSums NetQuery NetMass NetCor NetNew
  SpecNetPolicy NetPolicyStep NetPolicyThms SpecGraph StateSums NetGraph NetMarkov NetChange NetReorder NetInform NetAdvice SpecOptions NetOptions.
Import ListNotations.
Open Scope string_scope.
Open Scope list_scope.
Open Scope Z_scope.

Section Unused.
Variables n m : network xnum.
Hypothesis Hmo : more_options n m.
Hypothesis Hdn : decision_network n.
Hypothesis Hdm : decision_network m.
Notation vars := (n_vars n).
Notation vars' := (n_vars m).
Let Hwf := dn_wf n Hdn.
Let Hwm := dn_wf m Hdm.
Variable p : string -> nstate -> Qc.
Hypothesis Hp : forall d, In d (decisions m) -> policy_for m d (p d).
Hypothesis Hun : forall d s, In d (decisions n) -> proper_state m s -> (num_outcomes vars d <= s d)%nat -> p d s = 0%Qc.

Definition old_only (d : string) (s : nstate) : Qc := if (s d <? num_outcomes vars d)%nat then p d s else 0%Qc.

Lemma proper_wider s : proper_state n s -> proper_state m s.
Proof.
  intros Hs w Hw. destruct (Forall2_in_r _ _ _ _ (mo_vars _ _ Hmo) Hw) as (v & Hv & (E & _ & more & O & _)). rewrite E, O, app_length. pose proof (Hs v Hv). lia.
Qed.
Lemma old_only_policy d : In d (decisions n) -> policy_for n d (old_only d).
Proof.
  intros Hd. assert (Hd' : In d (decisions m)) by (rewrite (mo_decisions n m Hmo); auto). destruct (Hp d Hd') as [P1 P2 P3]. constructor.
  - intros s Hs. unfold old_only. destruct (_ <? _)%nat; [apply P1, proper_wider; auto|apply Qcle_refl].
  - intros s Hs. rewrite <- (P2 s (proper_wider s Hs)). pose proof (mo_outcomes_le n m Hmo d) as Hle. replace (num_outcomes vars' d) with (num_outcomes vars d + (num_outcomes vars' d - num_outcomes vars d))%nat by lia.
    rewrite seq_split, map_app, qsum_app. rewrite (map_ext_in _ (fun k => 0 * 0)%Qc (seq (num_outcomes vars d) _)).
    + rewrite qsum_scale. replace (0 * _)%Qc with 0%Qc by ring. rewrite Qcplus_0_r. f_equal. apply map_ext_in. intros k Hk. apply in_seq in Hk. unfold old_only, nupd at 1. rewrite String.eqb_refl.
      destruct (Nat.ltb_spec k (num_outcomes vars d)); [reflexivity|lia].
    + intros k Hk. apply in_seq in Hk. rewrite Hun; [ring|auto| |unfold nupd; rewrite String.eqb_refl; lia].
      intros w Hw. unfold nupd. destruct (String.eqb_spec (nv_name w) d) as [E|E]; [|apply proper_wider; auto]. rewrite <- (outcomes_of m Hdm w Hw), E. lia.
  - intros s s' E. unfold old_only. rewrite (E d) by auto. destruct (_ <? _)%nat; auto. apply P3. rewrite (mo_observed n m Hmo). exact E.
Qed.
Lemma unused_value : expected_value n old_only = expected_value m p.
Proof.
  transitivity (expected_value m old_only).
  - rewrite !value_nsum. rewrite (mo_decisions n m Hmo). apply (wider_sum n).
    + apply wider_worldly. exact (mo_vars _ _ Hmo).
    + intros v Hv. apply filter_In in Hv. tauto.
    + apply names_filter. apply (wn_names n Hwf).
    + intros t v Hv Ht Hle. apply filter_In in Hv. destruct Hv as [Hv _]. rewrite (qprod_zero_in _ _ (nv_name v) (decision_in n v Hv Ht)); [ring|].
      unfold old_only. rewrite (outcomes_of n Hdn v Hv). destruct (Nat.ltb_spec (t (nv_name v)) (List.length (nv_outcomes v))); auto. lia.
    + intros t Hfix Hr. assert (Ht : proper_state n t).
      { intros v Hv. destruct (is_kind Utility v) eqn:Ek.
        - rewrite Hfix; [unfold nowhere; pose proof (vars_nonempty n Hwf v Hv); destruct (nv_outcomes v); simpl; [congruence|lia]|]. intros Hin. apply in_map_iff in Hin. destruct Hin as (w & Ew & Hw). apply filter_In in Hw. destruct Hw as [Hw Hk].
          assert (w = v) by (apply (same_var vars (wn_names n Hwf)); auto). subst w. rewrite Ek in Hk. discriminate.
        - apply Hr. apply filter_In. rewrite Ek. auto. }
      rewrite (mo_tables n m Hmo), (mo_utility n m Hmo) by auto. reflexivity.
  - unfold expected_value. f_equal. apply map_ext_in. intros s Hs. f_equal. f_equal. f_equal. apply map_ext_in. intros d Hd. unfold old_only.
    destruct (Nat.ltb_spec (s d) (num_outcomes vars d)); auto. symmetry. apply Hun; auto; [rewrite <- (mo_decisions n m Hmo); auto|]. apply (world_proper m Hwm). exact Hs.
Qed.
End Unused.

Theorem unused_maximum n m sc stepwise m' tables : more_options n m -> decision_network n -> no_forgetting n -> decision_network m ->
  net_solve_policies sc m stepwise = (m', Ok tables) ->
  (forall d s, In d (decisions n) -> proper_state m s -> (num_outcomes (n_vars n) d <= s d)%nat -> table_policy m tables d s = 0%Qc) ->
  exists b, maximum_utility n b /\ maximum_utility m b.
Proof.
  intros Hmo Hn Hf Hm E Hun. pose proof (mo_forgetting n m Hmo Hf) as Hfm.
  destruct (solve_policies_ok sc m stepwise Hm Hfm) as (m1 & t1 & E1 & Hs). rewrite E in E1. injection E1 as <- <-.
  pose proof (table_policy_for m m' tables Hs) as Hp. pose proof (policies_best m m' tables Hs) as Hbest.
  destruct (maximum_exists n Hn Hf) as (b & Hb & (q & Hq & Eq) & Hmax). destruct (maximum_exists m Hm Hfm) as (b' & Hb' & (q' & Hq' & Eq') & Hmax').
  exists b. split; auto. replace b with b'; auto. apply Qcle_antisym.
  - rewrite <- Eq'. apply Qcle_trans with (expected_value m (table_policy m tables)); [apply Hbest; auto|].
    rewrite <- (unused_value n m Hmo Hn Hm (table_policy m tables) Hp Hun). apply Hmax. intros d Hd. apply (old_only_policy n m Hmo Hm (table_policy m tables) Hp Hun); auto.
  - destruct (mo_maximum n m Hmo Hn Hm Hf) as (c & c' & Hc & Hc' & Hle). rewrite (maximum_unique _ _ _ Hb Hc), (maximum_unique _ _ _ Hb' Hc'). exact Hle.
Qed.
