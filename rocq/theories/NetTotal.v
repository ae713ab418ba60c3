(** A utility node that is missing from the parents of the total utility node. *)
From Coq Require Import ZArith List Bool String Lia Permutation QArith Qcanon.
From Verif Require Import Num GoBase VarModel GoFacts Tuples SpecFactor FactorFacts FactorAt XnumFacts ExactFactor FactorThms
  VEModel SpecVE VEWorlds VEFacts VESolve VEThms NetModel SpecNet NetVars NetFactors NetVE NetSums NetHistory NetCor.
Import ListNotations.
Open Scope string_scope.
Open Scope list_scope.
Open Scope Z_scope.

Section NT.
Variable n : network xnum.
Variable u : string.
Hypothesis Hft : forgetful_total n u.
Variables (i k : nat) (v : nvar) (f : nfactor xnum) (l : list Qc).
Hypothesis Hi : n_tui n = Z.of_nat i.
Hypothesis Hv : nth_error (n_vars n) i = Some v.
Hypothesis Ht : nv_type v = Utility.
Hypothesis Hk : nv_factor v = Some k.
Hypothesis Hf : nth_error (n_factors n) k = Some f.
Hypothesis Hff : nf_for f = nv_name v.
Hypothesis Hl : nf_table f = Some (map Fin l).
Hypothesis Hlen : (List.length (nf_given f) <= List.length l)%nat.

(** The network with a total utility node that lists everything. *)
Definition repaired_factor : nfactor xnum :=
  mkNFactor (nf_for f) (map nv_name (n_vars n)) (Some (map Fin (repeat 0%Qc (List.length (n_vars n))))) [] 0.
Definition repaired : network xnum :=
  mkNet (n_name n) (n_info n) (n_vars n) (upd_nth (n_factors n) k repaired_factor) (n_policies n) (n_ve n) (n_names n) (n_tui n).

Lemma is_total_v : is_total n (nv_name v) = true.
Proof. unfold is_total. rewrite Hi, Nat2Z.id, Hv, String.eqb_refl. replace (0 <=? Z.of_nat i) with true by lia. auto. Qed.

Lemma in_repaired g : In g (n_factors repaired) -> is_total n (nf_for g) = false -> In g (n_factors n).
Proof.
  intros Hg Hnt. apply In_nth_error in Hg. destruct Hg as (j & Hj). cbn [n_factors repaired] in Hj.
  destruct (Nat.eq_dec j k) as [->|Hne].
  - rewrite upd_nth_same in Hj. 2:{ apply nth_error_Some. congruence. } injection Hj as <-. simpl in Hnt. rewrite Hff, is_total_v in Hnt. discriminate.
  - rewrite upd_nth_other in Hj by auto. eapply nth_error_In; eauto.
Qed.

Lemma repaired_wf : wf_network repaired.
Proof.
  split; try apply Hft.
  - intros g Hg Hnt. pose proof (ft_tables _ _ Hft g (in_repaired g Hg Hnt) Hnt) as [W1 W2 W3 W4 W5]. split; auto.
  - right. exists i, v, k, repaired_factor, (repeat 0%Qc (List.length (n_vars n))). cbn [n_tui n_vars n_factors repaired repaired_factor nf_table nf_given].
    repeat split; auto.
    + rewrite upd_nth_same; auto. apply nth_error_Some. congruence.
    + rewrite map_length, repeat_length. auto.
    + intros j w Hj _ _. apply in_map. eapply nth_error_In; eauto.
  - intros x p Hin. pose proof (ft_policies _ _ Hft x p Hin) as [P1 P2 P3 P4 P5]. split; auto.
Qed.

Lemma total_is : total_name n = nv_name v.
Proof. unfold total_name. rewrite Hi. replace (Z.of_nat i <? 0) with false by lia. rewrite Nat2Z.id, Hv. auto. Qed.

Lemma weights_err : kind (n_vars n) u = Some Utility -> u <> nv_name v -> ~ In u (nf_given f) -> exists e, prepare_utility_weights n = Err e.
Proof.
  intros Hu Hne Hnin. unfold prepare_utility_weights. rewrite Hi. replace (Z.of_nat i <? 0) with false by lia.
  rewrite (sget_ok _ _ _ Hv). cbn [gbind]. rewrite Hk, (sget_ok _ _ _ Hf). cbn [gbind].
  match goal with |- context [mapM ?h ?L] => assert (E : exists e, mapM h L = Err e) end.
  { apply mapM_err.
    - intros w Hw. eexists. split; [reflexivity|]. destruct (str_index (nf_given f) (nv_name w) <? 0) eqn:E; auto.
      assert (Hin : In (nv_name w) (nf_given f)).
      { destruct (in_dec string_dec (nv_name w) (nf_given f)) as [H|H]; auto. apply index_in in H. lia. }
      destruct (str_index_position _ _ Hin) as [Ep Hlt]. rewrite Ep, Hl. cbn [slice_of].
      destruct (nth_error (map Fin l) (position (nv_name w) (nf_given f))) as [y|] eqn:En; [rewrite (sget_ok _ _ _ En); auto|].
      apply nth_error_None in En. rewrite map_length in En. lia.
    - unfold kind in Hu. destruct (var_named (n_vars n) u) as [w|] eqn:Ew; [|discriminate]. simpl in Hu. injection Hu as Hu.
      unfold var_named in Ew. apply find_some in Ew. destruct Ew as [Hwin Hwn]. apply String.eqb_eq in Hwn.
      exists w. rewrite Hwn. replace (str_index (nf_given f) u <? 0) with true by (apply index_in in Hnin; lia).
      eexists. split; [|reflexivity]. apply In_nth_error in Hwin. destruct Hwin as (j & Hj).
      apply in_map_iff. exists (Z.of_nat j, w). split; auto. apply filter_In. split.
      + apply (in_numbered n). exists j. auto.
      + rewrite Hu. apply andb_true_iff. split; auto. apply negb_true_iff, Z.eqb_neq. intros E. apply Nat2Z.inj in E. subst j. congruence. }
  destruct E as (e & ->). cbn [gbind]. eauto.
Qed.

Lemma skip_total c deps (fs : list (factor xnum)) nm g : nf_for g = nf_for f -> add_net_factor nm (total_name n) (vs_at n c, deps, fs) g = Ok (vs_at n c, deps, fs).
Proof. intros E. unfold add_net_factor. rewrite E, Hff, total_is, String.eqb_refl. auto. Qed.

Lemma to_ve_err sc t ev : kind (n_vars n) u = Some Utility -> u <> nv_name v -> ~ In u (nf_given f) -> exists e, to_ve sc t n ev = Err e.
Proof.
  intros Hu Hne Hnin. destruct (weights_err Hu Hne Hnin) as (e & Ew).
  destruct (to_ve_ok repaired repaired_wf sc t ev) as (vs & fs & E & _).
  unfold to_ve in *. change (add_net_variables repaired) with (add_net_variables n) in E.
  rewrite (add_net_variables_ok n (ft_names _ _ Hft) (ft_count _ _ Hft)) in *. cbn [gbind] in *.
  assert (Ef : foldM (add_net_factor (name_map (entries n)) (total_name n)) (mkVS 0 (net_vars n) [], [], []) (n_factors repaired)
    = foldM (add_net_factor (name_map (entries n)) (total_name n)) (mkVS 0 (net_vars n) [], [], @nil (factor xnum)) (n_factors n)).
  { pose proof total_is as Htn. cbn [n_factors repaired]. generalize (mkVS 0 (net_vars n) [], @nil (variable * list variable), @nil (factor xnum)).
    revert Hf. generalize (n_factors n). clear - Hff Htn. revert k. 
    assert (Hs : forall st (g : nfactor xnum), nf_for g = nf_for f -> add_net_factor (name_map (entries n)) (total_name n) st g = Ok st).
    { intros [[vs deps] fs] g Eg. unfold add_net_factor. rewrite Eg, Hff, Htn, String.eqb_refl. auto. }
    intros k L. revert k. induction L as [|g L IH]; intros [|k] Hk st; simpl in Hk; try discriminate.
    - injection Hk as Hgf. cbn [upd_nth foldM]. rewrite (Hs st g), (Hs st repaired_factor); auto. congruence.
    - cbn [upd_nth foldM]. destruct (add_net_factor _ _ st g); cbn [gbind]; auto. }
  rewrite Ef in E. destruct (foldM _ _ (n_factors n)) as [[[vs' deps'] fs']| |]; cbn [gbind] in *; try discriminate.
  change (policy_factors sc t repaired vs' (all_entries n) ev) with (policy_factors sc t n vs' (all_entries n) ev) in E.
  destruct (policy_factors sc t n vs' (all_entries n) ev) as [[vs2 pfs]| |]; cbn [gbind] in *; try discriminate.
  rewrite Ew. cbn [gbind]. eauto.
Qed.
End NT.

Theorem forgetful_err (n : network xnum) u : forgetful_total n u -> forall sc ev query uv ig,
  (exists e, snd (net_solve_utility sc n ev query uv ig) = Err e) /\
  (exists e, snd (net_solve_query sc n ev query ig) = Err e) /\
  (forall st, exists e, snd (net_solve_policies sc n st) = Err e).
Proof.
  intros H sc ev query uv ig. destruct (ft_total _ _ H) as (i & v & k & f & l & Hi & Hv & Ht & Hk & Hf & Hff & Hl & Hlen & Hne & Hu & Hnin).
  split; [|split].
  - destruct (to_ve_err n u H i k v f l Hi Hv Ht Hk Hf Hff Hl Hlen sc 0 (if ig then ev else []) Hu Hne Hnin) as (e & E).
    unfold net_solve_utility, net_solve, assign_ve. rewrite E. exists e. reflexivity.
  - destruct (to_ve_err n u H i k v f l Hi Hv Ht Hk Hf Hff Hl Hlen sc 0 (if ig then ev else []) Hu Hne Hnin) as (e & E).
    unfold net_solve_query, net_solve, assign_ve. rewrite E. exists e. reflexivity.
  - intros st. assert (H' : forgetful_total (with_policies n []) u).
    { split; try apply H; cbn [n_policies with_policies]; [|constructor|intros x p []].
      intros g Hg Hnt. destruct (ft_tables _ _ H g Hg Hnt) as [W1 W2 W3 W4 W5]. split; auto. }
    destruct (to_ve_err (with_policies n []) u H' i k v f l Hi Hv Ht Hk Hf Hff Hl Hlen sc 0 [] Hu Hne Hnin) as (e & E).
    unfold net_solve_policies. destruct (count_pos (with_policies n []) st) as (m & Em). rewrite Em. cbn [policy_steps].
    unfold assign_ve. rewrite E. exists e. reflexivity.
Qed.
