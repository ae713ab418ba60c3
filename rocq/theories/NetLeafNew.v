(** Networks from New with a further node. *)
From Coq Require Import ZArith List Bool String Lia Permutation QArith Qcanon.
From Verif Require Import Num GoBase VarModel GoFacts SpecFactor XnumFacts VEModel SpecVE NetModel SpecNet NetVars NetNew NetReload SpecLeaf SpecSpare.
Import ListNotations.
Open Scope string_scope.
Open Scope list_scope.
Open Scope Z_scope.

Section New.
Variables vars : list nvar.
Variable fs : list (nfactor xnum).
Variable v : nvar.
Variable f : nfactor xnum.
Hypothesis Ho : map nf_for fs = map nv_name vars.
Hypothesis Hf : nf_for f = nv_name v.
Hypothesis Hv : nv_type v <> Utility.
Hypothesis Hst : valid_structure vars fs.
Hypothesis Hst' : valid_structure (vars ++ [v]) (fs ++ [f]).

Lemma ln_named x : In x (map nv_name vars) -> var_named (vars ++ [v]) x = var_named vars x.
Proof.
  unfold var_named. intros H. clear - H. induction vars as [|w l IH]; [destruct H|]. cbn [app find]. destruct (String.eqb_spec (nv_name w) x) as [E|E]; auto. apply IH.
  destruct H; [congruence|auto].
Qed.
Lemma ln_factor x : In x (map nv_name vars) -> factor_for (fs ++ [f]) x = factor_for fs x.
Proof.
  rewrite <- Ho. unfold factor_for. intros H. clear - H. induction fs as [|w l IH]; [destruct H|]. cbn [app find]. destruct (String.eqb_spec (nf_for w) x) as [E|E]; auto. apply IH.
  destruct H; [congruence|auto].
Qed.
Lemma ln_first x : In x (map nv_name vars) -> exists g, factor_for fs x = Some g.
Proof.
  rewrite <- Ho. unfold factor_for. intros H. clear - H. induction fs as [|w l IH]; [destruct H|]. cbn [find]. destruct (String.eqb_spec (nf_for w) x) as [E|E]; eauto. apply IH.
  destruct H; [congruence|auto].
Qed.
Lemma ln_factor_in g : In g fs -> exists w, In w vars /\ factor_for fs (nv_name w) = Some g.
Proof.
  intros Hg. assert (Hn : In (nf_for g) (map nv_name vars)) by (rewrite <- Ho; apply in_map; auto). apply in_map_iff in Hn. destruct Hn as (w & Ew & Hw). exists w. split; auto. rewrite Ew.
  pose proof (st_names _ _ Hst) as Hnd. rewrite <- Ho in Hnd. unfold factor_for. clear - Hnd Hg. induction fs as [|h l IH]; [destruct Hg|]. cbn [find map] in *. inversion Hnd; subst.
  destruct Hg as [->|Hg]; [rewrite String.eqb_refl; auto|]. destruct (String.eqb_spec (nf_for h) (nf_for g)) as [E|E]; auto. exfalso. apply H1. rewrite E. apply in_map. auto.
Qed.
Lemma ln_parents g x : In g fs -> In x (nf_given g) -> In x (map nv_name vars).
Proof. intros Hg Hx. destruct (ln_factor_in g Hg) as (w & Hw & E). destruct (st_parents _ _ Hst w g x Hw E Hx) as (p & Hp & <-). apply in_map. auto. Qed.
Lemma ln_linked g : In g fs -> linked_factor (vars ++ [v]) g = linked_factor vars g.
Proof.
  intros Hg. unfold linked_factor. f_equal.
  - apply map_ext_in. intros x Hx. unfold num_outcomes. rewrite ln_named; auto. apply (ln_parents g); auto.
  - unfold num_outcomes. rewrite ln_named; auto. rewrite <- Ho. apply in_map. auto.
Qed.
Lemma ln_collects w : In w vars -> collects (vars ++ [v]) (fs ++ [f]) w <-> collects vars fs w.
Proof.
  intros Hw. assert (Hn : In (nv_name w) (map nv_name vars)) by (apply in_map; auto). unfold collects. rewrite ln_factor by auto.
  split; intros (K & g & E & Hne & H); split; auto; exists g; split; auto; split; auto; intros x Hx; specialize (H x Hx); unfold kind in *;
    destruct (st_parents _ _ Hst w g x Hw E Hx) as (p & Hp & <-); rewrite ln_named in *; auto; apply in_map; auto.
Qed.
Lemma ln_index t t' : total_index vars fs t -> total_index (vars ++ [v]) (fs ++ [f]) t' -> t' = t.
Proof.
  intros [[-> Hno]|[Ht (w & Hw & Hc)]] [[-> Hno']|[Ht' (w' & Hw' & Hc')]]; auto.
  - exfalso. apply nth_error_In in Hw'. apply in_app_iff in Hw'. destruct Hw' as [Hw'|[<-|[]]]; [|destruct Hc' as [K _]; congruence]. apply (Hno w' Hw'). apply ln_collects; auto.
  - exfalso. apply (Hno' w); [apply in_or_app; left; eapply nth_error_In; eauto|]. apply ln_collects; auto. eapply nth_error_In; eauto.
  - pose proof (nth_error_In _ _ Hw) as Hin. apply (proj2 (ln_collects w Hin)) in Hc. assert (E : w' = w). { apply (st_single _ _ Hst'); auto; [eapply nth_error_In; eauto|apply in_or_app; auto]. }
    subst w'. assert (Hlt : (Z.to_nat t < List.length vars)%nat) by (apply nth_error_Some; congruence). rewrite <- (nth_error_app1 vars [v] Hlt) in Hw.
    pose proof (st_names _ _ Hst') as Hnd. rewrite NoDup_nth_error in Hnd. assert (Z.to_nat t' = Z.to_nat t); [|lia]. apply Hnd.
    + rewrite map_length. apply nth_error_Some. congruence.
    + rewrite !nth_error_map, Hw, Hw'. auto.
Qed.
End New.

Lemma combine_end {X Y} : forall (a : list X) (b : list Y) c d, List.length a = List.length b -> combine (a ++ c) (b ++ d) = combine a b ++ combine c d.
Proof. induction a as [|x a IH]; intros [|y b] c d H; cbn in *; try discriminate H; auto. f_equal. apply IH. lia. Qed.

(** Variables and factors in the same order, as in files, and a further node at the end. *)
Theorem new_added name info vars (fs : list (nfactor xnum)) n name' info' v f n' :
  (forall w, In w (vars ++ [v]) -> nv_factor w = None) -> map nf_for fs = map nv_name vars -> nf_for f = nv_name v -> nv_type v <> Utility ->
  net_new name info vars fs = Ok n -> net_new name' info' (vars ++ [v]) (fs ++ [f]) = Ok n' ->
  exists v' f', same_variable v v' /\ same_factor f f' /\ n_vars n' = n_vars n ++ [v'] /\ n_factors n' = n_factors n ++ [f'] /\
    (forall u, is_total n' u = is_total n u) /\ forall u, net_weight n' u = net_weight n u.
Proof.
  intros Hnil' Ho Hf Hv E E'. assert (Hnil : forall w, In w vars -> nv_factor w = None) by (intros w Hw; apply Hnil'; apply in_or_app; auto).
  assert (Ho' : map nf_for (fs ++ [f]) = map nv_name (vars ++ [v])) by (rewrite !map_app, Ho; cbn; congruence).
  destruct (new_api name info vars fs Hnil) as ([_ Hst] & _ & Hn). specialize (Hst (ex_intro _ n E)). destruct (Hn n E) as (_ & _ & _ & _ & _ & _ & _ & T).
  destruct (new_api name' info' (vars ++ [v]) (fs ++ [f]) Hnil') as ([_ Hst'] & _ & Hn'). specialize (Hst' (ex_intro _ n' E')). destruct (Hn' n' E') as (_ & _ & _ & _ & _ & _ & _ & T').
  pose proof (ln_index vars fs v f Ho Hv Hst Hst' _ _ T T') as Ei.
  pose proof (new_exact _ _ _ _ _ Hnil E Ho) as X. pose proof (new_exact _ _ _ _ _ Hnil' E' Ho') as X'.
  set (v' := link_to (List.length vars) v). set (f' := linked_factor (vars ++ [v]) f).
  assert (Hvs : n_vars n' = n_vars n ++ [v']).
  { rewrite X, X'. cbn [n_vars]. rewrite app_length. cbn [List.length]. rewrite Nat.add_1_r, seq_S, combine_end by (rewrite seq_length; auto). rewrite map_app. auto. }
  assert (Hfs : n_factors n' = n_factors n ++ [f']).
  { rewrite X, X'. cbn [n_factors]. rewrite map_app. f_equal. apply map_ext_in. intros g Hg. apply (ln_linked vars fs v Ho Hst). auto. }
  exists v', f'. split; [repeat split|]. split; [repeat split|].
  assert (HL : forall i, 0 <= n_tui n -> i = Z.to_nat (n_tui n) -> (i < List.length (n_vars n))%nat).
  { intros i Hi ->. destruct T as [[K _]|[_ (w & Hw & _)]]; [lia|]. rewrite X. cbn [n_vars]. rewrite map_length, combine_length, seq_length, Nat.min_id. apply nth_error_Some. congruence. }
  assert (HF : total_factor n' = total_factor n).
  { unfold total_factor. rewrite Ei. destruct (n_tui n <? 0) eqn:Et; auto. apply Z.ltb_ge in Et. rewrite Hvs, nth_error_app1 by (apply HL; auto).
    destruct (nth_error (n_vars n) (Z.to_nat (n_tui n))) as [w|] eqn:Ew; auto. destruct (new_ordered _ _ _ _ _ Hnil E Ho _ _ Ew) as (-> & g & _ & Eg).
    rewrite Hfs, nth_error_app1; auto. apply nth_error_Some. congruence. }
  split; auto. split; auto. split.
  - intros u. unfold is_total. rewrite Ei, Hvs. destruct (Z.leb_spec 0 (n_tui n)) as [Hp|Hp].
    + rewrite nth_error_app1 by (apply HL; auto). auto.
    + cbn [andb]. destruct (nth_error _ _), (nth_error (n_vars n) _); auto.
  - intros u. unfold net_weight. rewrite HF. auto.
Qed.
Theorem leaf_new_added name info vars (fs : list (nfactor xnum)) n name' info' v f n' :
  (forall w, In w (vars ++ [v]) -> nv_factor w = None) -> map nf_for fs = map nv_name vars -> nf_for f = nv_name v -> nv_type v = Chance ->
  net_new name info vars fs = Ok n -> net_new name' info' (vars ++ [v]) (fs ++ [f]) = Ok n' ->
  exists v' f', same_variable v v' /\ same_factor f f' /\ leaf_added v' f' n n'.
Proof.
  intros Hnil Ho Hf Hv E E'. destruct (new_added _ _ _ _ _ _ _ _ _ _ Hnil Ho Hf ltac:(congruence) E E') as (v' & f' & Sv & Sf & H1 & H2 & H3 & H4). exists v', f'. split; auto. split; auto.
  destruct Sv as (V1 & V2 & _), Sf as (F1 & _). constructor; auto; congruence.
Qed.
Theorem spare_new_added name info vars (fs : list (nfactor xnum)) n name' info' v f n' :
  (forall w, In w (vars ++ [v]) -> nv_factor w = None) -> map nf_for fs = map nv_name vars -> nf_for f = nv_name v -> nv_type v = Decision ->
  net_new name info vars fs = Ok n -> net_new name' info' (vars ++ [v]) (fs ++ [f]) = Ok n' ->
  exists v' f', same_variable v v' /\ same_factor f f' /\ spare_added v' f' n n'.
Proof.
  intros Hnil Ho Hf Hv E E'. destruct (new_added _ _ _ _ _ _ _ _ _ _ Hnil Ho Hf ltac:(congruence) E E') as (v' & f' & Sv & Sf & H1 & H2 & H3 & H4). exists v', f'. split; auto. split; auto.
  destruct Sv as (V1 & V2 & _), Sf as (F1 & _). constructor; auto; congruence.
Qed.
